(** C67: the C interface called from several threads, the theorems. *)
From Verif Require Import Bytes Utf8 Proto ProtoFacts Value Codec Store StoreFacts Encrypt World Spec Hyps Refine WorldInv WorldStep Main Frames Reach Examples P_Map P_Store P_Fail P_Alias Looper P_Loop Conc P_Conc P_Live Reg P_Reg P_Reg2 P_Reg3 Full P_Full P_Full2 P_Full3 P_Full4 Logging Ffi P_Ffi P_Ffi2 FfiConc P_FfiConc P_FfiConc2.
From Coq Require Import ZArith ZifyBool ZifyNat ZifyN.
Local Open Scope N_scope.

(** The names of the handles after [tr]. *)
Fixpoint names (nm : gmap ptr N) (tr : list xlabel) : gmap ptr N :=
  match tr with
  | [] => nm
  | XRet id x r :: tr => names (match x with RHandle p => <[p := id]> nm | _ => nm end) tr
  | _ :: tr => names nm tr
  end.

Lemma history_app nm t1 t2 : history nm (t1 ++ t2) = history nm t1 ++ history (names nm t1) t2.
Proof. revert nm. induction t1 as [|a t1 IH]; intros nm; [reflexivity|]. destruct a; cbn; rewrite IH; reflexivity. Qed.
Lemma names_app nm t1 t2 : names nm (t1 ++ t2) = names (names nm t1) t2.
Proof. revert nm. induction t1 as [|a t1 IH]; intros nm; [reflexivity|]. destruct a; cbn; apply IH. Qed.
Lemma history_vis nm tr : vis (history nm tr) = history nm tr.
Proof. revert nm. induction tr as [|a tr IH]; intros nm; [reflexivity|]. destruct a; cbn; rewrite ?IH; auto. Qed.

Lemma xop_name obj nm c op : obj ⊆ nm -> xop obj c = Some op -> op_of nm c = op.
Proof.
  intros Hs. destruct c; cbn; try discriminate; try congruence;
    match goal with |- option_map _ ?x = _ -> _ => destruct x eqn:Q; cbn; try discriminate end;
    rewrite (lookup_weaken _ _ _ _ Q Hs); cbn; intros [= <-]; rewrite ?get_type_eq; reflexivity.
Qed.

Section Threads.
Context (pick : heap -> ptr) (text : err -> bytes) (PO : allocator_ok pick) (E : env) (keyof : bytes -> bytes).
Notation canon := (e_canon E).

Lemma T_exec tr s o fl : xexec pick text E tr s o fl -> TI text s o fl /\ TU s o fl.
Proof.
  induction 1 as [|tr s o fl a s' X [T U] Pm S]; [split; [apply TI_0|apply TU_0]|].
  split; [|eapply TU_step; eassumption]. destruct (TI_step pick text PO E s o fl a _ T Pm S) as [Q|(s2 & Q & R & _)]; [discriminate|]. injection Q as <-. exact R.
Qed.

(** Calling from several threads never has undefined behaviour. *)
Theorem C67_no_undefined_behaviour tr s o fl a :
  xexec pick text E tr s o fl -> permitted o fl a -> ~ xstep pick text E s a Undef.
Proof.
  intros X Pm S. destruct (T_exec _ _ _ _ X) as [T _]. destruct (TI_step pick text PO E s o fl a _ T Pm S) as [Q|(s2 & Q & _)]; discriminate.
Qed.

(** A result not yet freed shows what the store answered, whatever all
    threads have done since. *)
Theorem C67_results_own_their_data tr s o fl p t r :
  xexec pick text E tr s o fl -> o !! p = Some (HResult t r) -> read_result (x_heap s) t p = expected text r.
Proof.
  intros X Ho. destruct (T_exec _ _ _ _ X) as [[_ (o' & M & P) _ _] _]. eapply HI_read; [exact M|]. apply (pn_sub _ _ _ P), Ho.
Qed.

(** A pointer handed out is not one any thread holds. *)
Theorem C67_fresh_results tr s o fl id x r s' :
  xexec pick text E tr s o fl -> xstep pick text E s (XRet id x r) (Done s') ->
  match x with RHandle p | RBuffer p _ => o !! p = None | RUnit => True end.
Proof.
  intros X S. destruct (T_exec _ _ _ _ X) as [T _]. destruct (TI_step pick text PO E s o fl (XRet id x r) _ T Logic.I S) as [Q|(s2 & Q & _ & R)]; [discriminate|]. exact (R _ _ _ eq_refl).
Qed.

(** When everything has been freed and closed, no allocation is left. *)
Theorem C67_nothing_leaks tr s : xexec pick text E tr s ∅ ∅ -> x_heap s = ∅.
Proof.
  intros X. destruct (T_exec _ _ _ _ X) as [[_ (o' & M & P) _ _] _]. apply (HI_empty text).
  replace (∅ : held) with o'; [exact M|]. apply map_empty. intros p. destruct (o' !! p) as [k|] eqn:Q; [exfalso|reflexivity].
  destruct (pn_back _ _ _ P _ _ Q) as [Z|[_ [i Z]]]; rewrite lookup_empty in Z; discriminate.
Qed.

(** ** The history *)

Record hist_of (tr : list xlabel) (s : xstate) (fl : gmap N ccall) (ls : list rlabel) : Prop := {
  ho_exec : fexec E full0 ls (x_full s);
  ho_vis : vis ls = history ∅ tr;
  ho_names : x_obj s ⊆ names ∅ tr;
  ho_inv : forall c op, RInv c op ∈ ls -> c < r_next (u_reg (x_full s));
  ho_ret : forall c r, RRet c r ∈ ls -> c < r_next (u_reg (x_full s));
  ho_call : forall id c, fl !! id = Some c -> exists op, RInv id op ∈ ls /\ (exists obj, xop obj c = Some op) /\ (forall op', RInv id op' ∈ ls -> op' = op) /\
     forall r, RRet id r ∉ ls
}.

Lemma in_snoc {A} (x a : A) l : x ∈ l ++ [a] <-> x ∈ l \/ x = a.
Proof. rewrite elem_of_app, elem_of_list_singleton. reflexivity. Qed.

Lemma xfinish_names id c r h obj h' obj' x nm : xfinish pick text id c r h obj = Done (h', obj', x) -> obj ⊆ nm ->
  obj' ⊆ match x with RHandle p => <[p := id]> nm | _ => nm end.
Proof.
  intros Fn Hs. destruct c; cbn [xfinish] in Fn; try discriminate Fn.
  - destruct r; try discriminate Fn. destruct (alloc pick MHandle h) as [p h1]. injection Fn as <- <- <-. apply insert_mono, Hs.
  - destruct (finish _ _ _ _ _) as [[? ?]| |]; cbn in Fn; try discriminate Fn. injection Fn as <- <- <-. exact Hs.
  - destruct (finish _ _ _ _ _) as [[? ?]| |]; cbn in Fn; try discriminate Fn. injection Fn as <- <- <-. exact Hs.
  - destruct (finish _ _ _ _ _) as [[? ?]| |]; cbn in Fn; try discriminate Fn. injection Fn as <- <- <-. exact Hs.
  - destruct r; try discriminate Fn. injection Fn as <- <- <-. exact Hs.
  - destruct r; try discriminate Fn. destruct (dealloc p (32, 8) h); cbn in Fn; try discriminate Fn. injection Fn as <- <- <-. etransitivity; [apply delete_subseteq|exact Hs].
Qed.

Lemma hist_exec tr s o fl : xexec pick text E tr s o fl -> exists ls, hist_of tr s fl ls.
Proof.
  induction 1 as [|tr s o fl a s' X [ls H] Pm S].
  { exists []. split; cbn; try constructor; try reflexivity; try (intros *; intros Q; inversion Q; fail); intros *; rewrite lookup_empty; discriminate. }
  destruct (T_exec _ _ _ _ X) as [T U]. pose proof T as [Tc _ Ti Tf]. pose proof H as [H1 H2 H3 H4 H5 H6].
  inversion S as [s1 id c op f Hl Hr Ht Ho F|s1 id c Ht|s1 id c p Ht Hn|s1 id c d c' Hd Cf|s1 f F|s1 id c r f h obj x Hc F Fn|s1 id c x r f Hc F Fn|s1 id c x r f Hc F Fn|s1 p|s1 z]; subst; clear S.
  - destruct (FI_step E _ _ _ Tf F) as [_ O]. destruct (os_inv _ _ _ O _ _ eq_refl) as (-> & Hn & _). set (id := r_next (u_reg (x_full s))) in *.
    exists (ls ++ [RInv id op]). split; cbn [x_full x_obj flight_after].
    + econstructor; eassumption.
    + rewrite vis_app, H2, history_app. f_equal. cbn. rewrite (xop_name _ _ _ _ H3 Ho). reflexivity.
    + rewrite names_app. exact H3.
    + intros c' op' Q. apply in_snoc in Q as [Q|[= -> ->]]; [apply H4 in Q|]; unfold id in *; lia.
    + intros c' r Q. apply in_snoc in Q as [Q|Q]; [apply H5 in Q|discriminate Q]; unfold id in *; lia.
    + intros i c' Q. apply lookup_insert_Some in Q as [[<- <-]|[Hne Q]].
      * exists op. split_and!; [apply in_snoc; auto|eauto| |].
        -- intros op' Z. apply in_snoc in Z as [Z|[= ->]]; [|reflexivity]. apply H4 in Z. unfold id in *. lia.
        -- intros r Z. apply in_snoc in Z as [Z|Z]; [|discriminate]. apply H5 in Z. unfold id in *. lia.
      * destruct (H6 _ _ Q) as (op1 & Z1 & Z2 & Z3 & Z4). exists op1. split_and!; [apply in_snoc; auto|exact Z2| |].
        -- intros op' Z. apply in_snoc in Z as [Z|[= -> ->]]; [auto|congruence].
        -- intros r Z. apply in_snoc in Z as [Z|Z]; [eapply Z4, Z|discriminate].
  - destruct (FI_step E _ _ _ Tf F) as [_ O]. pose proof (os_next _ _ _ O).
    exists (ls ++ [RTau]). split; cbn [x_full x_obj flight_after].
    + econstructor; eassumption.
    + rewrite vis_app, H2, history_app. reflexivity.
    + rewrite names_app. exact H3.
    + intros c' op' Q. apply in_snoc in Q as [Q|Q]; [apply H4 in Q; lia|discriminate].
    + intros c' op' Q. apply in_snoc in Q as [Q|Q]; [apply H5 in Q; lia|discriminate].
    + intros i c' Q. destruct (H6 _ _ Q) as (op1 & Z1 & Z2 & Z3 & Z4). exists op1. split_and!; [apply in_snoc; auto|exact Z2| |].
      -- intros op' Z. apply in_snoc in Z as [Z|Z]; [auto|discriminate].
      -- intros r Z. apply in_snoc in Z as [Z|Z]; [eapply Z4, Z|discriminate].
  - destruct (FI_step E _ _ _ Tf F) as [_ O]. pose proof (os_next _ _ _ O). destruct (Ti _ _ Hc) as [L _].
    exists (ls ++ [RRet id r]). split; cbn [x_full x_obj flight_after].
    + econstructor; eassumption.
    + rewrite vis_app, H2, history_app. reflexivity.
    + rewrite names_app. cbn. eapply xfinish_names; eassumption.
    + intros c' op' Q. apply in_snoc in Q as [Q|Q]; [apply H4 in Q; lia|discriminate].
    + intros c' op' Q. apply in_snoc in Q as [Q|[= -> _]]; [apply H5 in Q|]; lia.
    + intros i c' Q. apply lookup_delete_Some in Q as [Hne Q]. destruct (H6 _ _ Q) as (op1 & Z1 & Z2 & Z3 & Z4). exists op1. split_and!; [apply in_snoc; auto|exact Z2| |].
      -- intros op' Z. apply in_snoc in Z as [Z|Z]; [auto|discriminate].
      -- intros r' Z. apply in_snoc in Z as [Z|[= -> _]]; [eapply Z4, Z|congruence].
  - match goal with Q : obind _ _ = _ |- _ => destruct (free_buffer p (x_heap s)) as [h| |] eqn:Fb; cbn in Q; try discriminate Q; injection Q as <- end.
    exists ls. split; cbn [x_full x_obj flight_after]; auto; [rewrite H2, history_app; symmetry; apply app_nil_r|rewrite names_app; exact H3].
  - match goal with Q : match of_code z with _ => _ end = _ |- _ => destruct (of_code z); [|discriminate Q]; injection Q as <- end.
    exists ls. split; cbn [x_full x_obj flight_after]; auto; [rewrite H2, history_app; symmetry; apply app_nil_r|rewrite names_app; exact H3].
Qed.

(** The calls of a C program on several threads answer as if each took effect
    at one moment between its beginning and its return. *)
Theorem C67_linearizable tr s o fl :
  xexec pick text E tr s o fl -> ordinary E keyof (begun (history ∅ tr)) -> apart canon (history ∅ tr) ->
  exists lin sp, linearizes (history ∅ tr) lin /\ spec_run canon spec0 (map (fun x => op_event x.1.1 x.1.2) lin) = Some (sp, map snd lin).
Proof.
  intros X O A. destruct (hist_exec _ _ _ _ X) as [ls H]. assert (V : vis ls = vis (history ∅ tr)) by (rewrite history_vis; apply H).
  destruct (C60_full_linearizable E keyof ls (x_full s) (ho_exec _ _ _ _ H)) as (lin & sp & L & R).
  - rewrite (begun_same _ _ V). exact O.
  - eapply apart_same; [exact V|exact A].
  - exists lin, sp. split; [|exact R]. eapply linearizes_same; eassumption.
Qed.

(** ** No call aborts *)

Lemma spec_run_in canon sp0 lin sp c op r : spec_run canon sp0 (map (fun x => op_event x.1.1 x.1.2) lin) = Some (sp, map snd lin) ->
  (c, op, r) ∈ lin -> exists sp1 sp2, spec_step canon sp1 (op_event c op) = Some (sp2, r).
Proof.
  revert sp0 sp. induction lin as [|[[c1 op1] r1] lin IH]; intros sp0 sp H Hin; [inversion Hin|]. cbn in H.
  destruct (spec_step canon sp0 (op_event c1 op1)) as [[s1 x]|] eqn:S; [|discriminate]. destruct (spec_run canon s1 _) as [[s2 xs]|] eqn:R; [|discriminate].
  injection H as <- -> ->. apply elem_of_cons in Hin as [[= -> -> ->]|Hin]; [eauto|]. eapply IH; eassumption.
Qed.

Lemma spec_answer canon sp1 c op sp2 r : spec_step canon sp1 (op_event c op) = Some (sp2, r) ->
  expected text r <> None /\ ((forall h k t, op <> OCall h (Conc.CGet k t)) -> r = ROk None).
Proof.
  destruct op as [p k|h|h [k v|k t|k|]]; cbn.
  - destruct (sp_handles sp1 !! c); [discriminate|]. intros [= _ <-]. split; [discriminate|auto].
  - destruct (sp_handles sp1 !! h); [|discriminate]. intros [= _ <-]. split; [discriminate|auto].
  - destruct (sp_handles sp1 !! h); [|discriminate]. intros [= _ <-]. split; [discriminate|auto].
  - destruct (sp_handles sp1 !! h); [|discriminate]. intros [= _ <-]. split; [|intros Q; destruct (Q _ _ _ eq_refl)].
    unfold spec_get. destruct (_ !! k); [destruct (decide _)|]; discriminate.
  - destruct (sp_handles sp1 !! h); [|discriminate]. intros [= _ <-]. split; [discriminate|auto].
  - destruct (sp_handles sp1 !! h); [|discriminate]. intros [= _ <-]. split; [discriminate|auto].
Qed.

Lemma ret_answer tr s o fl id c r f : xexec pick text E tr s o fl -> ordinary E keyof (begun (history ∅ tr)) -> apart canon (history ∅ tr) ->
  fl !! id = Some c -> fstep E (x_full s) (RRet id r) f ->
  expected text r <> None /\ match c with CGet _ _ _ => True | _ => r = ROk None end.
Proof.
  intros X O A Hc F. destruct (hist_exec _ _ _ _ X) as [ls H]. assert (V : vis ls = vis (history ∅ tr)) by (rewrite history_vis; apply H).
  assert (Hn : forall c o, RInv c o ∉ [RRet id r]) by (intros c0 o0 Q; apply elem_of_list_singleton in Q; discriminate).
  destruct (C60_full_linearizable E keyof (ls ++ [RRet id r]) f) as (lin & sp & L & R).
  - econstructor; [apply H|exact F].
  - rewrite (begun_quiet _ _ Hn). rewrite (begun_same _ _ V). exact O.
  - apply (apart_quiet E keyof); [exact Hn|]. eapply apart_same; [exact V|exact A].
  - destruct (lz_returned _ _ L id r) as [op Hin]; [apply in_snoc; auto|].
    pose proof (lz_called _ _ L _ _ _ Hin) as Q. apply in_snoc in Q as [Q|Q]; [|discriminate].
    destruct (ho_call _ _ _ _ H _ _ Hc) as (op1 & _ & [obj Ho] & Z & _). rewrite (Z _ Q) in Hin. clear Q Z.
    destruct (spec_run_in _ _ _ _ _ _ _ R Hin) as (sp1 & sp2 & S). destruct (spec_answer _ _ _ _ _ _ S) as [B1 B2]. split; [exact B1|].
    apply xop_shape in Ho. destruct c; cbn in Ho; auto; contradiction.
Qed.

Lemma finishes tr s o fl id c r f : xexec pick text E tr s o fl -> ordinary E keyof (begun (history ∅ tr)) -> apart canon (history ∅ tr) ->
  fl !! id = Some c -> fstep E (x_full s) (RRet id r) f ->
  xfinish pick text id c r (x_heap s) (x_obj s) <> Abort.
Proof.
  intros X O A Hc F. destruct (ret_answer _ _ _ _ _ _ _ _ X O A Hc F) as [B1 B2]. destruct (T_exec _ _ _ _ X) as [T _].
  pose proof T as [Tc (o' & M & P) Ti Tf]. destruct (Ti _ _ Hc) as (L & p0 & op0 & Q1 & Sh). destruct (FI_step E _ _ _ Tf F) as [_ Os].
  destruct (os_ret _ _ _ Os _ _ eq_refl) as (p1 & op1 & Q2 & An & _). rewrite Q1 in Q2. injection Q2 as <- <-.
  assert (G : forall g, (forall v, r = ROk (Some v) -> type_of v = c_type g) -> obind (finish pick text g r (x_heap s)) (fun '(p, h') => Done (h', x_obj s, RBuffer p r)) <> Abort).
  { intros g Hg. destruct (HI_finish pick text PO _ _ g r M Hg) as [[_ Z]|(p & h' & -> & _)]; [contradiction|discriminate]. }
  destruct c; cbn [xfinish]; try discriminate.
  - rewrite B2. destruct (alloc pick MHandle (x_heap s)); discriminate.
  - apply G. rewrite B2. discriminate.
  - apply G. intros v Hv. destruct Sh as [h Sh]. destruct (An _ Hv) as (h' & k' & t' & Q & Ht). rewrite Sh in Q. injection Q as _ _ <-. rewrite Ht. apply get_type_eq.
  - apply G. rewrite B2. discriminate.
  - rewrite B2. discriminate.
  - rewrite B2. destruct (pn_close _ _ _ P _ _ Hc) as [Z _]. destruct (HI_close text _ _ _ M Z) as [-> _]. discriminate.
Qed.

(** The texts a C call passes: the directory, the key, and the value if that
    is a text; each ends at its first zero byte. *)
Definition texts_of (c : ccall) : list bytes :=
  match c with
  | CNew d => [d]
  | CPut _ k (VStr x) => [k; x]
  | CPut _ k _ | CGet _ k _ | CDelete _ k => [k]
  | CClear _ | CClose _ | CFree _ | CLevel _ | CIo _ => []
  end.

Lemma texts_ok c : xtexts c = true <-> forall b, In b (texts_of c) -> utf8_valid (cstr b) = true.
Proof.
  assert (G1 : forall a, utf8_valid (cstr a) = true <-> forall b, In b [a] -> utf8_valid (cstr b) = true).
  { intros a. split; [intros H b [->|[]]; exact H|intros H; apply H; left; reflexivity]. }
  destruct c as [d|p k v|p k g|p k|p|p|p|z|i]; cbn [xtexts texts_of]; try apply G1; try (split; [intros _ b []|reflexivity]).
  destruct v; try apply G1. rewrite andb_true_iff. split.
  - intros [A B] b [->|[->|[]]]; assumption.
  - intros H. split; apply H; [left|right; left]; reflexivity.
Qed.

Lemma texts_bad c : xtexts c = false -> exists b, In b (texts_of c) /\ utf8_valid (cstr b) = false.
Proof.
  intros H. destruct (forallb (fun b => utf8_valid (cstr b)) (texts_of c)) eqn:F.
  - rewrite forallb_forall in F. apply texts_ok in F. congruence.
  - destruct (existsb (fun b => negb (utf8_valid (cstr b))) (texts_of c)) eqn:X.
    + apply existsb_exists in X as (b & Hb & Hv). exists b. split; [exact Hb|]. apply negb_true_iff, Hv.
    + exfalso. assert (forallb (fun b => utf8_valid (cstr b)) (texts_of c) = true); [|congruence].
      clear F H. induction (texts_of c) as [|a l IH]; [reflexivity|]. cbn in X |- *. apply orb_false_iff in X as [X1 X2].
      apply negb_false_iff in X1. rewrite X1. exact (IH X2).
Qed.

(** What aborts the process: a text that is not UTF-8, and a log level that
    does not exist. *)
Theorem C67_no_other_abort tr s o fl a :
  xexec pick text E tr s o fl -> ordinary E keyof (begun (history ∅ tr)) -> apart canon (history ∅ tr) ->
  permitted o fl a -> xstep pick text E s a Abort ->
  match a with XInv _ c => exists b, In b (texts_of c) /\ utf8_valid (cstr b) = false | XNow (CLevel z) => ~ (0 <= z <= 5)%Z | _ => False end.
Proof.
  intros X O A Pm S. destruct (T_exec _ _ _ _ X) as [T _]. pose proof T as [Tc (o' & M & P) Ti Tf].
  inversion S as [s1 id c op f Hl Hr Ht Ho F|s1 id c Ht|s1 id c p Ht Hn|s1 id c d c' Hd Cf|s1 f F|s1 id c r f h obj x Hc F Fn|s1 id c x r f Hc F Fn|s1 id c x r f Hc F Fn|s1 p|s1 z]; subst; clear S.
  - apply texts_bad, Ht.
  - eapply finishes; eassumption.
  - destruct Pm as (t & r & Hp). apply (pn_sub _ _ _ P) in Hp. destruct (HI_free text _ _ _ _ _ M Hp) as (h' & Q & _).
    match goal with Z : obind _ _ = _ |- _ => rewrite Q in Z; discriminate Z end.
  - intros Hz. match goal with Z : match of_code z with _ => _ end = _ |- _ => destruct (of_code z) eqn:Q; [discriminate Z|] end.
    assert (z = 0 \/ z = 1 \/ z = 2 \/ z = 3 \/ z = 4 \/ z = 5)%Z as D by lia. decompose [or] D; subst; discriminate Q.
Qed.

(** And such a text always does: the call never gets as far as the store. *)
Theorem C67_bad_text_aborts s id c b :
  In b (texts_of c) -> utf8_valid (cstr b) = false ->
  xstep pick text E s (XInv id c) Abort /\ forall s', ~ xstep pick text E s (XInv id c) (Done s').
Proof.
  intros Hb Hv. assert (Ht : xtexts c = false).
  { destruct (xtexts c) eqn:Ht; [|reflexivity]. rewrite (proj1 (texts_ok c) Ht b Hb) in Hv. discriminate Hv. }
  split; [apply x_text, Ht|]. intros s' S. inversion S; subst. congruence.
Qed.

(** A correct program can make every call at any time. *)
Theorem C67_calls_can_be_made tr s o fl id c :
  xexec pick text E tr s o fl -> ordinary E keyof (begun (history ∅ tr)) -> apart canon (history ∅ tr) ->
  permitted o fl (XInv id c) -> (forall b, In b (texts_of c) -> utf8_valid (cstr b) = true) -> match c with CFree _ | CLevel _ | CIo _ => False | _ => True end ->
  exists id' s', xstep pick text E s (XInv id' c) (Done s').
Proof.
  intros X O A [Pa Pb] Ht Hk. apply texts_ok in Ht. destruct (T_exec _ _ _ _ X) as [T U]. pose proof T as [Tc (o' & M & P) Ti Tf]. pose proof U as [U1 U2 U3 U4 U5 U6 U7 U8 U9].
  destruct (hist_exec _ _ _ _ X) as [ls H]. assert (V : vis ls = vis (history ∅ tr)) by (rewrite history_vis; apply H).
  destruct (FR_exec E keyof ls (x_full s) (ho_exec _ _ _ _ H)) as (rg & rem & _ & Fi & R).
  { rewrite (begun_same _ _ V). exact O. } { eapply apart_same; [exact V|exact A]. }
  set (id0 := r_next (u_reg (x_full s))).
  assert (Th : forall p, through c = Some p -> o !! p = Some HHandle).
  { intros p Hp. destruct c; cbn in Hp, Pa; try discriminate; injection Hp as <-; try exact Pa; apply Pa. }
  assert (Go : exists op f, xop (x_obj s) c = Some op /\ fstep E (x_full s) (RInv id0 op) f).
  { assert (Open : forall d k, exists f, fstep E (x_full s) (RInv id0 (OOpen d k)) f).
    { intros d k. eexists. apply f_registry; [apply q_open|]. split; cbn; [reflexivity| |]; intros * Q; apply lookup_insert_Some in Q as [[_ Q]|[_ Q]]; congruence. }
    assert (Call : forall p op, o !! p = Some HHandle -> exists h, x_obj s !! p = Some h /\ exists f, fstep E (x_full s) (RInv id0 (OCall h op)) f).
    { intros p op Hp. destruct (U2 _ Hp) as (h & Q1 & Q2). exists h. split; [exact Q1|]. pose proof Q2 as [[hd Hh] _].
      destruct (u_stores (x_full s) !! h_inst hd) as [st|] eqn:Hst.
      - eexists. eapply f_call; [exact Q2|exact Hh|exact Hst|]. apply c_call.
      - exfalso. destruct (fr_dom _ _ _ _ R _ Hst) as [_ Y]. pose proof (v_handles _ _ _ _ (fr_world _ _ _ _ R)) as VH. rewrite VH in Hh.
        destruct (n_inst _ (fi_hn _ _ Fi) _ _ Hh) as [[y Hy] _]. congruence. }
    assert (Close : forall p, c = CClose p -> exists h, x_obj s !! p = Some h /\ exists f, fstep E (x_full s) (RInv id0 (OClose h)) f).
    { intros p ->. destruct (U2 p Pa) as (h & Q1 & Q2). exists h. split; [exact Q1|]. eexists. apply f_registry; [apply q_close; [exact Q2|]|].
      - intros d q op Hd. destruct (U6 _ _ _ Hd) as [c' Hc']. destruct (U7 _ _ _ _ _ Hc' Hd) as (q' & Z1 & Z2 & Z3).
        rewrite (U3 _ _ _ Z3 Q1) in Z1. exact (Pb p eq_refl _ _ Hc' Z1).
      - split; cbn; [reflexivity| |]; intros * Q; apply lookup_insert_Some in Q as [[_ Q]|[_ Q]]; congruence. }
    destruct c; cbn [xop]; try contradiction.
    - destruct (Open (cstr dir) []) as [f F]. eauto.
    - destruct (Call p (Conc.CPut (cstr key) (xvalue v)) (Th _ eq_refl)) as (h & -> & f & F). cbn. eauto.
    - destruct (Call p (Conc.CGet (cstr key) (get_type g)) (Th _ eq_refl)) as (h & -> & f & F). cbn. eauto.
    - destruct (Call p (Conc.CDel (cstr key)) (Th _ eq_refl)) as (h & -> & f & F). cbn. eauto.
    - destruct (Call p Conc.CClear (Th _ eq_refl)) as (h & -> & f & F). cbn. eauto.
    - destruct (Close p eq_refl) as (h & -> & f & F). cbn. eauto. }
  destruct Go as (op & f & G1 & G2). exists id0. eexists. eapply x_call; [| |exact Ht|exact G1|exact G2].
  - intros p Hp. eapply HI_handle; [exact M|]. apply (pn_sub _ _ _ P), Th, Hp.
  - intros d c' Hd (p & C1 & C2 & C3). rewrite Tc in Hd. apply orb_true_iff in C3 as [C3|C3].
    + destruct c; try discriminate C3. injection C1 as ->. exact (Pb p eq_refl _ _ Hd C2).
    + destruct c'; try discriminate C3. injection C2 as ->. destruct (pn_close _ _ _ P _ _ Hd) as [_ Z]. rewrite (Th _ C1) in Z. discriminate.
Qed.

(** ** Every call returns *)

Definition inside (a : xlabel) : Prop := match a with XTau | XRet _ _ _ => True | _ => False end.

Lemma history_quiet nm tr : Forall inside tr -> forall c op, RInv c op ∉ history nm tr.
Proof.
  intros H. revert nm. induction H as [|a tr Ha H IH]; intros nm c op Q; [inversion Q|].
  destruct a; try contradiction; cbn in Q; [eapply IH, Q|]. apply elem_of_cons in Q as [Q|Q]; [discriminate Q|eapply IH, Q].
Qed.

Lemma lift tr s o fl l f : xexec pick text E tr s o fl -> ordinary E keyof (begun (history ∅ tr)) -> apart canon (history ∅ tr) ->
  fexec E (x_full s) l f -> (forall c op, RInv c op ∉ l) ->
  exists tr' s' o' fl', xexec pick text E (tr ++ tr') s' o' fl' /\ Forall inside tr' /\ x_full s' = f /\ vis l = history (names ∅ tr) tr'.
Proof.
  intros X O A Y. remember (x_full s) as f0 eqn:Ef. induction Y as [|l f1 a f2 Y IH S]; intros Hn; subst.
  { exists [], s, o, fl. rewrite app_nil_r. split_and!; [exact X|constructor|reflexivity|reflexivity]. }
  destruct IH as (tr1 & s1 & o1 & fl1 & X1 & N1 & <- & V1); [intros c op Q; eapply Hn; apply in_snoc; left; exact Q|].
  assert (O1 : ordinary E keyof (begun (history ∅ (tr ++ tr1)))) by (rewrite history_app, begun_quiet; [exact O|apply history_quiet, N1]).
  assert (A1 : apart canon (history ∅ (tr ++ tr1))) by (rewrite history_app; apply (apart_quiet E keyof); [apply history_quiet, N1|exact A]).
  destruct a as [|c op|c r].
  - exists (tr1 ++ [XTau]), (XState f2 (x_heap s1) (x_obj s1) (x_calls s1)), o1, fl1. split_and!; [| |reflexivity|].
    + rewrite app_assoc. apply (xx_snoc _ _ _ _ s1 o1 fl1 XTau); [exact X1|exact Logic.I|apply x_tau; exact S].
    + apply Forall_app. split; [exact N1|repeat constructor].
    + rewrite vis_app, V1, history_app. reflexivity.
  - exfalso. eapply (Hn c op). apply in_snoc. auto.
  - destruct (T_exec _ _ _ _ X1) as [T U]. pose proof T as [Tc _ Ti Tf]. destruct (FI_step E _ _ _ Tf S) as [_ Os].
    destruct (os_ret _ _ _ Os _ _ eq_refl) as (p & op & Q & _). destruct (u_all _ _ _ U _ _ _ Q) as [cc Hc].
    pose proof (finishes _ _ _ _ _ _ _ _ X1 O1 A1 Hc S) as Na.
    destruct (xfinish pick text c cc r (x_heap s1) (x_obj s1)) as [[[h obj] x]| |] eqn:Fn; [|congruence|].
    + eexists (tr1 ++ [XRet c x r]), (XState f2 h obj _), _, _. split_and!; [| |reflexivity|].
      * rewrite app_assoc. eapply (xx_snoc _ _ _ _ s1 o1 fl1 (XRet c x r)); [exact X1|exact Logic.I|]. eapply x_ret; [rewrite Tc; exact Hc|exact S|exact Fn].
      * apply Forall_app. split; [exact N1|repeat constructor].
      * rewrite vis_app, V1, history_app. reflexivity.
    + exfalso. eapply (C67_no_undefined_behaviour _ _ _ _ (XRet c RUnit r) X1 Logic.I). eapply x_ret_undef; [rewrite Tc; exact Hc|exact S|exact Fn].
Qed.

(** Whatever is under way, the store can finish it: from every state there is
    a schedule that calls nothing more and returns every call. *)
Theorem C67_every_call_completes tr s o fl :
  xexec pick text E tr s o fl -> ordinary E keyof (begun (history ∅ tr)) -> apart canon (history ∅ tr) ->
  exists tr' s' o', xexec pick text E (tr ++ tr') s' o' ∅ /\ Forall inside tr'.
Proof.
  intros X O A. destruct (hist_exec _ _ _ _ X) as [ls H]. assert (V : vis ls = vis (history ∅ tr)) by (rewrite history_vis; apply H).
  destruct (C60_full_every_call_completes E keyof ls (x_full s) (ho_exec _ _ _ _ H)) as (l & f & Y & Hn & D & _).
  { rewrite (begun_same _ _ V). exact O. } { eapply apart_same; [exact V|exact A]. }
  destruct (lift _ _ _ _ _ _ X O A Y Hn) as (tr' & s' & o' & fl' & X' & Hin & <- & V').
  exists tr', s', o'. split; [|exact Hin]. replace (∅ : gmap N ccall) with fl'; [exact X'|]. apply map_empty. intros id.
  destruct (fl' !! id) as [c|] eqn:Hc; [exfalso|reflexivity]. destruct (hist_exec _ _ _ _ X') as [ls2 H2].
  assert (V2 : vis ls2 = vis (ls ++ l)). { rewrite (ho_vis _ _ _ _ H2), history_app, vis_app, (ho_vis _ _ _ _ H), V'. reflexivity. }
  destruct (ho_call _ _ _ _ H2 _ _ Hc) as (op & Q1 & _ & _ & Q2). apply (in_same _ _ (RInv id op) V2 eq_refl) in Q1.
  apply elem_of_app in Q1 as [Q1|Q1]; [|eapply Hn, Q1]. destruct (D _ _ Q1) as [r Q]. eapply (Q2 r). eapply in_same; [symmetry; exact V2|reflexivity|exact Q].
Qed.

End Threads.

(** ** Schedules *)

Definition conflictb (c c' : ccall) : bool :=
  match through c, through c' with Some p, Some q => N.eqb p q && (closing c || closing c') | _, _ => false end.

Lemma conflictb_ok c c' : conflictb c c' = false -> ~ conflict c c'.
Proof.
  intros H (p & A & B & C). unfold conflictb in H. rewrite A, B, N.eqb_refl, C in H. discriminate.
Qed.

Inductive xchoice := YCall (c : ccall) | YStep (k : fchoice) | YNow (c : ccall).

Definition permittedb (o : held) (fl : gmap N ccall) (a : xlabel) : bool :=
  match a with
  | XInv _ c => allowedb o c &&
      match c with CClose p => forallb (fun '(_, c') => match through c' with Some q => negb (N.eqb q p) | None => true end) (map_to_list fl) | _ => true end
  | XNow c => allowedb o c
  | XTau | XRet _ _ _ => true
  end.

Lemma permittedb_ok o fl a : permittedb o fl a = true -> permitted o fl a.
Proof.
  destruct a; cbn; auto; [|apply allowedb_ok]. rewrite andb_true_iff. intros [A B]. split; [apply allowedb_ok, A|]. intros p -> d c' Hd Ht.
  rewrite forallb_forall in B. apply elem_of_map_to_list, elem_of_list_In in Hd. specialize (B _ Hd). cbn in B. rewrite Ht, N.eqb_refl in B. discriminate.
Qed.

Section Sched.
Context (pick : heap -> ptr) (text : err -> bytes) (E : env).

Definition fchoice_of (op : rop) : fchoice := match op with OOpen p k => FOpen p k | OClose h => FClose h | OCall h o => FUse h o end.

Definition yes (h : heap) (c : ccall) : bool :=
  match through c with Some p => match h !! p with Some MHandle => true | _ => false end | None => true end.

Definition ydo (k : xchoice) (s : xstate) : option (xlabel * xstate) :=
  match k with
  | YCall c =>
      if yes (x_heap s) c && forallb (fun '(_, c') => negb (conflictb c c')) (map_to_list (x_calls s)) && xtexts c then
        match xop (x_obj s) c with
        | Some op => match fdo E (fchoice_of op) (x_full s) with
                     | Some (RInv id op', f) => Some (XInv id c, XState f (x_heap s) (x_obj s) (<[id := c]> (x_calls s)))
                     | _ => None
                     end
        | None => None
        end
      else None
  | YStep k =>
      match fdo E k (x_full s) with
      | Some (RTau, f) => Some (XTau, XState f (x_heap s) (x_obj s) (x_calls s))
      | Some (RRet id r, f) =>
          match x_calls s !! id with
          | Some c => match xfinish pick text id c r (x_heap s) (x_obj s) with
                      | Done (h, obj, x) => Some (XRet id x r, XState f h obj (delete id (x_calls s)))
                      | _ => None end
          | None => None
          end
      | _ => None
      end
  | YNow (CFree p) => match free_buffer p (x_heap s) with Done h => Some (XNow (CFree p), XState (x_full s) h (x_obj s) (x_calls s)) | _ => None end
  | YNow (CLevel z) => match of_code z with Some _ => Some (XNow (CLevel z), s) | None => None end
  | YNow _ => None
  end.

Lemma fdo_call op f id op' f' : fdo E (fchoice_of op) f = Some (RInv id op', f') -> op' = op.
Proof.
  destruct op as [p k|h|h o]; cbn.
  - unfold freg. cbn. congruence.
  - unfold freg. cbn. destruct (_ && _); [|discriminate]. congruence.
  - destruct (usableb _ _); [|discriminate]. destruct (_ !! h) as [hd|]; [|discriminate]. destruct (u_stores f !! _); [|discriminate]. congruence.
Qed.

Lemma ydo_ok k s a s' : ydo k s = Some (a, s') -> xstep pick text E s a (Done s').
Proof.
  destruct k as [c|k|c]; cbn [ydo].
  - destruct (yes _ c) eqn:Y; [|discriminate]. destruct (forallb _ _) eqn:Cf; [|discriminate]. destruct (xtexts c) eqn:Ht; [|discriminate]. cbn [andb].
    destruct (xop (x_obj s) c) as [op|] eqn:Ho; [|discriminate]. destruct (fdo E _ (x_full s)) as [[[|id op'|] f]|] eqn:F; try discriminate. intros [= <- <-].
    pose proof (fdo_call _ _ _ _ _ F) as ->. eapply x_call; eauto.
    + intros p Hp. unfold yes in Y. rewrite Hp in Y. destruct (x_heap s !! p) as [[]|]; try discriminate Y. reflexivity.
    + intros d c' Hd. apply conflictb_ok. rewrite forallb_forall in Cf. apply elem_of_map_to_list, elem_of_list_In in Hd. specialize (Cf _ Hd). cbn in Cf.
      apply negb_true_iff, Cf.
    + eapply fdo_ok, F.
  - destruct (fdo E k (x_full s)) as [[[|id op'|id r] f]|] eqn:F; try discriminate; apply fdo_ok in F.
    + intros [= <- <-]. apply x_tau, F.
    + destruct (x_calls s !! id) as [c|] eqn:Hc; [|discriminate]. destruct (xfinish _ _ _ _ _ _ _) as [[[h obj] x]| |] eqn:Fn; try discriminate.
      intros [= <- <-]. eapply x_ret; eassumption.
  - destruct c; try discriminate.
    + destruct (free_buffer p (x_heap s)) as [h| |] eqn:Fb; try discriminate. intros [= <- <-].
      pose proof (x_free pick text E s p) as X. rewrite Fb in X. exact X.
    + destruct (of_code z) as [l|] eqn:Fb; try discriminate. intros [= <- <-].
      pose proof (x_level pick text E s z) as X. rewrite Fb in X. exact X.
Qed.

Fixpoint xplay (ks : list xchoice) (s : xstate) (o : held) (fl : gmap N ccall) : option (list xlabel * xstate * held * gmap N ccall) :=
  match ks with
  | [] => Some ([], s, o, fl)
  | k :: ks =>
      match ydo k s with
      | Some (a, s1) =>
          if permittedb o fl a then
            match xplay ks s1 (held_after o fl a) (flight_after fl a) with Some (tr, s2, o2, fl2) => Some (a :: tr, s2, o2, fl2) | None => None end
          else None
      | None => match k with YStep _ => xplay ks s o fl | _ => None end (* a step that is not possible is passed over *)
      end
  end.

Lemma xplay_ok ks : forall tr0 s o fl tr s' o' fl', xexec pick text E tr0 s o fl -> xplay ks s o fl = Some (tr, s', o', fl') ->
  xexec pick text E (tr0 ++ tr) s' o' fl'.
Proof.
  induction ks as [|k ks IH]; intros tr0 s o fl tr s' o' fl' X; cbn [xplay].
  - intros [= <- <- <- <-]. rewrite app_nil_r. exact X.
  - destruct (ydo k s) as [[a s1]|] eqn:D; [|destruct k; try discriminate; apply IH, X]. destruct (permittedb o fl a) eqn:Pm; [|discriminate].
    destruct (xplay ks s1 _ _) as [[[[tr1 s2] o2] fl2]|] eqn:P; [|discriminate]. intros [= <- <- <- <-].
    change (a :: tr1) with ([a] ++ tr1). rewrite app_assoc. eapply IH; [|exact P]. econstructor; [exact X|apply permittedb_ok, Pm|apply ydo_ok with (k := k), D].
Qed.

End Sched.

(** The threads of the calls [cs] and the background thread of store [i] take
    turns, [n] rounds. *)
Definition turns (cs : list N) (i : N) (n : nat) : list xchoice :=
  flat_map (fun _ => map (fun c => YStep (FGo c)) cs ++ [YStep (FBg i)]) (seq 0 n).

(** Two threads open one directory at once.  Through the two handles a string
    is put, read and deleted and another key read, at the same time; one
    handle is closed while a call goes through the other; results are read and
    freed by the other thread; the store is cleared and the last handle
    closed. *)
Definition ex_threads : list xchoice :=
  [YCall (CNew dir_d); YCall (CNew dir_d)] ++ turns [0; 1] 0 12 ++
  [YCall (CPut 1 k1 hello); YCall (CGet 2 k1 CStr); YCall (CPut 2 k2 (VI32s [1; 2]%Z))] ++ turns [4; 2; 3] 0 20 ++
  [YCall (CGet 1 k1 CStr); YNow (CFree 3); YCall (CGet 1 k1 CI32)] ++ turns [5; 6] 0 10 ++ [YCall (CDelete 1 k1); YCall (CClose 2)] ++ turns [7; 8] 0 20.

Definition ex_threads_end : list xchoice :=
  [YCall (CClear 1); YNow (CFree 13); YNow (CFree 7); YNow (CFree 12)] ++ turns [9] 0 30 ++ [YNow (CFree 4); YCall (CClose 1)] ++ turns [10] 0 30 ++ [YNow (CFree 10)].

Definition no_key (d : bytes) : bytes := [].

(** Non-vacuity of the theorems of this file. *)
Example C67_example : exists tr s o,
  let E := ex_env FPlain in
  xexec ex_pick ex_text E tr s o ∅ /\ ordinary E no_key (begun (history ∅ tr)) /\ apart (e_canon E) (history ∅ tr) /\
  o !! 7 = Some (HResult CStr (ROk (Some hello))) /\ o !! 12 = Some (HResult CI32 (RErr TypeMissMatch)) /\
  exists tr' s', xexec ex_pick ex_text E (tr ++ tr') s' ∅ ∅ /\ ordinary E no_key (begun (history ∅ (tr ++ tr'))) /\ apart (e_canon E) (history ∅ (tr ++ tr')).
Proof.
  set (E := ex_env FPlain).
  assert (T : match xplay ex_pick ex_text E ex_threads xstate0 ∅ ∅ with
    | Some (tr, s, o, fl) => ordinaryb E no_key (begun (history ∅ tr)) = true /\ apartb (e_canon E) (history ∅ tr) = true /\ map_to_list fl = [] /\
        match o !! 7, o !! 12 with Some a, Some b => a = HResult CStr (ROk (Some hello)) /\ b = HResult CI32 (RErr TypeMissMatch) | _, _ => False end /\
        match xplay ex_pick ex_text E ex_threads_end s o fl with
        | Some (tr', s', o', fl') => ordinaryb E no_key (begun (history ∅ (tr ++ tr'))) = true /\ apartb (e_canon E) (history ∅ (tr ++ tr')) = true /\
            map_to_list o' = [] /\ map_to_list fl' = []
        | None => False end
    | None => False end) by (vm_compute; repeat split).
  destruct (xplay ex_pick ex_text E ex_threads xstate0 ∅ ∅) as [[[[tr s] o] fl]|] eqn:P1; [|contradiction]. destruct T as (A & B & C & D & T).
  destruct (xplay ex_pick ex_text E ex_threads_end s o fl) as [[[[tr' s'] o'] fl']|] eqn:P2; [|contradiction]. destruct T as (A' & B' & C1 & C2).
  assert (Ok : env_ok E) by (apply ex_env_ok; exact Logic.I).
  pose proof (xplay_ok ex_pick ex_text E _ [] _ _ _ _ _ _ _ (xx_nil _ _ _) P1) as X1. cbn [app] in X1. pose proof (xplay_ok ex_pick ex_text E _ _ _ _ _ _ _ _ _ X1 P2) as X2.
  apply map_to_list_empty_iff in C, C1, C2. subst fl fl' o'.
  exists tr, s, o. destruct (o !! 7) as [a|] eqn:O7; [|contradiction]. destruct (o !! 12) as [b|] eqn:O12; [|contradiction]. destruct D as [-> ->].
  split_and!; [exact X1|apply ordinaryb_ok; assumption|apply apartb_ok, B|reflexivity|reflexivity|].
  exists tr', s'. split_and!; [exact X2|apply ordinaryb_ok; assumption|apply apartb_ok, B'].
Qed.

(** A race: closing a handle while another thread's call goes through it. *)
Example closing_in_use_example : forall s id c, x_calls s !! id = Some (CGet 1 c CStr) -> xstep ex_pick ex_text (ex_env FPlain) s (XInv 7 (CClose 1)) Undef.
Proof. intros s id c H. eapply x_race; [exact H|]. exists 1. auto. Qed.
