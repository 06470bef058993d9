(** C68: Kotlin objects and the garbage collector. *)
From Verif Require Import Bytes Utf8 Proto ProtoFacts Value Codec Store StoreFacts Encrypt World Spec Hyps Refine WorldInv WorldStep Main Frames Reach Examples P_Map P_Store P_Fail P_Alias Looper P_Loop Conc P_Conc P_Live Reg P_Reg P_Reg2 P_Reg3 Full P_Full P_Full2 P_Full3 P_Full4 P_FfiConc P_FfiConc3 Gc.
From Coq Require Import ZArith ZifyBool ZifyNat ZifyN Sorting.Sorted.
From stdpp Require Import sorting.
Local Open Scope N_scope.

(** ** Lists *)

Definition nodrop (e : event) : bool := match e with EDrop _ => false | _ => true end.
Definition nc (x : N * rop * result) : bool := match x.1.2 with OClose _ => false | _ => true end.
Notation ids l := (map (fun x : N * rop * result => x.1.1) l).
Notation lev := (fun x : N * rop * result => op_event x.1.1 x.1.2).

Lemma paths_nodrop es : paths (List.filter nodrop es) = paths es.
Proof. unfold paths. induction es as [|e es IH]; [reflexivity|]. destruct e; cbn; try (f_equal; exact IH); exact IH. Qed.
Lemma writes_nodrop es : writes (List.filter nodrop es) = writes es.
Proof.
  unfold writes. f_equal. induction es as [|e es IH]; [reflexivity|]. destruct e; cbn; try (f_equal; exact IH); exact IH.
Qed.
Lemma calls_nodrop E keyof es : Forall (call_ok E keyof) (List.filter nodrop es) -> Forall (call_ok E keyof) es.
Proof.
  induction es as [|e es IH]; intros H; [constructor|]. destruct e; cbn in H; try (apply Forall_cons in H as [H1 H2]; constructor; auto; fail). constructor; [exact Logic.I|auto].
Qed.

Lemma begun_app a b : begun (a ++ b) = begun a ++ begun b.
Proof. unfold begun. apply flat_map_app. Qed.

Lemma earlier_app {A} (l m : list A) a b : earlier l a b -> earlier (l ++ m) a b.
Proof. intros (l1 & l2 & -> & H1 & H2). exists l1, (l2 ++ m). rewrite app_assoc. split_and!; auto. apply elem_of_app. auto. Qed.

Lemma nodup_fun (lin : list (N * rop * result)) c o r o' r' : NoDup (ids lin) -> (c, o, r) ∈ lin -> (c, o', r') ∈ lin -> o = o' /\ r = r'.
Proof.
  induction lin as [|[[d p] q] lin IH]; intros ND H1 H2; [inversion H1|]. cbn in ND. apply NoDup_cons in ND as [N1 ND].
  apply elem_of_cons in H1 as [[= -> -> ->]|H1]; apply elem_of_cons in H2 as [[= -> ->]|H2]; auto.
  - subst. destruct N1. apply elem_of_list_fmap. eexists (_, _, _). split; [|exact H2]. reflexivity.
  - subst. destruct N1. apply elem_of_list_fmap. eexists (_, _, _). split; [|exact H1]. reflexivity.
Qed.

(** ** Programs and their calls *)

Inductive named : list (N * rop) -> list event -> gmap N N -> N -> Prop :=
| nm_nil : named [] [] ∅ 0
| nm_new log evs objs n c d k : named log evs objs n -> named (log ++ [(c, OOpen d k)]) (evs ++ [ENew n d k]) (<[n := c]> objs) (n + 1)
| nm_call log evs objs n c x h o : named log evs objs n -> objs !! x = Some h -> named (log ++ [(c, OCall h o)]) (evs ++ [event_of x o]) objs n.

Notation pev := (fun x : N * rop => op_event x.1 x.2).

Lemma named_lt log evs objs n : named log evs objs n -> forall x h, objs !! x = Some h -> x < n.
Proof.
  induction 1 as [|log evs objs n c d k H IH|log evs objs n c x h o H IH Hx]; intros y z; [rewrite lookup_empty; discriminate| |eauto].
  rewrite lookup_insert_Some. intros [[<- _]|[_ Q]]; [lia|]. apply IH in Q. lia.
Qed.

Lemma named_len log evs objs n : named log evs objs n -> length evs = length log.
Proof. induction 1; [reflexivity|..]; rewrite !app_length, IHnamed; reflexivity. Qed.

Lemma named_obj log evs objs n : named log evs objs n -> forall x h, objs !! x = Some h -> exists d k, (h, OOpen d k) ∈ log.
Proof.
  induction 1 as [|log evs objs n c d k H IH|log evs objs n c x h o H IH Hx]; intros y z; [rewrite lookup_empty; discriminate| |].
  - rewrite lookup_insert_Some. intros [[<- <-]|[_ Q]]; [exists d, k; apply in_snoc; auto|]. destruct (IH _ _ Q) as (d' & k' & Z). exists d', k'. apply in_snoc. auto.
  - intros Q. destruct (IH _ _ Q) as (d' & k' & Z). exists d', k'. apply in_snoc. auto.
Qed.

Lemma named_paths log evs objs n : named log evs objs n -> paths (map pev log) = paths evs /\ writes (map pev log) = writes evs.
Proof.
  induction 1 as [|log evs objs n c d k H [I1 I2]|log evs objs n c x h o H [I1 I2] Hx]; [auto|..]; rewrite map_app, !paths_app, !writes_app, I1, I2; cbn; auto.
  destruct o; auto.
Qed.

Lemma named_calls E keyof log evs objs n : named log evs objs n -> Forall (call_ok E keyof) evs -> Forall (call_ok E keyof) (map pev log).
Proof.
  induction 1 as [|log evs objs n c d k H I1|log evs objs n c x h o H I1 Hx]; intros F; [exact (List.Forall_nil _)|..];
    rewrite map_app; apply Forall_app in F as [F1 F2]; apply Forall_app; (split; [auto|]); apply Forall_cons in F2 as [F2 _]; (apply List.Forall_cons; [|exact (List.Forall_nil _)]); [exact F2|].
  destruct o; exact F2.
Qed.

(** The same calls with the handles named after the objects. *)
Lemma named_spec canon log evs objs n : named log evs objs n -> NoDup (map fst log) -> forall sp rs,
  spec_run canon spec0 (map pev log) = Some (sp, rs) ->
  exists sp', spec_run canon spec0 evs = Some (sp', rs) /\ sp_dirs sp' = sp_dirs sp /\ (forall x h, objs !! x = Some h -> sp_handles sp' !! x = sp_handles sp !! h) /\
    (forall x, n <= x -> sp_handles sp' !! x = None) /\ forall c, is_Some (sp_handles sp !! c) -> c ∈ map fst log.
Proof.
  assert (Cn : forall sp d, contents sp d = default ∅ (sp_dirs sp !! d)) by reflexivity.
  induction 1 as [|log evs objs n c d k H IH|log evs objs n c x h o H IH Hx]; intros ND sp rs Hr.
  - injection Hr as <- <-. exists spec0. split; [reflexivity|split; [reflexivity|split; [intros x h; rewrite lookup_empty; discriminate|split; [reflexivity|intros c [y Hy]; cbn in Hy; rewrite lookup_empty in Hy; discriminate]]]].
  - rewrite map_app in ND, Hr. apply NoDup_app in ND as (ND & Nc & _). rewrite spec_run_app in Hr.
    destruct (spec_run canon spec0 (map pev log)) as [[sp1 ra]|] eqn:R1; [|discriminate]. destruct (IH ND _ _ eq_refl) as (sp2 & S1 & S2 & S3 & S4 & S5).
    cbn in Hr. destruct (sp_handles sp1 !! c) eqn:Hc; [discriminate|]. injection Hr as <- <-.
    rewrite spec_run_app, S1. cbn. rewrite (S4 n) by lia. eexists. split; [reflexivity|]. cbn. split_and!; [exact S2| | |].
    + intros x h. rewrite lookup_insert_Some. intros [[<- <-]|[Hne Q]]; [rewrite !lookup_insert; reflexivity|].
      assert (h <> c). { intros ->. destruct (named_obj _ _ _ _ H _ _ Q) as (d' & k' & Z). apply (Nc c); [apply elem_of_list_fmap; eexists; split; [|exact Z]; reflexivity|apply elem_of_list_singleton; reflexivity]. }
      rewrite !lookup_insert_ne by congruence. auto.
    + intros x Hx. rewrite lookup_insert_ne by lia. apply S4. lia.
    + intros y Hy. rewrite map_app. apply elem_of_app. destruct (decide (y = c)) as [->|Hne]; [right; apply elem_of_list_singleton; reflexivity|]. rewrite lookup_insert_ne in Hy by congruence. left. auto.
  - rewrite map_app in ND, Hr. apply NoDup_app in ND as (ND & Nc & _). rewrite spec_run_app in Hr.
    destruct (spec_run canon spec0 (map pev log)) as [[sp1 ra]|] eqn:R1; [|discriminate]. destruct (IH ND _ _ eq_refl) as (sp2 & S1 & S2 & S3 & S4 & S5).
    rewrite spec_run_app, S1. cbn [map spec_run fst snd op_event] in Hr |- *. specialize (S3 _ _ Hx) as Sx.
    assert (G : forall f1 f2 : bytes -> spec * result, (forall d, (f1 d).2 = (f2 d).2 /\ sp_dirs (f1 d).1 = sp_dirs (f2 d).1 /\ sp_handles (f1 d).1 = sp_handles sp1 /\ sp_handles (f2 d).1 = sp_handles sp2) ->
      (match match sp_handles sp1 !! h with Some d => Some (f1 d) | None => None end with Some (s1, x) => Some (s1, ra ++ [x]) | None => None end) = Some (sp, rs) ->
      exists sp', (match match sp_handles sp2 !! x with Some d => Some (f2 d) | None => None end with Some (s1, x) => Some (s1, ra ++ [x]) | None => None end) = Some (sp', rs) /\
        sp_dirs sp' = sp_dirs sp /\ (forall x h, objs !! x = Some h -> sp_handles sp' !! x = sp_handles sp !! h) /\
        (forall x, n <= x -> sp_handles sp' !! x = None) /\ forall c0, is_Some (sp_handles sp !! c0) -> c0 ∈ map fst (log ++ [(c, OCall h o)])).
    { intros f1 f2 Hf. rewrite Sx. destruct (sp_handles sp1 !! h) as [d|] eqn:Hd; [|discriminate]. specialize (Hf d). destruct (f1 d) as [t1 r1], (f2 d) as [t2 r2]. cbn in Hf.
      destruct Hf as (-> & Q1 & Q2 & Q3). intros [= <- <-]. eexists. split; [reflexivity|]. rewrite Q1, Q2, Q3. split_and!; auto. intros c0 Hc. rewrite map_app. apply elem_of_app. auto. }
    destruct o as [k v|k t|k|]; cbn [event_of spec_step] in Hr |- *;
      (match type of Hr with context [match sp_handles sp1 !! h with Some d => Some (@?f1 d) | None => None end] =>
         match goal with |- context [match sp_handles sp2 !! x with Some d => Some (@?f2 d) | None => None end] => specialize (G f1 f2) end end);
      cbn beta in G; (destruct G as (sp' & G1 & G2);
        [intros d; cbn; unfold set_contents, contents; cbn; rewrite ?S2; auto
        |destruct (sp_handles sp1 !! h); [exact Hr|discriminate Hr]
        |exists sp'; split; [|exact G2]; destruct (sp_handles sp2 !! x); [exact G1|discriminate G1]]).
Qed.

(** ** The calls of a history *)

Definition invs (ls : list rlabel) : list (N * rop) :=
  flat_map (fun a => match a with RInv c (OClose h) => [] | RInv c o => [(c, o)] | _ => [] end) ls.

Lemma invs_snoc ls a : invs (ls ++ [a]) = invs ls ++ match a with RInv c (OClose h) => [] | RInv c o => [(c, o)] | _ => [] end.
Proof. unfold invs. rewrite flat_map_app. cbn. rewrite app_nil_r. reflexivity. Qed.

Lemma invs_begun ls : List.filter nodrop (begun ls) = map pev (invs ls).
Proof.
  induction ls as [|a ls IH]; [reflexivity|]. unfold begun, invs in *. cbn. rewrite map_app, <- IH, List.filter_app. f_equal.
  destruct a as [|c [p k|h|h []]|c r]; reflexivity.
Qed.

Lemma in_invs ls c o : RInv c o ∈ ls -> (forall h, o <> OClose h) -> (c, o) ∈ invs ls.
Proof.
  intros H Hn. apply elem_of_list_In. apply in_flat_map. exists (RInv c o). split; [apply elem_of_list_In, H|].
  destruct o; [left; reflexivity|destruct (Hn _ eq_refl)|left; reflexivity].
Qed.
Lemma invs_in ls c o : (c, o) ∈ invs ls -> RInv c o ∈ ls /\ forall h, o <> OClose h.
Proof.
  intros H. apply elem_of_list_In, in_flat_map in H as (a & Ha & Hin). destruct a as [|c' [p k|h|h o']|c' r]; try (destruct Hin; fail);
    destruct Hin as [Hin|[]]; injection Hin as <- <-; (split; [apply elem_of_list_In, Ha|discriminate]).
Qed.

Definition before (x y : N * rop) : Prop := x.1 < y.1.

Lemma sorted_snoc {A} (R : A -> A -> Prop) l x : StronglySorted R l -> (forall y, y ∈ l -> R y x) -> StronglySorted R (l ++ [x]).
Proof.
  induction 1 as [|a l S IH F]; intros H; cbn; [repeat constructor|]. constructor; [apply IH; intros y Hy; apply H, elem_of_cons; auto|].
  apply Forall_app. split; [exact F|]. repeat constructor. apply H, elem_of_cons. auto.
Qed.

Lemma sorted_earlier {A} (R : A -> A -> Prop) l x y : StronglySorted R l -> (forall a b, R a b -> R b a -> False) -> (forall a, ~ R a a) -> x ∈ l -> y ∈ l -> R x y -> earlier l x y.
Proof.
  intros S As Ir. induction S as [|a l S IH F]; intros Hx Hy Rxy; [inversion Hx|]. rewrite Forall_forall in F.
  apply elem_of_cons in Hx as [->|Hx]; apply elem_of_cons in Hy as [->|Hy].
  - destruct (Ir _ Rxy).
  - exists [a], l. split; [reflexivity|]. split; [apply elem_of_list_singleton; reflexivity|exact Hy].
  - destruct (As _ _ Rxy (F _ Hx)).
  - destruct (IH Hx Hy Rxy) as (l1 & l2 & -> & H1 & H2). exists (a :: l1), l2. split_and!; [reflexivity|apply elem_of_cons; auto|exact H2].
Qed.

Lemma sorted_filter {A} (R : A -> A -> Prop) (p : A -> bool) l :
  (forall l1 x l2 y, l = l1 ++ x :: l2 -> y ∈ l2 -> p x = true -> p y = true -> R x y) -> StronglySorted R (List.filter p l).
Proof.
  induction l as [|a l IH]; intros H; cbn; [constructor|].
  assert (S : StronglySorted R (List.filter p l)) by (apply IH; intros l1 x l2 y -> Hy; apply (H (a :: l1) x l2 y); auto).
  destruct (p a) eqn:Pa; [|exact S]. constructor; [exact S|]. apply Forall_forall. intros y Hy. apply elem_of_list_In, filter_In in Hy as [Hy Py].
  apply (H [] a l y); auto. apply elem_of_list_In, Hy.
Qed.

Section Run.
Context (E : env) (keyof : bytes -> bytes).
Notation canon := (e_canon E).

(** The names of the calls of an execution. *)
Lemma exec_ids ls f : fexec E full0 ls f -> FI f /\ (forall c o, RInv c o ∈ ls -> c < r_next (u_reg f)) /\
  (forall c o o', RInv c o ∈ ls -> RInv c o' ∈ ls -> o = o') /\ StronglySorted before (invs ls).
Proof.
  induction 1 as [|ls f a f' X (F & I1 & I2 & I3) S]; [split_and!; [apply FI_0|intros * Q; inversion Q|intros * Q; inversion Q|constructor]|].
  destruct (FI_step E _ _ _ F S) as [F' [O1 O2 _ _ _]].
  split; [exact F'|split; [|split]].
  - intros c o H. apply in_snoc in H as [H|H]; [apply I1 in H; lia|]. destruct (O2 c o (eq_sym H)) as (-> & -> & _). lia.
  - intros c o o' H H'. apply in_snoc in H as [H|H]; apply in_snoc in H' as [H'|H'].
    + eauto.
    + apply I1 in H. destruct (O2 c o' (eq_sym H')) as (-> & _). lia.
    + apply I1 in H'. destruct (O2 c o (eq_sym H)) as (-> & _). lia.
    + congruence.
  - rewrite invs_snoc. destruct a as [|c [p k|h|h o]|c r]; rewrite ?app_nil_r; auto; (apply sorted_snoc; [exact I3|]; intros [d q] Hd; apply invs_in in Hd as [Hd _]; apply I1 in Hd; unfold before; cbn;
      pose proof (O2 _ _ eq_refl) as (-> & _); exact Hd).
Qed.

Lemma sorted_nodup l : StronglySorted before l -> NoDup (map fst l).
Proof.
  induction 1 as [|a l S IH F]; cbn; [constructor|]. constructor; [|exact IH]. intros H. apply elem_of_list_fmap in H as (b & Eb & Hb).
  rewrite Forall_forall in F. specialize (F _ Hb). unfold before in F. lia.
Qed.

(** Dropping handles changes no answer. *)
Lemma undrop (lin : list (N * rop * result)) : forall sp0 sp1 sp, spec_run canon sp0 (map lev lin) = Some (sp, map snd lin) -> NoDup (ids lin) ->
  sp_dirs sp1 = sp_dirs sp0 -> (forall h d, sp_handles sp0 !! h = Some d -> sp_handles sp1 !! h = Some d) -> (forall c, c ∈ ids lin -> sp_handles sp1 !! c = None) ->
  exists sp', spec_run canon sp1 (map lev (List.filter nc lin)) = Some (sp', map snd (List.filter nc lin)).
Proof.
  induction lin as [|[[c o] r] lin IH]; intros sp0 sp1 sp H ND D1 H1 Fr; [exists sp1; reflexivity|].
  cbn [map fst snd] in H, ND, Fr. apply NoDup_cons in ND as [Nc ND]. cbn [spec_run] in H.
  destruct (spec_step canon sp0 (op_event c o)) as [[s1 x]|] eqn:S; [|discriminate]. destruct (spec_run canon s1 _) as [[s2 xs]|] eqn:R; [|discriminate].
  injection H as <- -> ->. assert (Fr' : forall d, d ∈ ids lin -> sp_handles sp1 !! d = None) by (intros d Hd; apply Fr, elem_of_cons; auto).
  assert (Co : forall d, contents sp1 d = contents sp0 d) by (intros d; unfold contents; rewrite D1; reflexivity).
  assert (Step : nc (c, o, r) = true -> forall t1, spec_step canon sp1 (op_event c o) = Some (t1, r) -> sp_dirs t1 = sp_dirs s1 ->
    (forall h d, sp_handles s1 !! h = Some d -> sp_handles t1 !! h = Some d) -> (forall d, d ∈ ids lin -> sp_handles t1 !! d = None) ->
    exists sp', spec_run canon sp1 (map lev (List.filter nc ((c, o, r) :: lin))) = Some (sp', map snd (List.filter nc ((c, o, r) :: lin)))).
  { intros Hnc t1 T1 T2 T3 T4. destruct (IH _ t1 _ R ND T2 T3 T4) as [sp' Q]. exists sp'. cbn [List.filter]. rewrite Hnc. cbn [map fst snd spec_run]. rewrite T1, Q. reflexivity. }
  destruct o as [p k|h|h q].
  - cbn in S. destruct (sp_handles sp0 !! c) eqn:Q0; [discriminate|]. injection S as <- <-. eapply Step; [reflexivity|cbn; rewrite (Fr c) by (apply elem_of_cons; auto); reflexivity|exact D1|..]; cbn.
    + intros h d. rewrite !lookup_insert_Some. intros [?|[? Q]]; auto.
    + intros d Hd. rewrite lookup_insert_ne by (intros ->; contradiction). auto.
  - cbn in S. destruct (sp_handles sp0 !! h) eqn:Q0; [|discriminate]. injection S as <- <-. eapply IH; [exact R|exact ND|exact D1| |exact Fr'].
    cbn. intros h' d' Q. apply lookup_delete_Some in Q as [_ Q]. auto.
  - destruct q as [k v|k t|k|]; cbn in S; (destruct (sp_handles sp0 !! h) as [d|] eqn:Q0; [|discriminate]); injection S as <- <-;
      (eapply Step; [reflexivity|cbn; rewrite (H1 _ _ Q0), ?Co; reflexivity|cbn; rewrite ?D1, ?Co; reflexivity|exact H1|exact Fr']).
Qed.

(** ** The invariant *)

Inductive curr (objs : gmap N N) (n : N) (held : gmap N bytes) (old : gset bytes) : option (N * bool) -> list kstmt -> list (N * rop) -> list event -> list event -> Prop :=
| cu_none rest : keeps held old n rest -> curr objs n held old None rest [] [] (kevents n rest)
| cu_new id d k rest : (d ∈ old -> exists x, held !! x = Some d) -> keeps (<[n := d]> held) ({[d]} ∪ old) (n + 1) rest ->
    curr objs n held old (Some (id, true)) rest [(id, OOpen d k)] [ENew n d k] (kevents (n + 1) rest)
| cu_call id x h o rest : objs !! x = Some h -> keeps held old n rest -> curr objs n held old (Some (id, false)) rest [(id, OCall h o)] [event_of x o] (kevents n rest).

Record GI (prog : list kstmt) (s : gstate) (ls : list rlabel) (done : list (N * rop)) (evs : list event) (cur : list (N * rop)) (evc : list event)
  (rem : list event) (held : gmap N bytes) (old : gset bytes) : Prop := {
  i_exec : fexec E full0 ls (g_full s);
  i_named : named done evs (g_objs s) (made s);
  i_cur : curr (g_objs s) (made s) held old (g_call s) (g_rest s) cur evc rem;
  i_prog : kevents 0 prog = evs ++ evc ++ rem;
  i_log : invs ls = done ++ cur;
  i_out : Forall2 (fun x r => RRet x.1 r ∈ ls) done (g_out s);
  i_opened : forall c d k, (c, OOpen d k) ∈ done -> exists v, RRet c (ROk v) ∈ ls;
  i_held : forall x d, held !! x = Some d -> x ∉ g_lost s /\ exists c k, g_objs s !! x = Some c /\ (c, OOpen d k) ∈ done /\ forall c', RInv c' (OClose c) ∉ ls;
  i_old : forall c d k, (c, OOpen d k) ∈ done -> d ∈ old;
  i_close : forall c h, RInv c (OClose h) ∈ ls -> exists x, g_objs s !! x = Some h;
  i_seq : forall x y, earlier (done ++ cur) x y -> exists r, earlier ls (RRet x.1 r) (RInv y.1 y.2);
  i_lost : forall x, x ∈ g_lost s -> is_Some (g_objs s !! x)
}.

Lemma GI_named prog s ls done evs cur evc rem held old : GI prog s ls done evs cur evc rem held old -> exists objs n, named (done ++ cur) (evs ++ evc) objs n.
Proof.
  intros [I1 I2 I3 I4 I5 I6 I7 I8 I9 I10 I11]. inversion I3; subst.
  - rewrite !app_nil_r. eauto.
  - do 2 eexists. apply nm_new. exact I2.
  - do 2 eexists. eapply nm_call; eassumption.
Qed.

Lemma GI_ordinary prog s ls done evs cur evc rem held old : ordinary E keyof (kevents 0 prog) -> GI prog s ls done evs cur evc rem held old -> ordinary E keyof (begun ls).
Proof.
  intros O I. destruct (GI_named _ _ _ _ _ _ _ _ _ _ I) as (objs & n & Nm). rewrite (i_prog _ _ _ _ _ _ _ _ _ _ I), app_assoc in O. apply ordinary_app_l in O as [O1 O2 O3 O4].
  pose proof (invs_begun ls) as B. rewrite (i_log _ _ _ _ _ _ _ _ _ _ I) in B. destruct (named_paths _ _ _ _ Nm) as [P1 P2].
  split; [exact O1|apply calls_nodrop; rewrite B; eapply named_calls; eassumption| |].
  - unfold one_spelling. rewrite <- paths_nodrop, B, P1. exact O3.
  - rewrite <- writes_nodrop, B, P2. exact O4.
Qed.

Lemma earlier_snoc {A} (l : list A) z x y : earlier (l ++ [z]) x y -> earlier l x y \/ (x ∈ l /\ y = z).
Proof.
  intros (l1 & l2 & Hl & H1 & H2). destruct (decide (l2 = [])) as [->|Hne]; [inversion H2|].
  destruct (exists_last Hne) as (l3 & z' & ->). rewrite app_assoc in Hl. apply app_inj_tail in Hl as [-> <-].
  apply in_snoc in H2 as [H2| ->]; [left; exists l1, l3; auto|right]. split; [apply elem_of_app; auto|reflexivity].
Qed.

Lemma path_begun ls c d k : RInv c (OOpen d k) ∈ ls -> In d (paths (begun ls)).
Proof.
  intros H. assert (In (ENew c d k) (begun ls)) as Q by (apply in_flat_map; exists (RInv c (OOpen d k)); split; [apply elem_of_list_In, H|left; reflexivity]).
  clear H. revert Q. unfold paths. induction (begun ls) as [|e es IH]; intros Q; [destruct Q|]. destruct Q as [-> |Q]; [left; reflexivity|]. apply IH in Q. destruct e; cbn; auto.
Qed.

(** An opening under way while the collector closes a handle of the same
    directory: the program has another object of it. *)
Lemma GI_now prog s ls done evs cur evc rem held old c path key c' h path' key' :
  ordinary E keyof (kevents 0 prog) -> GI prog s ls done evs cur evc rem held old ->
  under_way ls c (OOpen path key) -> under_way ls c' (OClose h) -> RInv h (OOpen path' key') ∈ ls -> canon path' = canon path -> exists h2 key2, open_handle ls h2 path key2.
Proof.
  intros O I [U1 U2] [V1 _] W Ec. pose proof (GI_ordinary _ _ _ _ _ _ _ _ _ _ O I) as [_ _ OS _]. destruct I as [I1 I2 I3 I4 I5 I6 I7 I8 I9 I10 I11 I12].
  destruct (exec_ids _ _ I1) as (_ & _ & Un & _).
  pose proof (in_invs _ _ _ U1 ltac:(discriminate)) as Hc. rewrite I5 in Hc. apply elem_of_app in Hc as [Hc|Hc].
  { exfalso. apply elem_of_list_lookup in Hc as [i Hi]. destruct (Forall2_lookup_l _ _ _ _ _ I6 Hi) as (r & _ & Q). exact (U2 _ Q). }
  inversion I3; subst; try (apply elem_of_list_singleton in Hc; discriminate Hc); [inversion Hc|]. apply elem_of_list_singleton in Hc. injection Hc as <- <- <-.
  destruct (I10 _ _ V1) as [x Hx]. destruct (named_obj _ _ _ _ I2 _ _ Hx) as (d' & k' & Hd).
  assert (RInv h (OOpen d' k') ∈ ls) as Hd' by (apply invs_in; rewrite I5; apply elem_of_app; auto).
  pose proof (Un _ _ _ W Hd') as [= <- <-]. rewrite (OS path' path) in Hd; [|eapply path_begun; eassumption|eapply path_begun; eassumption|exact Ec].
  match goal with K : _ ∈ old -> _ |- _ => destruct (K (I9 _ _ _ Hd)) as [y Hy] end. destruct (I8 _ _ Hy) as (_ & c2 & k2 & _ & Q1 & Q2). exists c2, k2. split_and!; [|eauto|exact Q2].
  apply invs_in. rewrite I5. apply elem_of_app. auto.
Qed.

Lemma apart_snoc ls a : apart canon ls -> 
  (forall c path key c' h path' key', under_way (ls ++ [a]) c (OOpen path key) -> under_way (ls ++ [a]) c' (OClose h) -> RInv h (OOpen path' key') ∈ (ls ++ [a]) -> canon path' = canon path -> exists h2 key2, open_handle (ls ++ [a]) h2 path key2) ->
  apart canon (ls ++ [a]).
Proof.
  intros A Hn ls1 ls2 c path key c' h path' key' El. destruct (decide (ls2 = [])) as [->|Hne].
  - rewrite app_nil_r in El. subst ls1. apply Hn.
  - destruct (exists_last Hne) as (l3 & z' & ->). rewrite app_assoc in El. apply app_inj_tail in El as [El _]. eapply A, El.
Qed.

Lemma GI_quiet prog s ls done evs cur evc rem held old a f lost fin : GI prog s ls done evs cur evc rem held old ->
  fstep E (g_full s) a f -> (forall c o, a = RInv c o -> exists x h, o = OClose h /\ g_objs s !! x = Some h /\ x ∈ g_lost s) -> lost ⊆ g_lost s ->
  GI prog (GState f (g_rest s) (g_call s) (g_objs s) lost fin (g_out s)) (ls ++ [a]) done evs cur evc rem held old.
Proof.
  intros [I1 I2 I3 I4 I5 I6 I7 I8 I9 I10 I11 I12] S Ha Hl. pose proof (exec_ids _ _ I1) as (_ & _ & _ & Srt). rewrite I5 in Srt. apply sorted_nodup in Srt.
  rewrite map_app in Srt. apply NoDup_app in Srt as (Sd & _ & _).
  assert (Inj : forall log evs0 objs n, named log evs0 objs n -> NoDup (map fst log) -> forall x y h, objs !! x = Some h -> objs !! y = Some h -> x = y).
  { clear. induction 1 as [|log evs objs n c d k H IH|log evs objs n c x0 h0 o H IH Hx]; intros ND x y h Hx1 Hy.
    - rewrite lookup_empty in Hx1. discriminate.
    - rewrite map_app in ND. apply NoDup_app in ND as (ND & Nc & _).
      assert (Z : forall z, objs !! z <> Some c). { intros z Hz. destruct (named_obj _ _ _ _ H _ _ Hz) as (d' & k' & Q). apply (Nc c); [apply elem_of_list_fmap; eexists; split; [|exact Q]; reflexivity|apply elem_of_list_singleton; reflexivity]. }
      apply lookup_insert_Some in Hx1 as [[<- <-]|[_ Hx1]]; apply lookup_insert_Some in Hy as [[<- E1]|[_ Hy]]; auto.
      + destruct (Z _ Hy).
      + subst. destruct (Z _ Hx1).
      + eauto.
    - rewrite map_app in ND. apply NoDup_app in ND as (ND & _ & _). eauto. }
  split; cbn; try assumption.
  - econstructor; eassumption.
  - rewrite invs_snoc, I5. destruct a as [|c o|c r]; rewrite ?app_nil_r; auto. destruct (Ha _ _ eq_refl) as (x & h & -> & _). rewrite app_nil_r. reflexivity.
  - eapply Forall2_impl; [exact I6|]. cbn. intros x r Q. apply elem_of_app. auto.
  - intros c d k Q. destruct (I7 _ _ _ Q) as [v R]. exists v. apply elem_of_app. auto.
  - intros x d Hx. destruct (I8 _ _ Hx) as (Q1 & c & k & Q2 & Q3 & Q4). split; [set_solver|]. exists c, k. split_and!; auto. intros c' Q. apply in_snoc in Q as [Q|Q]; [exact (Q4 _ Q)|].
    destruct (Ha _ _ (eq_sym Q)) as (y & h & [= <-] & Hy & Ly). rewrite (Inj _ _ _ _ I2 Sd x y c Q2 Hy) in Q1. contradiction.
  - intros c h Q. apply in_snoc in Q as [Q|Q]; [eauto|]. destruct (Ha _ _ (eq_sym Q)) as (y & h' & [= <-] & Hy & Ly). eauto.
  - intros x y Q. destruct (I11 _ _ Q) as [r R]. exists r. apply earlier_app, R.
  - intros x Hx. apply I12. set_solver.
Qed.

Lemma GI_call prog s ls done evs held old c o f rest cl evc rem : GI prog s ls done evs [] [] (kevents (made s) (g_rest s)) held old -> fstep E (g_full s) (RInv c o) f -> (forall h, o <> OClose h) ->
  curr (g_objs s) (made s) held old (Some (c, cl)) rest [(c, o)] evc rem -> kevents (made s) (g_rest s) = evc ++ rem ->
  GI prog (GState f rest (Some (c, cl)) (g_objs s) (g_lost s) (g_fin s) (g_out s)) (ls ++ [RInv c o]) done evs [(c, o)] evc rem held old.
Proof.
  intros [I1 I2 I3 I4 I5 I6 I7 I8 I9 I10 I11 I12] S Ho Hc He. rewrite app_nil_r in I5, I11. cbn in I4.
  assert (Cl : forall c' h, RInv c' (OClose h) ∈ ls ++ [RInv c o] -> RInv c' (OClose h) ∈ ls).
  { intros c' h Q. apply in_snoc in Q as [Q|Q]; [exact Q|]. injection Q as _ Q. destruct (Ho h). congruence. }
  split; cbn; try assumption.
  - econstructor; eassumption.
  - rewrite I4, He. reflexivity.
  - rewrite invs_snoc, I5. destruct o; [reflexivity|destruct (Ho h eq_refl)|reflexivity].
  - eapply Forall2_impl; [exact I6|]. cbn. intros x r Q. apply elem_of_app. auto.
  - intros c0 d k Q. destruct (I7 _ _ _ Q) as [v R]. exists v. apply elem_of_app. auto.
  - intros x d Hx. destruct (I8 _ _ Hx) as (Q1 & c0 & k & Q2 & Q3 & Q4). split; [exact Q1|]. exists c0, k. split_and!; auto. intros c' Q. exact (Q4 _ (Cl _ _ Q)).
  - intros c0 h Q. eapply I10, Cl, Q.
  - intros x y Q. apply earlier_snoc in Q as [Q|[Q ->]]; [destruct (I11 _ _ Q) as [r R]; exists r; apply earlier_app, R|].
    apply elem_of_list_lookup in Q as [i Hi]. destruct (Forall2_lookup_l _ _ _ _ _ I6 Hi) as (r & _ & R). exists r, ls, [RInv c o]. split_and!; [reflexivity|exact R|apply elem_of_list_singleton; reflexivity].
Qed.

Definition safe (prog : list kstmt) (s : gstate) : Prop := exists ls done evs cur evc rem held old, GI prog s ls done evs cur evc rem held old /\ apart canon ls.

Lemma safe_step prog s s' : ordinary E keyof (kevents 0 prog) -> safe prog s -> gstep E s s' -> safe prog s'.
Proof.
  intros O (ls & done & evs & cur & evc & rem & held & old & I & A) S.
  assert (Go : forall a s' done' evs' cur' evc' rem' held' old', GI prog s' (ls ++ [a]) done' evs' cur' evc' rem' held' old' -> safe prog s').
  { intros a t done' evs' cur' evc' rem' held' old' J. exists (ls ++ [a]), done', evs', cur', evc', rem', held', old'. split; [exact J|]. apply apart_snoc; [exact A|]. intros *. eapply GI_now; eassumption. }
  inversion S as [s1 d key rest id f Hr Hc F|s1 x h o rest id f Hr Hc Hx Hl F|s1 id v f Hc F|s1 id r f Hc F Hp|s1 x h rest Hr Hc Hx|s1 x h id f Hf Hx Ho F|s1 id r f Hf F Hp|s1 f F]; subst; clear S.
  - pose proof (i_cur _ _ _ _ _ _ _ _ _ _ I) as Cu. rewrite Hc, Hr in Cu. inversion Cu; subst. cbn in H. destruct H as [K1 K2].
    eapply Go, GI_call; [rewrite Hr; exact I|exact F|discriminate|constructor; assumption|rewrite Hr; reflexivity].
  - pose proof (i_cur _ _ _ _ _ _ _ _ _ _ I) as Cu. rewrite Hc, Hr in Cu. inversion Cu; subst. cbn in H.
    eapply Go, GI_call; [rewrite Hr; exact I|exact F|discriminate|econstructor; eassumption|rewrite Hr; reflexivity].
  - pose proof (i_cur _ _ _ _ _ _ _ _ _ _ I) as Cu. pose proof (GI_quiet _ _ _ _ _ _ _ _ _ _ _ _ (g_lost s) (g_fin s) I F ltac:(discriminate) ltac:(reflexivity)) as J.
    rewrite Hc in Cu. inversion Cu; subst. destruct J as [J1 J2 J3 J4 J5 J6 J7 J8 J9 J10 J11 J12]. cbn [g_full g_rest g_call g_objs g_lost g_fin g_out] in *. change (named done evs (g_objs s) (made s)) in J2.
    assert (Fr : g_objs s !! made s = None). { destruct (g_objs s !! made s) eqn:Q; [|reflexivity]. apply (named_lt _ _ _ _ J2) in Q. lia. }
    assert (Rt : RRet id (ROk v) ∈ ls ++ [RRet id (ROk v)]) by (apply in_snoc; auto).
    assert (Mk : made (GState f (g_rest s) None (<[made s := id]> (g_objs s)) (g_lost s) (g_fin s) (g_out s ++ [ROk v])) = made s + 1).
    { unfold made at 1. cbn. rewrite map_size_insert_None by exact Fr. unfold made. lia. }
    pose proof (exec_ids _ _ J1) as (_ & _ & _ & Srt). rewrite J5 in Srt. apply sorted_nodup in Srt. rewrite map_app in Srt. apply NoDup_app in Srt as (Sd & Sn & _).
    assert (Old : forall c d0 k0, (c, OOpen d0 k0) ∈ done ++ [(id, OOpen d k)] -> (c, OOpen d0 k0) ∈ done \/ c = id /\ d0 = d).
    { intros c d0 k0 Q. apply in_snoc in Q as [Q|Q]; [auto|]. injection Q as -> -> ->. auto. }
    apply (Go (RRet id (ROk v)) _ (done ++ [(id, OOpen d k)]) (evs ++ [ENew (made s) d k]) [] [] (kevents (made s + 1) (g_rest s)) (<[made s := d]> held) ({[d]} ∪ old)).
    split; cbn [g_full g_rest g_call g_objs g_lost g_fin g_out]; try assumption; rewrite ?Mk.
    + apply nm_new, J2.
    + constructor. assumption.
    + rewrite J4. rewrite <- !app_assoc. reflexivity.
    + rewrite app_nil_r. exact J5.
    + apply Forall2_app; [exact J6|]. constructor; [exact Rt|constructor].
    + intros c d0 k0 Q. apply Old in Q as [Q|[-> ->]]; eauto.
    + intros x d0 Hx. apply lookup_insert_Some in Hx as [[<- <-]|[Hne Hx]].
      * split. { intros Q. destruct (J12 _ Q) as [z Hz]. congruence. }
        exists id, k. rewrite lookup_insert. split_and!; [reflexivity|apply in_snoc; auto|]. intros c' Q. destruct (J10 _ _ Q) as [y Hy].
        destruct (named_obj _ _ _ _ J2 _ _ Hy) as (d' & k' & Hd). apply (Sn id); [|apply elem_of_list_singleton; reflexivity]. apply elem_of_list_fmap. eexists. split; [|exact Hd]. reflexivity.
      * destruct (J8 _ _ Hx) as (Q1 & c & k0 & Q2 & Q3 & Q4). split; [exact Q1|]. exists c, k0. rewrite lookup_insert_ne by congruence. split_and!; auto. apply in_snoc; auto.
    + intros c d0 k0 Q. apply Old in Q as [Q|[-> ->]]; [apply J9 in Q|]; set_solver.
    + intros c h Q. destruct (J10 _ _ Q) as [y Hy]. exists y. rewrite lookup_insert_ne by congruence. exact Hy.
    + rewrite app_nil_r. exact J11.
    + intros x Hx. apply lookup_insert_is_Some'. auto.
  - pose proof (i_cur _ _ _ _ _ _ _ _ _ _ I) as Cu. pose proof (GI_quiet _ _ _ _ _ _ _ _ _ _ _ _ (g_lost s) (g_fin s) I F ltac:(discriminate) ltac:(reflexivity)) as J.
    rewrite Hc in Cu. inversion Cu; subst. destruct J as [J1 J2 J3 J4 J5 J6 J7 J8 J9 J10 J11 J12]. cbn [g_full g_rest g_call g_objs g_lost g_fin g_out] in *. change (named done evs (g_objs s) (made s)) in J2.
    assert (Old : forall c d0 k0, (c, OOpen d0 k0) ∈ done ++ [(id, OCall h o)] -> (c, OOpen d0 k0) ∈ done).
    { intros c d0 k0 Q. apply in_snoc in Q as [Q|Q]; [auto|]. discriminate Q. }
    apply (Go (RRet id r) _ (done ++ [(id, OCall h o)]) (evs ++ [event_of x o]) [] [] (kevents (made s) (g_rest s)) held old).
    split; cbn [g_full g_rest g_call g_objs g_lost g_fin g_out]; try assumption.
    + eapply nm_call; eassumption.
    + constructor. assumption.
    + rewrite J4. rewrite <- !app_assoc. reflexivity.
    + rewrite app_nil_r. exact J5.
    + apply Forall2_app; [exact J6|]. constructor; [apply in_snoc; auto|constructor].
    + intros c d0 k0 Q. apply Old in Q. eauto.
    + intros y d0 Hy. destruct (J8 _ _ Hy) as (Q1 & c & k0 & Q2 & Q3 & Q4). split; [exact Q1|]. exists c, k0. split_and!; auto. apply in_snoc; auto.
    + intros c d0 k0 Q. apply Old in Q. eauto.
    + rewrite app_nil_r. exact J11.
  - pose proof (i_cur _ _ _ _ _ _ _ _ _ _ I) as Cu. rewrite Hc, Hr in Cu. inversion Cu; subst. destruct I as [J1 J2 J3 J4 J5 J6 J7 J8 J9 J10 J11 J12]. cbn in *.
    exists ls, done, evs, [], [], (kevents (made s) rest), (delete x held), old. split; [|exact A].
    split; cbn [g_full g_rest g_call g_objs g_lost g_fin g_out]; try assumption.
    + constructor. assumption.
    + intros y d0 Hy. apply lookup_delete_Some in Hy as [Hne Hy]. destruct (J8 _ _ Hy) as [Q1 Q2]. split; [set_solver|exact Q2].
    + intros y Hy. apply elem_of_union in Hy as [Hy|Hy]; [apply elem_of_singleton in Hy as ->; eauto|auto].
  - eapply Go, GI_quiet; [exact I|exact F| |set_solver]. intros c o [= <- <-]. exists x, h. auto.
  - eapply Go, GI_quiet; [exact I|exact F|discriminate|reflexivity].
  - eapply Go, GI_quiet; [exact I|exact F|discriminate|reflexivity].
Qed.

Lemma safe_exec prog s : ordinary E keyof (kevents 0 prog) -> keeps ∅ ∅ 0 prog -> gexec E prog s -> safe prog s.
Proof.
  intros O K X. induction X as [|s s' X IH S]; [|eapply safe_step; eassumption].
  exists [], [], [], [], [], (kevents 0 prog), ∅, ∅. split.
  - split; cbn; try (intros *; rewrite lookup_empty; discriminate); try (intros * Q; inversion Q; fail).
    + constructor.
    + constructor.
    + apply (cu_none ∅ 0 ∅ ∅ prog), K.
    + reflexivity.
    + reflexivity.
    + constructor.
    + intros x y (l1 & l2 & Hl & H1 & _). destruct l1; [inversion H1|discriminate].
  - intros ls1 ls2 c path key c' h path' key' El [U _]. destruct ls1; [inversion U|discriminate].
Qed.

(** ** The answers *)

Lemma split_earlier {A} l1 (x : A) l2 y : y ∈ l2 -> earlier (l1 ++ x :: l2) x y.
Proof. intros Hy. exists (l1 ++ [x]), l2. split_and!; [rewrite <- app_assoc; reflexivity|apply in_snoc; auto|exact Hy]. Qed.

Lemma earlier_both {A} (l : list A) a b : NoDup l -> earlier l a b -> earlier l b a -> False.
Proof.
  intros ND (l1 & l2 & -> & H1 & H2) (m1 & m2 & El & H3 & H4). apply NoDup_app in ND as (_ & D & _).
  destruct (app_eq_inv _ _ _ _ El) as [(k & -> & ->)|(k & -> & ->)].
  - apply (D b); [|exact H2]. apply elem_of_app. auto.
  - apply (D a); [exact H1|]. apply elem_of_app. auto.
Qed.

Lemma earlier_fmap {A B} (g : A -> B) l a b : earlier l a b -> earlier (map g l) (g a) (g b).
Proof. intros (l1 & l2 & -> & H1 & H2). exists (map g l1), (map g l2). split_and!; [apply map_app|apply elem_of_list_fmap; eauto|apply elem_of_list_fmap; eauto]. Qed.

Lemma sorted_app_l {A} (R : A -> A -> Prop) l m : StronglySorted R (l ++ m) -> StronglySorted R l.
Proof.
  induction l as [|a l IH]; intros S; [constructor|]. cbn in S. apply StronglySorted_inv in S as [S F]. constructor; [auto|]. apply Forall_app in F as [F _]. exact F.
Qed.

(** For every program that never lets go of all its objects of a directory
    and then opens it again, whenever the collector finalizes the objects let
    go of and however the threads are scheduled: the answers are those of the
    maps. *)
Theorem C68_kept_objects_partial prog s : ordinary E keyof (kevents 0 prog) -> keeps ∅ ∅ 0 prog -> gexec E prog s -> answers_right canon prog (g_out s).
Proof.
  intros O K X. destruct (safe_exec prog s O K X) as (ls & done & evs & cur & evc & rem & held & old & I & A).
  pose proof (GI_ordinary _ _ _ _ _ _ _ _ _ _ O I) as O'. destruct I as [I1 I2 I3 I4 I5 I6 I7 I8 I9 I10 I11 I12].
  destruct (exec_ids _ _ I1) as (_ & _ & Un & Srt). rewrite I5 in Srt. pose proof (sorted_nodup _ Srt) as NDl.
  destruct (C60_full_linearizable E keyof ls _ I1 O' A) as (lin & sp & [Z1 Z2 Z3 Z4] & R).
  destruct (undrop lin spec0 spec0 sp R Z1 eq_refl ltac:(auto) ltac:(reflexivity)) as [sp1 R1].
  set (L := List.filter nc lin) in *.
  assert (InL : forall x r, (x, r) ∈ L -> (x, r) ∈ lin /\ x ∈ done ++ cur).
  { intros [c o] r Q. apply elem_of_list_In, filter_In in Q as [Q Q']. apply elem_of_list_In in Q. split; [exact Q|]. rewrite <- I5. apply in_invs; [eapply Z2, Q|].
    intros h ->. discriminate Q'. }
  assert (LIn : forall x r, (x, r) ∈ lin -> x ∈ done ++ cur -> (x, r) ∈ L).
  { intros [c o] r Q Qx. apply elem_of_list_In, filter_In. split; [apply elem_of_list_In, Q|]. rewrite <- I5 in Qx. apply invs_in in Qx as [_ Qx]. destruct o; [reflexivity|destruct (Qx _ eq_refl)|reflexivity]. }
  assert (Res : forall x r, (x, r) ∈ zip done (g_out s) -> (x, r) ∈ L).
  { intros [c o] r Q. assert (Qd : (c, o) ∈ done) by (eapply elem_of_zip_l, Q).
    assert (Qr : RRet c r ∈ ls). { apply elem_of_list_lookup in Q as [i Q]. apply lookup_zip_with_Some in Q as (a & b & [= <- <-] & Q1 & Q2). exact (Forall2_lookup_lr _ _ _ _ _ _ I6 Q1 Q2). }
    destruct (Z3 _ _ Qr) as [o' Q']. apply LIn; [|apply elem_of_app; auto].
    assert (RInv c o ∈ ls) by (apply invs_in; rewrite I5; apply elem_of_app; auto). rewrite (Un _ _ _ H (Z2 _ _ _ Q')). exact Q'. }
  assert (SL : StronglySorted (fun a b : N * rop * result => before a.1 b.1) L).
  { apply sorted_filter. intros l1 x l2 y El Hy Px Py. destruct (N.lt_trichotomy x.1.1 y.1.1) as [Lt|[Eq|Gt]]; [exact Lt|exfalso..].
    - rewrite El, map_app in Z1. apply NoDup_app in Z1 as (_ & _ & Z1). cbn in Z1. apply NoDup_cons in Z1 as [Z1 _]. apply Z1. rewrite Eq. apply elem_of_list_fmap. eauto.
    - assert (Lx : x ∈ lin) by (rewrite El; apply elem_of_app; right; apply elem_of_cons; auto). assert (Ly : y ∈ lin) by (rewrite El; apply elem_of_app; right; apply elem_of_cons; auto).
      destruct x as [x rx], y as [y ry]. cbn [fst snd] in *.
      assert (Dx : x ∈ done ++ cur) by (apply (InL x rx), elem_of_list_In, filter_In; split; [apply elem_of_list_In, Lx|exact Px]).
      assert (Dy : y ∈ done ++ cur) by (apply (InL y ry), elem_of_list_In, filter_In; split; [apply elem_of_list_In, Ly|exact Py]).
      destruct (I11 y x) as [r Er]. { eapply (sorted_earlier before); [exact Srt|unfold before; intros; lia|unfold before; intros; lia|exact Dy|exact Dx|exact Gt]. }
      apply (earlier_both _ x.1 y.1 Z1).
      + rewrite El. change (x.1) with ((fun z : N * rop * result => z.1.1) (x, rx)). change (y.1) with ((fun z : N * rop * result => z.1.1) (y, ry)). apply earlier_fmap, split_earlier, Hy.
      + apply (Z4 _ _ _ _ Er). apply elem_of_list_fmap. exists (x, rx). auto. }
  assert (Len : length done = length (g_out s)) by (eapply Forall2_length, I6).
  assert (Fst : map fst (zip done (g_out s)) = done) by (apply fst_zip; lia).
  assert (Snd : map snd (zip done (g_out s)) = g_out s) by (apply snd_zip; lia).
  assert (SZ : StronglySorted (fun a b : N * rop * result => before a.1 b.1) (zip done (g_out s))).
  { clear -Srt Len. apply sorted_app_l in Srt. revert Len. generalize (g_out s). induction Srt as [|x done S IH F]; intros [|r out] Hl; cbn; try constructor; try discriminate.
    - apply IH. cbn in Hl. lia.
    - apply Forall_forall. intros [y ry] Hy. rewrite Forall_forall in F. apply F. eapply elem_of_zip_l, Hy. }
  assert (Pre : exists tl, L = zip done (g_out s) ++ tl).
  { assert (As : AntiSymm eq (fun a b : N * rop * result => before a.1 b.1)) by (intros a b Hab Hba; unfold before in *; lia).
    assert (NDs : forall l, StronglySorted (fun a b : N * rop * result => before a.1 b.1) l -> NoDup l).
    { clear. induction 1 as [|a l S IH F]; constructor; auto. intros Q. rewrite Forall_forall in F. specialize (F _ Q). unfold before in F. lia. }
    assert (Dn : forall x r, (x, r) ∈ L -> x ∈ done -> (x, r) ∈ zip done (g_out s)).
    { intros x r Q Qd. rewrite <- Fst in Qd. apply elem_of_list_fmap in Qd as ([x' r'] & -> & Q'). cbn. pose proof (Res _ _ Q') as Q2. apply InL in Q2 as [Q2 _]. apply InL in Q as [Q _]. cbn in Q.
      destruct x' as [c o]. destruct (nodup_fun _ _ _ _ _ _ Z1 Q Q2) as [_ ->]. exact Q'. }
    assert (Cx : cur = [] \/ exists z, cur = [z]) by (inversion I3; eauto). destruct Cx as [->|[z ->]].
    - exists []. rewrite app_nil_r. eapply StronglySorted_unique; [exact As|exact SL|exact SZ|]. apply NoDup_Permutation; [apply NDs, SL|apply NDs, SZ|].
      intros [x r]. split; [|apply Res]. intros Q. apply Dn; [exact Q|]. apply InL in Q as [_ Q]. rewrite app_nil_r in Q. exact Q.
    - assert (Dz : z ∈ map fst L \/ z ∉ map fst L).
      { destruct (decide (z.1 ∈ ids L)) as [Hz|Hz]; [left|right; intros Q; apply Hz; apply elem_of_list_fmap in Q as (y & -> & Q); apply elem_of_list_fmap; eauto].
        apply elem_of_list_fmap in Hz as ([y r] & Ez & Hz). cbn in Ez. apply elem_of_list_fmap. exists (y, r). split; [|exact Hz]. cbn. pose proof (InL _ _ Hz) as [_ Q]. apply in_snoc in Q as [Q| ->]; [|reflexivity].
        exfalso. rewrite map_app in NDl. apply NoDup_app in NDl as (_ & D & _). apply (D z.1); [rewrite Ez; apply elem_of_list_fmap; eauto|apply elem_of_list_singleton; reflexivity]. }
      destruct Dz as [Hz|Hz].
      + apply elem_of_list_fmap in Hz as ([z' r] & -> & Hz). cbn in *. exists [(z', r)]. eapply StronglySorted_unique; [exact As|exact SL| |].
        * apply sorted_snoc; [exact SZ|]. intros [y ry] Hy. cbn. apply elem_of_zip_l in Hy. clear -Srt Hy.
          induction done as [|a done IH]; [inversion Hy|]. cbn in Srt. apply StronglySorted_inv in Srt as [S F]. apply elem_of_cons in Hy as [->|Hy]; [|apply IH; assumption].
          rewrite Forall_forall in F. apply F, in_snoc. auto.
        * assert (Ns : NoDup (zip done (g_out s) ++ [(z', r)])).
          { apply NoDup_app. split_and!; [apply NDs, SZ| |apply NoDup_singleton]. intros [y ry] Hy Q. apply elem_of_list_singleton in Q. injection Q as -> ->. apply elem_of_zip_l in Hy.
            rewrite map_app in NDl. apply NoDup_app in NDl as (_ & D & _). apply (D z'.1); [apply elem_of_list_fmap; eauto|apply elem_of_list_singleton; reflexivity]. }
          apply NoDup_Permutation; [apply NDs, SL|exact Ns|]. intros [x rx]. rewrite in_snoc. split.
          -- intros Q. pose proof (InL _ _ Q) as [Q1 Q2]. apply in_snoc in Q2 as [Q2| ->]; [left; apply Dn; assumption|right]. f_equal. apply InL in Hz as [Hz _]. destruct z' as [c o]. apply (nodup_fun _ _ _ _ _ _ Z1 Q1 Hz).
          -- intros [Q|[= -> ->]]; [apply Res, Q|exact Hz].
      + exists []. rewrite app_nil_r. eapply StronglySorted_unique; [exact As|exact SL|exact SZ|]. apply NoDup_Permutation; [apply NDs, SL|apply NDs, SZ|].
        intros [x r]. split; [|apply Res]. intros Q. apply Dn; [exact Q|]. pose proof (InL _ _ Q) as [_ Q2]. apply in_snoc in Q2 as [Q2| ->]; [exact Q2|]. destruct Hz. apply elem_of_list_fmap. exists (z, r). auto. }
  destruct Pre as [tl EL]. rewrite EL, map_app, map_app, spec_run_app in R1.
  assert (Em : map lev (zip done (g_out s)) = map pev done) by (rewrite <- Fst at 2; rewrite map_map; reflexivity).
  rewrite Em, Snd in R1. destruct (spec_run canon spec0 (map pev done)) as [[sd ra]|] eqn:Rd; [|discriminate].
  destruct (spec_run canon sd _) as [[sf rb]|] eqn:Rf; [|discriminate]. injection R1 as <- R1.
  assert (Lr : length ra = length (g_out s)).
  { rewrite <- Len. clear -Rd. revert Rd. generalize spec0. revert ra. induction done as [|x l IH]; intros ra s0 H; cbn in H; [injection H as _ <-; reflexivity|].
    destruct (spec_step canon s0 _) as [[s1 y]|]; [|discriminate]. destruct (spec_run canon s1 _) as [[s2 ys]|] eqn:Q; [|discriminate]. injection H as -> <-. cbn. f_equal. eapply IH, Q. }
  apply app_inj_1 in R1 as [-> _]; [|exact Lr].
  rewrite map_app in NDl. apply NoDup_app in NDl as (NDd & _ & _).
  destruct (named_spec canon done evs _ _ I2 NDd _ _ Rd) as (sp' & Q & _). exists sp'.
  rewrite I4, take_app_alt by (rewrite <- Len; symmetry; eapply named_len, I2). exact Q.
Qed.

(** No call of such a program panics, nor does a call of the finalizer thread. *)
Theorem C68_no_panic_partial prog s c r f : ordinary E keyof (kevents 0 prog) -> keeps ∅ ∅ 0 prog -> gexec E prog s -> fstep E (g_full s) (RRet c r) f -> r <> RPanic.
Proof.
  intros O K X F ->. destruct (safe_exec prog s O K X) as (ls & done & evs & cur & evc & rem & held & old & I & A).
  pose proof (GI_ordinary _ _ _ _ _ _ _ _ _ _ O I) as O'.
  assert (Hn : forall c0 o, RInv c0 o ∉ [RRet c RPanic]) by (intros c0 o0 Q; apply elem_of_list_singleton in Q; discriminate).
  destruct (C60_full_linearizable E keyof (ls ++ [RRet c RPanic]) f) as (lin & sp & L & R).
  - econstructor; [apply I|exact F].
  - rewrite (begun_quiet _ _ Hn). exact O'.
  - apply (apart_quiet E keyof); [exact Hn|exact A].
  - destruct (lz_returned _ _ L c RPanic) as [op Hin]; [apply in_snoc; auto|].
    destruct (spec_run_in _ _ _ _ _ _ _ R Hin) as (sp1 & sp2 & S). destruct op as [p k|h|h [k v|k t|k|]]; cbn in S; destruct (_ !! _) in S; try discriminate S.
    injection S as _ S. unfold spec_get in S. destruct (_ !! k) in S; [destruct (decide _) in S|]; discriminate.
Qed.

(** ** The program completes *)

Inductive gsteps : gstate -> gstate -> Prop :=
| gs_refl s : gsteps s s
| gs_snoc s t u : gsteps s t -> gstep E t u -> gsteps s u.
Lemma gsteps_trans s t u : gsteps s t -> gsteps t u -> gsteps s u.
Proof. intros H1 H2. induction H2 as [t|t t1 u H2 IH S]; [exact H1|]. eapply gs_snoc; [apply IH, H1|exact S]. Qed.
Lemma gsteps_exec prog s t : gexec E prog s -> gsteps s t -> gexec E prog t.
Proof. intros X H. induction H as [t|t t1 u H IH S]; [exact X|]. eapply gx_step; [apply IH, X|exact S]. Qed.

Definition next_objs (s : gstate) : N := match g_call s with Some (_, true) => made s + 1 | _ => made s end.

(** The calls under way are the program's and the finalizer's; the objects the
    program has are usable. *)
Definition kind (b : bool) (o : rop) : Prop := if b then exists d k, o = OOpen d k else exists h q, o = OCall h q.
Notation rops s := (r_ops (u_reg (g_full s))).
Record GU (s : gstate) : Prop := {
  u_ops : forall c p o, rops s !! c = Some (p, o) -> (exists b, g_call s = Some (c, b)) \/ g_fin s = Some c;
  u_call : forall c b, g_call s = Some (c, b) -> exists p o, rops s !! c = Some (p, o) /\ kind b o;
  u_fin : forall c, g_fin s = Some c -> exists p h, rops s !! c = Some (p, OClose h);
  u_hh : HH (g_full s);
  u_fi : FI (g_full s);
  u_dom : forall x h, g_objs s !! x = Some h -> x < made s;
  u_inj : forall x y h, g_objs s !! x = Some h -> g_objs s !! y = Some h -> x = y;
  u_lt : forall x h, g_objs s !! x = Some h -> h < r_next (u_reg (g_full s)) /\ forall b, g_call s <> Some (h, b);
  u_lost : forall x, x ∈ g_lost s -> is_Some (g_objs s !! x);
  u_held : exists held, scoped (match g_call s with Some (_, true) => {[made s]} ∪ held | _ => held end) (next_objs s) (g_rest s) /\
    forall x, x ∈ held -> x ∉ g_lost s /\ exists h, g_objs s !! x = Some h /\ usable (u_reg (g_full s)) h
}.

Lemma GU_step s s' : GU s -> gstep E s s' -> GU s'.
Proof.
  intros [U1 Uc Uf U2 U3 U4 U5 U6 U7 (held & U8 & U9)] S.
  assert (Ops : forall a f, fstep E (g_full s) a f -> HH f /\ FI f /\ ops_step (g_full s) a f /\ (forall h, usable (u_reg (g_full s)) h -> (forall c, a <> RInv c (OClose h)) -> usable (u_reg f) h) /\
    (forall c v k1 k2 p, a = RRet c (ROk v) -> rops s !! c = Some (p, OOpen k1 k2) -> usable (u_reg f) c) /\ r_next (u_reg (g_full s)) <= r_next (u_reg f)).
  { intros a f F. destruct (HH_step E _ _ _ U3 U2 F) as (A1 & A2 & A3). destruct (FI_step E _ _ _ U3 F) as [A4 A5]. pose proof (os_next _ _ _ A5). split_and!; auto. }
  assert (Held : forall f (a : rlabel), (forall h, usable (u_reg (g_full s)) h -> (forall c, a <> RInv c (OClose h)) -> usable (u_reg f) h) -> (forall c h, a <> RInv c (OClose h)) ->
    forall x, x ∈ held -> x ∉ g_lost s /\ exists h, g_objs s !! x = Some h /\ usable (u_reg f) h).
  { intros f a A4 Ha x Hx. destruct (U9 _ Hx) as (Z1 & h & Z2 & Z3). split; [exact Z1|]. exists h. split; [exact Z2|]. apply A4; auto. }
  unfold next_objs in U8.
  inversion S as [s1 d key rest id f Hr Hc F|s1 x h o rest id f Hr Hc Hx Hl F|s1 id v f Hc F|s1 id r f Hc F Hp|s1 x h rest Hr Hc Hx|s1 x h id f Hf Hx Ho F|s1 id r f Hf F Hp|s1 f F]; subst; clear S.
  - destruct (Ops _ _ F) as (A1 & A2 & [O1 O2 O3 O4 O5] & A4 & A5 & A6). destruct (O2 _ _ eq_refl) as (Hid & Hn & p0 & Hp0). rewrite Hc, Hr in U8. cbn in U8.
    split; cbn; auto.
    + intros c p o Q. destruct (O4 _ _ _ Q) as [[p' Q']|Q']; [|injection Q' as <- <-; eauto]. destruct (U1 _ _ _ Q') as [[b Z]|Z]; [congruence|auto].
    + intros c b [= <- <-]. do 2 eexists. split; [exact Hp0|]. do 2 eexists. reflexivity.
    + intros c Q. destruct (Uf _ Q) as (p & h & Z). destruct (O3 _ _ _ Z) as [[p' Z']|[r Z']]; [eauto|discriminate].
    + intros x h Q. destruct (U6 _ _ Q) as [Q1 Q2]. split; [lia|]. intros b [= <- <-]. lia.
    + exists held. split; [exact U8|]. eapply Held; [exact A4|discriminate].
  - destruct (Ops _ _ F) as (A1 & A2 & [O1 O2 O3 O4 O5] & A4 & A5 & A6). destruct (O2 _ _ eq_refl) as (Hid & Hn & p0 & Hp0). rewrite Hc, Hr in U8. cbn in U8. destruct U8 as [_ U8].
    split; cbn; auto.
    + intros c p o' Q. destruct (O4 _ _ _ Q) as [[p' Q']|Q']; [|injection Q' as <- <-; eauto]. destruct (U1 _ _ _ Q') as [[b Z]|Z]; [congruence|auto].
    + intros c b [= <- <-]. do 2 eexists. split; [exact Hp0|]. do 2 eexists. reflexivity.
    + intros c Q. destruct (Uf _ Q) as (p & h' & Z). destruct (O3 _ _ _ Z) as [[p' Z']|[r Z']]; [eauto|discriminate].
    + intros y h' Q. destruct (U6 _ _ Q) as [Q1 Q2]. split; [lia|]. intros b [= <- <-]. lia.
    + exists held. split; [exact U8|]. eapply Held; [exact A4|discriminate].
  - destruct (Ops _ _ F) as (A1 & A2 & [O1 O2 O3 O4 O5] & A4 & A5 & A6). destruct (O5 _ _ eq_refl) as (p & o & Hop & _ & Hno). rewrite Hc in U8.
    assert (Fr : g_objs s !! made s = None). { destruct (g_objs s !! made s) eqn:Q; [|reflexivity]. apply U4 in Q. lia. }
    set (s' := GState f (g_rest s) None (<[made s := id]> (g_objs s)) (g_lost s) (g_fin s) (g_out s ++ [ROk v])).
    assert (Mk : made s' = made s + 1). { unfold made at 1. cbn. rewrite map_size_insert_None by exact Fr. unfold made. lia. }
    assert (Nx : next_objs s' = made s + 1) by exact Mk.
    destruct (Uc _ _ Hc) as (p1 & o1 & Hop1 & (dd & kk & ->)). assert (Hid : id < r_next (u_reg (g_full s))) by (apply (f_op _ U3 _ _ _ Hop1)).
    split; auto; rewrite ?Mk, ?Nx; cbn [g_full g_rest g_call g_objs g_lost g_fin g_out s'].
    + intros c q o' Q. destruct (O4 _ _ _ Q) as [[p' Q']|Q']; [|discriminate]. destruct (U1 _ _ _ Q') as [[b Z]|Z]; [|auto]. congruence.
    + discriminate.
    + intros c Q. destruct (Uf _ Q) as (q & h & Z). destruct (O3 _ _ _ Z) as [[p' Z']|[r Z']]; [eauto|]. injection Z' as Z' _. congruence.
    + intros x h Q. apply lookup_insert_Some in Q as [[<- _]|[_ Q]]; [lia|]. apply U4 in Q. lia.
    + intros x y h Q1 Q2. apply lookup_insert_Some in Q1 as [[<- <-]|[_ Q1]]; apply lookup_insert_Some in Q2 as [[<- Q2']|[_ Q2]]; auto.
      * destruct (U6 _ _ Q2) as [_ Z]. destruct (Z _ Hc).
      * subst. destruct (U6 _ _ Q1) as [_ Z]. destruct (Z _ Hc).
      * eauto.
    + intros x h Q. split; [|discriminate]. apply lookup_insert_Some in Q as [[<- <-]|[_ Q]]; [lia|]. destruct (U6 _ _ Q). lia.
    + intros x Hx. apply lookup_insert_is_Some'. auto.
    + exists ({[made s]} ∪ held). split; [exact U8|]. intros x Hx. apply elem_of_union in Hx as [Hx|Hx].
      * apply elem_of_singleton in Hx as ->. split. { intros Q. destruct (U7 _ Q). congruence. }
        exists id. rewrite lookup_insert. split; [reflexivity|]. eapply A5; [reflexivity|exact Hop1].
      * destruct (Held f _ A4 ltac:(discriminate) x Hx) as (Z1 & h & Z2 & Z3). split; [exact Z1|]. exists h. split; [|exact Z3]. rewrite lookup_insert_ne; [exact Z2|]. intros <-. congruence.
  - destruct (Ops _ _ F) as (A1 & A2 & [O1 O2 O3 O4 O5] & A4 & A5 & A6). destruct (O5 _ _ eq_refl) as (p & o & Hop & _ & Hno). rewrite Hc in U8.
    destruct (Uc _ _ Hc) as (p1 & o1 & Hop1 & (hh & qq & ->)).
    split; cbn; auto.
    + intros c q o' Q. destruct (O4 _ _ _ Q) as [[p' Q']|Q']; [|discriminate]. destruct (U1 _ _ _ Q') as [[b Z]|Z]; [|auto]. congruence.
    + discriminate.
    + intros c Q. destruct (Uf _ Q) as (q & h & Z). destruct (O3 _ _ _ Z) as [[p' Z']|[r' Z']]; [eauto|]. injection Z' as Z' _. congruence.
    + intros x h Q. split; [|discriminate]. destruct (U6 _ _ Q). lia.
    + exists held. split; [exact U8|]. eapply Held; [exact A4|discriminate].
  - rewrite Hc, Hr in U8. cbn in U8. destruct U8 as [U8 U8']. split; cbn; auto.
    + intros c q o' Q. destruct (U1 _ _ _ Q) as [[b Z]|Z]; [congruence|auto].
    + discriminate.
    + intros y h' Q. split; [|discriminate]. apply (U6 _ _ Q).
    + intros y Hy. apply elem_of_union in Hy as [Hy|Hy]; [apply elem_of_singleton in Hy as ->; eauto|auto].
    + exists (held ∖ {[x]}). split; [exact U8'|]. intros y Hy. apply elem_of_difference in Hy as [Hy Hne]. destruct (U9 _ Hy) as [Z1 Z2]. split; [set_solver|exact Z2].
  - destruct (Ops _ _ F) as (A1 & A2 & [O1 O2 O3 O4 O5] & A4 & A5 & A6). destruct (O2 _ _ eq_refl) as (Hid & Hn & p0 & Hp0).
    split; cbn; auto.
    + intros c p o' Q. destruct (O4 _ _ _ Q) as [[p' Q']|Q']; [|injection Q' as <- <-; eauto]. destruct (U1 _ _ _ Q') as [Z|Z]; [auto|congruence].
    + intros c b Q. destruct (Uc _ _ Q) as (p & o & Z & Zk). destruct (O3 _ _ _ Z) as [[p' Z']|[r Z']]; [eauto|discriminate].
    + intros c [= <-]. eauto.
    + intros y h' Q. destruct (U6 _ _ Q) as [Q1 Q2]. split; [lia|exact Q2].
    + intros y Hy. apply U7. set_solver.
    + exists held. split; [exact U8|]. intros y Hy. destruct (U9 _ Hy) as (Z1 & h' & Z2 & Z3). split; [set_solver|]. exists h'. split; [exact Z2|]. apply A4; [exact Z3|].
      intros c [= _ <-]. rewrite (U5 _ _ _ Z2 Ho) in Z1. contradiction.
  - destruct (Ops _ _ F) as (A1 & A2 & [O1 O2 O3 O4 O5] & A4 & A5 & A6). destruct (O5 _ _ eq_refl) as (p & o & Hop & _ & Hno).
    destruct (Uf _ Hf) as (p1 & h1 & Hop1).
    split; cbn; auto.
    + intros c q o' Q. destruct (O4 _ _ _ Q) as [[p' Q']|Q']; [|discriminate]. destruct (U1 _ _ _ Q') as [Z|Z]; [auto|]. congruence.
    + intros c b Q. destruct (Uc _ _ Q) as (p2 & o2 & Z & Zk). destruct (O3 _ _ _ Z) as [[p' Z']|[r' Z']]; [eauto|]. injection Z' as Z' _. subst c.
      rewrite Z in Hop1. injection Hop1 as -> ->. destruct b; destruct Zk as (? & ? & ?); discriminate.
    + discriminate.
    + intros x h Q. destruct (U6 _ _ Q) as [Q1 Q2]. split; [lia|exact Q2].
    + exists held. split; [exact U8|]. eapply Held; [exact A4|discriminate].
  - destruct (Ops _ _ F) as (A1 & A2 & [O1 O2 O3 O4 O5] & A4 & A5 & A6).
    split; cbn; auto.
    + intros c q o' Q. destruct (O4 _ _ _ Q) as [[p' Q']|Q']; [|discriminate]. eauto.
    + intros c b Q. destruct (Uc _ _ Q) as (p2 & o2 & Z & Zk). destruct (O3 _ _ _ Z) as [[p' Z']|[r' Z']]; [eauto|discriminate].
    + intros c Q. destruct (Uf _ Q) as (p2 & h2 & Z). destruct (O3 _ _ _ Z) as [[p' Z']|[r' Z']]; [eauto|discriminate].
    + intros x h Q. destruct (U6 _ _ Q) as [Q1 Q2]. split; [lia|exact Q2].
    + exists held. split; [exact U8|]. eapply Held; [exact A4|discriminate].
Qed.

Lemma GU_exec prog s : scoped ∅ 0 prog -> gexec E prog s -> GU s.
Proof.
  intros Sc X. induction X as [|s s' X IH S]; [|eapply GU_step; eassumption].
  split; cbn; try (intros *; rewrite lookup_empty; discriminate); try (intros *; discriminate).
  - apply HH_0.
  - apply FI_0.
  - exists ∅. split; [exact Sc|]. intros x Hx. set_solver.
Qed.

Lemma exec_ops ls f : fexec E full0 ls f -> (forall c p o, r_ops (u_reg f) !! c = Some (p, o) -> RInv c o ∈ ls) /\ (forall c r, RRet c r ∈ ls -> r_ops (u_reg f) !! c = None /\ c < r_next (u_reg f)).
Proof.
  intros X. pose proof (exec_ids _ _ X) as (FF & _). revert FF. induction X as [|ls f a f' X IH S]; intros FF; [split; [intros *; cbn; rewrite lookup_empty; discriminate|intros * Q; inversion Q]|].
  destruct (exec_ids _ _ X) as (F & _). destruct (IH F) as [I1 I2]. destruct (FI_step E _ _ _ F S) as [_ [O1 O2 O3 O4 O5]]. split.
  - intros c p o Q. apply in_snoc. destruct (O4 _ _ _ Q) as [[p' Q']| ->]; eauto.
  - intros c r Q. apply in_snoc in Q as [Q|Q].
    + destruct (I2 _ _ Q) as [Q1 Q2]. split; [|lia]. destruct (r_ops (u_reg f') !! c) as [[p o]|] eqn:Z; [exfalso|reflexivity]. destruct (O4 _ _ _ Z) as [[p' Z']|Z']; [congruence|]. destruct (O2 _ _ Z') as [-> _]. lia.
    + destruct (O5 c r (eq_sym Q)) as (p & o & Z & _ & Zn). split; [exact Zn|]. apply (f_op _ F) in Z. lia.
Qed.

Lemma ret_ok prog s c r f p o : ordinary E keyof (kevents 0 prog) -> keeps ∅ ∅ 0 prog -> gexec E prog s -> fstep E (g_full s) (RRet c r) f -> rops s !! c = Some (p, o) ->
  r <> RPanic /\ (forall d k, o = OOpen d k -> r = ROk None).
Proof.
  intros O K X F Hop. split; [eapply C68_no_panic_partial; eassumption|]. destruct (safe_exec prog s O K X) as (ls & done & evs & cur & evc & rem & held & old & I & A).
  pose proof (GI_ordinary _ _ _ _ _ _ _ _ _ _ O I) as O'. pose proof (i_exec _ _ _ _ _ _ _ _ _ _ I) as Ex.
  assert (Hn : forall c0 o0, RInv c0 o0 ∉ [RRet c r]) by (intros c0 o0 Q; apply elem_of_list_singleton in Q; discriminate).
  destruct (C60_full_linearizable E keyof (ls ++ [RRet c r]) f) as (lin & sp & L & R).
  - econstructor; [exact Ex|exact F].
  - rewrite (begun_quiet _ _ Hn). exact O'.
  - apply (apart_quiet E keyof); [exact Hn|exact A].
  - destruct (lz_returned _ _ L c r) as [op Hin]; [apply in_snoc; auto|]. intros d k ->.
    destruct (exec_ids _ _ Ex) as (_ & _ & Un & _). destruct (exec_ops _ _ Ex) as [Eo _]. pose proof (lz_called _ _ L _ _ _ Hin) as Q. apply in_snoc in Q as [Q|Q]; [|discriminate].
    rewrite (Un _ _ _ Q (Eo _ _ _ Hop)) in Hin.
    destruct (spec_run_in _ _ _ _ _ _ _ R Hin) as (sp1 & sp2 & S). cbn in S. destruct (_ !! c) in S; [discriminate|]. congruence.
Qed.

(** The call under way returns, and so does the finalizer's. *)
Lemma lift_returns prog s ls' f' : ordinary E keyof (kevents 0 prog) -> keeps ∅ ∅ 0 prog -> scoped ∅ 0 prog -> gexec E prog s ->
  fexec E (g_full s) ls' f' -> (forall c o, RInv c o ∉ ls') -> exists t, gsteps s t /\ g_full t = f' /\ g_rest t = g_rest s.
Proof.
  intros O K Sc X Y. induction Y as [|ls' f1 a f2 Y IH S]; intros Hn; [exists s; split_and!; [constructor|reflexivity..]|].
  destruct IH as (t & T1 & <- & T3). { intros c o Q. apply (Hn c o), in_snoc. auto. }
  pose proof (gsteps_exec _ _ _ X T1) as Xt. pose proof (GU_exec _ _ Sc Xt) as U. rewrite <- T3. destruct a as [|c o|c r].
  - eexists. split; [eapply gs_snoc; [exact T1|apply g_tau; exact S]|]. auto.
  - destruct (Hn c o). apply in_snoc. auto.
  - destruct (FI_step E _ _ _ (u_fi _ U) S) as [_ [_ _ _ _ O5]]. destruct (O5 _ _ eq_refl) as (p & o & Hop & _). destruct (ret_ok _ _ _ _ _ _ _ O K Xt S Hop) as [R1 R2].
    destruct (u_ops _ U _ _ _ Hop) as [[b Hb]|Hb].
    + destruct (u_call _ U _ _ Hb) as (p' & o' & Hop' & Kd). rewrite Hop in Hop'. injection Hop' as <- <-. destruct b.
      * destruct Kd as (d & k & ->). rewrite (R2 _ _ eq_refl) in S. eexists. split; [eapply gs_snoc; [exact T1|eapply g_made; [exact Hb|exact S]]|]. auto.
      * eexists. split; [eapply gs_snoc; [exact T1|eapply g_ret; [exact Hb|exact S|exact R1]]|]. auto.
    + eexists. split; [eapply gs_snoc; [exact T1|eapply g_finalized; [exact Hb|exact S|exact R1]]|]. auto.
Qed.

Lemma returned prog s : ordinary E keyof (kevents 0 prog) -> keeps ∅ ∅ 0 prog -> scoped ∅ 0 prog -> gexec E prog s -> exists t, gsteps s t /\ g_rest t = g_rest s /\ g_call t = None /\ g_fin t = None.
Proof.
  intros O K Sc X. destruct (safe_exec prog s O K X) as (ls & done & evs & cur & evc & rem & held & old & I & A). pose proof (GI_ordinary _ _ _ _ _ _ _ _ _ _ O I) as O'.
  pose proof (i_exec _ _ _ _ _ _ _ _ _ _ I) as Ex. destruct (C60_full_every_call_completes E keyof ls _ Ex O' A) as (ls' & f' & Y & Hn & Hr & _).
  destruct (lift_returns _ _ _ _ O K Sc X Y Hn) as (t & T1 & T2 & T3). pose proof (GU_exec _ _ Sc (gsteps_exec _ _ _ X T1)) as U.
  pose proof (fexec_app E _ _ _ Ex _ _ Y) as Ex'. destruct (exec_ops _ _ Ex') as [Eo Er].
  assert (Z : forall c p o, r_ops (u_reg (g_full t)) !! c = Some (p, o) -> False).
  { intros c p o Q. rewrite T2 in Q. pose proof (Eo _ _ _ Q) as Q'. apply elem_of_app in Q' as [Q'|Q']; [|exact (Hn _ _ Q')]. destruct (Hr _ _ Q') as [r Rr]. destruct (Er _ _ Rr). congruence. }
  exists t. split_and!; [exact T1|exact T3| |].
  - destruct (g_call t) as [[c b]|] eqn:Hc; [|reflexivity]. destruct (u_call _ U _ _ Hc) as (p & o & Q & _). destruct (Z _ _ _ Q).
  - destruct (g_fin t) as [c|] eqn:Hc; [|reflexivity]. destruct (u_fin _ U _ Hc) as (p & h & Q). destruct (Z _ _ _ Q).
Qed.

(** The next statement can always be done. *)
Lemma next_statement prog s st rest : ordinary E keyof (kevents 0 prog) -> keeps ∅ ∅ 0 prog -> scoped ∅ 0 prog -> gexec E prog s -> g_call s = None -> g_rest s = st :: rest ->
  exists t, gstep E s t /\ g_rest t = rest.
Proof.
  intros O K Sc X Hc Hr. pose proof (GU_exec _ _ Sc X) as U. destruct (u_held _ U) as (held & U8 & U9). unfold next_objs in U8. rewrite Hc, Hr in U8.
  destruct st as [d key|x o|x]; cbn in U8.
  - eexists. split; [eapply g_new; [exact Hr|exact Hc|]|reflexivity]. apply f_registry; [apply q_open|]. split; cbn; [reflexivity| |]; intros * Q; apply lookup_insert_Some in Q as [[_ Q]|[_ Q]]; congruence.
  - destruct U8 as [Hx _]. destruct (U9 _ Hx) as (Z1 & h & Z2 & Z3). pose proof Z3 as [[hd Hh] _].
    destruct (safe_exec prog s O K X) as (ls & done & evs & cur & evc & rem & hl & old & I & A). pose proof (GI_ordinary _ _ _ _ _ _ _ _ _ _ O I) as O'.
    destruct (FR_exec E keyof ls _ (i_exec _ _ _ _ _ _ _ _ _ _ I) O' A) as (rg & rm & _ & Fi & R).
    destruct (u_stores (g_full s) !! h_inst hd) as [sto|] eqn:Hst.
    + eexists. split; [eapply g_use; [exact Hr|exact Hc|exact Z2|exact Z1|]|reflexivity]. eapply f_call; [exact Z3|exact Hh|exact Hst|]. apply c_call.
    + exfalso. destruct (fr_dom _ _ _ _ R _ Hst) as [_ Y]. pose proof (v_handles _ _ _ _ (fr_world _ _ _ _ R)) as VH. rewrite VH in Hh.
      destruct (n_inst _ (fi_hn _ _ Fi) _ _ Hh) as [[y Hy] _]. congruence.
  - destruct U8 as [Hx _]. destruct (U9 _ Hx) as (Z1 & h & Z2 & Z3). eexists. split; [eapply g_forget; [exact Hr|exact Hc|exact Z2]|reflexivity].
Qed.

(** Such a program runs to its end from wherever it is: no call and no
    collection can stop it, and it gets an answer to every call. *)
Theorem C68_program_completes_partial prog s : ordinary E keyof (kevents 0 prog) -> keeps ∅ ∅ 0 prog -> scoped ∅ 0 prog -> gexec E prog s ->
  exists t, gsteps s t /\ g_rest t = [] /\ g_call t = None /\ length (g_out t) = length (kevents 0 prog).
Proof.
  intros O K Sc. remember (length (g_rest s)) as n eqn:Hn. revert s Hn. induction n as [n IH] using lt_wf_ind. intros s -> X.
  destruct (returned _ _ O K Sc X) as (t & T1 & T2 & T3 & _). pose proof (gsteps_exec _ _ _ X T1) as Xt. destruct (g_rest t) as [|st rest] eqn:Hr.
  - exists t. split_and!; auto. destruct (safe_exec prog t O K Xt) as (ls & done & evs & cur & evc & rem & hl & old & I & A). destruct I as [I1 I2 I3 I4 I5 I6 I7 I8 I9 I10 I11 I12].
    rewrite T3, Hr in I3. inversion I3; subst. rewrite I4. cbn. rewrite app_nil_r, (named_len _ _ _ _ I2). symmetry. eapply Forall2_length, I6.
  - destruct (next_statement _ _ _ _ O K Sc Xt T3 Hr) as (t1 & S & R1). pose proof (gx_step _ _ _ _ Xt S) as X1.
    destruct (IH (length (g_rest t1)) ltac:(rewrite R1, <- T2; cbn; lia) t1 eq_refl X1) as (u & V1 & V2). exists u. split; [|exact V2].
    eapply gsteps_trans; [eapply gs_snoc; [exact T1|exact S]|exact V1].
Qed.

End Run.

(** ** Programs and schedules *)

Inductive gchoice := YStmt | YFin (x : N) | YGo (c : N) | YBg (i : N).

Section Play.
Context (E : env).

Definition gdo (k : gchoice) (s : gstate) : option gstate :=
  match k with
  | YStmt =>
      match g_call s, g_rest s with
      | None, SNew d key :: rest =>
          match fdo E (FOpen d key) (g_full s) with
          | Some (RInv id (OOpen d' key'), f) => if bool_decide (d' = d /\ key' = key) then Some (GState f rest (Some (id, true)) (g_objs s) (g_lost s) (g_fin s) (g_out s)) else None
          | _ => None
          end
      | None, SCall x o :: rest =>
          match g_objs s !! x with
          | Some h => if bool_decide (x ∈ g_lost s) then None else
              match fdo E (FUse h o) (g_full s) with
              | Some (_, f) => Some (GState f rest (Some (r_next (u_reg (g_full s)), false)) (g_objs s) (g_lost s) (g_fin s) (g_out s))
              | _ => None
              end
          | None => None
          end
      | None, SForget x :: rest =>
          match g_objs s !! x with Some _ => Some (GState (g_full s) rest None (g_objs s) ({[x]} ∪ g_lost s) (g_fin s) (g_out s)) | None => None end
      | _, _ => None
      end
  | YFin x =>
      match g_fin s, g_objs s !! x with
      | None, Some h => if bool_decide (x ∈ g_lost s) then
          match fdo E (FClose h) (g_full s) with
          | Some (_, f) => Some (GState f (g_rest s) (g_call s) (g_objs s) (g_lost s ∖ {[x]}) (Some (r_next (u_reg (g_full s)))) (g_out s))
          | None => None
          end else None
      | _, _ => None
      end
  | YGo c =>
      match fdo E (FGo c) (g_full s) with
      | Some (RTau, f) => Some (GState f (g_rest s) (g_call s) (g_objs s) (g_lost s) (g_fin s) (g_out s))
      | Some (RRet c' r, f) =>
          match r with
          | RPanic => None
          | _ =>
              if bool_decide (g_call s = Some (c', true)) then
                match r with ROk v => Some (GState f (g_rest s) None (<[made s := c']> (g_objs s)) (g_lost s) (g_fin s) (g_out s ++ [ROk v])) | _ => None end
              else if bool_decide (g_call s = Some (c', false)) then Some (GState f (g_rest s) None (g_objs s) (g_lost s) (g_fin s) (g_out s ++ [r]))
              else if bool_decide (g_fin s = Some c') then Some (GState f (g_rest s) (g_call s) (g_objs s) (g_lost s) None (g_out s))
              else None
          end
      | _ => None
      end
  | YBg i =>
      match fdo E (FBg i) (g_full s) with
      | Some (RTau, f) => Some (GState f (g_rest s) (g_call s) (g_objs s) (g_lost s) (g_fin s) (g_out s))
      | _ => None
      end
  end.

Lemma gdo_ok k s t : gdo k s = Some t -> gstep E s t.
Proof.
  destruct k as [|x|c|i]; cbn [gdo].
  - destruct (g_call s) eqn:Hc; [discriminate|]. destruct (g_rest s) as [|[d key|x o|x] rest] eqn:Hr; [discriminate|..].
    + destruct (fdo E (FOpen d key) (g_full s)) as [[[|id [d' key'|?|? ?]|? ?] f]|] eqn:F; try discriminate. case_bool_decide as B; [|discriminate]. destruct B as [-> ->]. intros [= <-]. eapply g_new; [exact Hr|exact Hc|eapply fdo_ok, F].
    + destruct (g_objs s !! x) as [h|] eqn:Hx; [|discriminate]. case_bool_decide as B; [discriminate|]. destruct (fdo E (FUse h o) (g_full s)) as [[a f]|] eqn:F; [|discriminate]. intros [= <-].
      eapply g_use; [exact Hr|exact Hc|exact Hx|exact B|]. pose proof (fdo_ok _ _ _ _ _ F) as G. cbn [fdo] in F. destruct (usableb _ _); [|discriminate]. destruct (w_handles _ !! h); [|discriminate]. destruct (u_stores _ !! _); [|discriminate].
      injection F as <- _. exact G.
    + destruct (g_objs s !! x) as [h|] eqn:Hx; [|discriminate]. intros [= <-]. eapply g_forget; eassumption.
  - destruct (g_fin s) eqn:Hf; [discriminate|]. destruct (g_objs s !! x) as [h|] eqn:Hx; [|discriminate]. case_bool_decide as B; [|discriminate].
    destruct (fdo E (FClose h) (g_full s)) as [[a f]|] eqn:F; [|discriminate]. intros [= <-]. eapply g_finalize; [exact Hf|exact B|exact Hx|].
    pose proof (fdo_ok _ _ _ _ _ F) as G. cbn in F. unfold freg in F. cbn in F. destruct (_ && _) in F; [|discriminate]. injection F as <- _. exact G.
  - destruct (fdo E (FGo c) (g_full s)) as [[[|? ?|c' r] f]|] eqn:F; try discriminate.
    + intros [= <-]. apply g_tau. eapply fdo_ok, F.
    + intros H. apply fdo_ok in F. assert (Np : r <> RPanic) by (intros ->; discriminate H).
      assert (H' : (if bool_decide (g_call s = Some (c', true)) then
                match r with ROk v => Some (GState f (g_rest s) None (<[made s := c']> (g_objs s)) (g_lost s) (g_fin s) (g_out s ++ [ROk v])) | _ => None end
              else if bool_decide (g_call s = Some (c', false)) then Some (GState f (g_rest s) None (g_objs s) (g_lost s) (g_fin s) (g_out s ++ [r]))
              else if bool_decide (g_fin s = Some c') then Some (GState f (g_rest s) (g_call s) (g_objs s) (g_lost s) None (g_out s))
              else None) = Some t) by (destruct r; [exact H|exact H|discriminate H]). clear H.
      case_bool_decide as B1; [destruct r; try discriminate H'; injection H' as <-; eapply g_made; eassumption|].
      case_bool_decide as B2; [injection H' as <-; eapply g_ret; eassumption|]. case_bool_decide as B3; [|discriminate H']. injection H' as <-. eapply g_finalized; eassumption.
  - destruct (fdo E (FBg i) (g_full s)) as [[[|? ?|? ?] f]|] eqn:F; try discriminate. intros [= <-]. apply g_tau. eapply fdo_ok, F.
Qed.

(** A step that is not possible is passed over. *)
Fixpoint gplay (ks : list gchoice) (s : gstate) : gstate :=
  match ks with [] => s | k :: r => gplay r (match gdo k s with Some t => t | None => s end) end.

Lemma gplay_ok prog ks : forall s, gexec E prog s -> gexec E prog (gplay ks s).
Proof.
  induction ks as [|k ks IH]; intros s X; cbn; [exact X|]. apply IH. destruct (gdo k s) as [t|] eqn:D; [|exact X]. econstructor; [exact X|eapply gdo_ok, D].
Qed.
End Play.

(** ** Examples *)

Definition yg (c : N) (n : nat) : list gchoice := repeat (YGo c) n.

(** A program with three objects of a directory; the finalizer closes the
    first while the third is being opened, the second while the third is
    used. *)
Definition ex_prog : list kstmt :=
  [SNew dir_d ex_key; SCall 0 (CPut k1 (VI32 5)); SNew dir_d ex_key; SForget 0; SNew dir_d ex_key; SCall 2 (CGet k1 TI32); SForget 1; SCall 2 (CDel k1); SCall 2 (CGet k1 TI32)].
Definition ex_choices : list gchoice :=
  [YStmt] ++ yg 0 12 ++ [YStmt] ++ yg 1 20 ++ [YStmt] ++ yg 2 12 ++ [YStmt; YFin 0; YGo 3; YGo 3; YStmt; YGo 4; YGo 3; YGo 3; YGo 4; YGo 4; YGo 3; YGo 3] ++ yg 4 12 ++
  [YStmt; YGo 3] ++ yg 5 12 ++ [YStmt; YFin 1; YStmt; YGo 6; YGo 7; YGo 7; YGo 6; YGo 7; YGo 6; YGo 6] ++ yg 7 12 ++ yg 6 8 ++ [YBg 0; YBg 0; YBg 0; YStmt] ++ yg 8 12.

Example C68_example : exists s, let E := ex_env FPlain in
  ordinary E ex_keyof (kevents 0 ex_prog) /\ keeps ∅ ∅ 0 ex_prog /\ scoped ∅ 0 ex_prog /\ gexec E ex_prog s /\
  g_rest s = [] /\ g_call s = None /\ g_fin s = None /\ g_lost s = ∅ /\
  g_out s = [ROk None; ROk None; ROk None; ROk None; ROk (Some (VI32 5)); ROk None; RErr KeyNotFound].
Proof.
  set (s := gplay (ex_env FPlain) ex_choices (gstate0 ex_prog)).
  assert (T : (g_rest s, g_call s, g_fin s, elements (g_lost s), g_out s) = ([], None, None, [], [ROk None; ROk None; ROk None; ROk None; ROk (Some (VI32 5)); ROk None; RErr KeyNotFound])) by (vm_compute; reflexivity).
  assert (X : gexec (ex_env FPlain) ex_prog s) by (apply gplay_ok; constructor). clearbody s.
  exists s. cbn [fst snd]. injection T as T1 T2 T3 T4 T5. split_and!; auto.
  - apply ordinaryb_ok; [apply ex_env_ok; exact Logic.I|vm_compute; reflexivity].
  - cbn. split_and!; auto; try set_solver; intros _; first [exists 0; reflexivity|exists 1; reflexivity].
  - cbn. split_and!; auto; set_solver.
  - apply elements_empty_inv in T4. apply leibniz_equiv, T4.
Qed.

(** Without it: the program makes an object, stores a value, lets go of the
    object and makes another one of the same directory.  The finalizer thread
    has unregistered the first store but not waited for its background thread
    when the second opening reads the file: the value is not there. *)
Definition lost_prog : list kstmt :=
  [SNew dir_d ex_key; SCall 0 (CPut k1 (VI32 5)); SForget 0; SNew dir_d ex_key; SCall 1 (CGet k1 TI32)].
Definition lost_choices : list gchoice :=
  [YStmt] ++ yg 0 12 ++ [YStmt] ++ yg 1 20 ++ [YStmt; YFin 0] ++ yg 2 4 ++ [YStmt] ++ yg 3 12 ++ [YStmt] ++ yg 4 12.

Theorem C68_collector_refuted : exists E keyof prog s,
  ordinary E keyof (kevents 0 prog) /\ scoped ∅ 0 prog /\ gexec E prog s /\ ~ answers_right (e_canon E) prog (g_out s).
Proof.
  set (s := gplay (ex_env FPlain) lost_choices (gstate0 lost_prog)).
  assert (T : (g_rest s, g_call s, g_out s) = ([], None, [ROk None; ROk None; ROk None; RErr KeyNotFound])) by (vm_compute; reflexivity).
  assert (X : gexec (ex_env FPlain) lost_prog s) by (apply gplay_ok; constructor). clearbody s.
  exists (ex_env FPlain), ex_keyof, lost_prog, s. injection T as T1 T2 T3. split_and!.
  - apply ordinaryb_ok; [apply ex_env_ok; exact Logic.I|vm_compute; reflexivity].
  - cbn. split_and!; auto; set_solver.
  - exact X.
  - rewrite T3. intros [sp Q]. apply (f_equal (option_map snd)) in Q. cbn [option_map snd] in Q.
    assert (T : option_map snd (spec_run (e_canon (ex_env FPlain)) spec0 (take 4 (kevents 0 lost_prog))) = Some [ROk None; ROk None; ROk None; ROk (Some (VI32 5))]) by (vm_compute; reflexivity).
    cbn [length] in Q. rewrite T in Q. discriminate Q.
Qed.
