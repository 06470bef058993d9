(** C73, C74: what the log lines show. *)
From Coq Require Import String ZArith ZifyBool ZifyNat ZifyN DecimalString DecimalZ.
From Verif Require Import Bytes Utf8 Proto ProtoFacts Value Codec Store StoreFacts Encrypt World Spec Hyps Refine WorldInv WorldStep Main Frames Reach Examples P_Map P_Store P_Fail Logging P_Log Ffi P_Ffi P_Ffi2 Lines.
Local Open Scope N_scope.
Local Notation "$ s" := (str s%string) (at level 9, s at level 0, only parsing).

(** ** C73: values and the log *)

Section C73.
Context (F : fmt) (pick : heap -> ptr) (text : err -> bytes) (PO : allocator_ok pick) (E : env) (keyof : bytes -> bytes).
Notation canon := (e_canon E).
Notation lines := (lines F pick text E).
Notation shown := (shown F pick text E).
Notation log_of := (log_of F pick text E).
Notation cexec := (cexec pick text E).
Notation cstep := (cstep pick text E).

Lemma shows_leak c p : shows (leak_line F c p).2 (f_cell F c).
Proof. unfold leak_line, ffi, tagged. cbn [snd]. exists ($"[" ++ $"MMKV:FFI" ++ $"] " ++ $"leak "), ($", ptr: " ++ f_ptr F p). rewrite <- !app_assoc. reflexivity. Qed.

(** The answer of a put, get or delete. *)
Lemma step_answer cs s o e w r : cexec cs s o -> ordinary E keyof (events cs ++ [e]) -> step E (c_world s) e = Some (w, r) ->
  exists sp rs sp', spec_run canon spec0 (events cs) = Some (sp, rs) /\ spec_step canon sp e = Some (sp', r).
Proof.
  intros X HO Hs. destruct (crun_world pick text E cs s o X) as [rs Hr].
  assert (Hr2 : run E world0 (events cs ++ [e]) = Some (w, rs ++ [r])) by (rewrite run_app, Hr; cbn [run]; rewrite Hs; reflexivity).
  destruct (reach E keyof _ HO w _ Hr2) as (sp2 & Hsp & _).
  rewrite spec_run_app in Hsp. destruct (spec_run canon spec0 (events cs)) as [[sp rs1]|] eqn:Q1; [|discriminate].
  cbn [spec_run] in Hsp. destruct (spec_step canon sp e) as [[sp' r']|] eqn:Q2; [|discriminate]. injection Hsp as <- Hrs.
  assert (Hrr : rs1 = rs /\ r' = r) by (apply app_inj_tail, Hrs). destruct Hrr as [-> ->]. eauto.
Qed.

(** Whatever is read through the C interface, except a text, is in the log. *)
Theorem C73_values_read_are_logged cs s o p key g sp rs sp' v :
  cexec cs s o -> allowed o (CGet p key g) -> utf8_valid (cstr key) = true -> ordinary E keyof (events cs ++ [EGet p (cstr key) (c_type g)]) ->
  spec_run canon spec0 (events cs) = Some (sp, rs) -> spec_step canon sp (EGet p (cstr key) (c_type g)) = Some (sp', ROk (Some v)) ->
  c_level s = 5%Z -> g <> CStr ->
  exists m, (Verbose, m) ∈ shown s (CGet p key g) /\ shows m (f_value F v).
Proof.
  intros X Al Ht HO Hsp He Lv Hg.
  destruct (C53_answers_of_a_map pick text PO E keyof cs s o (CGet p key g) _ X Al Ht eq_refl eq_refl HO) as (sp2 & rs2 & sp3 & r & s' & q & x & A1 & A2 & _ & A4 & _).
  rewrite Hsp in A1. injection A1 as <- <-. rewrite He in A2. injection A2 as <- <-.
  cbn [Ffi.cstep] in A4. unfold arg in A4. rewrite Ht in A4. unfold with_buffer in A4.
  assert (T : type_of v = c_type g).
  { cbn [spec_step] in He. destruct (sp_handles sp !! p); [|discriminate]. injection He as _ He. unfold spec_get in He.
    destruct (contents _ _ !! _) as [v'|]; [|discriminate]. destruct (decide _); [|discriminate]. congruence. }
  assert (Q : exists m, (Verbose, m) ∈ lines s (CGet p key g) /\ shows m (f_value F v)).
  { cbn [Lines.lines]. unfold answer_lines. destruct (step E (c_world s) _) as [[w r]|]; [|discriminate].
    assert (r = ROk (Some v)) as ->.
    { destruct (finish _ _ _ _ _) as [[? ?]| |]; cbn in A4; try discriminate. congruence. }
    unfold finish_lines.
    destruct v; destruct g; try discriminate T; try (now destruct Hg); cbn [convert_lines data_lines];
      try (match goal with |- context [leak_line F (MElems ?v) ?p] => exists (leak_line F (MElems v) p).2 end;
           split; [apply elem_of_app; left; apply elem_of_app; left; apply elem_of_list_singleton; reflexivity|apply shows_leak]);
      (match goal with |- context [leak_line F (MScalar ?v) ?p] => exists (leak_line F (MScalar v) p).2 end;
       split; [apply elem_of_app; left; apply elem_of_app; right; apply elem_of_app; right; apply elem_of_list_singleton; reflexivity|apply shows_leak]). }
  destruct Q as (m & Q1 & Q2). exists m. split; [|exact Q2]. apply elem_of_list_filter. split; [cbn; lia|exact Q1].
Qed.

(** Writing does not show the value. *)
Theorem C73_writing_shows_no_value_partial cs s o p key v v' :
  cexec cs s o -> allowed o (CPut p key v) -> allowed o (CPut p key v') -> texts_ok (CPut p key v) -> texts_ok (CPut p key v') ->
  type_of v = type_of v' ->
  ordinary E keyof (events cs ++ [EPut p (cstr key) (cvalue v)]) -> ordinary E keyof (events cs ++ [EPut p (cstr key) (cvalue v')]) ->
  lines s (CPut p key v) = lines s (CPut p key v') /\ shown s (CPut p key v) = shown s (CPut p key v').
Proof.
  intros X A1 A2 T1 T2 Ty O1 O2.
  assert (Q : lines s (CPut p key v) = lines s (CPut p key v')); [|split; [exact Q|unfold Lines.shown; rewrite Q; reflexivity]].
  assert (P : forall u, allowed o (CPut p key u) -> texts_ok (CPut p key u) -> ordinary E keyof (events cs ++ [EPut p (cstr key) (cvalue u)]) ->
    exists w, step E (c_world s) (EPut p (cstr key) (cvalue u)) = Some (w, ROk None)).
  { intros u A T O. destruct (answer_call pick text PO E cs s o (CPut p key u) _ X A T eq_refl eq_refl) as (w & r & Hs & _).
    destruct (step_answer cs s o _ w r X O Hs) as (sp & rs & sp' & B1 & B2). cbn [spec_step] in B2.
    destruct (sp_handles sp !! p); [|discriminate]. injection B2 as _ <-. eauto. }
  destruct (P v A1 T1 O1) as [w H1], (P v' A2 T2 O2) as [w' H2]. cbn [Lines.lines]. unfold answer_lines.
  change (match v with VStr x => VStr (cstr x) | _ => v end) with (cvalue v). change (match v' with VStr x => VStr (cstr x) | _ => v' end) with (cvalue v').
  rewrite H1, H2. replace (put_fun v') with (put_fun v); [reflexivity|]. destruct v, v'; try discriminate Ty; reflexivity.
Qed.

(** Reading a text shows its key and addresses only; so does freeing it. *)
Theorem C73_texts_are_not_logged_partial cs s o p key sp rs sp' x :
  cexec cs s o -> allowed o (CGet p key CStr) -> utf8_valid (cstr key) = true -> ordinary E keyof (events cs ++ [EGet p (cstr key) TStr]) ->
  spec_run canon spec0 (events cs) = Some (sp, rs) -> spec_step canon sp (EGet p (cstr key) TStr) = Some (sp', ROk (Some (VStr x))) ->
  exists d q s1, cstep s (CGet p key CStr) = Done (s1, RBuffer q (ROk (Some (VStr x)))) /\
    lines s (CGet p key CStr) =
      [(Verbose, ffi ($"get string for key '" ++ cstr key ++ $"' success"));
       (Verbose, ffi ($"leak RawBuffer { raw_data: " ++ f_ptr F d ++ $", type_token: Str, err: " ++ f_ptr F 0 ++ $" }, ptr: " ++ f_ptr F q))] /\
    lines s1 (CFree q) =
      [(Verbose, ffi ($"release RawBuffer { raw_data: " ++ f_ptr F d ++ $", type_token: Str, err: " ++ f_ptr F 0 ++ $" }, ptr: " ++ f_ptr F q))].
Proof.
  intros X Al Ht HO Hsp He.
  destruct (C53_answers_of_a_map pick text PO E keyof cs s o (CGet p key CStr) _ X Al Ht eq_refl eq_refl HO) as (sp2 & rs2 & sp3 & r & s' & q & y & A1 & A2 & _ & A4 & _).
  rewrite Hsp in A1. injection A1 as <- <-. cbn [c_type] in A2. rewrite He in A2. injection A2 as <- <-.
  pose proof A4 as A5. cbn [Ffi.cstep] in A4. unfold arg in A4. rewrite Ht in A4. unfold with_buffer in A4.
  destruct (step E (c_world s) _) as [[w r]|] eqn:Hs; [|discriminate].
  assert (r = ROk (Some (VStr x))) as -> by (destruct (finish _ _ _ _ _) as [[? ?]| |]; cbn in A4; congruence).
  cbn [Lines.lines]. unfold answer_lines. rewrite Hs. unfold finish_lines.
  cbn [finish leak_data obind convert_lines data_lines] in *. destruct (leak_slice pick x (c_heap s)) as [d h1] eqn:L.
  cbn [obind] in A4. unfold alloc in *. cbn [layout fst snd get_token] in *. change (24 =? 0) with false in *. cbv iota in *. cbn [obind] in A4.
  injection A4 as <- <-. exists d, (pick h1), (CState w (<[pick h1 := MBuffer d CStr 0]> h1) (c_level s)). split; [exact A5|].
  unfold buffer_line. rewrite lookup_insert. split.
  - cbn [app]. unfold success_line, leak_line, ffi, tagged, kind. cbn [f_cell f_type]. rewrite <- !app_assoc. reflexivity.
  - unfold free_lines. cbn [c_heap]. rewrite lookup_insert. unfold free_data_lines. cbn [app].
    assert (Z : (if d =? 0 then [] else []) = @nil (level * line)) by (destruct (d =? 0); reflexivity). rewrite Z. cbn [app].
    change (0 =? 0) with true. cbv iota. unfold release_line, ffi, tagged. cbn [f_cell f_type]. rewrite <- !app_assoc. reflexivity.
Qed.

(** ** Below Verbose *)

(** Events that differ at most in the value put. *)
Definition ev_like (e e' : event) : Prop :=
  match e, e' with
  | EPut h k v, EPut h' k' v' => h = h' /\ k = k' /\ type_of v = type_of v'
  | _, _ => e = e'
  end.

Definition ans_like (r r' : result) : Prop :=
  match r, r' with ROk _, ROk _ | RPanic, RPanic => True | RErr e, RErr e' => e = e' | _, _ => False end.

Definition sp_like (a b : spec) : Prop :=
  sp_handles a = sp_handles b /\ forall d k, type_of <$> contents a d !! k = type_of <$> contents b d !! k.

Lemma sp_like_set a b d m m' : sp_like a b -> (forall k, type_of <$> m !! k = type_of <$> m' !! k) -> sp_like (set_contents a d m) (set_contents b d m').
Proof.
  intros [H1 H2] M. split; [exact H1|]. intros d' k. unfold contents, set_contents. cbn [sp_dirs].
  destruct (decide (d = d')) as [<-|N].
  - rewrite !lookup_insert. apply M.
  - rewrite !lookup_insert_ne by exact N. apply H2.
Qed.

Lemma like_insert (m m' : gmap bytes value) k0 v v' : type_of v = type_of v' -> (forall k, type_of <$> m !! k = type_of <$> m' !! k) ->
  forall k, type_of <$> <[k0 := v]> m !! k = type_of <$> <[k0 := v']> m' !! k.
Proof. intros T M k. destruct (decide (k0 = k)) as [<-|N]; [rewrite !lookup_insert; cbn; congruence|rewrite !lookup_insert_ne by exact N; apply M]. Qed.
Lemma like_delete (m m' : gmap bytes value) k0 : (forall k, type_of <$> m !! k = type_of <$> m' !! k) ->
  forall k, type_of <$> delete k0 m !! k = type_of <$> delete k0 m' !! k.
Proof. intros M k. destruct (decide (k0 = k)) as [<-|N]; [rewrite !lookup_delete; reflexivity|rewrite !lookup_delete_ne by exact N; apply M]. Qed.

Lemma spec_like cn a b e e' a1 r : sp_like a b -> ev_like e e' -> spec_step cn a e = Some (a1, r) ->
  exists b1 r', spec_step cn b e' = Some (b1, r') /\ sp_like a1 b1 /\ ans_like r r'.
Proof.
  intros L Ev S. pose proof L as [L1 L2].
  assert (Q : forall d m m', sp_like a b -> (forall k, type_of <$> m !! k = type_of <$> m' !! k) -> sp_like (set_contents a d m) (set_contents b d m'))
    by (intros; apply sp_like_set; assumption).
  destruct e, e'; try discriminate Ev; cbn [ev_like] in Ev; try (destruct Ev as (<- & <- & Ty));
    repeat match goal with H : _ = _ :> event |- _ => injection H; clear H; intros; subst end; cbn [spec_step] in *; rewrite <- ?L1;
    try discriminate S.
  - destruct (sp_handles a !! h0); [discriminate|]. injection S as <- <-. eexists _, _. split; [reflexivity|]. split; [|exact Logic.I].
    split; [cbn [sp_handles]; rewrite ?L1; reflexivity|exact L2].
  - destruct (sp_handles a !! h) as [d|]; [|discriminate]. injection S as <- <-. eexists _, _. split; [reflexivity|]. split; [|exact Logic.I].
    apply Q; [exact L|]. apply like_insert; [exact Ty|apply L2].
  - destruct (sp_handles a !! h0) as [d|]; [|discriminate]. injection S as <- <-. eexists _, _. split; [reflexivity|]. split; [exact L|].
    unfold spec_get. specialize (L2 d key0). destruct (contents a d !! key0), (contents b d !! key0); try discriminate L2; cbn in L2; [|reflexivity].
    injection L2 as L2. rewrite <- L2. destruct (decide _); [exact Logic.I|reflexivity].
  - destruct (sp_handles a !! h0) as [d|]; [|discriminate]. injection S as <- <-. eexists _, _. split; [reflexivity|]. split; [|exact Logic.I].
    apply Q; [exact L|]. apply like_delete, L2.
  - destruct (sp_handles a !! h0) as [d|]; [|discriminate]. injection S as <- <-. eexists _, _. split; [reflexivity|]. split; [|exact Logic.I].
    apply Q; [exact L|]. reflexivity.
  - destruct (sp_handles a !! h0) as [d|]; [|discriminate]. injection S as <- <-. eexists _, _. split; [reflexivity|]. split; [|exact Logic.I].
    split; [cbn [sp_handles]; rewrite ?L1; reflexivity|exact L2].
  - injection S as <- <-. eexists _, _. split; [reflexivity|]. split; [exact L|exact Logic.I].
Qed.

Lemma spec_run_like cn es es' : Forall2 ev_like es es' -> forall a b a1 rs, sp_like a b -> spec_run cn a es = Some (a1, rs) ->
  exists b1 rs', spec_run cn b es' = Some (b1, rs') /\ sp_like a1 b1 /\ Forall2 ans_like rs rs'.
Proof.
  induction 1 as [|e e' es es' He Hes IH]; intros a b a1 rs L; cbn [spec_run].
  - intros [= <- <-]. eauto.
  - destruct (spec_step cn a e) as [[a2 x]|] eqn:S; [|discriminate].
    destruct (spec_like cn a b e e' a2 x L He S) as (b2 & x' & S' & L' & X). rewrite S'.
    destruct (spec_run cn a2 es) as [[a3 xs]|] eqn:R; [|discriminate]. intros [= <- <-].
    destruct (IH a2 b2 a3 xs L' R) as (b3 & xs' & R' & L3 & X'). rewrite R'. eexists _, _. split; [reflexivity|]. split; [exact L3|constructor; assumption].
Qed.

Lemma log_snoc cs s o c : cexec cs s o -> log_of cstate0 (map fst cs ++ [c]) = log_of cstate0 (map fst cs) ++ shown s c.
Proof.
  intros X. assert (G : forall l s0 s1, (exists xs, crun pick text E s0 l = Done (s1, xs)) ->
    log_of s0 (l ++ [c]) = log_of s0 l ++ shown s1 c).
  { clear. induction l as [|a l IH]; intros s0 s1 [xs H]; cbn [crun Lines.log_of app] in *.
    - injection H as <- _. destruct (cstep s0 c) as [[? ?]| |]; rewrite app_nil_r; reflexivity.
    - destruct (cstep s0 a) as [[s2 x]| |]; try discriminate. cbn [obind] in H.
      destruct (crun pick text E s2 l) as [[s3 ys]| |] eqn:R; try discriminate. cbn [obind] in H. injection H as <- _.
      rewrite (IH s2 s3) by eauto. rewrite app_assoc. reflexivity. }
  apply G. clear G. induction X as [|cs s o c' s' x X [xs IH] Al Hs].
  - eexists. reflexivity.
  - rewrite map_app. cbn [map fst]. assert (G : forall l s0 s1 xs, crun pick text E s0 l = Done (s1, xs) ->
      crun pick text E s0 (l ++ [c']) = obind (cstep s1 c') (fun '(s2, y) => Done (s2, xs ++ [y]))).
    { clear. induction l as [|a l IH]; intros s0 s1 xs H; cbn [crun app] in *.
      - injection H as <- <-. destruct (cstep s0 c') as [[? ?]| |]; reflexivity.
      - destruct (cstep s0 a) as [[s2 x]| |]; try discriminate. cbn [obind] in *.
        destruct (crun pick text E s2 l) as [[s3 ys]| |] eqn:R; try discriminate. cbn [obind] in H. injection H as <- <-.
        rewrite (IH s2 s3 ys R). destruct (cstep s3 c') as [[? ?]| |]; reflexivity. }
    rewrite (G _ _ _ _ IH), Hs. cbn [obind]. eauto.
Qed.

(** Below Verbose only failures are shown. *)
Lemma quiet_all l : Forall (fun x : level * line => x.1 = Verbose) l -> forall z, (z < 5)%Z -> filter (fun l : level * line => (code l.1 <= z)%Z) l = [].
Proof.
  induction 1 as [|[a b] l H _ IH]; intros z Hz; [reflexivity|]. cbn in H. subst a. rewrite filter_cons_False by (cbn; lia). apply IH, Hz.
Qed.

Lemma verbose_app l l' : Forall (fun x : level * line => x.1 = Verbose) l -> Forall (fun x : level * line => x.1 = Verbose) l' ->
  Forall (fun x : level * line => x.1 = Verbose) (l ++ l').
Proof. intros. apply Forall_app. auto. Qed.

Lemma error_lines_verbose e h : Forall (fun x : level * line => x.1 = Verbose) (error_lines F pick text e h).
Proof.
  unfold error_lines. destruct (map_error pick text e h) as [[c h1]| |]; [|constructor..]. apply verbose_app; [|repeat constructor].
  destruct c; try constructor. destruct reason; [constructor|]. destruct (h1 !! _); repeat constructor.
Qed.

Lemma finish_lines_quiet log key ok g r h z : ok.1 = Verbose -> (z < 5)%Z ->
  filter (fun l : level * line => (code l.1 <= z)%Z) (finish_lines F pick text log key ok g r h) =
  match r with RErr e => if decide (1 <= z)%Z then [failed_line F log key e] else [] | _ => [] end.
Proof.
  intros Hok Hz. unfold finish_lines. rewrite filter_app.
  assert (B : filter (fun l : level * line => (code l.1 <= z)%Z) (match finish pick text g r h with Done (p, h1) => buffer_line F p h1 | _ => [] end) = []).
  { apply quiet_all; [|exact Hz]. destruct (finish _ _ _ _ _) as [[p h1]| |]; [|constructor..]. unfold buffer_line. destruct (h1 !! p); repeat constructor. }
  rewrite B, app_nil_r. destruct r as [[v|]|e|].
  - apply quiet_all; [|exact Hz]. apply verbose_app; [|apply verbose_app].
    + destruct v; repeat constructor.
    + repeat constructor. exact Hok.
    + unfold data_lines. destruct v; try (destruct (alloc pick (MElems _) h)); repeat constructor.
  - apply quiet_all; [|exact Hz]. repeat constructor. exact Hok.
  - rewrite filter_app. rewrite (quiet_all _ (error_lines_verbose e h) z Hz), app_nil_r. rewrite filter_cons, filter_nil. reflexivity.
  - reflexivity.
Qed.

Lemma shown_quiet s c : (c_level s < 5)%Z ->
  (forall e log key ok, (exists g, lines s c = answer_lines F pick text E s log key ok g e) -> ok.1 = Verbose ->
    shown s c = match step E (c_world s) e with Some (_, RErr x) => if decide (1 <= c_level s)%Z then [failed_line F log key x] else [] | _ => [] end) /\
  (answers c = false -> shown s c = []).
Proof.
  intros Hz. split.
  - intros e log key ok [g Hl] Hok. unfold Lines.shown. rewrite Hl. unfold answer_lines. destruct (step E (c_world s) e) as [[w r]|]; [|reflexivity].
    rewrite (finish_lines_quiet _ _ _ _ _ _ _ Hok Hz). destruct r; reflexivity.
  - intros Ha. unfold Lines.shown. apply quiet_all; [|exact Hz]. destruct c; try discriminate Ha; try constructor. cbn [Lines.lines]. unfold free_lines.
    destruct (c_heap s !! p) as [[| | | |d tok e| |]|]; try constructor; [reflexivity|]. cbn [app]. apply verbose_app.
    + unfold free_data_lines. destruct (d =? 0); [constructor|].
      destruct tok; try constructor; destruct (c_heap s !! d) as [[]|]; repeat constructor; destruct (n =? 0); repeat constructor; destruct (c_heap s !! a); repeat constructor.
    + destruct (e =? 0); [constructor|]. destruct (c_heap s !! e) as [[]|]; repeat constructor. destruct (reason =? 0); [constructor|].
      destruct (c_heap s !! reason); repeat constructor.
Qed.

(** The level is that of the last call that set it. *)
Definition level_after (cs : list (ccall * cret)) : Z := fold_left (fun z c => match c.1 with CLevel z' => z' | _ => z end) cs 5%Z.

Lemma level_exec cs s o : cexec cs s o -> c_level s = level_after cs.
Proof.
  induction 1 as [|cs s o c s' x X IH Al Hs]; [reflexivity|]. unfold level_after in *. rewrite fold_left_app. cbn [fold_left fst]. rewrite <- IH.
  destruct c as [dir|p key v|p key g|p key|p|p|p|z|i]; cbn [Ffi.cstep] in Hs; unfold arg, with_buffer in Hs;
    repeat match type of Hs with
    | context [match ?x with _ => _ end] => destruct x eqn:?; try discriminate Hs
    | obind ?x _ = _ => destruct x; try discriminate Hs; cbn [obind] in Hs
    end; try (injection Hs as <- _; try reflexivity).
  all: try (destruct (alloc _ _ _); injection Hs as <- _; reflexivity).
  cbn [c_level]. pose proof (proj1 (proj1 (P_Log.C32_codes_exact z) l) Heqo0). congruence.
Qed.

Lemma fold_level cs : forall z, (z < 5)%Z -> (forall z' x', In (CLevel z', x') cs -> (z' < 5)%Z) ->
  (fold_left (fun z (c : ccall * cret) => match c.1 with CLevel z' => z' | _ => z end) cs z < 5)%Z.
Proof.
  induction cs as [|[c x] cs IH]; intros z Hz H; cbn [fold_left fst]; [exact Hz|].
  apply IH; [|intros z' x' I; exact (H z' x' (or_intror I))]. destruct c; try exact Hz. exact (H z0 x (or_introl eq_refl)).
Qed.

Lemma quiet_prefix cs pre c x post : never_verbose cs -> cs = pre ++ (c, x) :: post -> (level_after pre < 5)%Z \/ exists z, c = CLevel z.
Proof.
  intros (z & y & r & -> & H) Q. destruct pre as [|a pre]; cbn [app] in Q.
  - injection Q as <- <- <-. eauto.
  - injection Q as <- ->. left. unfold level_after. cbn [fold_left fst]. apply fold_level.
    + apply (H z y). left. reflexivity.
    + intros z' x' I. apply (H z' x'). right. apply in_or_app. left. exact I.
Qed.

Lemma same_level cs cs' : same_but_values cs cs' -> level_after cs = level_after cs'.
Proof.
  unfold level_after. generalize 5%Z. intros z0 H. revert z0. induction H as [|[c x] [c' x'] cs cs' [Hc _] _ IH]; intros z0; [reflexivity|].
  cbn [fold_left fst snd] in *. rewrite IH. f_equal. destruct c, c'; cbn in Hc; try discriminate Hc; try reflexivity. congruence.
Qed.

Lemma same_events cs cs' : same_but_values cs cs' -> Forall2 ev_like (events cs) (events cs').
Proof.
  induction 1 as [|[c x] [c' x'] cs cs' [Hc Hx] _ IH]; [constructor|]. cbn [events flat_map fst snd] in *. apply Forall2_app; [|exact IH].
  destruct c, c'; cbn in Hc; try discriminate Hc; try (destruct Hc as (<- & <- & Ty)); try (injection Hc; clear Hc; intros; subst); cbn [events_of]; try (repeat constructor; fail).
  - destruct x, x'; try contradiction; try constructor. subst p0. repeat constructor. constructor.
  - constructor; [|constructor]. cbn. split_and!; auto. destruct v, v0; try discriminate Ty; first [reflexivity | exact Ty].
Qed.

(** Below Verbose the lines of the C interface are the same whatever the
    values are. *)
Theorem C73_below_verbose_partial cs s o : cexec cs s o -> forall cs' s' o', cexec cs' s' o' ->
  same_but_values cs cs' -> never_verbose cs -> ordinary E keyof (events cs) -> ordinary E keyof (events cs') ->
  log_of cstate0 (map fst cs) = log_of cstate0 (map fst cs').
Proof.
  intros X cs' s' o' X' Sm NV. pose proof (quiet_prefix cs) as Qp. assert (Q : forall pre c x post, cs = pre ++ (c, x) :: post -> (level_after pre < 5)%Z \/ exists z, c = CLevel z)
    by (intros; eapply Qp; eassumption). clear Qp NV. revert cs' s' o' X' Sm Q.
  induction X as [|cs s o c s1 x X IH Al Hs]; intros cs' s' o' X' Sm Q O O'.
  - apply Forall2_nil_inv_l in Sm. subst cs'. reflexivity.
  - apply Forall2_app_inv_l in Sm. destruct Sm as (l' & t' & Sm & St & ->). apply Forall2_cons_inv_l in St. destruct St as ([c' x'] & l2 & Sc & Sn & ->).
    apply Forall2_nil_inv_l in Sn. subst l2. cbn [fst snd] in Sc.
    inversion X' as [Hnil|cs0 s0 o0 c0 s0' x0 X0 Al0 Hs0 Hq]; [destruct l'; discriminate|]. apply app_inj_tail in Hq. destruct Hq as [-> [= -> ->]]. subst.
    unfold events in O, O'. rewrite flat_map_app in O, O'. fold (events cs) in O. fold (events l') in O'. cbn [flat_map fst snd app] in O, O'. rewrite app_nil_r in O, O'.
    rewrite !map_app. cbn [map fst]. rewrite (log_snoc cs s o c X), (log_snoc l' s0 o0 c' X0).
    rewrite (IH l' s0 o0 X0 Sm) by (first [intros pre d y post ->; apply (Q pre d y (post ++ [(c, x)])); rewrite <- app_assoc; reflexivity | eapply ordinary_app_l; eassumption]).
    f_equal. destruct Sc as [Sc Sx].
    assert (Lv : c_level s0 = c_level s) by (rewrite (level_exec _ _ _ X), (level_exec _ _ _ X0); symmetry; apply same_level, Sm).
    destruct (Q cs c x [] eq_refl) as [L|[z ->]].
    2: { destruct c'; try discriminate Sc. reflexivity. }
    rewrite <- (level_exec _ _ _ X) in L. assert (L0 : (c_level s0 < 5)%Z) by lia.
    destruct (shown_quiet s c L) as [S1 S2], (shown_quiet s0 c' L0) as [S1' S2'].
    destruct (answers c) eqn:Ac.
    2: { rewrite (S2 eq_refl), (S2'); [reflexivity|]. destruct c, c'; try discriminate; reflexivity. }
    assert (G : forall e e' w r w' r', events_of c x = [e] -> events_of c' x' = [e'] -> step E (c_world s) e = Some (w, r) -> step E (c_world s0) e' = Some (w', r') -> ans_like r r').
    { intros e e' w r w' r' He He' Hw Hw'. rewrite He in O. rewrite He' in O'.
      destruct (step_answer cs s o e w r X O Hw) as (sp & rs & sp2 & B1 & B2). destruct (step_answer l' s0 o0 e' w' r' X0 O' Hw') as (sp' & rs' & sp2' & B1' & B2').
      destruct (spec_run_like canon _ _ (same_events _ _ Sm) spec0 spec0 sp rs) as (b1 & rs2 & C1 & C2 & _); [split; reflexivity|exact B1|].
      rewrite B1' in C1. injection C1 as <- <-.
      destruct (spec_like canon sp sp' e e' sp2 r C2) as (b2 & r2 & D1 & _ & D3); [|exact B2|].
      - assert (Ev : Forall2 ev_like (events ((c, x) :: [])) (events ((c', x') :: []))) by (apply same_events; constructor; [split; assumption|constructor]).
        cbn [events flat_map fst snd] in Ev. rewrite !app_nil_r, He, He' in Ev. inversion Ev. assumption.
      - rewrite B2' in D1. injection D1 as _ <-. exact D3. }
    assert (R : forall s e s' x, with_buffer pick text E s (fun_of c) e = Done (s', x) -> exists w r, step E (c_world s) e = Some (w, r)).
    { intros. unfold with_buffer in *. destruct (step E _ e) as [[? ?]|]; [eauto|discriminate]. }
    destruct c as [dir|p key v|p key g|p key|p|p|p|z|i]; try discriminate Ac.
    + destruct c' as [|p' key' v'| | | | | | |]; try discriminate Sc. destruct Sc as (<- & <- & Ty).
      assert (Pf : put_fun v' = put_fun v) by (destruct v, v'; try discriminate Ty; reflexivity).
      assert (P : forall st u st' y, cstep st (CPut p key u) = Done (st', y) -> exists w r, step E (c_world st) (EPut p (cstr key) (cvalue u)) = Some (w, r)).
      { clear. intros st u st' y H. cbn [Ffi.cstep] in H. unfold arg, with_buffer in H. destruct (utf8_valid (cstr key)); [|discriminate].
        destruct u; try discriminate; try (destruct (utf8_valid (cstr s)); [|discriminate]);
          cbn [cvalue]; match type of H with context [step E ?a ?b] => destruct (step E a b) as [[? ?]|]; [eauto|discriminate] end. }
      destruct (P _ _ _ _ Hs) as (w & r & W), (P _ _ _ _ Hs0) as (w' & r' & W').
      rewrite (S1 (EPut p (cstr key) (cvalue v)) ($"put " ++ kind (put_fun v)) (cstr key) (success_line ($"put " ++ kind (put_fun v)) (cstr key)) (ex_intro _ _ eq_refl) eq_refl).
      rewrite (S1' (EPut p (cstr key) (cvalue v')) ($"put " ++ kind (put_fun v')) (cstr key) (success_line ($"put " ++ kind (put_fun v')) (cstr key)) (ex_intro _ _ eq_refl) eq_refl).
      rewrite W, W', Lv, Pf. specialize (G _ _ _ _ _ _ eq_refl eq_refl W W'). destruct r, r'; try contradiction; try reflexivity. cbn in G. subst. reflexivity.
    + destruct c' as [| |p' key' g'| | | | | |]; try discriminate Sc. injection Sc as <- <- <-.
      assert (P : forall st st' y, cstep st (CGet p key g) = Done (st', y) -> exists w r, step E (c_world st) (EGet p (cstr key) (get_type g)) = Some (w, r)).
      { clear. intros st st' y H. cbn [Ffi.cstep] in H. unfold arg, with_buffer in H. destruct (utf8_valid (cstr key)); [|discriminate].
        match type of H with context [step E ?a ?b] => destruct (step E a b) as [[? ?]|]; [eauto|discriminate] end. }
      destruct (P _ _ _ Hs) as (w & r & W), (P _ _ _ Hs0) as (w' & r' & W').
      rewrite (S1 (EGet p (cstr key) (get_type g)) ($"get " ++ kind g) (cstr key) (success_line ($"get " ++ kind g) (cstr key)) (ex_intro _ _ eq_refl) eq_refl).
      rewrite (S1' (EGet p (cstr key) (get_type g)) ($"get " ++ kind g) (cstr key) (success_line ($"get " ++ kind g) (cstr key)) (ex_intro _ _ eq_refl) eq_refl).
      rewrite W, W', Lv. specialize (G _ _ _ _ _ _ eq_refl eq_refl W W'). destruct r, r'; try contradiction; try reflexivity. cbn in G. subst. reflexivity.
    + destruct c' as [| | |p' key'| | | | |]; try discriminate Sc. injection Sc as <- <-.
      assert (P : forall st st' y, cstep st (CDelete p key) = Done (st', y) -> exists w r, step E (c_world st) (EDelete p (cstr key)) = Some (w, r)).
      { clear. intros st st' y H. cbn [Ffi.cstep] in H. unfold arg, with_buffer in H. destruct (utf8_valid (cstr key)); [|discriminate].
        match type of H with context [step E ?a ?b] => destruct (step E a b) as [[? ?]|]; [eauto|discriminate] end. }
      destruct (P _ _ _ Hs) as (w & r & W), (P _ _ _ Hs0) as (w' & r' & W').
      rewrite (S1 (EDelete p (cstr key)) $"delete" (cstr key) (deleted_line (cstr key)) (ex_intro _ _ eq_refl) eq_refl).
      rewrite (S1' (EDelete p (cstr key)) $"delete" (cstr key) (deleted_line (cstr key)) (ex_intro _ _ eq_refl) eq_refl).
      rewrite W, W', Lv. specialize (G _ _ _ _ _ _ eq_refl eq_refl W W'). destruct r, r'; try contradiction; try reflexivity. cbn in G. subst. reflexivity.
Qed.
End C73.

(** The native functions of the Android library show the key and the error only. *)
Theorem C73_kotlin_shows_no_value_partial F f key v v' : jni_lines F f key (ROk v) = jni_lines F f key (ROk v').
Proof. destruct f; reflexivity. Qed.

(** The property as wished for. *)
Definition values_stay_out_of_the_log : Prop :=
  forall F pick text E keyof cs s o cs' s' o', env_ok E -> allocator_ok pick ->
    cexec pick text E cs s o -> cexec pick text E cs' s' o' -> same_but_values cs cs' ->
    ordinary E keyof (events cs) -> ordinary E keyof (events cs') ->
    log_of F pick text E cstate0 (map fst cs) = log_of F pick text E cstate0 (map fst cs').

Definition ex_fmt : fmt := Fmt (fun _ => []) (fun _ => []) (fun p => $"0x" ++ f_nat p) (fun _ => []).
Definition v_calls (z : Z) : list ccall := [CNew dir_d; CPut 1 k1 (VI32 z); CGet 1 k1 CI32].
Definition v_trace (z : Z) : list (ccall * cret) :=
  [(CNew dir_d, RHandle 1); (CPut 1 k1 (VI32 z), RBuffer 2 (ROk None)); (CGet 1 k1 CI32, RBuffer 4 (ROk (Some (VI32 z))))].

Lemma v_exec z : z = 42%Z \/ z = 43%Z -> exists s o, cexec ex_pick ex_text (ex_env FPlain) (v_trace z) s o /\
  ordinary (ex_env FPlain) c_keyof (events (v_trace z)).
Proof.
  intros Hz.
  assert (T : match play ex_pick ex_text (ex_env FPlain) (v_calls z) cstate0 ∅ with
    | Some (t, s, o) => t = v_trace z /\ ordinaryb (ex_env FPlain) c_keyof (events t) = true
    | _ => False end) by (destruct Hz as [-> | ->]; vm_compute; repeat split).
  destruct (play ex_pick ex_text (ex_env FPlain) (v_calls z) cstate0 ∅) as [[[t s] o]|] eqn:P; [|contradiction]. destruct T as (-> & T2).
  exists s, o. split; [exact (play_here _ _ _ _ _ P)|]. apply ordinaryb_ok; [apply ex_env_ok; exact Logic.I|exact T2].
Qed.

Definition v_log (z : Z) : list (level * line) := log_of ex_fmt ex_pick ex_text (ex_env FPlain) cstate0 (v_calls z).
Definition v_line : line := ffi $"leak 42, ptr: 0x3".
Definition has_line (l : list (level * line)) (m : line) : bool := existsb (fun x => if decide (x.2 = m) then true else false) l.

Theorem C73_values_in_the_log_refuted : ~ values_stay_out_of_the_log.
Proof.
  intros H. destruct (v_exec 42 (or_introl eq_refl)) as (s & o & X & O), (v_exec 43 (or_intror eq_refl)) as (s' & o' & X' & O').
  assert (Q : v_log 42 = v_log 43).
  { apply (H ex_fmt ex_pick ex_text (ex_env FPlain) c_keyof _ _ _ _ _ _ (ex_env_ok FPlain Logic.I) ex_pick_ok X X'); [|exact O|exact O'].
    repeat constructor. }
  assert (A : has_line (v_log 42) v_line = true) by (vm_compute; reflexivity).
  assert (B : has_line (v_log 43) v_line = false) by (vm_compute; reflexivity).
  rewrite Q, B in A. discriminate.
Qed.

(** The hypotheses of the theorems above are met: a number is read at level
    Verbose; two programs that differ in what they put, at level Debug, with a
    read that fails. *)
Example C73_example : exists s o, cexec ex_pick ex_text (ex_env FPlain) (take 2 (v_trace 42)) s o /\ allowed o (CGet 1 k1 CI32) /\
  utf8_valid (cstr k1) = true /\ ordinary (ex_env FPlain) c_keyof (events (take 2 (v_trace 42)) ++ [EGet 1 (cstr k1) (c_type CI32)]) /\
  c_level s = 5%Z /\ (exists sp rs, spec_run (e_canon (ex_env FPlain)) spec0 (events (take 2 (v_trace 42))) = Some (sp, rs) /\
    spec_step (e_canon (ex_env FPlain)) sp (EGet 1 (cstr k1) (c_type CI32)) = Some (sp, ROk (Some (VI32 42)))).
Proof.
  assert (T : match play ex_pick ex_text (ex_env FPlain) (take 2 (v_calls 42)) cstate0 ∅ with
    | Some (t, s, o) => t = take 2 (v_trace 42) /\ allowedb o (CGet 1 k1 CI32) = true /\ c_level s = 5%Z
    | _ => False end) by (vm_compute; repeat split).
  destruct (play ex_pick ex_text (ex_env FPlain) (take 2 (v_calls 42)) cstate0 ∅) as [[[t s] o]|] eqn:P; [|contradiction]. destruct T as (-> & T2 & T3).
  exists s, o. split_and!; [exact (play_here _ _ _ _ _ P)|apply allowedb_ok, T2|vm_compute; reflexivity| |exact T3|].
  - apply ordinaryb_ok; [apply ex_env_ok; exact Logic.I|vm_compute; reflexivity].
  - eexists _, _. split; [reflexivity|]. reflexivity.
Qed.

Definition t_trace : list (ccall * cret) := [(CNew dir_d, RHandle 1); (CPut 1 k1 (VStr $"hello"), RBuffer 2 (ROk None))].

Example C73_texts_example : exists s o, cexec ex_pick ex_text (ex_env FPlain) t_trace s o /\ allowed o (CGet 1 k1 CStr) /\
  ordinary (ex_env FPlain) c_keyof (events t_trace ++ [EGet 1 (cstr k1) TStr]) /\
  (exists sp rs, spec_run (e_canon (ex_env FPlain)) spec0 (events t_trace) = Some (sp, rs) /\
    spec_step (e_canon (ex_env FPlain)) sp (EGet 1 (cstr k1) TStr) = Some (sp, ROk (Some (VStr $"hello")))) /\
  allowed o (CPut 1 k1 (VI32 7)) /\ texts_ok (CPut 1 k1 (VI32 7)) /\ ordinary (ex_env FPlain) c_keyof (events t_trace ++ [EPut 1 (cstr k1) (cvalue (VI32 7))]) /\
  allowed o (CPut 1 k1 (VI32 8)) /\ texts_ok (CPut 1 k1 (VI32 8)) /\ ordinary (ex_env FPlain) c_keyof (events t_trace ++ [EPut 1 (cstr k1) (cvalue (VI32 8))]).
Proof.
  assert (T : match play ex_pick ex_text (ex_env FPlain) (map fst t_trace) cstate0 ∅ with
    | Some (t, s, o) => t = t_trace /\ allowedb o (CGet 1 k1 CStr) = true /\ allowedb o (CPut 1 k1 (VI32 7)) = true /\ allowedb o (CPut 1 k1 (VI32 8)) = true
    | _ => False end) by (vm_compute; repeat split).
  destruct (play ex_pick ex_text (ex_env FPlain) (map fst t_trace) cstate0 ∅) as [[[t s] o]|] eqn:P; [|contradiction]. destruct T as (-> & T2 & T3 & T4).
  exists s, o. split_and!; try (apply allowedb_ok; assumption); try (exact (play_here _ _ _ _ _ P));
    try (apply ordinaryb_ok; [apply ex_env_ok; exact Logic.I|vm_compute; reflexivity]); try (split; [vm_compute; reflexivity|exact Logic.I]).
  eexists _, _. split; [reflexivity|]. reflexivity.
Qed.

Definition q_calls (v : value) : list ccall := [CLevel 4; CNew dir_d; CPut 1 k1 v; CGet 1 k1 CI64; CGet 1 k1 CI32; CGet 1 k2 CI32].

Example C73_below_verbose_example : exists t s o t' s' o',
  map fst t = q_calls (VI32 42) /\ map fst t' = q_calls (VI32 43) /\
  cexec ex_pick ex_text (ex_env FPlain) t s o /\ cexec ex_pick ex_text (ex_env FPlain) t' s' o' /\ same_but_values t t' /\ never_verbose t /\
  ordinary (ex_env FPlain) c_keyof (events t) /\ ordinary (ex_env FPlain) c_keyof (events t') /\
  length (log_of ex_fmt ex_pick ex_text (ex_env FPlain) cstate0 (q_calls (VI32 42))) = 2%nat.
Proof.
  assert (T : match play ex_pick ex_text (ex_env FPlain) (q_calls (VI32 42)) cstate0 ∅, play ex_pick ex_text (ex_env FPlain) (q_calls (VI32 43)) cstate0 ∅ with
    | Some (t, s, o), Some (t', s', o') => map fst t = q_calls (VI32 42) /\ map fst t' = q_calls (VI32 43) /\ map snd (take 2 t) = [RUnit; RHandle 1] /\ map snd (take 2 t') = [RUnit; RHandle 1] /\
       forallb (fun x => match x.2 with RHandle _ => false | _ => true end) (drop 2 t ++ drop 2 t') = true /\
       ordinaryb (ex_env FPlain) c_keyof (events t) = true /\ ordinaryb (ex_env FPlain) c_keyof (events t') = true
    | _, _ => False end) by (vm_compute; repeat split).
  destruct (play ex_pick ex_text (ex_env FPlain) (q_calls (VI32 42)) cstate0 ∅) as [[[t s] o]|] eqn:P; [|contradiction].
  destruct (play ex_pick ex_text (ex_env FPlain) (q_calls (VI32 43)) cstate0 ∅) as [[[t' s'] o']|] eqn:P'; [|contradiction].
  destruct T as (T1 & T2 & T3 & T4 & T5 & T6 & T7). exists t, s, o, t', s', o'.
  split_and!; auto; try exact (play_here _ _ _ _ _ P); try exact (play_here _ _ _ _ _ P').
  - clear - T1 T2 T3 T4 T5.
    do 6 (destruct t as [|[? ?] t]; [discriminate|]). destruct t; [|discriminate]. do 6 (destruct t' as [|[? ?] t']; [discriminate|]). destruct t'; [|discriminate].
    injection T1 as -> -> -> -> -> ->. injection T2 as -> -> -> -> -> ->. injection T3 as -> ->. injection T4 as -> ->.
    cbn [drop app forallb snd] in T5. rewrite !andb_true_iff in T5.
    repeat match goal with r : cret |- _ => destruct r; try (exfalso; decompose [and] T5; discriminate) end; repeat constructor.
  - clear - T1. destruct t as [|[c x] t]; [discriminate|]. injection T1 as -> T1. exists 4%Z, x, t. split; [reflexivity|].
    intros z' x' [[= <- _]|I]; [lia|]. exfalso. assert (I2 : In (CLevel z') (map fst t)) by (apply in_map_iff; exists (CLevel z', x'); auto).
    rewrite T1 in I2. cbn in I2. decompose [or] I2; try discriminate. assumption.
  - apply ordinaryb_ok; [apply ex_env_ok; exact Logic.I|exact T6].
  - apply ordinaryb_ok; [apply ex_env_ok; exact Logic.I|exact T7].
Qed.

(** ** C74: the printed log *)

Lemma one_line_app a b : one_line (a ++ b) <-> one_line a /\ one_line b.
Proof. unfold one_line. rewrite elem_of_app. tauto. Qed.

Lemma one_line_dec b : forallb (fun c => negb (b2n c =? 10)) b = true -> one_line b.
Proof.
  intros H I. rewrite forallb_forall in H. apply elem_of_list_In in I. specialize (H _ I). vm_compute in H. discriminate.
Qed.

Lemma read_lines_line l : forall cur r, one_line l -> read_lines cur (l ++ newline :: r) = (cur ++ l) :: read_lines [] r.
Proof.
  induction l as [|c l IH]; intros cur r H; cbn [app read_lines].
  - rewrite decide_True by reflexivity. rewrite app_nil_r. reflexivity.
  - apply not_elem_of_cons in H. destruct H as [H1 H2]. rewrite decide_False by congruence. rewrite IH by exact H2. rewrite <- app_assoc. reflexivity.
Qed.

Lemma printed_one_line w lv m : stamp_ok w -> one_line m -> one_line (printed w lv m).
Proof.
  intros (A & B & C) D. unfold printed. rewrite !one_line_app. split_and!; auto; try (apply one_line_dec; reflexivity). apply one_line_dec. destruct lv; reflexivity.
Qed.

(** Log calls without line ends in their texts are printed one to a line. *)
Theorem C74_one_line_per_call_partial l : Forall (fun x : stamp * level * line => stamp_ok x.1.1 /\ one_line x.2) l ->
  lines_of_file (output l) = map (fun x => printed x.1.1 x.1.2 x.2) l.
Proof.
  unfold lines_of_file, output. induction 1 as [|[[w lv] m] l [A B] _ IH]; [reflexivity|]. cbn [flat_map map fst snd] in *.
  rewrite <- app_assoc. cbn [app]. rewrite read_lines_line by (apply printed_one_line; assumption). rewrite IH. reflexivity.
Qed.

(** Such a line can be read back: where and when, the level, the text; the
    level is the letter after the second space. *)
Lemma split_at (b : byte) (x x' r r' : bytes) : b ∉ x -> b ∉ x' -> x ++ b :: r = x' ++ b :: r' -> x = x' /\ r = r'.
Proof.
  revert x'. induction x as [|c x IH]; intros [|c' x'] A B H; cbn [app] in H.
  - injection H as ->. auto.
  - injection H as -> _. exfalso. apply B. left.
  - injection H as -> _. exfalso. apply A. left.
  - injection H as -> H. apply not_elem_of_cons in A, B. destruct (IH x' (proj2 A) (proj2 B) H) as [-> ->]. auto.
Qed.

Definition plain_stamp (w : stamp) : Prop := n2b 32 ∉ s_time w /\ n2b 45 ∉ s_pid w /\ n2b 32 ∉ s_pid w /\ n2b 32 ∉ s_tid w.

Theorem C74_printed_lines_can_be_read w w' lv lv' m m' : plain_stamp w -> plain_stamp w' -> lv <> Off -> lv' <> Off ->
  printed w lv m = printed w' lv' m' -> w = w' /\ lv = lv' /\ m = m'.
Proof.
  intros (A1 & A2 & A3 & A4) (B1 & B2 & B3 & B4) N1 N2. unfold printed.
  change (str " "%string) with [n2b 32]. change (str "-"%string) with [n2b 45]. cbn [app]. intros H.
  apply split_at in H; auto. destruct H as [H1 H]. apply split_at in H; auto. destruct H as [H2 H]. apply split_at in H; auto. destruct H as [H3 H].
  assert (W : w = w') by (destruct w, w'; cbn in *; congruence). split; [exact W|].
  destruct lv; try congruence; destruct lv'; try congruence; cbn [letter app] in H; try discriminate H; injection H as ->; auto.
Qed.

Theorem C74_form_of_a_line w lv m : printed w lv m = s_time w ++ $" " ++ s_pid w ++ $"-" ++ s_tid w ++ $" " ++ level_name lv ++ $" " ++ m.
Proof. destruct lv; reflexivity. Qed.

(** Which lines have no line ends: all of a call whose key has none. *)
Lemma uint_one_line d : one_line (str (NilEmpty.string_of_uint d)).
Proof.
  induction d; cbn [NilEmpty.string_of_uint]; [apply not_elem_of_nil|..];
    match goal with |- one_line (str (String.String ?a ?s)) => change (one_line ([Ascii.byte_of_ascii a] ++ str s)) end;
    (apply one_line_app; split; [apply one_line_dec; reflexivity|exact IHd]).
Qed.

Lemma int_one_line z : one_line (f_int z).
Proof.
  unfold f_int. assert (U : forall d, one_line (str (NilZero.string_of_uint d))).
  { intros d. unfold NilZero.string_of_uint. destruct d; try apply uint_one_line. apply one_line_dec. reflexivity. }
  destruct (Z.to_int z) as [d|d]; cbn [NilZero.string_of_int]; [apply U|].
  change (one_line ($"-" ++ str (NilZero.string_of_uint d))). apply one_line_app. split; [apply one_line_dec; reflexivity|apply U].
Qed.

Lemma list_one_line l : Forall one_line l -> one_line (f_list l).
Proof.
  intros H. unfold f_list. rewrite !one_line_app. split_and!; try (apply one_line_dec; reflexivity).
  induction H as [|x l Hx H IH]; [apply not_elem_of_nil|]. cbn [commas]. destruct l as [|y l]; [exact Hx|].
  rewrite !one_line_app. split_and!; [exact Hx|apply one_line_dec; reflexivity|exact IH].
Qed.

Section C74.
Context (F : fmt) (FO : fmt_ok F).

Lemma value_one_line v : one_line (f_value F v).
Proof.
  destruct FO as (A & B & _). destruct v; cbn [f_value]; try apply int_one_line; try apply not_elem_of_nil; auto;
    try (apply list_one_line, Forall_map, Forall_forall; intros; cbn; first [apply int_one_line | apply A | apply B]).
  destruct b; apply one_line_dec; reflexivity.
Qed.

Ltac pieces := rewrite !one_line_app; split_and!; try (apply one_line_dec; reflexivity).

Lemma cell_one_line c : one_line (f_cell F c).
Proof.
  destruct FO as (_ & _ & C & _). destruct c; cbn [f_cell]; try apply value_one_line; [..|apply not_elem_of_nil]; pieces; try apply C; try apply int_one_line;
    destruct tok; apply one_line_dec; reflexivity.
Qed.

Lemma leak_one_line c p : one_line (leak_line F c p).2.
Proof. destruct FO as (_ & _ & C & _). unfold leak_line, ffi, tagged. cbn [snd]. pieces; [apply cell_one_line|apply C]. Qed.
Lemma release_one_line c p : one_line (release_line F c p).2.
Proof. destruct FO as (_ & _ & C & _). unfold release_line, ffi, tagged. cbn [snd]. pieces; [apply cell_one_line|apply C]. Qed.

Definition clean (l : list (level * line)) : Prop := Forall (fun x => one_line x.2) l.

Lemma clean_app a b : clean a -> clean b -> clean (a ++ b).
Proof. intros. apply Forall_app. auto. Qed.

Lemma kind_one_line t : one_line (kind t).
Proof. destruct t; apply one_line_dec; reflexivity. Qed.

Context (pick : heap -> ptr) (text : err -> bytes) (E : env).

Lemma finish_clean log key ok g r h : one_line log -> one_line key -> one_line ok.2 -> clean (finish_lines F pick text log key ok g r h).
Proof.
  intros Hl Hk Ho. pose proof FO as (_ & _ & _ & D). unfold finish_lines. apply clean_app.
  - destruct r as [[v|]|e|].
    + apply clean_app; [|apply clean_app].
      * destruct v; repeat constructor; apply leak_one_line.
      * repeat constructor. exact Ho.
      * unfold data_lines. destruct v; try (destruct (alloc pick (MElems _) h)); repeat constructor; apply leak_one_line.
    + repeat constructor. exact Ho.
    + apply clean_app.
      * repeat constructor. unfold failed_line, ffi, tagged. cbn [snd]. pieces; auto.
      * unfold error_lines. destruct (map_error pick text e h) as [[c h1]| |]; [|constructor..].
        apply clean_app; [|repeat constructor; apply leak_one_line].
        destruct c; try constructor. destruct reason; [constructor|]. destruct (h1 !! _); repeat constructor; apply leak_one_line.
    + constructor.
  - destruct (finish _ _ _ _ _) as [[p h1]| |]; [|constructor..]. unfold buffer_line. destruct (h1 !! p); repeat constructor; apply leak_one_line.
Qed.

Lemma lines_clean s c : plain_key c -> clean (lines F pick text E s c).
Proof.
  intros H. destruct c as [dir|p key v|p key g|p key|p|p|p|z|i]; cbn [lines plain_key] in *; try constructor; try unfold answer_lines.
  - destruct (step _ _ _) as [[w r]|]; [|constructor]. apply finish_clean; auto.
    + pieces. apply kind_one_line.
    + unfold success_line, ffi, tagged. cbn [snd]. pieces; auto. apply kind_one_line.
  - destruct (step _ _ _) as [[w r]|]; [|constructor]. apply finish_clean; auto.
    + pieces. apply kind_one_line.
    + unfold success_line, ffi, tagged. cbn [snd]. pieces; auto. apply kind_one_line.
  - destruct (step _ _ _) as [[w r]|]; [|constructor]. apply finish_clean; auto.
    + apply one_line_dec. reflexivity.
    + unfold deleted_line, ffi, tagged. cbn [snd]. pieces; auto.
  - unfold free_lines. destruct (c_heap s !! p) as [[| | | |d tok e| |]|]; try constructor; [apply release_one_line|]. cbn [app]. apply clean_app.
    + unfold free_data_lines. destruct (d =? 0); [constructor|].
      destruct tok; try constructor; destruct (c_heap s !! d) as [[]|]; repeat constructor; try apply release_one_line; destruct (n =? 0); repeat constructor; try apply release_one_line;
        destruct (c_heap s !! a); repeat constructor; apply release_one_line.
    + destruct (e =? 0); [constructor|]. destruct (c_heap s !! e) as [[]|]; repeat constructor; try apply release_one_line. destruct (reason =? 0); [constructor|].
      destruct (c_heap s !! reason); repeat constructor; apply release_one_line.
Qed.

(** If the keys have no line ends, every line of the printed log is one log
    call and the other way round, whenever and wherever it was written. *)
Theorem C74_plain_keys_partial cs s0 ws : Forall plain_key cs -> Forall stamp_ok ws ->
  let l := zip_with (fun w x => (w, x.1, x.2)) ws (log_of F pick text E s0 cs) in
  lines_of_file (output l) = map (fun x => printed x.1.1 x.1.2 x.2) l.
Proof.
  intros H W. apply C74_one_line_per_call_partial.
  assert (L : clean (log_of F pick text E s0 cs)).
  { revert s0. induction H as [|c cs Hc _ IH]; intros s0; cbn [log_of]; [constructor|]. apply clean_app.
    - apply Forall_forall. intros x I. apply elem_of_list_filter in I. exact (proj1 (Forall_forall _ _) (lines_clean s0 c Hc) x (proj2 I)).
    - destruct (cstep pick text E s0 c) as [[s1 x]| |]; [apply IH|constructor..]. }
  revert L. generalize (log_of F pick text E s0 cs). clear - W. induction W as [|w ws Hw _ IH]; intros [|x l] L; cbn [zip_with]; try constructor.
  - cbn [fst snd]. split; [exact Hw|]. inversion L. assumption.
  - apply IH. inversion L. assumption.
Qed.
End C74.

(** The property as wished for: every line of the printed log is one that the
    library wrote. *)
Definition every_line_is_a_log_call : Prop :=
  forall F pick text E keyof cs s o ws, fmt_ok F -> env_ok E -> allocator_ok pick ->
    cexec pick text E cs s o -> ordinary E keyof (events cs) -> Forall stamp_ok ws ->
    let l := zip_with (fun w x => (w, x.1, x.2)) ws (log_of F pick text E cstate0 (map fst cs)) in
    forall b, b ∈ lines_of_file (output l) -> exists w lv m, (w, lv, m) ∈ l /\ b = printed w lv m.

(** Anything can be made to stand there: a put under a key with line ends. *)
Section Forge.
Context (F : fmt) (pick : heap -> ptr) (text : err -> bytes) (PO : allocator_ok pick) (E : env) (keyof : bytes -> bytes).

Definition forging (b : bytes) : bytes := newline :: b ++ [newline].

Theorem C74_forged_lines cs s o p b v w :
  cexec pick text E cs s o -> allowed o (CPut p (forging b) v) -> texts_ok (CPut p (forging b) v) -> cstr (forging b) = forging b ->
  ordinary E keyof (events cs ++ [EPut p (forging b) (cvalue v)]) -> c_level s = 5%Z -> stamp_ok w -> one_line b ->
  exists m, (Verbose, m) ∈ shown F pick text E s (CPut p (forging b) v) /\ b ∈ lines_of_file (output [(w, Verbose, m)]).
Proof.
  intros X Al Ht Hc HO Lv Hw Hb. rewrite <- Hc in HO.
  destruct (answer_call pick text PO E cs s o (CPut p (forging b) v) _ X Al Ht eq_refl eq_refl) as (w1 & r & Hs & _).
  destruct (step_answer pick text E keyof cs s o _ w1 r X HO Hs) as (sp & rs & sp' & _ & B2). cbn [spec_step] in B2.
  destruct (sp_handles sp !! p); [|discriminate]. injection B2 as _ <-.
  exists (success_line ($"put " ++ kind (put_fun v)) (forging b)).2. split.
  - apply elem_of_list_filter. split; [cbn; lia|]. cbn [lines]. unfold answer_lines.
    change (match v with VStr x => VStr (cstr x) | _ => v end) with (cvalue v). rewrite Hs. unfold finish_lines. rewrite Hc. cbn [app]. left.
  - unfold lines_of_file, output, printed, success_line, ffi, tagged, forging. cbn [flat_map snd]. rewrite app_nil_r.
    match goal with |- b ∈ read_lines [] ?t => assert (Q : exists x y, one_line x /\ t = x ++ newline :: b ++ newline :: y) end.
    { exists (s_time w ++ $" " ++ s_pid w ++ $"-" ++ s_tid w ++ $" " ++ letter Verbose ++ $" " ++ $"[" ++ $"MMKV:FFI" ++ $"] " ++ $"put " ++ kind (put_fun v) ++ $" for key '"), ($"' success" ++ [newline]).
      destruct Hw as (W1 & W2 & W3). split.
      - rewrite !one_line_app. split_and!; auto; try (apply one_line_dec; reflexivity). apply kind_one_line.
      - rewrite <- !app_assoc. do 15 f_equal. cbn [app]. rewrite <- !app_assoc. reflexivity. }
    destruct Q as (x & y & Q1 & ->). rewrite read_lines_line by exact Q1. rewrite read_lines_line by exact Hb. right. left.
Qed.
End Forge.

Definition w0 : stamp := Stamp $"12:00" $"7" $"ThreadId(1)".
Definition w1 : stamp := Stamp $"13:00" $"8" $"ThreadId(2)".
Definition false_line : bytes := printed w1 Error $"[MMKV] all data lost".
Definition forge_calls : list ccall := [CNew dir_d; CPut 1 (forging false_line) (VI32 5)].

Lemma ex_fmt_ok : fmt_ok ex_fmt.
Proof.
  split_and!; intros; try apply not_elem_of_nil. cbn. change (one_line ($"0x" ++ f_nat p)). apply one_line_app. split; [apply one_line_dec; reflexivity|apply int_one_line].
Qed.

Lemma w0_ok : stamp_ok w0.
Proof. split_and!; apply one_line_dec; reflexivity. Qed.

Theorem C74_every_line_is_a_log_call_refuted : ~ every_line_is_a_log_call.
Proof.
  intros H.
  assert (T : match play ex_pick ex_text (ex_env FPlain) forge_calls cstate0 ∅ with
    | Some (t, s, o) => map fst t = forge_calls /\ ordinaryb (ex_env FPlain) c_keyof (events t) = true
    | _ => False end) by (vm_compute; repeat split).
  destruct (play ex_pick ex_text (ex_env FPlain) forge_calls cstate0 ∅) as [[[t s] o]|] eqn:P; [|contradiction]. destruct T as (T1 & T2).
  assert (O : ordinary (ex_env FPlain) c_keyof (events t)) by (apply ordinaryb_ok; [apply ex_env_ok; exact Logic.I|exact T2]).
  specialize (H ex_fmt ex_pick ex_text (ex_env FPlain) c_keyof t s o [w0; w0] ex_fmt_ok (ex_env_ok FPlain Logic.I) ex_pick_ok (play_here _ _ _ _ _ P) O
    (Forall_cons_2 _ _ _ w0_ok (Forall_cons_2 _ _ _ w0_ok (Forall_nil_2 _))) false_line).
  rewrite T1 in H. set (l := log_of ex_fmt ex_pick ex_text (ex_env FPlain) cstate0 forge_calls) in H.
  assert (I : existsb (fun b => if decide (b = false_line) then true else false) (lines_of_file (output (zip_with (fun w x => (w, x.1, x.2)) [w0; w0] l))) = true)
    by (vm_compute; reflexivity).
  apply existsb_exists in I. destruct I as (b & I1 & I2). destruct (decide (b = false_line)) as [->|]; [|discriminate].
  apply elem_of_list_In in I1. destruct (H I1) as (w & lv & m & Hl & Hp).
  assert (W : w = w0).
  { clear - Hl. destruct l as [|x l]; [apply not_elem_of_nil in Hl; contradiction|]. cbn [zip_with] in Hl. apply elem_of_cons in Hl. destruct Hl as [[= -> _ _]|Hl]; [reflexivity|].
    destruct l as [|y l]; [apply not_elem_of_nil in Hl; contradiction|]. cbn [zip_with] in Hl. apply elem_of_list_singleton in Hl. congruence. }
  subst w. vm_compute in Hp. discriminate.
Qed.

(** The hypotheses of C74_forged_lines are met. *)
Example C74_example : exists s o, cexec ex_pick ex_text (ex_env FPlain) [(CNew dir_d, RHandle 1)] s o /\ allowed o (CPut 1 (forging false_line) (VI32 5)) /\
  texts_ok (CPut 1 (forging false_line) (VI32 5)) /\ cstr (forging false_line) = forging false_line /\
  ordinary (ex_env FPlain) c_keyof (events [(CNew dir_d, RHandle 1)] ++ [EPut 1 (forging false_line) (cvalue (VI32 5))]) /\ c_level s = 5%Z /\ stamp_ok w0 /\ one_line false_line.
Proof.
  assert (T : match play ex_pick ex_text (ex_env FPlain) [CNew dir_d] cstate0 ∅ with
    | Some (t, s, o) => t = [(CNew dir_d, RHandle 1)] /\ allowedb o (CPut 1 (forging false_line) (VI32 5)) = true /\ c_level s = 5%Z
    | _ => False end) by (vm_compute; repeat split).
  destruct (play ex_pick ex_text (ex_env FPlain) [CNew dir_d] cstate0 ∅) as [[[t s] o]|] eqn:P; [|contradiction]. destruct T as (-> & T2 & T3).
  exists s, o. split_and!; auto; [exact (play_here _ _ _ _ _ P)|apply allowedb_ok, T2|split; [vm_compute; reflexivity|exact Logic.I]| | exact w0_ok|apply one_line_dec; vm_compute; reflexivity].
  apply ordinaryb_ok; [apply ex_env_ok; exact Logic.I|vm_compute; reflexivity].
Qed.

Print Assumptions C73_below_verbose_partial.
Print Assumptions C73_values_in_the_log_refuted.
Print Assumptions C74_every_line_is_a_log_call_refuted.
