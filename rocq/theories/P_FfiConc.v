(** C67: the C interface called from several threads. *)
From Verif Require Import Bytes Utf8 Proto ProtoFacts Value Codec Store StoreFacts Encrypt World Spec Hyps Refine WorldInv WorldStep Main Frames Reach Examples P_Map P_Store P_Fail Looper Conc Reg Full P_Full P_Full2 Logging Ffi P_Ffi FfiConc.
From Coq Require Import ZArith ZifyBool ZifyNat ZifyN.
Local Open Scope N_scope.

(** ** What the store answers *)

(** The calls that answer with a value, and its type. *)
Definition answer_ok (o : rop) (r : result) : Prop :=
  forall v, r = ROk (Some v) -> exists h k t, o = OCall h (Conc.CGet k t) /\ type_of v = t.

Definition quiet_pc (p : rpc) : Prop :=
  match p with QRel r | QArc r | QJoin r | QDone r => forall v, r <> ROk (Some v) | _ => True end.

Definition op_ok (p : rpc) (o : rop) : Prop := match o with OCall _ _ => p = QWant | _ => quiet_pc p end.

Definition apc_ok (p : apc) (o : cop) : Prop :=
  match p with
  | ARet r | ADone r => forall v, r = ROk (Some v) -> exists k t, o = Conc.CGet k t /\ type_of v = t
  | _ => True
  end.

Section Answers.
Context (E : env).

Lemma parse_type m t v : buffer_parse m t = ROk v -> type_of v = t.
Proof.
  unfold buffer_parse, res_map. destruct (type_token t); try discriminate. destruct (is_deleting m); [discriminate|].
  destruct (Z.eqb _ _); [|discriminate]. destruct (from_bytes t (kv_value m)) as [u|e|] eqn:F; try discriminate. intros [= ->].
  eapply from_bytes_type, F.
Qed.

Lemma body_answer f o f' r : body f o = (f', NRet r) -> apc_ok (ARet r) o.
Proof.
  unfold body. destruct (f_poison f); [intros [= _ <-] v; discriminate|]. destruct o as [k v|k t|k|].
  - destruct (buffer_new k v); [destruct (f_valid f)|..]; intros [= _ <-] u; discriminate.
  - intros [= _ <-] v H. destruct (f_valid f); [|discriminate]. destruct (f_map f !! k) as [m|]; [|discriminate].
    exists k, t. split; [reflexivity|]. unfold res_map in H. destruct (buffer_parse m t) as [u|e|] eqn:B; try discriminate. injection H as ->. eapply parse_type, B.
  - destruct (f_valid f); [destruct (f_map f !! k)|]; intros [= _ <-] u; discriminate.
  - destruct (f_valid f); intros Q; discriminate.
Qed.

(** A step of a store keeps the calls and what they are. *)
Lemma cstep_calls i st a st' : Conc.cstep E i st a st' -> a = HTau ->
  (forall c p ho, c_calls st !! c = Some (p, ho) -> apc_ok p ho.2) ->
  forall c p ho, c_calls st' !! c = Some (p, ho) -> apc_ok p ho.2 /\ exists p', c_calls st !! c = Some (p', ho).
Proof.
  assert (U : forall (m : gmap N (apc * (N * cop))) c0 p0 p1 h0 o0, m !! c0 = Some (p0, (h0, o0)) -> apc_ok p1 o0 ->
    (forall c p ho, m !! c = Some (p, ho) -> apc_ok p ho.2) ->
    forall c p ho, <[c0 := (p1, (h0, o0))]> m !! c = Some (p, ho) -> apc_ok p ho.2 /\ exists p', m !! c = Some (p', ho)).
  { intros m c0 p0 p1 h0 o0 H0 H1 HA c p ho H. apply lookup_insert_Some in H as [[<- [= <- <-]]|[_ H]]; [eauto|]. eauto. }
  intros S Ha HA. destruct S; try discriminate Ha; cbn; try (intros; eauto; fail);
    (eapply U; [eassumption| |assumption]; try exact Logic.I).
  - eapply body_answer; eassumption.
  - destruct ok; [destruct o|]; cbn; try exact Logic.I; intros ?; discriminate.
  - intros ?; discriminate.
  - destruct ok; [exact Logic.I|]. intros ?; discriminate.
  - intros ?; discriminate.
  - destruct (l_x (c_loop s)); intros ?; discriminate.
  - intros ?; discriminate.
  - match goal with H : c_calls _ !! _ = Some (ARet _, _) |- _ => apply HA in H; exact H end.
Qed.

Lemma loop_handles i l a l' : Looper.xstep (Conc.cexec E i) l a l' -> w_handles (l_cb l') = w_handles (l_cb l).
Proof.
  assert (C : forall j w t b, Conc.cexec E i j w = (t, b) -> w_handles t = w_handles w).
  { intros j w t b. unfold Conc.cexec. destruct (w_insts w !! i) as [x|]; [|intros [= <- _]; reflexivity]. intros [= <- _].
    destruct (run_job_sub E (set_inst w i (i_with_queue x [j])) i) as (_ & -> & _). reflexivity. }
  destruct 1; try reflexivity; cbn; eapply C; eassumption.
Qed.

Lemma cstep_handles i st a st' : Conc.cstep E i st a st' -> w_handles (l_cb (c_loop st')) = w_handles (l_cb (c_loop st)).
Proof.
  assert (P : forall l (a : label job) l' , pstep (T := world) l a l' -> w_handles (l_cb l') = w_handles (l_cb l)) by (destruct 1; reflexivity).
  assert (K : forall l (a : label job) l' , kstep (T := world) l a l' -> w_handles (l_cb l') = w_handles (l_cb l)) by (destruct 1; reflexivity).
  destruct 1; try reflexivity; try (cbn; eapply P; eassumption); try (cbn; eapply K; eassumption).
  - cbn. match goal with H : open_impl _ _ _ _ = _ |- _ => destruct (open_impl_sub _ _ _ _ _ _ H) as (_ & H' & _) end. exact H'.
  - cbn. match goal with H : open_impl _ _ _ _ = _ |- _ => destruct (open_impl_sub _ _ _ _ _ _ H) as (_ & H' & _) end. exact H'.
  - cbn. match goal with H : open_impl _ _ _ _ = _ |- _ => destruct (open_impl_sub _ _ _ _ _ _ H) as (_ & H' & _) end. exact H'.
  - cbn. eapply loop_handles; eassumption.
Qed.

Record FI (f : full) : Prop := {
  f_op : forall c p o, r_ops (u_reg f) !! c = Some (p, o) -> op_ok p o /\ c < r_next (u_reg f);
  f_in : forall i st c p h o, u_stores f !! i = Some st -> c_calls st !! c = Some (p, (h, o)) ->
    r_ops (u_reg f) !! c = Some (QWant, OCall h o) /\ apc_ok p o;
  f_uni : forall i j st st' c, u_stores f !! i = Some st -> u_stores f !! j = Some st' ->
    is_Some (c_calls st !! c) -> is_Some (c_calls st' !! c) -> i = j
}.

(** What a registry step does to the calls: at most one changes, and none
    that is inside a store. *)
Lemma registry_ops f a s : FI f -> rstep E (u_reg f) a s -> registry_only (u_reg f) s ->
  (r_next s = r_next (u_reg f) /\ (forall c o, a <> RInv c o) \/ exists o, a = RInv (r_next (u_reg f)) o /\ r_next s = r_next (u_reg f) + 1) /\
  (forall c p o, r_ops s !! c = Some (p, o) -> op_ok p o /\ (r_ops (u_reg f) !! c = Some (p, o) \/ (exists p', r_ops (u_reg f) !! c = Some (p', o)) \/ a = RInv c o)) /\
  (forall c h o, r_ops (u_reg f) !! c = Some (QWant, OCall h o) -> r_ops s !! c = Some (QWant, OCall h o)) /\
  (forall c p o, r_ops (u_reg f) !! c = Some (p, o) -> (exists p', r_ops s !! c = Some (p', o)) \/ exists r, a = RRet c r).
Proof.
  intros I S RO.
  assert (U : forall c0 p0 p1 o0, r_ops (u_reg f) !! c0 = Some (p0, o0) -> r_ops s = <[c0 := (p1, o0)]> (r_ops (u_reg f)) -> r_next s = r_next (u_reg f) ->
    (forall h o, o0 <> OCall h o) -> quiet_pc p1 -> (forall c o, a <> RInv c o) ->
    (r_next s = r_next (u_reg f) /\ (forall c o, a <> RInv c o) \/ exists o, a = RInv (r_next (u_reg f)) o /\ r_next s = r_next (u_reg f) + 1) /\
    (forall c p o, r_ops s !! c = Some (p, o) -> op_ok p o /\ (r_ops (u_reg f) !! c = Some (p, o) \/ (exists p', r_ops (u_reg f) !! c = Some (p', o)) \/ a = RInv c o)) /\
    (forall c h o, r_ops (u_reg f) !! c = Some (QWant, OCall h o) -> r_ops s !! c = Some (QWant, OCall h o)) /\
    (forall c p o, r_ops (u_reg f) !! c = Some (p, o) -> (exists p', r_ops s !! c = Some (p', o)) \/ exists r, a = RRet c r)).
  { intros c0 p0 p1 o0 H0 Hs Hn Ho Hq Ha. rewrite Hs. split_and!; auto.
    - intros c p o H. apply lookup_insert_Some in H as [[<- [= <- <-]]|[_ H]].
      + split; [|eauto]. destruct o0; [exact Hq|exact Hq|destruct (Ho _ _ eq_refl)].
      + split; [apply (f_op _ I _ _ _ H)|auto].
    - intros c h o H. rewrite lookup_insert_ne; [exact H|]. intros <-. rewrite H in H0. injection H0 as <- <-. eapply Ho; reflexivity.
    - intros c p o H. left. destruct (decide (c = c0)) as [->|Hne]; [|rewrite lookup_insert_ne by congruence; eauto].
      rewrite H in H0. injection H0 as -> ->. rewrite lookup_insert. eauto. }
  assert (B : forall p0 o0, s = begin (u_reg f) p0 o0 -> (forall h o, o0 <> OCall h o) -> quiet_pc p0 -> a = RInv (r_next (u_reg f)) o0 ->
    (r_next s = r_next (u_reg f) /\ (forall c o, a <> RInv c o) \/ exists o, a = RInv (r_next (u_reg f)) o /\ r_next s = r_next (u_reg f) + 1) /\
    (forall c p o, r_ops s !! c = Some (p, o) -> op_ok p o /\ (r_ops (u_reg f) !! c = Some (p, o) \/ (exists p', r_ops (u_reg f) !! c = Some (p', o)) \/ a = RInv c o)) /\
    (forall c h o, r_ops (u_reg f) !! c = Some (QWant, OCall h o) -> r_ops s !! c = Some (QWant, OCall h o)) /\
    (forall c p o, r_ops (u_reg f) !! c = Some (p, o) -> (exists p', r_ops s !! c = Some (p', o)) \/ exists r, a = RRet c r)).
  { intros p0 o0 -> Ho Hq ->. cbn. split_and!; eauto.
    - intros c p o H. apply lookup_insert_Some in H as [[<- [= <- <-]]|[_ H]].
      + split; [|eauto]. destruct o0; [exact Hq|exact Hq|destruct (Ho _ _ eq_refl)].
      + split; [apply (f_op _ I _ _ _ H)|auto].
    - intros c h o H. rewrite lookup_insert_ne; [exact H|]. intros <-. apply (f_op _ I) in H. lia.
    - intros c p o H. left. exists p. rewrite lookup_insert_ne; [exact H|]. intros <-. apply (f_op _ I) in H. lia. }
  inversion S; subst; clear S.
  all: try (eapply B; [reflexivity|congruence|exact Logic.I|reflexivity]; fail).
  all: try (eapply U; [eassumption|reflexivity|reflexivity|congruence| |congruence]; cbn; try exact Logic.I; try (intros v; discriminate); fail).
  - (* q_call *) exfalso. pose proof (ro_call _ _ RO (r_next (u_reg f)) QWant h o) as Q. cbn in Q. rewrite lookup_insert in Q. specialize (Q eq_refl).
    apply (f_op _ I) in Q. lia.
  - (* q_write *) match goal with H : _ !! _ = Some (QWantW, _) |- _ => rename H into Hw end. eapply U; [eassumption|reflexivity|reflexivity| |exact Logic.I|congruence]. intros h o' ->. apply (f_op _ I) in Hw as [Q _]. discriminate Q.
  - (* q_release *) pose proof (f_op _ I _ _ _ H) as [Q _]. destruct o as [pa k|h|h o]; [| |discriminate Q].
    + eapply U; [eassumption|reflexivity|reflexivity|congruence|exact Q|congruence].
    + eapply U; [eassumption|reflexivity|reflexivity|congruence|exact Q|congruence].
  - (* q_arc *) pose proof (f_op _ I _ _ _ H) as [Q _]. eapply U; [eassumption|reflexivity|reflexivity|congruence|exact Q|congruence].
  - (* q_arc_last *) pose proof (f_op _ I _ _ _ H) as [Q _]. eapply U; [eassumption|reflexivity|reflexivity|congruence|exact Q|congruence].
  - (* q_joined *) eapply U; [eassumption|reflexivity|reflexivity|congruence| |congruence]. cbn. intros v. unfold both.
    pose proof (f_op _ I _ _ _ H) as [Q _]. cbn in Q. destruct r; [|destruct (i_join x); [destruct (i_io x)|]; discriminate|discriminate]. destruct (i_join x); [destruct (i_io x)|]; discriminate.
  - (* q_do *) exfalso. pose proof (ro_call _ _ RO c (QDone r) h o) as Q. cbn in Q. rewrite lookup_insert in Q. specialize (Q eq_refl). congruence.
  - (* q_io *) cbn. split_and!.
    + left. split; [reflexivity|congruence].
    + intros c p o Hc. split; [apply (f_op _ I _ _ _ Hc)|auto].
    + auto.
    + eauto.
  - (* q_return *) cbn. split_and!.
    + left. split; [reflexivity|congruence].
    + intros d p o' Hd. apply lookup_delete_Some in Hd as [_ Hd]. split; [apply (f_op _ I _ _ _ Hd)|auto].
    + intros d h o' Hd. rewrite lookup_delete_ne; [exact Hd|]. intros <-. rewrite H in Hd. injection Hd as Q _. discriminate Q.
    + intros d p o' Hd. destruct (decide (c = d)) as [->|Hne]; [eauto|]. left. exists p. rewrite lookup_delete_ne by congruence. exact Hd.
Qed.

Lemma FI_0 : FI full0.
Proof. split; cbn; intros *; rewrite lookup_empty; discriminate. Qed.

Lemma uni_from f (m : gmap N conc) : FI f -> (forall i st c, m !! i = Some st -> is_Some (c_calls st !! c) -> exists st0, u_stores f !! i = Some st0 /\ is_Some (c_calls st0 !! c)) ->
  forall i j st st' c, m !! i = Some st -> m !! j = Some st' -> is_Some (c_calls st !! c) -> is_Some (c_calls st' !! c) -> i = j.
Proof. intros I H i j st st' c Hi Hj Ci Cj. destruct (H _ _ _ Hi Ci) as (s1 & A1 & A2). destruct (H _ _ _ Hj Cj) as (s2 & B1 & B2). eapply (f_uni _ I); eassumption. Qed.

(** What a step does to the calls. *)
Record ops_step (f : full) (a : rlabel) (f' : full) : Prop := {
  os_next : r_next (u_reg f) <= r_next (u_reg f');
  os_inv : forall c o, a = RInv c o -> c = r_next (u_reg f) /\ r_next (u_reg f') = r_next (u_reg f) + 1 /\ exists p, r_ops (u_reg f') !! c = Some (p, o);
  os_keep : forall c p o, r_ops (u_reg f) !! c = Some (p, o) -> (exists p', r_ops (u_reg f') !! c = Some (p', o)) \/ exists r, a = RRet c r;
  os_back : forall c p o, r_ops (u_reg f') !! c = Some (p, o) -> (exists p', r_ops (u_reg f) !! c = Some (p', o)) \/ a = RInv c o;
  os_ret : forall c r, a = RRet c r -> exists p o, r_ops (u_reg f) !! c = Some (p, o) /\ answer_ok o r /\ r_ops (u_reg f') !! c = None
}.

(** A step that moves call [c0] on. *)
Lemma ops_moved f f' c0 p0 p1 o0 : r_ops (u_reg f) !! c0 = Some (p0, o0) -> r_ops (u_reg f') = <[c0 := (p1, o0)]> (r_ops (u_reg f)) ->
  r_next (u_reg f') = r_next (u_reg f) -> ops_step f RTau f'.
Proof.
  intros H0 Hs Hn. split; try discriminate; rewrite ?Hs, ?Hn.
  - lia.
  - intros c p o H. left. destruct (decide (c = c0)) as [->|Hne]; [|rewrite lookup_insert_ne by congruence; eauto].
    rewrite H in H0. injection H0 as -> ->. rewrite lookup_insert. eauto.
  - intros c p o H. left. apply lookup_insert_Some in H as [[<- [= <- <-]]|[_ H]]; eauto.
Qed.

Lemma ops_same f f' : r_ops (u_reg f') = r_ops (u_reg f) -> r_next (u_reg f') = r_next (u_reg f) -> ops_step f RTau f'.
Proof. intros Hs Hn. split; try discriminate; rewrite ?Hs, ?Hn; [lia|eauto..]. Qed.

Lemma FI_step f a f' : FI f -> fstep E f a f' -> FI f' /\ ops_step f a f'.
Proof.
  intros I S. destruct S as [f a s S RO|f c path key w x Hc Ho|f h hd o st st' Hu Hh Hst S|f i st st' Hst S|f c h o hd st st' r Hc Hh Hst S|f c h hd r st l Hc Hh Hs Hst D|f c h hd r st b Hc Hh Hst J].
  - destruct (registry_ops f a s I S RO) as (A & B & C & D).
    assert (N : r_next (u_reg f) <= r_next s) by (destruct A as [[-> _]|(o & _ & ->)]; lia).
    assert (LT : forall c p o, r_ops s !! c = Some (p, o) -> c < r_next s).
    { intros c p o H. destruct (B _ _ _ H) as [_ [Q|[[p' Q]| ->]]]; [apply (f_op _ I) in Q; lia|apply (f_op _ I) in Q; lia|].
      destruct A as [[_ A]|(o' & [= -> ->] & ->)]; [destruct (A _ _ eq_refl)|lia]. }
    split.
    + split; cbn.
      * intros c p o H. split; [apply (B _ _ _ H)|eapply LT, H].
      * intros i st c p h o Hi Hc. destruct (f_in _ I _ _ _ _ _ _ Hi Hc) as [Q1 Q2]. auto.
      * apply (f_uni _ I).
    + split; cbn; [exact N|..].
      * intros c o ->. destruct A as [[_ A]|(o' & [= -> ->] & ->)]; [destruct (A _ _ eq_refl)|]. split_and!; auto.
        inversion S; subst; cbn; eexists; rewrite lookup_insert; reflexivity.
      * exact D.
      * intros c p o H. destruct (B _ _ _ H) as [_ [Q|[Q|Q]]]; eauto.
      * intros c r ->. inversion S; subst. exists (QDone r), o. cbn. split_and!; [assumption| |apply lookup_delete].
        match goal with H : r_ops _ !! c = Some (QDone r, o) |- _ => pose proof (f_op _ I _ _ _ H) as [Q _] end.
        intros v ->. destruct o; [destruct (Q v eq_refl)|destruct (Q v eq_refl)|discriminate Q].
  - assert (O : ops_step f RTau (Full (set_op (set_w (u_reg f)
      (World (w_dirs w) (w_inodes w) (w_next_ino w) (<[w_next_inst w := x]> (w_insts w)) (w_next_inst w + 1)
             (w_handles w) (w_reg w) (w_poison w) (w_rng w) (w_seed w))) c (QIns (w_next_inst w)) (OOpen path key))
      (<[w_next_inst w := conc0 w x]> (u_stores f)))) by (eapply ops_moved; [exact Hc|reflexivity|reflexivity]).
    split; [|exact O]. split; cbn.
    + intros d p o H. apply lookup_insert_Some in H as [[<- [= <- <-]]|[_ H]]; [split; [exact Logic.I|apply (f_op _ I _ _ _ Hc)]|apply (f_op _ I _ _ _ H)].
    + intros i st d p h o Hi Hd. apply lookup_insert_Some in Hi as [[<- <-]|[_ Hi]]; [cbn in Hd; rewrite lookup_empty in Hd; discriminate|].
      destruct (f_in _ I _ _ _ _ _ _ Hi Hd) as [Q1 Q2]. split; [|exact Q2]. rewrite lookup_insert_ne; [exact Q1|]. intros <-. congruence.
    + apply (uni_from f); [exact I|]. intros i st d Hi Hd. apply lookup_insert_Some in Hi as [[<- <-]|[_ Hi]]; [cbn in Hd; rewrite lookup_empty in Hd; destruct Hd; discriminate|eauto].
  - inversion S; subst. cbn in *. split.
    + split; cbn.
      * intros c p o' H. apply lookup_insert_Some in H as [[<- [= <- <-]]|[_ H]]; [split; [reflexivity|lia]|]. apply (f_op _ I) in H as [H1 H2]. split; [exact H1|lia].
      * intros i st2 c p h' o' Hi Hc2.
        assert (Z : forall j st3, u_stores f !! j = Some st3 -> c_calls st3 !! c = Some (p, (h', o')) -> <[r_next (u_reg f) := (QWant, OCall h o)]> (r_ops (u_reg f)) !! c = Some (QWant, OCall h' o') /\ apc_ok p o').
        { intros j st3 Hj Hc3. destruct (f_in _ I _ _ _ _ _ _ Hj Hc3) as [Q1 Q2]. split; [|exact Q2].
          rewrite lookup_insert_ne; [exact Q1|]. intros <-. apply (f_op _ I) in Q1. lia. }
        apply lookup_insert_Some in Hi as [[<- <-]|[_ Hi]]; [|eauto]. cbn in Hc2.
        apply lookup_insert_Some in Hc2 as [[<- [= <- <- <-]]|[_ Hc2]]; [rewrite lookup_insert; split; [reflexivity|exact Logic.I]|]. eapply Z; eassumption.
      * assert (Fr : forall j st3, u_stores f !! j = Some st3 -> ~ is_Some (c_calls st3 !! r_next (u_reg f))).
        { intros j st3 Hj [[p [h' o']] H]. destruct (f_in _ I _ _ _ _ _ _ Hj H) as [H1 _]. apply (f_op _ I) in H1. lia. }
        assert (Bk : forall i st2 c, c <> r_next (u_reg f) -> <[h_inst hd:=Conc (c_front st) (c_readers st) (c_writer st) (set_cb (c_loop st) (r_world (u_reg f))) (<[r_next (u_reg f):=(AWant, (h, o))]> (c_calls st)) (r_next (u_reg f) + 1)]> (u_stores f) !! i = Some st2 -> is_Some (c_calls st2 !! c) -> exists st0, u_stores f !! i = Some st0 /\ is_Some (c_calls st0 !! c)).
        { intros i st2 c Hne Hi Hc2. apply lookup_insert_Some in Hi as [[<- <-]|[_ Hi]]; [|eauto]. cbn in Hc2. rewrite lookup_insert_ne in Hc2 by congruence. eauto. }
        intros i j s1 s2 c Hi Hj Ci Cj. destruct (decide (c = r_next (u_reg f))) as [->|Hne].
        -- apply lookup_insert_Some in Hi as [[<- _]|[_ Hi]]; [|destruct (Fr _ _ Hi Ci)]. apply lookup_insert_Some in Hj as [[<- _]|[_ Hj]]; [reflexivity|destruct (Fr _ _ Hj Cj)].
        -- destruct (Bk _ _ _ Hne Hi Ci) as (z1 & A1 & A2). destruct (Bk _ _ _ Hne Hj Cj) as (z2 & B1 & B2). eapply (f_uni _ I); eassumption.
    + split; cbn.
      * lia.
      * intros c o' [= <- <-]. split_and!; auto. rewrite lookup_insert. eauto.
      * intros c p o' H. left. exists p. rewrite lookup_insert_ne; [exact H|]. intros <-. apply (f_op _ I) in H. lia.
      * intros c p o' H. apply lookup_insert_Some in H as [[<- [= <- <-]]|[_ H]]; eauto.
      * discriminate.
  - split; [|apply ops_same; reflexivity].
    assert (CC : forall c p ho, c_calls st' !! c = Some (p, ho) -> apc_ok p ho.2 /\ exists p', c_calls st !! c = Some (p', ho)).
    { apply (cstep_calls i (inner f st) HTau st' S eq_refl). intros d q [h' o'] Hd. apply (f_in _ I _ _ _ _ _ _ Hst Hd). }
    split; cbn; [apply I| |apply (uni_from f); [exact I|]; intros j st2 c Hj [[p ho] Hc]; apply lookup_insert_Some in Hj as [[<- <-]|[_ Hj]]; [|eauto]; destruct (CC _ _ _ Hc) as [_ [p' Q]]; eauto].
    intros j st2 c p h o Hj Hc. apply lookup_insert_Some in Hj as [[<- <-]|[_ Hj]]; [|eapply (f_in _ I); eassumption].
    destruct (CC _ _ _ Hc) as [Q1 [p' Q2]]. split; [|exact Q1]. apply (f_in _ I _ _ _ _ _ _ Hst Q2).
  - inversion S; subst. cbn in *. match goal with H : c_calls st !! c = Some (ADone r, (?h1, ?o1)) |- _ => destruct (f_in _ I _ _ _ _ _ _ Hst H) as [Q1 Q2]; rename H into Hd end.
    rewrite Hc in Q1. injection Q1 as <- <-. split.
    + split; cbn.
      * intros d p o' H. apply lookup_delete_Some in H as [_ H]. apply (f_op _ I _ _ _ H).
      * intros i st2 d p h' o' Hi Hd2.
        assert (Z : d <> c -> forall j st3, u_stores f !! j = Some st3 -> c_calls st3 !! d = Some (p, (h', o')) -> delete c (r_ops (u_reg f)) !! d = Some (QWant, OCall h' o') /\ apc_ok p o').
        { intros Hne j st3 Hj Hc3. destruct (f_in _ I _ _ _ _ _ _ Hj Hc3) as [Y1 Y2]. split; [|exact Y2]. rewrite lookup_delete_ne by congruence. exact Y1. }
        apply lookup_insert_Some in Hi as [[<- <-]|[Hne Hi]]; cbn in Hd2.
        -- apply lookup_delete_Some in Hd2 as [Hne Hd2]. eapply Z; eauto.
        -- destruct (decide (d = c)) as [->|Hdc]; [|eapply Z; eassumption]. exfalso. apply Hne. eapply (f_uni _ I); eauto.
      * apply (uni_from f); [exact I|]. intros i st2 d Hi Hd2. apply lookup_insert_Some in Hi as [[<- <-]|[_ Hi]]; [|eauto]. cbn in Hd2. exists st. split; [exact Hst|]. destruct Hd2 as [y Hy]. apply lookup_delete_Some in Hy as [_ Hy]. eauto.
    + split; cbn; try discriminate.
      * lia.
      * intros d p o' H. destruct (decide (d = c)) as [->|Hne]; [eauto|]. left. exists p. rewrite lookup_delete_ne by congruence. exact H.
      * intros d p o' H. apply lookup_delete_Some in H as [_ H]. eauto.
      * intros d r' [= <- <-]. exists QWant, (OCall h o). split_and!; [exact Hc| |apply lookup_delete]. intros v Hv. destruct (Q2 v Hv) as (k & t & -> & T). eauto.
  - assert (O : ops_step f RTau (Full (set_op (set_dead (u_reg f) ({[h_inst hd]} ∪ r_dead (u_reg f))) c (QJoin r) (OClose h))
                       (<[h_inst hd := set_loop st l]> (u_stores f)))) by (eapply ops_moved; [exact Hc|reflexivity|reflexivity]).
    split; [|exact O]. pose proof (f_op _ I _ _ _ Hc) as [Q1 Q2]. split; cbn.
    + intros d p o H. apply lookup_insert_Some in H as [[<- [= <- <-]]|[_ H]]; [split; assumption|apply (f_op _ I _ _ _ H)].
    + intros i st2 d p h' o Hi Hd.
      assert (Z : exists st3, u_stores f !! i = Some st3 /\ c_calls st3 !! d = Some (p, (h', o))) by (apply lookup_insert_Some in Hi as [[<- <-]|[_ Hi]]; eauto).
      destruct Z as (st3 & Z1 & Z2). destruct (f_in _ I _ _ _ _ _ _ Z1 Z2) as [Y1 Y2]. split; [|exact Y2]. rewrite lookup_insert_ne; [exact Y1|]. intros <-. congruence.
    + apply (uni_from f); [exact I|]. intros i st2 d Hi Hd2. apply lookup_insert_Some in Hi as [[<- <-]|[_ Hi]]; eauto.
  - assert (O : ops_step f RTau (Full (set_op (set_dead (set_w (u_reg f)
        (set_handles (set_insts (r_world (u_reg f)) (delete (h_inst hd) (w_insts (r_world (u_reg f))))) (delete h (w_handles (r_world (u_reg f))))))
        (r_dead (u_reg f) ∖ {[h_inst hd]})) c (QDone (both r b)) (OClose h))
      (delete (h_inst hd) (u_stores f)))) by (eapply ops_moved; [exact Hc|reflexivity|reflexivity]).
    split; [|exact O]. pose proof (f_op _ I _ _ _ Hc) as [Q1 Q2]. cbn in Q1. split; cbn.
    + intros d p o H. apply lookup_insert_Some in H as [[<- [= <- <-]]|[_ H]]; [split; [|exact Q2]|apply (f_op _ I _ _ _ H)].
      cbn. intros v. destruct J as [(ok & l' & _ & ->)|(ok & _ & ->)]; unfold both; destruct r; try discriminate; destruct ok; discriminate.
    + intros i st2 d p h' o Hi Hd. apply lookup_delete_Some in Hi as [_ Hi].
      destruct (f_in _ I _ _ _ _ _ _ Hi Hd) as [Y1 Y2]. split; [|exact Y2]. rewrite lookup_insert_ne; [exact Y1|]. intros <-. congruence.
    + apply (uni_from f); [exact I|]. intros i st2 d Hi Hd2. apply lookup_delete_Some in Hi as [_ Hi]. eauto.
Qed.
End Answers.

(** ** The handles *)

Section Handles.
Context (E : env).

Notation hds f := (w_handles (r_world (u_reg f))).
Notation ops f := (r_ops (u_reg f)).

Definition opened (p : rpc) : Prop := match p with QRel (ROk _) | QDone (ROk _) => True | _ => False end.

Record HH (f : full) : Prop := {
  hh_open : forall c p path key, ops f !! c = Some (p, OOpen path key) -> opened p -> is_Some (hds f !! c);
  hh_close : forall c p h, ops f !! c = Some (p, OClose h) -> ops f !! h = None /\ h < r_next (u_reg f);
  hh_dom : forall h, is_Some (hds f !! h) -> h < r_next (u_reg f)
}.

Lemma HH_0 : HH full0.
Proof. split; cbn; intros *; rewrite lookup_empty; try discriminate. intros [? Q]. discriminate Q. Qed.

(** What a step does to the handles. *)
Record hd_step (f : full) (a : rlabel) (f' : full) : Prop := {
  hs_new : forall h, is_Some (hds f' !! h) -> is_Some (hds f !! h) \/ exists p k1 k2, ops f !! h = Some (p, OOpen k1 k2);
  hs_gone : forall h, is_Some (hds f !! h) -> is_Some (hds f' !! h) \/ exists c p, ops f !! c = Some (p, OClose h);
  hs_open : forall c p k1 k2, ops f' !! c = Some (p, OOpen k1 k2) -> opened p -> (exists p', ops f !! c = Some (p', OOpen k1 k2) /\ opened p') \/ is_Some (hds f' !! c);
  hs_close : forall c h, a = RInv c (OClose h) -> usable (u_reg f) h
}.

Lemma hd_same f a f' : hds f' = hds f ->
  (forall c p k1 k2, ops f' !! c = Some (p, OOpen k1 k2) -> opened p -> exists p', ops f !! c = Some (p', OOpen k1 k2) /\ opened p') ->
  (forall c h, a = RInv c (OClose h) -> usable (u_reg f) h) -> hd_step f a f'.
Proof. intros H1 H2 H3. split; rewrite ?H1; auto. intros c p k1 k2 Hc Ho. left. eauto. Qed.

Lemma moved_open (m : gmap N (rpc * rop)) c0 p0 p1 o0 : m !! c0 = Some (p0, o0) -> (opened p1 -> opened p0 \/ forall k1 k2, o0 <> OOpen k1 k2) ->
  forall c p k1 k2, <[c0 := (p1, o0)]> m !! c = Some (p, OOpen k1 k2) -> opened p -> exists p', m !! c = Some (p', OOpen k1 k2) /\ opened p'.
Proof.
  intros H0 H1 c p k1 k2 H Ho. apply lookup_insert_Some in H as [[<- Q]|[_ H]]; [|eauto]. injection Q as <- ->. destruct (H1 Ho) as [?|Q]; [eauto|destruct (Q _ _ eq_refl)].
Qed.

Lemma fstep_handles f a f' : fstep E f a f' -> hd_step f a f'.
Proof.
  intros S. destruct S as [f a s S RO|f c path key w x Hc Ho|f h hd o st st' Hu Hh Hst S|f i st st' Hst S|f c h o hd st st' r Hc Hh Hst S|f c h hd r st l Hc Hh Hs Hst D|f c h hd r st b Hc Hh Hst J].
  - (* the registry *)
    assert (Add : forall c p0 p1 path key i w, ops f !! c = Some (p0, OOpen path key) -> w_handles w = <[c := Handle path key i false]> (hds f) ->
      forall rs wr d, hd_step f RTau (Full (Reg w rs wr (<[c := (p1, OOpen path key)]> (ops f)) (r_next (u_reg f)) d) (u_stores f))).
    { intros c p0 p1 path key i w Hc Hw rs wr d. split; cbn; try discriminate; rewrite ?Hw.
      - intros h [y Hy]. apply lookup_insert_Some in Hy as [[<- _]|[_ Hy]]; eauto.
      - intros h [y Hy]. left. destruct (decide (h = c)) as [->|]; [rewrite lookup_insert; eauto|rewrite lookup_insert_ne by congruence; eauto].
      - intros h p k1 k2 Hy Ho. apply lookup_insert_Some in Hy as [[<- _]|[_ Hy]]; [right; rewrite lookup_insert; eauto|left; eauto]. }
    assert (Flag : forall c h hd p0 p1 w, ops f !! c = Some (p0, OClose h) -> hds f !! h = Some hd -> w_handles w = <[h := Handle (h_path hd) (h_key hd) (h_inst hd) true]> (hds f) ->
      forall rs wr d, hd_step f RTau (Full (Reg w rs wr (<[c := (p1, OClose h)]> (ops f)) (r_next (u_reg f)) d) (u_stores f))).
    { intros c h hd p0 p1 w Hc Hh Hw rs wr d. split; cbn; try discriminate; rewrite ?Hw.
      - intros h' [y Hy]. apply lookup_insert_Some in Hy as [[<- _]|[_ Hy]]; eauto.
      - intros h' [y Hy]. left. destruct (decide (h' = h)) as [->|]; [rewrite lookup_insert; eauto|rewrite lookup_insert_ne by congruence; eauto].
      - intros h' p k1 k2 Hy Ho. left. eapply moved_open; [exact Hc| |exact Hy|exact Ho]. right. discriminate. }
    assert (Del : forall c h p0 p1 w, ops f !! c = Some (p0, OClose h) -> w_handles w = delete h (hds f) ->
      forall rs wr d, hd_step f RTau (Full (Reg w rs wr (<[c := (p1, OClose h)]> (ops f)) (r_next (u_reg f)) d) (u_stores f))).
    { intros c h p0 p1 w Hc Hw rs wr d. split; cbn; try discriminate; rewrite ?Hw.
      - intros h' [y Hy]. apply lookup_delete_Some in Hy as [_ Hy]. eauto.
      - intros h' Hy. destruct (decide (h' = h)) as [->|]; [eauto|]. left. rewrite lookup_delete_ne by congruence. exact Hy.
      - intros h' p k1 k2 Hy Ho. left. eapply moved_open; [exact Hc| |exact Hy|exact Ho]. right. discriminate. }
    inversion S; subst; clear S RO.
    all: try (eapply Add; [eassumption|reflexivity]; fail).
    all: try (eapply Del; [eassumption|reflexivity]; fail).
    all: try (eapply Flag; [eassumption|eassumption|reflexivity]; fail).
    all: try (apply hd_same; [reflexivity| |discriminate]; cbn; eapply moved_open; [eassumption|]; intros []; fail).
    + apply hd_same; [reflexivity| |discriminate]. cbn. intros d p k1 k2 Hd Ho. apply lookup_insert_Some in Hd as [[_ Q]|[_ Hd]]; [first [discriminate Q|injection Q as <- _ _; destruct Ho]|eauto].
    + apply hd_same; [reflexivity| |discriminate]. cbn. intros d p k1 k2 Hd Ho. apply lookup_insert_Some in Hd as [[_ Q]|[_ Hd]]; [first [discriminate Q|injection Q as <- _ _; destruct Ho]|eauto].
    + apply hd_same; [reflexivity| |intros c' h' [= _ <-]; assumption]. cbn. intros d p k1 k2 Hd Ho. apply lookup_insert_Some in Hd as [[_ Q]|[_ Hd]]; [first [discriminate Q|injection Q as <- _ _; destruct Ho]|eauto].
    + match goal with H : open_impl E _ _ _ = _ |- _ => destruct (open_impl_sub _ _ _ _ _ _ H) as (_ & Hw & _) end.
      apply hd_same; [exact Hw| |discriminate]. cbn. eapply moved_open; [eassumption|]. intros [].
    + match goal with H : open_impl E _ _ _ = _ |- _ => destruct (open_impl_sub _ _ _ _ _ _ H) as (_ & Hw & _) end.
      apply hd_same; [exact Hw| |discriminate]. cbn. eapply moved_open; [eassumption|]. intros [].
    + match goal with H : ops f !! c = Some (QRem last, _) |- _ => eapply Flag; [exact H|eassumption|] end. destruct last; reflexivity.
    + apply hd_same; [reflexivity| |discriminate]. cbn. destruct o as [k1 k2|h|h o]; (eapply moved_open; [eassumption|]); intros Ho; [left; exact Ho|destruct Ho|right; discriminate].
    + apply hd_same; [eapply handle_event; [|eassumption]; destruct o; cbn; eauto 8| |discriminate]. cbn. eapply moved_open; [eassumption|]. intros _. right. discriminate.
    + apply hd_same; [cbn; match goal with |- context[run_job E ?w ?i] => destruct (run_job_sub E w i) as (_ & -> & _) end; reflexivity| |discriminate]. cbn. eauto.
    + apply hd_same; [reflexivity| |discriminate]. cbn. intros d p k1 k2 Hd Ho. apply lookup_delete_Some in Hd as [_ Hd]. eauto.
  - destruct (open_impl_sub _ _ _ _ _ _ Ho) as (_ & Hw & _). apply hd_same; [exact Hw| |discriminate]. cbn. eapply moved_open; [exact Hc|]. intros [].
  - apply hd_same; [reflexivity| |discriminate]. cbn. intros d p k1 k2 Hd Ho. apply lookup_insert_Some in Hd as [[_ Q]|[_ Hd]]; [first [discriminate Q|injection Q as <- _ _; destruct Ho]|eauto].
  - apply hd_same; [apply cstep_handles in S; exact S| |discriminate]. cbn. eauto.
  - apply hd_same; [reflexivity| |discriminate]. cbn. intros d p k1 k2 Hd Ho. apply lookup_delete_Some in Hd as [_ Hd]. eauto.
  - apply hd_same; [reflexivity| |discriminate]. cbn. eapply moved_open; [exact Hc|]. intros [].
  - split; cbn; try discriminate.
    + intros h' [y Hy]. apply lookup_delete_Some in Hy as [_ Hy]. eauto.
    + intros h' Hy. destruct (decide (h' = h)) as [->|]; [eauto|]. left. rewrite lookup_delete_ne by congruence. exact Hy.
    + intros h' p k1 k2 Hy Ho. left. eapply moved_open; [exact Hc| |exact Hy|exact Ho]. right. discriminate.
Qed.

Lemma HH_step f a f' : FI f -> HH f -> fstep E f a f' -> HH f' /\
  (forall h, usable (u_reg f) h -> (forall c, a <> RInv c (OClose h)) -> usable (u_reg f') h) /\
  (forall c v k1 k2 p, a = RRet c (ROk v) -> ops f !! c = Some (p, OOpen k1 k2) -> usable (u_reg f') c).
Proof.
  intros I H S. pose proof (fstep_handles _ _ _ S) as [S1 S2 S3 S4]. destruct (FI_step E _ _ _ I S) as [_ O]. pose proof O as [O1 O2 O3 O4 O5]. pose proof H as [H1 H2 H3].
  split; [|split].
  - split.
    + intros c p k1 k2 Hc Ho. destruct (S3 _ _ _ _ Hc Ho) as [(p' & Q1 & Q2)|Q]; [|exact Q].
      destruct (S2 c (H1 _ _ _ _ Q1 Q2)) as [|(d & q & Q)]; [assumption|]. destruct (H2 _ _ _ Q). congruence.
    + intros c p h Hc. assert (N : ops f !! h = None /\ h < r_next (u_reg f)).
      { destruct (O4 _ _ _ Hc) as [[p' Q]|Q]; [eapply H2, Q|]. destruct (S4 _ _ Q) as (U1 & U2 & _). split; [exact U2|]. apply H3, U1. }
      destruct N as [N1 N2]. split; [|lia]. destruct (ops f' !! h) as [[q o]|] eqn:Q; [exfalso|reflexivity].
      destruct (O4 _ _ _ Q) as [[q' Q']|Q']; [congruence|]. destruct (O2 _ _ Q') as [-> _]. lia.
    + intros h Hh. destruct (S1 _ Hh) as [Q|(p & k1 & k2 & Q)]; [apply H3 in Q; lia|]. apply (f_op _ I) in Q. lia.
  - intros h (U1 & U2 & U3) Ha. split_and!.
    + destruct (S2 _ U1) as [|(c & p & Q)]; [assumption|]. destruct (U3 _ _ Q).
    + destruct (ops f' !! h) as [[q o]|] eqn:Q; [exfalso|reflexivity]. destruct (O4 _ _ _ Q) as [[q' Q']|Q']; [congruence|]. destruct (O2 _ _ Q') as [-> _]. apply H3 in U1. lia.
    + intros c p Q. destruct (O4 _ _ _ Q) as [[q' Q']|Q']; [destruct (U3 _ _ Q')|destruct (Ha _ Q')].
  - intros c v k1 k2 p -> Hc. split_and!.
    + assert (Hh : is_Some (hds f !! c)).
      { clear -S I H Hc. inversion S; subst.
        - match goal with R : rstep _ _ _ _ |- _ => inversion R; subst end. match goal with R : _ !! c = Some (QDone _, _) |- _ => rename R into Q end. eapply (hh_open _ H); [exact Hc|]. rewrite Hc in Q. injection Q as -> _. exact Logic.I.
        - congruence. }
      destruct (S2 _ Hh) as [|(d & q & Q)]; [assumption|]. destruct (H2 _ _ _ Q). congruence.
    + destruct (O5 _ _ eq_refl) as (_ & _ & _ & _ & Q). exact Q.
    + intros d q Q. destruct (O4 _ _ _ Q) as [[q' Q']|Q']; [|discriminate Q']. destruct (H2 _ _ _ Q'). congruence.
Qed.

End Handles.


(** ** Memory *)

Section Threads.
Context (pick : heap -> ptr) (text : err -> bytes) (PO : allocator_ok pick) (E : env).

(** Every block belongs to one pointer of [o]. *)
Definition HI (h : heap) (o : held) : Prop := exists w lv own, CInv text (CState w h lv) o own.

Lemma HI_0 : HI ∅ ∅.
Proof. exists world0, 5%Z, ∅. apply CInv_0. Qed.

Lemma HI_handle h o p : HI h o -> o !! p = Some HHandle -> h !! p = Some MHandle.
Proof.
  intros (w & lv & own & I) Ho. destruct (ci_handle _ _ _ _ I p Ho) as [R _].
  assert (X : part own h p !! p = Some MHandle) by (change h with (c_heap (CState w h lv)); rewrite R; apply lookup_singleton).
  apply part_lookup in X as [X _]. exact X.
Qed.

Lemma HI_read h o p t r : HI h o -> o !! p = Some (HResult t r) -> read_result h t p = expected text r.
Proof. intros (w & lv & own & I) Ho. apply (ow_read _ _ _ _ _ (ci_result _ _ _ _ I p t r Ho)), part_sub. Qed.

Lemma HI_empty h : HI h ∅ -> h = ∅.
Proof.
  intros (w & lv & own & I). apply map_empty. intros a. destruct (h !! a) as [c|] eqn:Hc; [exfalso|reflexivity].
  destruct (proj1 (ci_dom _ _ _ _ I a)) as [p Hp]; [eauto|]. destruct (ci_own _ _ _ _ I a p Hp) as [k Hk]. rewrite lookup_empty in Hk. discriminate.
Qed.

Lemma HI_new h o : HI h o -> exists p, alloc pick MHandle h = (p, <[p := MHandle]> h) /\ HI (<[p := MHandle]> h) (<[p := HHandle]> o) /\ o !! p = None.
Proof.
  intros (w & lv & own & I). destruct (alloc_spec pick PO MHandle h ltac:(cbn; lia)) as (p & A & Hp & Np). exists p. split; [exact A|].
  set (hd := Handle [] [] 0 false).
  destruct (CInv_add text (CState w h lv) o own (set_handles w (<[p := hd]> (w_handles w))) lv {[p := MHandle]} p HHandle I) as [I' Np'].
  - apply map_disjoint_singleton_l, Hp.
  - rewrite lookup_singleton. eauto.
  - split; [reflexivity|]. exists hd. auto.
  - split; [|exact Np']. rewrite insert_union_singleton_l. eexists _, _, _. exact I'.
Qed.

Lemma HI_finish h o g r : HI h o -> (forall v, r = ROk (Some v) -> type_of v = c_type g) ->
  finish pick text g r h = Abort /\ expected text r = None \/
  exists p h', finish pick text g r h = Done (p, h') /\ HI h' (<[p := HResult g r]> o) /\ o !! p = None.
Proof.
  intros (w & lv & own & I) T. destruct (expected text r) eqn:Ex.
  - right. destruct (finish_spec pick text PO g r h T ltac:(congruence)) as (p & b & h' & -> & [D ->] & O).
    destruct (CInv_add text (CState w h lv) o own w lv b p (HResult g r) I D (ow_root _ _ _ _ _ O) (conj O eq_refl)) as [I' Np].
    exists p, (b ∪ h). split_and!; auto. eexists _, _, _. exact I'.
  - left. split; [|reflexivity]. destruct r as [[v|]|e'|]; cbn in Ex; try discriminate; [|reflexivity]. destruct e'; try discriminate; reflexivity.
Qed.

Lemma HI_close h o p : HI h o -> o !! p = Some HHandle -> dealloc p (32, 8) h = Done (delete p h) /\ HI (delete p h) (delete p o).
Proof.
  intros H Ho. pose proof (HI_handle _ _ _ H Ho) as Hc. split; [exact (dealloc_live p MHandle h Hc ltac:(cbn; lia))|].
  destruct H as (w & lv & own & I). destruct (ci_handle _ _ _ _ I p Ho) as [Pt _]. cbn [c_heap] in Pt.
  replace (delete p h) with (h ∖ part own h p) by (rewrite Pt; rewrite <- (right_id_L ∅ (∖) h) at 2; symmetry; apply diff_insert).
  eexists (set_handles w (delete p (w_handles w))), lv, _. apply (CInv_remove text (CState w h lv) o own _ lv p I); [reflexivity|intros n; contradiction].
Qed.

Lemma HI_free h o p t r : HI h o -> o !! p = Some (HResult t r) -> exists h', free_buffer p h = Done h' /\ HI h' (delete p o).
Proof.
  intros (w & lv & own & I) Ho. exists (h ∖ part own h p). split; [apply (ow_free _ _ _ _ _ (ci_result _ _ _ _ I p t r Ho)), part_sub|].
  eexists w, lv, _. apply (CInv_remove text (CState w h lv) o own w lv p I); [congruence|reflexivity].
Qed.

(** What the program holds together with the handles being closed. *)
Record pins (o : held) (fl : gmap N ccall) (o' : held) : Prop := {
  pn_sub : forall p k, o !! p = Some k -> o' !! p = Some k;
  pn_back : forall p k, o' !! p = Some k -> o !! p = Some k \/ k = HHandle /\ exists id, fl !! id = Some (CClose p);
  pn_close : forall id p, fl !! id = Some (CClose p) -> o' !! p = Some HHandle /\ o !! p = None;
  pn_once : forall id id' p, fl !! id = Some (CClose p) -> fl !! id' = Some (CClose p) -> id = id'
}.

(** A call under way in the store. *)
Definition shape (c : ccall) (op : rop) : Prop :=
  match c with
  | CGet _ k g => exists h, op = OCall h (Conc.CGet (cstr k) (get_type g))
  | CFree _ | CLevel _ | CIo _ => False
  | _ => forall h k t, op <> OCall h (Conc.CGet k t)
  end.

Record TI (s : xstate) (o : held) (fl : gmap N ccall) : Prop := {
  t_calls : x_calls s = fl;
  t_mem : exists o', HI (x_heap s) o' /\ pins o fl o';
  t_ids : forall id c, fl !! id = Some c -> id < r_next (u_reg (x_full s)) /\ exists p op, r_ops (u_reg (x_full s)) !! id = Some (p, op) /\ shape c op;
  t_full : FI (x_full s)
}.

Lemma TI_0 : TI xstate0 ∅ ∅.
Proof.
  split; cbn.
  - reflexivity.
  - exists ∅. split; [apply HI_0|]. split; intros *; rewrite lookup_empty; discriminate.
  - intros *. rewrite lookup_empty. discriminate.
  - apply FI_0.
Qed.

Lemma xop_shape obj c op : xop obj c = Some op -> shape c op.
Proof.
  destruct c; cbn; try discriminate; try (intros [= <-]; discriminate);
    match goal with |- option_map _ ?x = _ -> _ => destruct x; cbn; try discriminate; intros [= <-] end; try discriminate; eauto.
Qed.

(** The types of the answers. *)
Lemma xfinish_cases id c r h obj o op : HI h o -> shape c op -> answer_ok op r -> (forall p, c = CClose p -> o !! p = Some HHandle) ->
  xfinish pick text id c r h obj = Abort \/
  exists h' obj' x, xfinish pick text id c r h obj = Done (h', obj', x) /\
    HI h' (match x with RHandle p => <[p := HHandle]> o | RBuffer p r => <[p := HResult (fun_of c) r]> o | RUnit => match c with CClose p => delete p o | _ => o end end) /\
    match x with RHandle p | RBuffer p _ => o !! p = None | RUnit => True end /\
    match x with RHandle p => obj' = <[p := id]> obj | _ => match c with CClose p => obj' = delete p obj | _ => obj' = obj end end /\
    match x with RBuffer _ r' => r' = r | _ => True end /\ match x with RUnit => True | _ => closing c = false end.
Proof.
  intros M Sh An Cl.
  assert (B : forall g, fun_of c = g -> (forall v, r = ROk (Some v) -> type_of v = c_type g) -> closing c = false ->
    (obind (finish pick text g r h) (fun '(p, h') => Done (h', obj, RBuffer p r)) = Abort \/
     exists h' obj' x, obind (finish pick text g r h) (fun '(p, h') => Done (h', obj, RBuffer p r)) = Done (h', obj', x) /\
      HI h' (match x with RHandle p => <[p := HHandle]> o | RBuffer p r => <[p := HResult (fun_of c) r]> o | RUnit => match c with CClose p => delete p o | _ => o end end) /\
      match x with RHandle p | RBuffer p _ => o !! p = None | RUnit => True end /\
      match x with RHandle p => obj' = <[p := id]> obj | _ => match c with CClose p => obj' = delete p obj | _ => obj' = obj end end /\
      match x with RBuffer _ r' => r' = r | _ => True end /\ match x with RUnit => True | _ => closing c = false end)).
  { intros g Hg T Hc. destruct (HI_finish h o g r M T) as [[-> _]|(p & h' & -> & I & Np)]; [left; reflexivity|]. right. cbn [obind].
    exists h', obj, (RBuffer p r). rewrite Hg. split_and!; auto. destruct c; try reflexivity. discriminate Hc. }
  destruct c as [d|p k v|p k g|p k|p|p|p|z|i]; cbn [xfinish shape] in *; try contradiction.
  - destruct r as [v|e|]; auto. destruct (HI_new h o M) as (p & -> & I & Np). right. exists (<[p := MHandle]> h), (<[p := id]> obj), (RHandle p). auto 10.
  - apply B; [cbn; symmetry; apply put_fun_eq| |reflexivity]. intros u Hu. destruct (An u Hu) as (h0 & k0 & t0 & -> & _). destruct (Sh _ _ _ eq_refl).
  - apply B; [reflexivity| |reflexivity]. intros u Hu. destruct (An u Hu) as (h0 & k0 & t0 & Q & T). destruct Sh as [h1 ->]. injection Q as _ _ <-. rewrite T. apply get_type_eq.
  - apply B; [reflexivity| |reflexivity]. intros u Hu. destruct (An u Hu) as (h0 & k0 & t0 & -> & _). destruct (Sh _ _ _ eq_refl).
  - destruct r as [v|e|]; auto. right. exists h, obj, RUnit. auto 10.
  - destruct r as [v|e|]; auto. destruct (HI_close h o p M (Cl p eq_refl)) as [-> I]. right. cbn [obind]. exists (delete p h), (delete p obj), RUnit. auto 10.
Qed.

(** No step of a correct program is undefined, and the invariant stays. *)
Lemma TI_step s o fl a z : TI s o fl -> permitted o fl a -> xstep pick text E s a z ->
  z = Abort \/ exists s', z = Done s' /\ TI s' (held_after o fl a) (flight_after fl a) /\
    forall id x r, a = XRet id x r -> match x with RHandle p | RBuffer p _ => o !! p = None | RUnit => True end.
Proof.
  intros T Pm S. pose proof T as [Tc (o' & M & P) Ti Tf]. pose proof P as [P1 P2 P3 P4].
  assert (Al : forall c p, allowed o c -> through c = Some p -> o !! p = Some HHandle).
  { intros c p A Ht. destruct c; cbn in *; try discriminate; injection Ht as <-; try apply A. }
  assert (Keep : forall f' b, ops_step (x_full s) b f' -> (forall id c, fl !! id = Some c -> (exists r, b = RRet id r) \/ id < r_next (u_reg f') /\ exists p op, r_ops (u_reg f') !! id = Some (p, op) /\ shape c op)).
  { intros f' b O id c Hc. destruct (Ti id c Hc) as (L & p & op & Q1 & Q2). destruct (os_keep _ _ _ O _ _ _ Q1) as [[p' Q]|Q]; [right|auto].
    pose proof (os_next _ _ _ O). split; [lia|]. eauto. }
  destruct S as [s id c op f Hl Hr Ht Ho F|s id c Ht|s id c p Ht Hn|s id c d c' Hd Cf|s f F|s id c r f h obj x Hc F Fn|s id c x r f Hc F Fn|s id c x r f Hc F Fn|s p|s z]; auto.
  - right. eexists. split; [reflexivity|]. split; [|discriminate]. destruct (FI_step E _ _ _ Tf F) as [Tf' O].
    destruct (os_inv _ _ _ O _ _ eq_refl) as (-> & Hn & p1 & Hop). destruct Pm as [Pa Pb]. rewrite Tc in *.
    assert (Fr : fl !! r_next (u_reg (x_full s)) = None).
    { destruct (fl !! r_next (u_reg (x_full s))) as [c0|] eqn:Q; [|reflexivity]. destruct (Ti _ _ Q) as [L _]. lia. }
    cbn [flight_after]. split; cbn [x_calls x_heap x_full]; [reflexivity| | |exact Tf'].
    + destruct (decide (closing c = true)) as [Hcl|Hcl].
      * destruct c; try discriminate Hcl. cbn [held_after]. exists o'. split; [exact M|].
        assert (Hp : o !! p = Some HHandle) by apply Pa.
        split.
        -- intros q k Hq. apply lookup_delete_Some in Hq as [_ Hq]. auto.
        -- intros q k Hq. destruct (decide (q = p)) as [->|Hne].
           ++ right. rewrite (P1 _ _ Hp) in Hq. injection Hq as <-. split; [reflexivity|]. eexists. apply lookup_insert.
           ++ destruct (P2 q k Hq) as [Q|[-> [i Q]]]; [left; rewrite lookup_delete_ne by congruence; exact Q|right].
              split; [reflexivity|]. exists i. rewrite lookup_insert_ne; [exact Q|]. intros <-. congruence.
        -- intros i q Hi. apply lookup_insert_Some in Hi as [[<- [= <-]]|[_ Hi]]; [split; [auto|apply lookup_delete]|].
           destruct (P3 i q Hi) as [Q1 Q2]. split; [exact Q1|]. apply lookup_delete_None. auto.
        -- intros i j q Hi Hj.
           assert (Old : forall i', fl !! i' <> Some (CClose p)) by (intros i' Q; apply (Pb p eq_refl _ _ Q); reflexivity).
           apply lookup_insert_Some in Hi as [[<- [= <-]]|[_ Hi]]; apply lookup_insert_Some in Hj as [[<- Hj]|[_ Hj]]; auto.
           ++ destruct (Old _ Hj).
           ++ injection Hj as <-. destruct (Old _ Hi).
           ++ eapply P4; eassumption.
      * assert (Hh : held_after o fl (XInv (r_next (u_reg (x_full s))) c) = o) by (destruct c; try reflexivity; destruct Hcl; reflexivity). rewrite Hh.
        exists o'. split; [exact M|]. 
        assert (Q : forall i q, <[r_next (u_reg (x_full s)) := c]> fl !! i = Some (CClose q) <-> fl !! i = Some (CClose q)).
        { intros i q. rewrite lookup_insert_Some. split; [intros [[<- ->]|[_ Q]]; [destruct Hcl; reflexivity|exact Q]|]. intros Q. right. split; [intros <-; congruence|exact Q]. }
        split; auto.
        -- intros q k Hq. destruct (P2 q k Hq) as [|[-> [i Hi]]]; [auto|right]. split; [reflexivity|]. exists i. apply Q, Hi.
        -- intros i q Hi. apply Q in Hi. eauto.
        -- intros i j q Hi Hj. apply Q in Hi, Hj. eauto.
    + intros i c' Hi. apply lookup_insert_Some in Hi as [[<- <-]|[_ Hi]].
      * split; [lia|]. exists p1, op. split; [exact Hop|]. eapply xop_shape, Ho.
      * destruct (Keep f _ O i c' Hi) as [[r Q]|Q]; [discriminate Q|exact Q].
  - exfalso. apply Hn. eapply HI_handle; [exact M|]. apply P1. destruct Pm as [Pa _]. eapply Al; eassumption.
  - exfalso. destruct Cf as (p & C1 & C2 & C3). rewrite Tc in Hd. destruct Pm as [Pa Pb]. pose proof (Al _ _ Pa C1) as Hp.
    apply orb_true_iff in C3 as [C3|C3].
    + destruct c; try discriminate C3. injection C1 as ->. exact (Pb p eq_refl _ _ Hd C2).
    + destruct c'; try discriminate C3. injection C2 as ->. destruct (P3 _ _ Hd). congruence.
  - right. eexists. split; [reflexivity|]. split; [|discriminate]. destruct (FI_step E _ _ _ Tf F) as [Tf' O]. cbn [flight_after held_after].
    split; cbn [x_calls x_heap x_full]; [exact Tc|eauto| |exact Tf'].
    intros i c' Hi. destruct (Keep f _ O i c' Hi) as [[r Q]|Q]; [discriminate Q|exact Q].
  - right. eexists. split; [reflexivity|]. destruct (FI_step E _ _ _ Tf F) as [Tf' O]. rewrite Tc in *.
    destruct (Ti _ _ Hc) as (L & p0 & op0 & Q1 & Sh). destruct (os_ret _ _ _ O _ _ eq_refl) as (p1 & op & Q2 & An & Q3).
    rewrite Q1 in Q2. injection Q2 as <- <-.
    destruct (xfinish_cases id c r (x_heap s) (x_obj s) o' op0 M Sh An) as [Q|(h' & obj' & x' & Q & M' & Np & _ & Er & Kc)].
    { intros p ->. apply (P3 _ _ Hc). }
    { congruence. }
    rewrite Fn in Q. injection Q as <- <- <-.
    assert (NpO : match x with RHandle p | RBuffer p _ => o !! p = None | RUnit => True end).
    { destruct x as [|p|p r']; auto; (destruct (o !! p) as [k|] eqn:Q; [|reflexivity]); apply P1 in Q; congruence. }
    split; [|intros id' x' r' [= <- <- <-]; exact NpO].
    assert (D4 : forall i q, delete id fl !! i = Some (CClose q) -> fl !! i = Some (CClose q)) by (intros i q Q; apply lookup_delete_Some in Q as [_ Q]; exact Q).
    split; cbn [x_calls x_heap x_full flight_after]; [reflexivity| | |exact Tf'].
    + assert (G : forall p k, closing c = false -> o' !! p = None -> HI h (<[p := k]> o') -> exists o2, HI h o2 /\ pins (<[p := k]> o) (delete id fl) o2).
      { intros p k Cf Np' M2. exists (<[p := k]> o'). split; [exact M2|]. split.
        - intros q k' Hq. apply lookup_insert_Some in Hq as [[<- <-]|[Hne Hq]]; [apply lookup_insert|]. rewrite lookup_insert_ne by congruence. auto.
        - intros q k' Hq. apply lookup_insert_Some in Hq as [[<- <-]|[Hne Hq]]; [left; apply lookup_insert|]. rewrite lookup_insert_ne by congruence.
          destruct (P2 _ _ Hq) as [|[-> [i Hi]]]; [auto|right]. split; [reflexivity|]. exists i. rewrite lookup_delete_ne; [exact Hi|]. intros <-. rewrite Hc in Hi. injection Hi as ->. discriminate Cf.
        - intros i q Hi. apply D4 in Hi. destruct (P3 _ _ Hi) as [R1 R2]. assert (p <> q) by congruence. rewrite !lookup_insert_ne by congruence. auto.
        - intros i j q Hi Hj. apply D4 in Hi, Hj. eauto. }
      cbn [held_after]. rewrite Hc. destruct x as [|p|p r']; [|eapply G; eassumption|eapply G; eassumption].
      destruct (decide (closing c = true)) as [Hcl|Hcl].
      * destruct c; try discriminate Hcl. destruct (P3 _ _ Hc) as [R1 R2]. exists (delete p o'). split; [exact M'|]. split.
        -- intros q k Hq. rewrite lookup_delete_ne by congruence. auto.
        -- intros q k Hq. apply lookup_delete_Some in Hq as [Hne Hq]. destruct (P2 _ _ Hq) as [|[-> [i Hi]]]; [auto|right]. split; [reflexivity|].
           exists i. rewrite lookup_delete_ne; [exact Hi|]. intros <-. congruence.
        -- intros i q Hi. apply lookup_delete_Some in Hi as [Hne Hi]. destruct (P3 _ _ Hi) as [R3 R4]. split; [|exact R4].
           rewrite lookup_delete_ne; [exact R3|]. intros <-. apply Hne. eapply P4; eassumption.
        -- intros i j q Hi Hj. apply D4 in Hi, Hj. eauto.
      * assert (M2 : HI h o') by (destruct c; try exact M'; destruct Hcl; reflexivity). exists o'. split; [exact M2|]. split; auto.
        -- intros q k Hq. destruct (P2 _ _ Hq) as [|[-> [i Hi]]]; [auto|right]. split; [reflexivity|]. exists i. rewrite lookup_delete_ne; [exact Hi|].
           intros <-. rewrite Hc in Hi. injection Hi as ->. destruct Hcl. reflexivity.
        -- intros i q Hi. apply D4 in Hi. eauto.
        -- intros i j q Hi Hj. apply D4 in Hi, Hj. eauto.
    + intros i c' Hi. apply lookup_delete_Some in Hi as [Hne Hi]. destruct (Keep f _ O i c' Hi) as [[r' Q]|Q]; [congruence|exact Q].
  - exfalso. rewrite Tc in *. destruct (FI_step E _ _ _ Tf F) as [Tf' O]. destruct (Ti _ _ Hc) as (L & p0 & op0 & Q1 & Sh).
    destruct (os_ret _ _ _ O _ _ eq_refl) as (p1 & op & Q2 & An & Q3). rewrite Q1 in Q2. injection Q2 as <- <-.
    destruct (xfinish_cases id c r (x_heap s) (x_obj s) o' op0 M Sh An) as [Q|(h' & obj' & x' & Q & _)]; [|congruence..].
    intros p ->. apply (P3 _ _ Hc).
  - right. cbn in Pm. destruct Pm as (t & r & Hp). destruct (HI_free _ _ _ _ _ M (P1 _ _ Hp)) as (h' & -> & M'). cbn [obind]. eexists. split; [reflexivity|].
    split; [|discriminate]. cbn [held_after flight_after]. split; cbn [x_calls x_heap x_full]; auto. exists (delete p o'). split; [exact M'|].
    assert (Nc : forall i q, fl !! i = Some (CClose q) -> q <> p) by (intros i q Hi ->; destruct (P3 _ _ Hi); congruence).
    split.
    + intros q k Hq. apply lookup_delete_Some in Hq as [Hne Hq]. rewrite lookup_delete_ne by congruence. auto.
    + intros q k Hq. apply lookup_delete_Some in Hq as [Hne Hq]. rewrite lookup_delete_ne by congruence. auto.
    + intros i q Hi. pose proof (Nc _ _ Hi). rewrite !lookup_delete_ne by congruence. destruct (P3 _ _ Hi). auto.
    + exact P4.
  - destruct (of_code z); [|auto]. right. eexists. split; [reflexivity|]. split; [exact T|discriminate].
Qed.
End Threads.
