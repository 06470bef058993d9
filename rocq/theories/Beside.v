(** What is wrong with the memory of one open store -- a poisoned lock, a map
    that is gone, an instance that is closed -- is not noticed by calls on the
    others, nor by the background threads. *)
From Verif Require Import Bytes Utf8 Proto Value Codec Store StoreFacts Encrypt World Spec Hyps Refine WorldInv WorldStep Main Frames Reach.
From Coq Require Import ZifyBool ZifyNat ZifyN.
Local Open Scope N_scope.

(** Two instances that differ at most in the map, the flags and the channel's
    ends, or for which nothing is left to be written. *)
Definition back_eq (x z : inst) : Prop := (i_queue z = [] /\ i_queue x = []) \/
  i_io z = i_io x /\ i_queue z = i_queue x /\ i_dir z = i_dir x /\ i_ino z = i_ino x /\ i_key z = i_key x /\ i_nonce z = i_nonce x /\
  i_ml z = i_ml x /\ i_pos z = i_pos x /\ i_trim z = i_trim x.

(** The event is not a call through a handle of instance [i]. *)
Definition not_on (i : N) (v : world) (e : event) : Prop :=
  match e with
  | EPut h _ _ | EGet h _ _ | EDelete h _ | EClear h | EDrop h => forall hd, w_handles v !! h = Some hd -> h_inst hd <> i
  | ENew _ _ _ | EIo _ => True
  | _ => False
  end.

Section Beside.
Context (E : env) (i : N) (z : inst).

Lemma set_set v j y : j <> i -> set_inst (set_inst v i z) j y = set_inst (set_inst v j y) i z.
Proof. intros Hj. unfold set_inst, set_insts. cbn. rewrite insert_commute by congruence. reflexivity. Qed.

Lemma lookup_other v j : j <> i -> w_insts (set_inst v i z) !! j = w_insts v !! j.
Proof. intros Hj. cbn. apply lookup_insert_ne. congruence. Qed.

Lemma job_other v j : j <> i -> run_job E (set_inst v i z) j = set_inst (run_job E v j) i z /\ w_insts (run_job E v j) !! i = w_insts v !! i.
Proof.
  intros Hj. unfold run_job. rewrite lookup_other by exact Hj. destruct (w_insts v !! j) as [x|]; [|auto].
  destruct (i_io x); [|auto]. destruct (i_queue x) as [|[m dup|] q]; [auto| |].
  - change (i_st (set_inst v i z) x) with (i_st v x). destruct (write (e_plat E) (i_codec E x) (i_st v x) m dup) as [s ok].
    rewrite (set_set _ _ _ Hj). split; [reflexivity|]. cbn. apply lookup_insert_ne. exact Hj.
  - change (dir_of (set_inst v i z) (i_dir x)) with (dir_of v (i_dir x)). split; [|cbn; apply lookup_insert_ne; exact Hj].
    change (set_dir (set_inst v i z) (i_dir x) ?a) with (set_inst (set_dir v (i_dir x) a) i z). apply set_set, Hj.
Qed.

Lemma jobs_other n : forall v j, j <> i ->
  Nat.iter n (fun w => run_job E w j) (set_inst v i z) = set_inst (Nat.iter n (fun w => run_job E w j) v) i z /\
  w_insts (Nat.iter n (fun w => run_job E w j) v) !! i = w_insts v !! i.
Proof.
  induction n as [|n IH]; intros v j Hj; [auto|]. rewrite !Nat.iter_succ. destruct (IH v j Hj) as [A B]. rewrite A.
  destruct (job_other (Nat.iter n (fun w => run_job E w j) v) j Hj) as [C D]. rewrite C, D. auto.
Qed.

Lemma drain_other v j : j <> i -> drain E (set_inst v i z) j = set_inst (drain E v j) i z /\ w_insts (drain E v j) !! i = w_insts v !! i.
Proof.
  intros Hj. unfold drain. rewrite lookup_other by exact Hj. destruct (w_insts v !! j) as [x|]; [|auto]. apply jobs_other, Hj.
Qed.

Lemma open_other v p key : open_impl E (set_inst v i z) p key = (set_inst (open_impl E v p key).1 i z, (open_impl E v p key).2) /\
  w_insts (open_impl E v p key).1 = w_insts v /\ w_next_inst (open_impl E v p key).1 = w_next_inst v.
Proof.
  unfold open_impl. destruct (e_dir_ok E p); [|auto].
  assert (Cf : forall d, exists v1 ino, open_config E v d = (v1, ino) /\ open_config E (set_inst v i z) d = (set_inst v1 i z, ino) /\ w_insts v1 = w_insts v /\ w_next_inst v1 = w_next_inst v).
  { intros d. unfold open_config. change (dir_of (set_inst v i z) d) with (dir_of v d). destruct (d_data (dir_of v d)); do 2 eexists; repeat split. }
  destruct (Cf (e_canon E p)) as (v1 & ino & C1 & C2 & C3 & C4). rewrite C1, C2. destruct (feature_key (e_feat E) key) as [k|]; [|auto].
  assert (Cn : forall d, exists v2 nonce, open_nonce E v1 d = (v2, nonce) /\ open_nonce E (set_inst v1 i z) d = (set_inst v2 i z, nonce) /\ w_insts v2 = w_insts v1 /\ w_next_inst v2 = w_next_inst v1).
  { intros d. unfold open_nonce. destruct (is_encrypted (e_feat E)); [|do 2 eexists; repeat split].
    change (dir_of (set_inst v1 i z) d) with (dir_of v1 d). change (w_rng (set_inst v1 i z)) with (w_rng v1).
    destruct (init_nonce (d_meta (dir_of v1 d)) (e_rng E (w_rng v1))) as [nn meta']. do 2 eexists; repeat split. }
  destruct (Cn (e_canon E p)) as (v2 & nonce & D1 & D2 & D3 & D4). rewrite D1, D2.
  change (w_seed (set_inst v2 i z)) with (w_seed v2). change (inode (set_inst v2 i z) ino) with (inode v2 ino).
  destruct (open_file (e_plat E) (feature_codec (e_feat E) k nonce) (w_seed v2) (inode v2 ino)) as [[s m]|]; cbn [fst snd]; (split; [reflexivity|]; split; congruence).
Qed.

(** Any step beside. *)
Lemma step_beside v x e v' r : w_insts v !! i = Some x -> i < w_next_inst v -> not_on i v e -> (forall j, e = EIo j -> j <> i) -> step E v e = Some (v', r) ->
  step E (set_inst v i z) e = Some (set_inst v' i z, r) /\ w_insts v' !! i = Some x.
Proof.
  intros Hx Hlt Hno Hio Hs.
  assert (WH : forall h f g, with_handle v h f = Some (v', r) -> (forall hd, w_handles v !! h = Some hd -> f hd = (v', r) -> g hd = (set_inst v' i z, r) /\ w_insts v' !! i = Some x) ->
    with_handle (set_inst v i z) h g = Some (set_inst v' i z, r) /\ w_insts v' !! i = Some x).
  { intros h f g Hf Hg. unfold with_handle in *. change (w_handles (set_inst v i z)) with (w_handles v). destruct (w_handles v !! h) as [hd|]; [|discriminate].
    destruct (h_unreg hd); [discriminate|]. injection Hf as Hf. destruct (Hg hd eq_refl Hf) as [-> G]. auto. }
  assert (OI : forall j f, j <> i -> on_inst v j f = (v', r) -> on_inst (set_inst v i z) j f = (set_inst v' i z, r) /\ w_insts v' !! i = Some x).
  { intros j f Hj Hf. unfold on_inst in *. rewrite lookup_other by exact Hj. destruct (w_insts v !! j) as [y|].
    - destruct (f y) as [y' r']. injection Hf as <- <-. rewrite set_set by exact Hj. split; [reflexivity|]. cbn. rewrite lookup_insert_ne by exact Hj. exact Hx.
    - injection Hf as <- <-. auto. }
  destruct e; cbn [step not_on] in *; try contradiction.
  - (* ENew *)
    change (w_handles (set_inst v i z)) with (w_handles v). destruct (w_handles v !! h); [discriminate|]. injection Hs as Hs.
    unfold do_new in *. change (w_poison (set_inst v i z)) with (w_poison v). destruct (w_poison v); [injection Hs as <- <-; auto|].
    assert (L : lookup_reg (set_inst v i z) path = lookup_reg v path).
    { unfold lookup_reg. change (w_reg (set_inst v i z)) with (w_reg v). destruct (w_reg v !! path) as [j|]; [|reflexivity].
      destruct (decide (j = i)) as [->|Hj]; [|rewrite lookup_other by exact Hj; reflexivity].
      cbn. rewrite lookup_insert, Hx. rewrite !bool_decide_eq_true_2 by eauto. reflexivity. }
    rewrite L. destruct (lookup_reg v path) as [j|]; [injection Hs as <- <-; auto|].
    destruct (open_other v path key) as (O1 & O2 & O3). rewrite O1. destruct (open_impl E v path key) as [w1 [y|]]; cbn [fst snd] in *; injection Hs as <- <-.
    + split; [|cbn; rewrite lookup_insert_ne by lia; congruence]. cbn. rewrite (insert_commute _ (w_next_inst w1) i) by lia. reflexivity.
    + split; [reflexivity|]. cbn. congruence.
  - (* EPut *) eapply WH; [exact Hs|]. intros hd Hhd Hf. apply OI; [apply Hno, Hhd|exact Hf].
  - (* EGet *) eapply WH; [exact Hs|]. intros hd Hhd Hf. apply OI; [apply Hno, Hhd|exact Hf].
  - (* EDelete *) eapply WH; [exact Hs|]. intros hd Hhd Hf. apply OI; [apply Hno, Hhd|exact Hf].
  - (* EClear *) eapply WH; [exact Hs|]. intros hd Hhd Hf. pose proof (Hno hd Hhd) as Hj. unfold do_clear in *. rewrite lookup_other by exact Hj.
    destruct (w_insts v !! h_inst hd) as [y|] eqn:Hy; [|injection Hf as <- <-; auto]. destruct (i_poison y); [injection Hf as <- <-; auto|].
    assert (IC : exists v1 r1, impl_clear E v (h_inst hd) y = (v1, r1) /\ impl_clear E (set_inst v i z) (h_inst hd) y = (set_inst v1 i z, r1) /\ w_insts v1 !! i = Some x).
    { unfold impl_clear. destruct (negb (i_valid y)); [do 2 eexists; repeat split; exact Hx|]. destruct (post (i_invalid y) JRemove) as [y1 r1].
      rewrite set_set by exact Hj. destruct (drain_other (set_inst v (h_inst hd) y1) (h_inst hd) Hj) as [D1 D2]. rewrite D1. rewrite lookup_other by exact Hj.
      assert (Hx1 : w_insts (set_inst v (h_inst hd) y1) !! i = Some x) by (cbn; rewrite lookup_insert_ne by exact Hj; exact Hx).
      rewrite Hx1 in D2.
      destruct r1; [|do 2 eexists; repeat split; exact Hx1|do 2 eexists; repeat split; exact Hx1].
      destruct (w_insts (drain E (set_inst v (h_inst hd) y1) (h_inst hd)) !! h_inst hd) as [y2|]; [|do 2 eexists; repeat split; exact D2].
      rewrite set_set by exact Hj. do 2 eexists. repeat split. cbn. rewrite lookup_insert_ne by exact Hj. exact D2. }
    destruct IC as (v1 & r1 & I1 & I2 & I3). rewrite I1 in Hf. rewrite I2. destruct r1; [|injection Hf as <- <-; auto|injection Hf as <- <-; auto].
    destruct (open_other v1 (h_path hd) (h_key hd)) as (O1 & O2 & O3). rewrite O1. rewrite lookup_other by exact Hj.
    destruct (open_impl E v1 (h_path hd) (h_key hd)) as [w1 [y1|]]; cbn [fst snd] in *.
    + destruct (i_join _ && _); injection Hf as <- <-; rewrite set_set by exact Hj; (split; [reflexivity|]; cbn; rewrite lookup_insert_ne by exact Hj; congruence).
    + rewrite lookup_other by exact Hj. destruct (w_insts w1 !! h_inst hd) as [y1|]; injection Hf as <- <-.
      * rewrite set_set by exact Hj. split; [reflexivity|]. cbn. rewrite lookup_insert_ne by exact Hj. congruence.
      * split; [reflexivity|]. congruence.
  - (* EDrop *) eapply WH; [exact Hs|]. intros hd Hhd Hf. pose proof (Hno hd Hhd) as Hj. cbv beta in *.
    assert (R : exists v1 r1, do_drop_reg v h hd = (v1, r1) /\ do_drop_reg (set_inst v i z) h hd = (set_inst v1 i z, r1) /\ w_insts v1 = w_insts v).
    { unfold do_drop_reg. change (w_poison (set_inst v i z)) with (w_poison v). destruct (w_poison v); [do 2 eexists; repeat split|].
      change (strong (set_inst v i z) (h_inst hd)) with (strong v (h_inst hd)). destruct (Nat.eqb _ _); do 2 eexists; repeat split. }
    destruct R as (v1 & r1 & R1 & R2 & R3). rewrite R1 in Hf. rewrite R2. unfold do_drop_arc in *.
    change (strong (set_inst v1 i z) (h_inst hd)) with (strong v1 (h_inst hd)). destruct (Nat.eqb (strong v1 (h_inst hd)) 1).
    + destruct (drain_other v1 (h_inst hd) Hj) as [D1 D2]. rewrite D1, lookup_other by exact Hj. injection Hf as <- <-. split.
      * unfold set_inst, set_insts, set_handles. cbn. rewrite delete_insert_ne by congruence. reflexivity.
      * cbn. rewrite lookup_delete_ne by exact Hj. congruence.
    + injection Hf as <- <-. split; [reflexivity|]. cbn. congruence.
  - (* EIo *) injection Hs as <- <-. destruct (job_other v i0 (Hio i0 eq_refl)) as [A B]. rewrite A, B. auto.
Qed.

End Beside.

(** The thread of the instance itself. *)
Lemma job_beside E i z v x : w_insts v !! i = Some x -> back_eq x z ->
  exists z' x', run_job E (set_inst v i z) i = set_inst (run_job E v i) i z' /\ w_insts (run_job E v i) !! i = Some x' /\ back_eq x' z' /\
    i_map z' = i_map z /\ i_valid z' = i_valid z /\ i_poison z' = i_poison z.
Proof.
  intros Hx [[Q1 Q2]|(B1 & B2 & B3 & B4 & B5 & B6 & B7 & B8 & B9)].
  { exists z, x. unfold run_job. cbn [set_inst set_insts w_insts]. rewrite lookup_insert, Hx, Q1, Q2.
    split; [destruct (i_io z), (i_io x); reflexivity|]. split; [destruct (i_io x); exact Hx|]. split; [left; auto|split_and!; reflexivity]. }
  unfold run_job. rewrite Hx. cbn [set_inst set_insts w_insts]. rewrite lookup_insert. rewrite B1, B2.
  destruct (i_io x) eqn:Hio.
  2:{ exists z, x. split; [reflexivity|]. split; [exact Hx|]. split; [right; split_and!; congruence|split_and!; reflexivity]. }
  destruct (i_queue x) as [|[m dup|] q] eqn:Hq.
  - exists z, x. split; [reflexivity|]. split; [exact Hx|]. split; [right; split_and!; congruence|split_and!; reflexivity].
  - assert (Est : i_st (set_inst v i z) z = i_st v x) by (unfold i_st; rewrite B4, B7, B8, B9; reflexivity).
    assert (Eco : i_codec E z = i_codec E x) by (unfold i_codec; rewrite B5, B6; reflexivity).
    cbn [set_inst set_insts] in Est. rewrite Est, Eco. destruct (write (e_plat E) (i_codec E x) (i_st v x) m dup) as [s ok].
    eexists (i_after z q (if ok then IoRun else IoDead) s), _. split; [|split; [cbn; apply lookup_insert|]].
    + unfold set_seed, set_inode, set_inst, set_insts. cbn. rewrite !insert_insert, B4. reflexivity.
    + split; [right; split_and!; cbn; congruence|split_and!; reflexivity].
  - eexists (i_with_queue z q), _. split; [|split; [cbn; apply lookup_insert|]].
    + unfold set_inst, set_insts, set_dir, dir_of. cbn. rewrite !insert_insert, B3. reflexivity.
    + split; [right; split_and!; cbn; congruence|split_and!; reflexivity].
Qed.

(** The calls of [es] leave the store of directory [d] alone. *)
Fixpoint away (canon : bytes -> bytes) (d : bytes) (s : spec) (es : list event) : Prop :=
  match es with
  | [] => True
  | e :: r =>
      match e with
      | ENew _ p _ => canon p <> d
      | EPut h _ _ | EGet h _ _ | EDelete h _ | EClear h | EDrop h => sp_handles s !! h <> Some d
      | EIo _ => True
      | _ => False
      end /\ match spec_step canon s e with Some (s1, _) => away canon d s1 r | None => True end
  end.

Lemma away_contents canon d es : forall s s' rs, away canon d s es -> spec_run canon s es = Some (s', rs) ->
  contents s' d = contents s d /\ forall h, sp_handles s !! h = Some d -> sp_handles s' !! h = Some d.
Proof.
  induction es as [|e es IH]; intros s s' rs HA Hr; cbn [away spec_run] in *; [injection Hr as <- _; auto|].
  destruct HA as [He HA]. destruct (spec_step canon s e) as [[s1 r]|] eqn:Es; [|discriminate].
  destruct (spec_run canon s1 es) as [[s2 rs2]|] eqn:Er; [|discriminate]. injection Hr as <- _.
  destruct (IH s1 s2 rs2 HA Er) as [A B].
  enough (contents s1 d = contents s d /\ forall h, sp_handles s !! h = Some d -> sp_handles s1 !! h = Some d) as [C D].
  { rewrite A, C. auto. }
  assert (Hs : forall x S, x <> d -> contents (set_contents s x S) d = contents s d).
  { intros x S Hx. apply contents_set_ne. congruence. }
  clear -He Es Hs. destruct e; cbn in *; try contradiction; try (destruct (sp_handles s !! h) as [x|] eqn:Hh; [|discriminate Es]).
  - destruct (sp_handles s !! h) eqn:Hh; [discriminate|]. injection Es as <- _. split; [reflexivity|]. cbn. intros h' Hh'.
    rewrite lookup_insert_ne by congruence. exact Hh'.
  - injection Es as <- _. split; [apply Hs; congruence|]. auto.
  - injection Es as <- _. auto.
  - injection Es as <- _. split; [apply Hs; congruence|]. auto.
  - injection Es as <- _. split; [apply Hs; congruence|]. auto.
  - injection Es as <- _. split; [reflexivity|]. cbn. intros h' Hh'. rewrite lookup_delete_ne by congruence. exact Hh'.
  - injection Es as <- _. auto.
Qed.

Section RunBeside.
Context (E : env) {Rp : rep E} {RL : rep_law E Rp} (HE : env_ok E) (keyof : bytes -> bytes) (U : bytes -> Prop).
Context (HU_dir : forall p, U p -> e_dir_ok E p = true).
Context (HU_key : forall p, U p -> feature_key (e_feat E) (keyof (e_canon E p)) <> None).
Context (HU_inj : forall p p', U p -> U p' -> e_canon E p = e_canon E p' -> p = p').

Theorem run_beside i d es : forall v sp H n x z v2 rs2,
  WInv E keyof U v sp H n -> w_insts v !! i = Some x -> i_dir x = d -> back_eq x z -> away (e_canon E) d sp es ->
  Forall (call_ok E keyof) es -> Forall (in_U U) es -> room E (n + writes es) -> run E v es = Some (v2, rs2) ->
  exists x2 z2, run E (set_inst v i z) es = Some (set_inst v2 i z2, rs2) /\ w_insts v2 !! i = Some x2 /\ i_dir x2 = d /\ back_eq x2 z2 /\
    i_map z2 = i_map z /\ i_valid z2 = i_valid z /\ i_poison z2 = i_poison z /\ (i_queue x = [] -> i_queue x2 = []).
Proof.
  induction es as [|e es IH]; intros v sp H n x z v2 rs2 W Hx Dx B HA HF HU Hroom Hr.
  - injection Hr as <- <-. exists x, z. split_and!; auto.
  - cbn [run away] in *. destruct HA as [He HA]. inversion HF as [|? ? Hf HF']; subst. inversion HU as [|? ? Hu HU']; subst. rewrite writes_cons in Hroom.
    pose proof (step_ok E HE keyof U HU_dir HU_key HU_inj v sp H n e W Hf Hu ltac:(eapply room_mono; [|exact Hroom]; unfold wcount; lia)) as G.
    destruct (step E v e) as [[v1 r]|] eqn:Es; [|discriminate Hr]. destruct (spec_step (e_canon E) sp e) as [[sp1 r']|]; [|contradiction].
    destruct G as [_ W1]. destruct (run E v1 es) as [[v3 rs3]|] eqn:Er; [|discriminate Hr]. injection Hr as <- <-.
    assert (S : exists x1 z1, step E (set_inst v i z) e = Some (set_inst v1 i z1, r) /\ w_insts v1 !! i = Some x1 /\ i_dir x1 = i_dir x /\ back_eq x1 z1 /\
      i_map z1 = i_map z /\ i_valid z1 = i_valid z /\ i_poison z1 = i_poison z /\ (i_queue x = [] -> i_queue x1 = [])).
    { assert (D : e = EIo i \/ e <> EIo i).
      { destruct e as [| | | | | | | | | |j|]; try (right; discriminate). destruct (decide (j = i)) as [->|Hj]; [left; reflexivity|right; congruence]. }
      destruct D as [->|Hne].
      - cbn [step] in *. injection Es as <- <-. destruct (job_beside E i z v x Hx B) as (z1 & x1 & J1 & J2 & J3 & J4 & J5 & J6).
        exists x1, z1. rewrite J1. split_and!; auto.
        + pose proof J2 as J2'. unfold run_job in J2'. rewrite Hx in J2'. destruct (i_io x), (i_queue x) as [|[m dup|] q]; try (rewrite Hx in J2'; congruence).
          * destruct (write (e_plat E) (i_codec E x) (i_st v x) m dup) as [s ok]. cbn in J2'. rewrite lookup_insert in J2'. injection J2' as <-. reflexivity.
          * cbn in J2'. rewrite lookup_insert in J2'. injection J2' as <-. reflexivity.
        + intros Hq. unfold run_job in J2. rewrite Hx, Hq in J2. destruct (i_io x); congruence.
      - destruct (wi_insts _ _ _ _ _ _ _ W i x Hx) as (Hlt & _).
        destruct (step_beside E i z v x e v1 r Hx Hlt) as [S1 S2]; [..|exact Es|].
        + unfold not_on. destruct e; try contradiction; try exact Logic.I; intros hd Hhd Hi; subst i;
            destruct (handle_cases E keyof U v sp H n h hd W Hhd) as (Hsp & _ & _ & _ & _ & y & Hy & Dy & _); apply He; rewrite Hsp; congruence.
        + intros j -> ->. apply Hne. reflexivity.
        + exists x, z. split_and!; auto. }
    destruct S as (x1 & z1 & S1 & S2 & S3 & S4 & S5 & S6 & S7 & S8).
    destruct (IH v1 sp1 _ _ x1 z1 v3 rs3 W1 S2 S3 S4 HA HF' HU' ltac:(rewrite <- N.add_assoc; exact Hroom) Er) as (x2 & z2 & T1 & T2 & T3 & T4 & T5 & T6 & T7 & T8).
    exists x2, z2. rewrite S1, T1. split_and!; auto; congruence.
Qed.

End RunBeside.
