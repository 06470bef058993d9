(** What an event leaves untouched on disk. *)
From Verif Require Import Bytes Utf8 Proto ProtoFacts Value Codec Store StoreFacts Encrypt World Spec Hyps Refine WorldInv WorldStep Main.
From Coq Require Import ZifyBool ZifyNat ZifyN.
Local Open Scope N_scope.

(** The directory an event works on. *)
Definition works_on (E : env) (w : world) (e : event) : option bytes :=
  let of_handle h := option_map (fun hd => e_canon E (h_path hd)) (w_handles w !! h) in
  match e with
  | ENew _ p _ => Some (e_canon E p)
  | EPut h _ _ | EPutPanic h _ | EGet h _ _ | EGetPanic h _ _ | EDelete h _ | EClear h
  | EDrop h | EDropReg h | EDropArc h => of_handle h
  | EIo i => option_map i_dir (w_insts w !! i)
  | EKill => None
  end.

Section Frames.
Context (E : env) (HE : env_ok E) (keyof : bytes -> bytes) (U : bytes -> Prop).
Context (HU_dir : forall p, U p -> e_dir_ok E p = true).
Context (HU_key : forall p, U p -> feature_key (e_feat E) (keyof (e_canon E p)) <> None).
Context (HU_inj : forall p p', U p -> U p' -> e_canon E p = e_canon E p' -> p = p').
Notation canon := (e_canon E).
Notation WInv := (WInv E keyof U).

(** A background job changes only the instance's own file and directory. *)
Lemma run_job_frame w i x :
  w_insts w !! i = Some x ->
  let w' := run_job E w i in
  (exists y, w_insts w' = <[i := y]> (w_insts w) /\ i_dir y = i_dir x /\ i_ino y = i_ino x) /\
  (forall d, d <> i_dir x -> dir_of w' d = dir_of w d) /\ (forall j, j <> i_ino x -> inode w' j = inode w j) /\
  w_handles w' = w_handles w /\ w_reg w' = w_reg w.
Proof.
  intros Hx w'. unfold w', run_job. rewrite Hx.
  assert (Same : exists y, w_insts w = <[i := y]> (w_insts w) /\ i_dir y = i_dir x /\ i_ino y = i_ino x).
  { exists x. rewrite insert_id by exact Hx. auto. }
  destruct (i_io x); [|split_and!; auto]. destruct (i_queue x) as [|[m dup|] q]; [split_and!; auto| |].
  - destruct (write _ _ _ _ _) as [s ok]. split_and!; auto.
    + eexists. split; [reflexivity|]. split; reflexivity.
    + intros j Hj. unfold inode, set_seed, set_inode. cbn. rewrite lookup_insert_ne by congruence. reflexivity.
  - split_and!; auto.
    + eexists. split; [reflexivity|]. split; reflexivity.
    + intros d Hd. erewrite dir_of_insert by reflexivity. destruct (decide (i_dir x = d)); [congruence|reflexivity].
Qed.

Lemma iter_job_frame i k : forall w x,
  w_insts w !! i = Some x ->
  let w' := Nat.iter k (fun w => run_job E w i) w in
  (exists y, w_insts w' = <[i := y]> (w_insts w) /\ i_dir y = i_dir x /\ i_ino y = i_ino x) /\
  (forall d, d <> i_dir x -> dir_of w' d = dir_of w d) /\ (forall j, j <> i_ino x -> inode w' j = inode w j) /\
  w_handles w' = w_handles w /\ w_reg w' = w_reg w.
Proof.
  induction k as [|k IH]; intros w x Hx w'.
  - unfold w'. cbn. split_and!; auto. exists x. rewrite insert_id by exact Hx. auto.
  - unfold w'. rewrite Nat.iter_succ_r. destruct (run_job_frame w i x Hx) as ((y & Y1 & Y2 & Y3) & A & B & C & D).
    assert (Hy : w_insts (run_job E w i) !! i = Some y) by (rewrite Y1; apply lookup_insert).
    destruct (IH _ y Hy) as ((z & Z1 & Z2 & Z3) & A' & B' & C' & D'). split_and!.
    + exists z. rewrite Z1, Y1, insert_insert. split; [reflexivity|]. split; congruence.
    + intros d Hd. rewrite A' by congruence. apply A, Hd.
    + intros j Hj. rewrite B' by congruence. apply B, Hj.
    + congruence.
    + congruence.
Qed.

Lemma drain_frame w i x :
  w_insts w !! i = Some x ->
  let w' := drain E w i in
  (exists y, w_insts w' = <[i := y]> (w_insts w) /\ i_dir y = i_dir x /\ i_ino y = i_ino x) /\
  (forall d, d <> i_dir x -> dir_of w' d = dir_of w d) /\ (forall j, j <> i_ino x -> inode w' j = inode w j) /\
  w_handles w' = w_handles w /\ w_reg w' = w_reg w.
Proof. intros Hx w'. unfold w', drain. rewrite Hx. apply iter_job_frame, Hx. Qed.

(** Opening touches no other directory, and no existing inode. *)
Lemma open_config_frame w d :
  let '(w', i) := open_config E w d in
  (forall d', d' <> d -> dir_of w' d' = dir_of w d') /\
  (forall j, Some j <> d_data (dir_of w d) -> j < w_next_ino w -> inode w' j = inode w j).
Proof.
  unfold open_config. destruct (d_data (dir_of w d)) as [i|] eqn:Ed.
  - split; [reflexivity|]. intros j Hj _. unfold inode, set_inode. cbn. rewrite lookup_insert_ne by congruence. reflexivity.
  - split.
    + intros d' Hd. erewrite dir_of_insert by reflexivity. destruct (decide (d = d')); [congruence|reflexivity].
    + intros j _ Hj. unfold inode. cbn. rewrite lookup_insert_ne by lia. reflexivity.
Qed.

Lemma open_nonce_frame w d :
  let '(w', n) := open_nonce E w d in
  (forall d', d' <> d -> dir_of w' d' = dir_of w d') /\ (forall j, inode w' j = inode w j).
Proof.
  unfold open_nonce. destruct (is_encrypted _); [|auto]. destruct (init_nonce _ _) as [n m]. split; [|reflexivity].
  intros d' Hd. erewrite dir_of_insert by reflexivity. destruct (decide (d = d')); [congruence|reflexivity].
Qed.

Lemma open_impl_frame w p key :
  let '(w', o) := open_impl E w p key in
  (forall d', d' <> canon p -> dir_of w' d' = dir_of w d') /\
  (forall j, Some j <> d_data (dir_of w (canon p)) -> j < w_next_ino w -> inode w' j = inode w j).
Proof.
  unfold open_impl. destruct (e_dir_ok E p); [|auto].
  pose proof (open_config_frame w (canon p)) as A. destruct (open_config E w (canon p)) as [w1 i]. destruct A as [A1 A2].
  destruct (feature_key _ _) as [k|]; [|auto].
  pose proof (open_nonce_frame w1 (canon p)) as B. destruct (open_nonce E w1 (canon p)) as [w2 n]. destruct B as [B1 B2].
  assert (G : (forall d', d' <> canon p -> dir_of w2 d' = dir_of w d') /\
    (forall j, Some j <> d_data (dir_of w (canon p)) -> j < w_next_ino w -> inode w2 j = inode w j)).
  { split.
    - intros d' Hd. rewrite B1 by exact Hd. apply A1, Hd.
    - intros j Hj Hl. rewrite B2. apply A2; assumption. }
  destruct (open_file _ _ _ _) as [[s m]|]; exact G.
Qed.

(** An ordinary event leaves every other directory's files alone. *)
Lemma step_frame w sp H n e w' r d :
  WInv w sp H n -> call_ok E keyof e -> room E n -> step E w e = Some (w', r) ->
  works_on E w e <> Some d -> same_disk w w' d.
Proof.
  intros W Hc Hroom Hs Hd.
  assert (Hino : forall i x j, w_insts w !! i = Some x -> i_dir x <> d -> d_data (dir_of w d) = Some j -> j <> i_ino x).
  { intros i x j Hx Hdx Hj ->. apply Hdx. destruct (wi_insts _ _ _ _ _ _ _ W i x Hx) as (_ & I & _).
    eapply (wi_ino _ _ _ _ _ _ _ W); [apply (io_data _ _ _ _ _ _ _ I)|exact Hj]. }
  destruct e as [h path key|h key v|h key|h key t|h key t|h key|h|h|h|h|i|]; cbn [call_ok] in Hc; try contradiction;
    cbn [step works_on] in *; unfold with_handle in Hs.
  - destruct (w_handles w !! h); [discriminate|]. injection Hs as Hs.
    unfold do_new in Hs. rewrite (wi_poison _ _ _ _ _ _ _ W) in Hs. destruct (lookup_reg w path) as [i|].
    + injection Hs as <- _. (split; reflexivity).
    + pose proof (open_impl_frame w path key) as G. destruct (open_impl E w path key) as [w1 o]. destruct G as [G1 G2].
      assert (S1 : same_disk w w1 d).
      { apply same_disk_by; [apply G1; congruence|]. intros j Hj. apply G2.
        - intros Hj'. symmetry in Hj'. apply Hd. f_equal. eapply (wi_ino _ _ _ _ _ _ _ W); eassumption.
        - eapply (wi_fresh _ _ _ _ _ _ _ W), Hj. }
      destruct o; injection Hs as <- _; exact S1.
  - destruct (w_handles w !! h) as [hd|]; [|discriminate]. destruct (h_unreg hd); [discriminate|]. injection Hs as Hs.
    unfold on_inst in Hs. destruct (w_insts w !! h_inst hd) as [x|]; [|injection Hs as <- _; (split; reflexivity)].
    destruct (inst_put x key v). injection Hs as <- _. (split; reflexivity).
  - destruct (w_handles w !! h) as [hd|]; [|discriminate]. destruct (h_unreg hd); [discriminate|]. injection Hs as Hs.
    unfold on_inst in Hs. destruct (w_insts w !! h_inst hd) as [x|]; injection Hs as <- _; (split; reflexivity).
  - destruct (w_handles w !! h) as [hd|]; [|discriminate]. destruct (h_unreg hd); [discriminate|]. injection Hs as Hs.
    unfold on_inst in Hs. destruct (w_insts w !! h_inst hd) as [x|]; [|injection Hs as <- _; (split; reflexivity)].
    destruct (inst_delete x key). injection Hs as <- _. (split; reflexivity).
  - (* clear *)
    destruct (w_handles w !! h) as [hd|] eqn:Hh; [|discriminate].
    destruct (handle_cases E keyof U w sp H n h hd W Hh) as (_ & Hun & Up & Hk & _ & x & Hx & Dx & I). rewrite Hun in Hs.
    injection Hs as Hs. cbn [option_map] in Hd.
    destruct (clear_step E HE keyof U HU_dir HU_key HU_inj w sp H n h hd W Hh Hroom) as (w2 & E2 & _ & _ & G).
    rewrite E2 in Hs. injection Hs as <- _. apply G. congruence.
  - (* drop *)
    destruct (w_handles w !! h) as [hd|] eqn:Hh; [|discriminate].
    destruct (handle_cases E keyof U w sp H n h hd W Hh) as (_ & Hun & Up & Hk & _ & x & Hx & Dx & I). rewrite Hun in Hs.
    injection Hs as Hs. cbn [option_map] in Hd. assert (Hdx : i_dir x <> d) by congruence.
    unfold do_drop_reg in Hs. rewrite (wi_poison _ _ _ _ _ _ _ W) in Hs.
    match type of Hs with context [do_drop_arc E ?w0 h hd] => set (w1 := w0) in Hs end.
    assert (S1 : w_dirs w1 = w_dirs w /\ w_inodes w1 = w_inodes w /\ w_insts w1 = w_insts w).
    { unfold w1. destruct (Nat.eqb _ _); split_and!; reflexivity. }
    destruct S1 as (S1 & S2 & S3). clearbody w1. unfold do_drop_arc in Hs. destruct (Nat.eqb (strong w1 (h_inst hd)) 1).
    + assert (Hx1 : w_insts w1 !! h_inst hd = Some x) by (rewrite S3; exact Hx).
      destruct (drain_frame w1 (h_inst hd) x Hx1) as (_ & A & B & _).
      cbv beta iota zeta in Hs. injection Hs as <- _. apply same_disk_by.
      * change (dir_of (drain E w1 (h_inst hd)) d = dir_of w d). rewrite A by congruence. unfold dir_of. rewrite S1. reflexivity.
      * intros j Hj. change (inode (drain E w1 (h_inst hd)) j = inode w j). rewrite B; [unfold inode; rewrite S2; reflexivity|].
        apply (Hino (h_inst hd) x); assumption.
    + cbv beta iota zeta in Hs. injection Hs as <- _. apply same_disk_by; [unfold dir_of|intros; unfold inode]; cbn; rewrite ?S1, ?S2; reflexivity.
  - (* background *)
    injection Hs as <- _. destruct (w_insts w !! i) as [x|] eqn:Hx.
    + cbn [option_map] in Hd. destruct (run_job_frame w i x Hx) as (_ & A & B & _). apply same_disk_by.
      * apply A. congruence.
      * intros j Hj. apply B. apply (Hino i x); congruence.
    + unfold run_job. rewrite Hx. apply same_disk_refl.
Qed.

End Frames.
