(** Kills in the middle of a background job.

    The data file is a shared memory map (memory_map.rs:22-42), so a kill of
    the process keeps exactly the stores that were executed.  A background
    write changes the file by the effects recorded in [s_eff] (Store.v): the
    growth of the file (config.rs:36-49) and the copies into the map
    (memory_map.rs:97-110), in program order.

    A kill can hit between two effects, or in the middle of copying a record
    ([torn]: each byte of the target is old or new, whatever order the copy
    uses).  The 8 byte length at offset 0 is one aligned word and taken to be
    stored in one piece.  Power failures, where unflushed pages are lost, are
    the subject of Power.v. *)
From Verif Require Import Bytes Utf8 Proto ProtoFacts Value Codec Store StoreFacts Encrypt World Spec Hyps Refine WorldInv WorldStep Main.
From Coq Require Import ZifyBool ZifyNat ZifyN.
Local Open Scope N_scope.

Definition apply_effs (es : list eff) (f : bytes) : bytes := fold_left (fun f e => apply_eff e f) es f.

(** The effects of the write that is first in the queue of store [i]. *)
Definition job_effects (E : env) (w : world) (i : N) : list eff :=
  match w_insts w !! i with
  | Some x =>
      match i_queue x with
      | JWrite m dup :: _ => s_eff (fst (write (e_plat E) (i_codec E x) (i_st w x) m dup))
      | _ => []
      end
  | None => []
  end.

(** A record store interrupted anywhere: the bytes written are a mixture [d']
    of old and new ones. *)
Definition mixture (old new d' : bytes) : Prop :=
  length d' = length new /\ forall j b, d' !! j = Some b -> new !! j = Some b \/ old !! j = Some b.

Inductive torn : eff -> bytes -> bytes -> Prop :=
| torn_store a d d' f : 8 <= a -> mixture (drop (N.to_nat a) f) d d' -> torn (FStore a d) f (apply_eff (FStore a d') f).

(** The files a kill during [effs] can leave behind. *)
Definition crash_image (effs : list eff) (f f' : bytes) : Prop :=
  exists j, (j <= length effs)%nat /\
    (f' = apply_effs (firstn j effs) f \/
     exists e, nth_error effs j = Some e /\ torn e (apply_effs (firstn j effs) f) f').

(** The world after a kill that left [f] in the data file of store [i]. *)
Definition crashed (w : world) (i : N) (f : bytes) : world :=
  match w_insts w !! i with
  | Some x => killed (set_inode w (i_ino x) f)
  | None => killed w
  end.

(** A kill after [j] whole effects of the running job. *)
Definition crash_after (E : env) (w : world) (i : N) (j : nat) : world :=
  match w_insts w !! i with
  | Some x => crashed w i (apply_effs (firstn j (job_effects E w i)) (inode w (i_ino x)))
  | None => killed w
  end.

(** ** The effect log is complete *)
Section Log.
Context (P : plat) (C : codec).

(** From [s] to [s'] the file changed by exactly the newly logged effects. *)
Definition logged (s s' : st) : Prop :=
  exists es, s_eff s' = s_eff s ++ es /\ s_file s' = apply_effs es (s_file s) /\
    Forall (fun e => match e with FExtend n => n = page P | FStore _ _ => True end) es.

Lemma logged_refl s s' : s_eff s' = s_eff s -> s_file s' = s_file s -> logged s s'.
Proof. intros A B. exists []. rewrite app_nil_r. auto. Qed.

Lemma logged_trans a b c : logged a b -> logged b c -> logged a c.
Proof.
  intros (e1 & A1 & B1 & D1) (e2 & A2 & B2 & D2). exists (e1 ++ e2). rewrite A2, A1, app_assoc. split; [reflexivity|].
  split; [|apply Forall_app; auto]. rewrite B2, B1. unfold apply_effs. rewrite fold_left_app. reflexivity.
Qed.

Lemma logged_eff s a d : logged s (do_eff (FStore a d) s).
Proof. exists [FStore a d]. split_and!; [reflexivity|reflexivity|]. repeat constructor. Qed.

Lemma store_len_log s n s' ok : store_len P s n = (s', ok) -> logged s s'.
Proof. unfold store_len. destruct (_ && _); intros [= <- _]; [apply logged_eff|apply logged_refl; reflexivity]. Qed.

Lemma append_log s b s' ok : append P s b = (s', ok) -> logged s s'.
Proof.
  unfold append. destruct (write_offset P (view s)) as [o|]; [|intros [= <- _]; apply logged_refl; reflexivity].
  destruct (store_len P s _) as [s1 ok1] eqn:E1. apply store_len_log in E1. destruct ok1; [|intros [= <- _]; exact E1].
  destruct (_ <=? _); intros [= <- _]; [|exact E1]. eapply logged_trans; [exact E1|apply logged_eff].
Qed.

Lemma append_incr_log s b s' ok : append_incr P s b = (s', ok) -> logged s s'.
Proof.
  unfold append_incr. destruct (append P s b) as [s1 ok1] eqn:E1. apply append_log in E1.
  destruct ok1; intros [= <- _]; [|exact E1]. eapply logged_trans; [exact E1|apply logged_refl; reflexivity].
Qed.

Lemma expand_log s s' ok : expand P s = (s', ok) -> logged s s'.
Proof.
  unfold expand. destruct (_ <=? _); intros [= <- _]; [|apply logged_refl; reflexivity].
  exists [FExtend (page P)]. split_and!; [reflexivity|reflexivity|]. repeat constructor.
Qed.

Lemma rewrite_log max l : forall s s' ok, rewrite P C max l s = (s', ok) -> logged s s'.
Proof.
  induction l as [|m l IH]; intros s s' ok; cbn [rewrite]; [intros [= <- _]; apply logged_refl; reflexivity|].
  destruct (enc C m (s_pos s)) as [b| |]; try (intros [= <- _]; apply logged_refl; reflexivity).
  destruct (write_offset P (view s)) as [o|]; [|intros [= <- _]; apply logged_refl; reflexivity].
  destruct (if max <? (o + len b) mod modulus P then expand P s else (s, true)) as [s1 ok1] eqn:E1.
  assert (L1 : logged s s1).
  { destruct (max <? _); [eapply expand_log, E1|]. injection E1 as <- _. apply logged_refl; reflexivity. }
  destruct ok1; [|intros [= <- _]; exact L1]. destruct (append_incr P s1 b) as [s2 ok2] eqn:E2. apply append_incr_log in E2.
  pose proof (logged_trans _ _ _ L1 E2) as L2.
  destruct ok2; [|intros [= <- _]; exact L2]. intros E3. apply IH in E3. eapply logged_trans; eassumption.
Qed.

Lemma trim_log s m s' ok : trim P C s m = (s', ok) -> logged s s'.
Proof.
  unfold trim. destruct (read_all P C (view s)) as [M n| |]; try (intros [= <- _]; apply logged_refl; reflexivity).
  unfold reset. destruct (store_len P s 0) as [s1 ok1] eqn:E1. apply store_len_log in E1.
  destruct ok1; [|intros [= <- _]; exact E1].
  destruct (rewrite P C (s_ml s) _ _) as [s3 ok3] eqn:E3. apply rewrite_log in E3.
  pose proof (logged_trans _ _ _ E1 E3) as L.
  destruct ok3; intros [= <- _]; [|exact L]. eapply logged_trans; [exact L|apply logged_refl; reflexivity].
Qed.

(** The log of a write is all the write does to the file. *)
Lemma write_log s m dup s' ok : write P C s m dup = (s', ok) -> logged s s'.
Proof.
  unfold write. destruct (enc C m (s_pos s)) as [b| |]; try (intros [= <- _]; apply logged_refl; reflexivity).
  destruct (write_offset P (view s)) as [o|]; [|intros [= <- _]; apply logged_refl; reflexivity]. cbv zeta.
  set (s1 := if dup then with_trim s true else s). assert (L1 : logged s s1) by (unfold s1; destruct dup; apply logged_refl; reflexivity).
  clearbody s1. destruct (_ <=? _); [intros H; apply append_incr_log in H; eapply logged_trans; eassumption|].
  destruct (s_trim s1); [intros H; apply trim_log in H; eapply logged_trans; eassumption|].
  destruct (expand P s1) as [s2 ok2] eqn:E2. apply expand_log in E2. pose proof (logged_trans _ _ _ L1 E2) as L2.
  destruct ok2; [|intros [= <- _]; exact L2]. intros H. apply append_incr_log in H. eapply logged_trans; eassumption.
Qed.
End Log.

(** Running a job to the end is applying all its effects. *)
Theorem job_effects_complete E w i x m dup q :
  w_insts w !! i = Some x -> i_io x = IoRun -> i_queue x = JWrite m dup :: q ->
  inode (run_job E w i) (i_ino x) = apply_effs (job_effects E w i) (inode w (i_ino x)).
Proof.
  intros Hx Hio Hq. unfold run_job, job_effects. rewrite Hx, Hio, Hq.
  destruct (write (e_plat E) (i_codec E x) (i_st w x) m dup) as [s ok] eqn:Ew. cbn [fst].
  destruct (write_log _ _ _ _ _ _ _ Ew) as (es & A & B & _). cbn in A, B. rewrite A, <- B.
  unfold inode. cbn. rewrite lookup_insert. reflexivity.
Qed.

(** Growth is always by one page. *)
Lemma job_extend E w i n rest : job_effects E w i = FExtend n :: rest -> n = page (e_plat E).
Proof.
  unfold job_effects. destruct (w_insts w !! i) as [x|]; [|discriminate]. destruct (i_queue x) as [|[m dup|] q]; try discriminate.
  destruct (write (e_plat E) (i_codec E x) (i_st w x) m dup) as [s ok] eqn:Ew. cbn [fst].
  destruct (write_log _ _ _ _ _ _ _ Ew) as (es & A & _ & D). cbn in A. rewrite A. intros ->. inversion D. assumption.
Qed.

(** ** Opening what is left *)

(** What opening a directory with the data file [f] amounts to. *)
Lemma open_left E w p key k nonce ino f :
  e_dir_ok E p = true -> d_data (dir_of w (e_canon E p)) = Some ino -> inode w ino = f -> f <> [] ->
  feature_key (e_feat E) key = Some k ->
  match e_feat E with FPlain => nonce = [] | FEncrypted _ => d_meta (dir_of w (e_canon E p)) = Some nonce /\ length nonce = nonce_len end ->
  exists w1, w_insts w1 = w_insts w /\ w_handles w1 = w_handles w /\ w_next_inst w1 = w_next_inst w /\ w_poison w1 = w_poison w /\
  open_impl E w p key = (w1, match open_file (e_plat E) (feature_codec (e_feat E) k nonce) (w_seed w) f with
    | Some (s, m) => Some (Inst m true false [] IoRun true true (e_canon E p) ino k nonce (s_ml s) (s_pos s) (s_trim s))
    | None => None end).
Proof.
  intros Hd Hdata Hf Hne Hk Hmeta. unfold open_impl. rewrite Hd. cbv zeta. unfold open_config. rewrite Hdata, Hf.
  assert (Hc : config_new (e_plat E) f = f).
  { unfold config_new. destruct (N.eqb_spec (len f) 0) as [H0|]; [|reflexivity]. destruct f; [congruence|]. unfold len in H0. cbn in H0. lia. }
  rewrite Hc, Hk. unfold open_nonce, is_encrypted. destruct (e_feat E) as [|A] eqn:HF.
  - subst nonce. exists (set_inode w ino f). split_and!; try reflexivity.
    unfold inode. cbn. rewrite lookup_insert. cbn. destruct (open_file _ _ _ f) as [[s m]|]; reflexivity.
  - destruct Hmeta as [Hm Hl]. change (dir_of (set_inode w ino f) (e_canon E p)) with (dir_of w (e_canon E p)).
    rewrite Hm. unfold init_nonce. rewrite Hl, Nat.eqb_refl.
    eexists. split_and!; cycle 4.
    + unfold inode. cbn. rewrite lookup_insert. cbn. destruct (open_file _ _ _ f) as [[s m]|]; reflexivity.
    + reflexivity.
    + reflexivity.
    + reflexivity.
    + reflexivity.
Qed.

(** What a handle that reads [M] answers. *)
Definition get_answer (M : gmap bytes kv) (k : bytes) (t : ty) : result :=
  match M !! k with Some m => res_map Some (buffer_parse m t) | None => RErr KeyNotFound end.

(** Opening a directory with the data file [f], and reading it. *)
Lemma open_answers E w h p key k nonce ino f :
  w_poison w = false -> w_handles w !! h = None -> lookup_reg w p = None ->
  e_dir_ok E p = true -> d_data (dir_of w (e_canon E p)) = Some ino -> inode w ino = f -> f <> [] ->
  feature_key (e_feat E) key = Some k ->
  match e_feat E with FPlain => nonce = [] | FEncrypted _ => d_meta (dir_of w (e_canon E p)) = Some nonce /\ length nonce = nonce_len end ->
  match read_all (e_plat E) (feature_codec (e_feat E) k nonce) f with
  | IDone M _ => exists w', step E w (ENew h p key) = Some (w', ROk None) /\
      forall k t, step E w' (EGet h k t) = Some (w', get_answer M k t)
  | _ => exists w', step E w (ENew h p key) = Some (w', RPanic)
  end.
Proof.
  intros Hpo Hh Hreg Hd Hdata Hf Hne Hk Hmeta.
  destruct (open_left E w p key k nonce ino f Hd Hdata Hf Hne Hk Hmeta) as (w1 & T1 & T2 & T3 & T4 & Ho).
  cbn [step]. rewrite Hh. unfold do_new. rewrite Hpo, Hreg, Ho. unfold open_file. rewrite take_ge by (unfold len; lia).
  destruct (read_all (e_plat E) (feature_codec (e_feat E) k nonce) f) as [M n| |]; cycle 1.
  { eexists. reflexivity. } { eexists. reflexivity. }
  eexists. split; [reflexivity|]. intros k' t. cbn [step]. unfold with_handle. cbn [w_handles]. rewrite lookup_insert. cbn [h_unreg h_inst].
  unfold on_inst. cbn [w_insts]. rewrite lookup_insert. f_equal. f_equal.
  unfold set_inst, set_insts. cbn. rewrite insert_insert. reflexivity.
Qed.
