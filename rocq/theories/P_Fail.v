(** C29, C30, C41, C43, C48: what happens when something goes wrong.  Each of
    these properties is false of the code as stated; each section states it,
    refutes it by a run of the model, and proves what remains true. *)
From Verif Require Import Bytes Utf8 Proto ProtoFacts Value Codec Store StoreFacts Encrypt World Spec Hyps Refine WorldInv WorldStep Main Frames Reach Examples P_Map P_Store.
From Coq Require Import ZifyBool ZifyNat ZifyN.
From Coq Require String. Import (notations) String.
Local Open Scope N_scope.

(** The answer of a call in a world. *)
Definition answer (E : env) (w : world) (e : event) : option result := option_map snd (step E w e).

(** ** C29 *)

(** The property as wished for: a put that answers with an error changes no
    later get. *)
Definition failed_put_has_no_effect (E : env) : Prop :=
  forall es w rs h key v w' e key' t, run E world0 es = Some (w, rs) ->
    step E w (EPut h key v) = Some (w', RErr e) ->
    answer E w' (EGet h key' t) = answer E w (EGet h key' t).

(** It is false of the code: the map is updated before the job is posted
    (mmkv_impl.rs:65-73).  Here the background thread has died on a value
    larger than a page; the failing put is visible. *)
Definition dead_trace : list event :=
  [ENew 0 dir_d ex_key; EPut 0 k1 (VI32 5); EPut 0 k2 ex_big; EIo 0; EIo 0].

Theorem C29_failed_put_refuted : env_ok (ex_env FPlain) /\ ~ failed_put_has_no_effect (ex_env FPlain).
Proof.
  split; [apply ex_env_ok; exact Logic.I|]. intros H.
  assert (T : match run (ex_env FPlain) world0 dead_trace with
              | Some (w, _) =>
                  match step (ex_env FPlain) w (EPut 0 k1 (VI32 6)) with
                  | Some (w', RErr IOError) =>
                      match answer (ex_env FPlain) w (EGet 0 k1 TI32), answer (ex_env FPlain) w' (EGet 0 k1 TI32) with
                      | Some (ROk (Some (VI32 a))), Some (ROk (Some (VI32 b))) => (Z.eqb a 5 && Z.eqb b 6)%bool
                      | _, _ => false
                      end
                  | _ => false
                  end
              | None => false
              end = true) by (vm_compute; reflexivity).
  destruct (run (ex_env FPlain) world0 dead_trace) as [[w rs]|] eqn:Hr; [|discriminate T].
  destruct (step (ex_env FPlain) w (EPut 0 k1 (VI32 6))) as [[w' [| [] | ]]|] eqn:Hs; try discriminate T.
  specialize (H dead_trace w rs 0 k1 (VI32 6) w' IOError k1 TI32 Hr Hs). rewrite H in T.
  destruct (answer (ex_env FPlain) w (EGet 0 k1 TI32)) as [[[[z| | | | | | | | | | | ]|]| | ]|]; try discriminate T.
  apply andb_true_iff in T as [T1 T2]. apply Z.eqb_eq in T1, T2. subst. discriminate T2.
Qed.

(** A put that fails with anything but IOError changes nothing at all. *)
Theorem C29_failed_put_partial E w h key v w' e :
  step E w (EPut h key v) = Some (w', RErr e) -> e <> IOError -> w' = w.
Proof.
  cbn [step]. unfold with_handle. destruct (w_handles w !! h) as [hd|]; [|discriminate].
  destruct (h_unreg hd); [discriminate|]. unfold on_inst.
  destruct (w_insts w !! h_inst hd) as [x|] eqn:Hx; [|congruence].
  assert (G : set_inst w (h_inst hd) x = w) by (apply set_inst_same, Hx).
  unfold inst_put, post. destruct (i_poison x); [rewrite G; congruence|].
  destruct (buffer_new key v) as [m|e'|]; [|rewrite G; congruence|congruence].
  destruct (i_valid x); [|rewrite G; congruence]. cbn [i_with_map i_sender i_io].
  destruct (i_sender x), (i_io x); congruence.
Qed.

(** A put that fails with IOError changes the map in memory and nothing else
    a caller can see: no file, and no get of another key. *)
Theorem C29_ioerror_put_partial E w h key v w' :
  step E w (EPut h key v) = Some (w', RErr IOError) ->
  w_dirs w' = w_dirs w /\ w_inodes w' = w_inodes w /\
  (forall key' t, key' <> key -> answer E w' (EGet h key' t) = answer E w (EGet h key' t)).
Proof.
  cbn [step]. unfold with_handle. destruct (w_handles w !! h) as [hd|] eqn:Hh; [|discriminate].
  destruct (h_unreg hd) eqn:Hu; [discriminate|]. unfold on_inst.
  destruct (w_insts w !! h_inst hd) as [x|] eqn:Hx; [|congruence].
  destruct (inst_put x key v) as [y r] eqn:Ep. intros [= <- ->].
  split; [reflexivity|]. split; [reflexivity|]. intros key' t Hne.
  unfold answer. cbn [step]. unfold with_handle. cbn [set_inst set_insts w_handles]. rewrite Hh, Hu. unfold on_inst.
  cbn [set_inst set_insts w_insts]. rewrite lookup_insert, Hx. cbn. f_equal.
  unfold inst_put in Ep. destruct (i_poison x) eqn:Hp; [congruence|].
  assert (Eb : forall e, buffer_new key v <> RErr e).
  { intros e. unfold buffer_new. destruct v; cbn; try discriminate. unfold type_token_new. destruct (reserved tok); discriminate. }
  destruct (buffer_new key v) as [m|e'|]; [|destruct (Eb e'); reflexivity|congruence].
  destruct (i_valid x) eqn:Hv; [|congruence]. unfold post in Ep.
  assert (Hy : i_map y = <[key := m]> (i_map x) /\ i_poison y = i_poison x /\ i_valid y = i_valid x).
  { cbn [i_with_map i_sender] in Ep. destruct (i_sender x); apply (f_equal fst) in Ep; cbn [fst] in Ep; subst y; auto. }
  destruct Hy as (Y1 & Y2 & Y3). unfold inst_get. rewrite Y1, Y2, Y3, Hp, Hv. rewrite lookup_insert_ne by congruence. reflexivity.
Qed.

(** No put fails in an ordinary trace: C10_no_call_fails. *)

Example C29_example :
  results (ex_env FPlain) (dead_trace ++ [EPut 0 k1 (VI32 6); EGet 0 k1 TI32]) =
  Some [ROk None; ROk None; ROk None; ROk None; ROk None; RErr IOError; ROk (Some (VI32 6))] /\
  results (ex_env FPlain) [ENew 0 dir_d ex_key; EPutPanic 0 k1; EPut 0 k1 (VI32 6)] = Some [ROk None; RPanic; RErr LockError].
Proof. split; vm_compute; reflexivity. Qed.

(** ** C30 *)

(** The property as wished for. *)
Definition ok_clear_clears (E : env) : Prop :=
  forall es w rs h w' key t, run E world0 es = Some (w, rs) ->
    step E w (EClear h) = Some (w', ROk None) -> type_token t <> RPanic ->
    answer E w' (EGet h key t) = Some (RErr KeyNotFound).

(** It is false of the code: a clear_data that fails in the background thread
    leaves the store closed; the next clear_data finds it closed, answers Ok
    without deleting anything (mmkv_impl.rs:99-102) and loads the old file.
    Here a file may have at most one page. *)
Definition lim_env : env :=
  Env (Plat 8 64 64 (fun i m => map snd (map_to_list m))) FPlain ex_dir_ok ex_canon ex_rng.

Lemma lim_env_ok : env_ok lim_env.
Proof.
  split; [split|exact Logic.I|].
  - reflexivity.
  - split; reflexivity || discriminate.
  - reflexivity.
  - intros i m. reflexivity.
  - intros i. apply be_length.
Qed.

Definition big50 : value := VBytes (repeat x00 50).

Definition clear_trace : list event :=
  [ENew 0 dir_d ex_key; EPut 0 k1 (VI32 5); EIo 0; EPut 0 k2 big50; EClear 0].

Theorem C30_clear_refuted : env_ok lim_env /\ ~ ok_clear_clears lim_env.
Proof.
  split; [exact lim_env_ok|]. intros H.
  assert (T : match run lim_env world0 clear_trace with
              | Some (w, _) =>
                  match step lim_env w (EClear 0) with
                  | Some (w', ROk None) =>
                      match answer lim_env w' (EGet 0 k1 TI32) with
                      | Some (ROk (Some (VI32 a))) => true
                      | _ => false
                      end
                  | _ => false
                  end
              | None => false
              end = true) by (vm_compute; reflexivity).
  destruct (run lim_env world0 clear_trace) as [[w rs]|] eqn:Hr; [|discriminate T].
  destruct (step lim_env w (EClear 0)) as [[w' [[]| | ]]|] eqn:Hs; try discriminate T.
  rewrite (H clear_trace w rs 0 w' k1 TI32 Hr Hs ltac:(discriminate)) in T. discriminate T.
Qed.

(** Every instance was opened for the directory its handles name: true in
    every run whatever, with failures, panics, kills and aliases. *)
Record dirs_agree (E : env) (w : world) : Prop := {
  da_handle : forall h hd x, w_handles w !! h = Some hd -> w_insts w !! h_inst hd = Some x -> i_dir x = e_canon E (h_path hd);
  da_reg : forall p i x, w_reg w !! p = Some i -> w_insts w !! i = Some x -> i_dir x = e_canon E p;
  da_bound : forall h hd, w_handles w !! h = Some hd -> h_inst hd < w_next_inst w;
  da_regb : forall p i, w_reg w !! p = Some i -> i < w_next_inst w
}.

Section Agree.
Context (E : env).

(** An update of instances that keeps their directories. *)
Definition insts_sub (w w' : world) : Prop :=
  forall i x', w_insts w' !! i = Some x' -> exists x, w_insts w !! i = Some x /\ i_dir x' = i_dir x.

Lemma insts_sub_refl w : insts_sub w w.
Proof. intros i x H. eauto. Qed.

Lemma insts_sub_trans w1 w2 w3 : insts_sub w1 w2 -> insts_sub w2 w3 -> insts_sub w1 w3.
Proof.
  intros A B i x H. destruct (B i x H) as (y & Hy & D). destruct (A i y Hy) as (z & Hz & D'). exists z. split; [exact Hz|congruence].
Qed.

Lemma insts_sub_set w i x y : w_insts w !! i = Some x -> i_dir y = i_dir x -> insts_sub w (set_inst w i y).
Proof.
  intros Hx Hd j z. cbn. destruct (decide (i = j)) as [<-|Hne].
  - rewrite lookup_insert. intros [= <-]. eauto.
  - rewrite lookup_insert_ne by exact Hne. eauto.
Qed.

Lemma dirs_agree_sub w w' :
  dirs_agree E w -> insts_sub w w' ->
  (forall h hd, w_handles w' !! h = Some hd -> exists hd0, w_handles w !! h = Some hd0 /\ h_path hd = h_path hd0 /\ h_inst hd = h_inst hd0) ->
  (forall p i, w_reg w' !! p = Some i -> w_reg w !! p = Some i) -> w_next_inst w' = w_next_inst w -> dirs_agree E w'.
Proof.
  intros [A B C D] Hs Hh Hr Hn. split.
  - intros h hd x H1 H2. destruct (Hh h hd H1) as (hd0 & H3 & -> & Ei). rewrite Ei in H2.
    destruct (Hs _ _ H2) as (x0 & H4 & ->). eauto.
  - intros p i x H1 H2. apply Hr in H1. destruct (Hs _ _ H2) as (x0 & H4 & ->). eauto.
  - intros h hd H1. destruct (Hh h hd H1) as (hd0 & H3 & _ & ->). rewrite Hn. eauto.
  - intros p i H1. apply Hr in H1. rewrite Hn. eauto.
Qed.

Lemma run_job_sub w i : insts_sub w (run_job E w i) /\ w_handles (run_job E w i) = w_handles w /\
  w_reg (run_job E w i) = w_reg w /\ w_next_inst (run_job E w i) = w_next_inst w.
Proof.
  unfold run_job. destruct (w_insts w !! i) as [x|] eqn:Hx; [|split; [apply insts_sub_refl|auto]].
  destruct (i_io x), (i_queue x) as [|[m dup|] q]; try (split; [apply insts_sub_refl|auto]).
  - destruct (write _ _ _ m dup) as [s ok]. split_and!; try reflexivity. apply (insts_sub_set w i x); [exact Hx|reflexivity].
  - split_and!; try reflexivity. apply (insts_sub_set w i x); [exact Hx|reflexivity].
Qed.

Lemma iter_sub n i : forall w, insts_sub w (Nat.iter n (fun w => run_job E w i) w) /\
  w_handles (Nat.iter n (fun w => run_job E w i) w) = w_handles w /\
  w_reg (Nat.iter n (fun w => run_job E w i) w) = w_reg w /\ w_next_inst (Nat.iter n (fun w => run_job E w i) w) = w_next_inst w.
Proof.
  induction n as [|n IH]; intros w; [split; [apply insts_sub_refl|split_and!; reflexivity]|].
  rewrite !Nat.iter_succ.
  destruct (IH w) as (A & B & C & D). destruct (run_job_sub (Nat.iter n (fun w => run_job E w i) w) i) as (A' & B' & C' & D').
  split_and!; [eapply insts_sub_trans; eassumption|rewrite B'; exact B|rewrite C'; exact C|rewrite D'; exact D].
Qed.

Lemma drain_sub w i : insts_sub w (drain E w i) /\ w_handles (drain E w i) = w_handles w /\
  w_reg (drain E w i) = w_reg w /\ w_next_inst (drain E w i) = w_next_inst w.
Proof. unfold drain. destruct (w_insts w !! i); [apply iter_sub|split; [apply insts_sub_refl|auto]]. Qed.

Lemma open_config_sub w d w1 ino : open_config E w d = (w1, ino) ->
  w_insts w1 = w_insts w /\ w_handles w1 = w_handles w /\ w_reg w1 = w_reg w /\ w_next_inst w1 = w_next_inst w /\ w_poison w1 = w_poison w.
Proof. unfold open_config. destruct (d_data _); intros [= <- _]; auto. Qed.

Lemma open_nonce_sub w d w1 n : open_nonce E w d = (w1, n) ->
  w_insts w1 = w_insts w /\ w_handles w1 = w_handles w /\ w_reg w1 = w_reg w /\ w_next_inst w1 = w_next_inst w /\ w_poison w1 = w_poison w.
Proof. unfold open_nonce. destruct (is_encrypted _); [destruct (init_nonce _ _)|]; intros [= <- _]; auto. Qed.

Lemma open_impl_sub w p k w1 o : open_impl E w p k = (w1, o) ->
  w_insts w1 = w_insts w /\ w_handles w1 = w_handles w /\ w_reg w1 = w_reg w /\ w_next_inst w1 = w_next_inst w /\
  w_poison w1 = w_poison w /\
  forall x, o = Some x -> i_dir x = e_canon E p /\ i_valid x = true /\ i_poison x = false /\ i_io x = IoRun /\ i_queue x = [].
Proof.
  unfold open_impl. destruct (e_dir_ok E p); [|intros [= <- <-]; split_and!; auto; discriminate].
  destruct (open_config E w _) as [w2 ino] eqn:E1. apply open_config_sub in E1 as (A & B & C & D & G).
  destruct (feature_key _ k) as [kk|]; [|intros [= <- <-]; split_and!; auto; discriminate].
  destruct (open_nonce E w2 _) as [w3 nonce] eqn:E2. apply open_nonce_sub in E2 as (A' & B' & C' & D' & G').
  destruct (open_file _ _ _ _) as [[s m]|]; intros [= <- <-]; split_and!; try congruence. intros x [= <-]. auto.
Qed.

Lemma with_handle_Some w h (f : handle -> world * result) q :
  with_handle w h f = Some q -> exists hd, w_handles w !! h = Some hd /\ h_unreg hd = false /\ f hd = q.
Proof.
  unfold with_handle. destruct (w_handles w !! h) as [hd|]; [|discriminate].
  destruct (h_unreg hd) eqn:Hu; [discriminate|]. intros [= <-]. eauto.
Qed.

Lemma on_inst_sub w i f w' r :
  (forall x, i_dir (f x).1 = i_dir x) -> on_inst w i f = (w', r) ->
  insts_sub w w' /\ w_handles w' = w_handles w /\ w_reg w' = w_reg w /\ w_next_inst w' = w_next_inst w.
Proof.
  intros Hf. unfold on_inst. destruct (w_insts w !! i) as [x|] eqn:Hx; cycle 1.
  { intros [= <- _]. split; [apply insts_sub_refl|auto]. }
  specialize (Hf x). destruct (f x) as [y r']. intros [= <- _]. split_and!; auto. apply (insts_sub_set w i x); auto.
Qed.

Lemma post_dir x j : i_dir (post x j).1 = i_dir x.
Proof. unfold post. destruct (i_sender x); reflexivity. Qed.

Lemma put_dir x key v : i_dir (inst_put x key v).1 = i_dir x.
Proof.
  unfold inst_put. destruct (i_poison x); [reflexivity|]. destruct (buffer_new key v); [|reflexivity|reflexivity].
  destruct (i_valid x); [|reflexivity]. cbv zeta. rewrite post_dir. reflexivity.
Qed.

Lemma delete_dir x key : i_dir (inst_delete x key).1 = i_dir x.
Proof.
  unfold inst_delete. destruct (i_poison x); [reflexivity|]. destruct (i_valid x); [|reflexivity].
  destruct (_ !! key); [|reflexivity]. rewrite post_dir. reflexivity.
Qed.

Lemma impl_clear_sub w i x w' r : w_insts w !! i = Some x -> impl_clear E w i x = (w', r) ->
  insts_sub w w' /\ w_handles w' = w_handles w /\ w_reg w' = w_reg w /\ w_next_inst w' = w_next_inst w.
Proof.
  intros Hx. unfold impl_clear. destruct (i_valid x); cbn [negb]; cycle 1.
  { intros [= <- _]. split; [apply insts_sub_refl|auto]. }
  destruct (post (i_invalid x) JRemove) as [x1 r1] eqn:Ep.
  assert (D1 : i_dir x1 = i_dir x) by (change x1 with (x1, r1).1; rewrite <- Ep, post_dir; reflexivity).
  pose proof (insts_sub_set w i x x1 Hx D1) as S1.
  destruct r1; [|intros [= <- _]; auto..].
  destruct (drain_sub (set_inst w i x1) i) as (A & B & C & D).
  destruct (w_insts (drain E (set_inst w i x1) i) !! i) as [x2|] eqn:Hx2; intros [= <- _]; split_and!; auto.
  - eapply insts_sub_trans; [exact S1|]. eapply insts_sub_trans; [exact A|]. eapply insts_sub_set; [exact Hx2|reflexivity].
  - eapply insts_sub_trans; eassumption.
Qed.

Lemma do_clear_sub w h hd w' r : dirs_agree E w -> w_handles w !! h = Some hd -> do_clear E w hd = (w', r) ->
  insts_sub w w' /\ w_handles w' = w_handles w /\ w_reg w' = w_reg w /\ w_next_inst w' = w_next_inst w.
Proof.
  intros HA Hh. unfold do_clear. destruct (w_insts w !! h_inst hd) as [x|] eqn:Hx; cycle 1.
  { intros [= <- _]. split; [apply insts_sub_refl|auto]. }
  destruct (i_poison x). { intros [= <- _]. split; [apply insts_sub_refl|auto]. }
  destruct (impl_clear E w (h_inst hd) x) as [w1 r1] eqn:Ec.
  pose proof (impl_clear_sub _ _ _ _ _ Hx Ec) as (S1 & B1 & C1 & D1).
  destruct r1; [|intros [= <- _]; auto..].
  destruct (open_impl E w1 (h_path hd) (h_key hd)) as [w2 o] eqn:Eo.
  pose proof (open_impl_sub _ _ _ _ _ Eo) as (A2 & B2 & C2 & D2 & _ & Ho).
  assert (S2 : insts_sub w w2). { intros i y Hy. rewrite A2 in Hy. apply S1, Hy. }
  destruct o as [y|].
  - destruct (Ho y eq_refl) as (Dy & _).
    assert (S3 : forall z, i_dir z = i_dir y -> insts_sub w (set_inst w2 (h_inst hd) z)).
    { intros z Hz i u. cbn. destruct (decide (h_inst hd = i)) as [<-|Hne].
      - rewrite lookup_insert. intros [= <-]. exists x. split; [exact Hx|].
        rewrite Hz, Dy. symmetry. eapply (da_handle E w HA); eassumption.
      - rewrite lookup_insert_ne by exact Hne. apply S2. }
    destruct (i_join _ && _)%bool; intros [= <- _]; split_and!; try (apply S3; reflexivity); cbn; congruence.
  - destruct (w_insts w2 !! h_inst hd) as [z|] eqn:Hz; intros [= <- _]; split_and!; cbn; try congruence; [|exact S2].
    eapply insts_sub_trans; [exact S2|]. eapply insts_sub_set; [exact Hz|reflexivity].
Qed.

Lemma drop_reg_agree w h hd w' r : dirs_agree E w -> w_handles w !! h = Some hd -> do_drop_reg w h hd = (w', r) ->
  dirs_agree E w' /\ w_handles w' !! h = Some (Handle (h_path hd) (h_key hd) (h_inst hd) true).
Proof.
  intros HA Hh Hs. assert (G : forall m, m = <[h := Handle (h_path hd) (h_key hd) (h_inst hd) true]> (w_handles w) ->
    forall h' hd', m !! h' = Some hd' -> exists hd0, w_handles w !! h' = Some hd0 /\ h_path hd' = h_path hd0 /\ h_inst hd' = h_inst hd0).
  { intros m -> h' hd'. destruct (decide (h = h')) as [<-|Hne].
    - rewrite lookup_insert. intros [= <-]. exists hd. auto.
    - rewrite lookup_insert_ne by exact Hne. eauto. }
  unfold do_drop_reg in Hs. destruct (w_poison w).
  - injection Hs as <- _. split; [|apply lookup_insert].
    eapply dirs_agree_sub; [exact HA|intros i x; eauto|apply G; reflexivity|auto|reflexivity].
  - destruct (Nat.eqb _ 1); injection Hs as <- _; (split; [|apply lookup_insert]).
    + eapply dirs_agree_sub; [exact HA|intros i x; eauto|apply G; reflexivity| |reflexivity].
      cbn. intros p i H. apply lookup_delete_Some in H as [_ H]. exact H.
    + eapply dirs_agree_sub; [exact HA|intros i x; eauto|apply G; reflexivity|auto|reflexivity].
Qed.

Lemma drop_arc_agree w h hd w' r : dirs_agree E w -> do_drop_arc E w h hd = (w', r) -> dirs_agree E w'.
Proof.
  intros HA Hs. unfold do_drop_arc in Hs. destruct (Nat.eqb _ 1); injection Hs as <- _.
  - destruct (drain_sub w (h_inst hd)) as (A & B & C & D).
    eapply dirs_agree_sub; [exact HA| | | |]; cbn [set_handles set_insts w_insts w_handles w_reg w_next_inst].
    + intros i x H. cbn in H. apply lookup_delete_Some in H as [_ H]. apply A, H.
    + rewrite B. intros h' hd' H. apply lookup_delete_Some in H as [_ H]. eauto.
    + rewrite C. auto.
    + exact D.
  - eapply dirs_agree_sub; [exact HA|intros i x; eauto| |auto|reflexivity].
    cbn. intros h' hd' H. apply lookup_delete_Some in H as [_ H]. eauto.
Qed.

Lemma dirs_agree_step w e w' r : dirs_agree E w -> step E w e = Some (w', r) -> dirs_agree E w'.
Proof.
  intros HA. destruct e as [h p k|h k v|h k|h k t|h k t|h k|h|h|h|h|i|]; cbn [step].
  - destruct (w_handles w !! h) eqn:Hh; [discriminate|]. intros [= Es]. revert Es. unfold do_new.
    destruct (w_poison w). { intros [= <- _]. exact HA. }
    unfold lookup_reg.
    destruct (match w_reg w !! p with Some i => if bool_decide (is_Some (w_insts w !! i)) then Some i else None | None => None end) as [i|] eqn:El.
    + intros [= <- _]. assert (Hi : w_reg w !! p = Some i).
      { destruct (w_reg w !! p); [|discriminate]. destruct (bool_decide _); congruence. }
      destruct HA as [A B C D]. split; cbn [set_handles w_handles w_insts w_reg w_next_inst].
      * intros h' hd x. destruct (decide (h = h')) as [<-|Hne].
        -- rewrite lookup_insert. intros [= <-]. cbn. eauto.
        -- rewrite lookup_insert_ne by exact Hne. eauto.
      * exact B.
      * intros h' hd. destruct (decide (h = h')) as [<-|Hne].
        -- rewrite lookup_insert. intros [= <-]. cbn. eauto.
        -- rewrite lookup_insert_ne by exact Hne. eauto.
      * exact D.
    + destruct (open_impl E w p k) as [w1 o] eqn:Eo. pose proof (open_impl_sub _ _ _ _ _ Eo) as (A1 & B1 & C1 & D1 & _ & Ho).
      destruct o as [x|]; intros [= <- _].
      * destruct (Ho x eq_refl) as (Dx & _). destruct HA as [A B C D].
        split; cbn [w_handles w_insts w_reg w_next_inst]; rewrite ?A1, ?B1, ?C1, ?D1.
        -- intros h' hd y. destruct (decide (h = h')) as [<-|Hne].
           ++ rewrite lookup_insert. intros [= <-]. cbn. rewrite lookup_insert. intros [= <-]. exact Dx.
           ++ rewrite lookup_insert_ne by exact Hne. intros H1. pose proof (C _ _ H1).
              rewrite lookup_insert_ne by lia. eauto.
        -- intros p' i y. destruct (decide (p = p')) as [<-|Hne].
           ++ rewrite lookup_insert. intros [= <-]. rewrite lookup_insert. intros [= <-]. exact Dx.
           ++ rewrite lookup_insert_ne by exact Hne. intros H1. pose proof (D _ _ H1).
              rewrite lookup_insert_ne by lia. eauto.
        -- intros h' hd. destruct (decide (h = h')) as [<-|Hne].
           ++ rewrite lookup_insert. intros [= <-]. cbn. lia.
           ++ rewrite lookup_insert_ne by exact Hne. intros H1. pose proof (C _ _ H1). lia.
        -- intros p' i. destruct (decide (p = p')) as [<-|Hne].
           ++ rewrite lookup_insert. intros [= <-]. lia.
           ++ rewrite lookup_insert_ne by exact Hne. intros H1. pose proof (D _ _ H1). lia.
      * eapply dirs_agree_sub; [exact HA|..]; cbn [set_poison w_insts w_handles w_reg w_next_inst].
        -- intros i y. cbn. rewrite A1. eauto.
        -- rewrite B1. eauto.
        -- rewrite C1. auto.
        -- exact D1.
  - intros Hs. apply with_handle_Some in Hs as (hd & Hh & Hu & Hs).
    apply on_inst_sub in Hs as (A & B & C & D); [|intros; apply put_dir].
    eapply dirs_agree_sub; [exact HA|exact A|rewrite B; eauto|rewrite C; auto|exact D].
  - intros Hs. apply with_handle_Some in Hs as (hd & Hh & Hu & Hs).
    apply on_inst_sub in Hs as (A & B & C & D); [|intros x; unfold inst_put_panic; destruct (i_poison x); reflexivity].
    eapply dirs_agree_sub; [exact HA|exact A|rewrite B; eauto|rewrite C; auto|exact D].
  - intros Hs. apply with_handle_Some in Hs as (hd & Hh & Hu & Hs).
    apply on_inst_sub in Hs as (A & B & C & D); [|reflexivity].
    eapply dirs_agree_sub; [exact HA|exact A|rewrite B; eauto|rewrite C; auto|exact D].
  - intros Hs. apply with_handle_Some in Hs as (hd & Hh & Hu & Hs).
    apply on_inst_sub in Hs as (A & B & C & D); [|reflexivity].
    eapply dirs_agree_sub; [exact HA|exact A|rewrite B; eauto|rewrite C; auto|exact D].
  - intros Hs. apply with_handle_Some in Hs as (hd & Hh & Hu & Hs).
    apply on_inst_sub in Hs as (A & B & C & D); [|intros; apply delete_dir].
    eapply dirs_agree_sub; [exact HA|exact A|rewrite B; eauto|rewrite C; auto|exact D].
  - intros Hs. apply with_handle_Some in Hs as (hd & Hh & Hu & Hs).
    apply (do_clear_sub w h hd w' r HA Hh) in Hs as (A & B & C & D).
    eapply dirs_agree_sub; [exact HA|exact A|rewrite B; eauto|rewrite C; auto|exact D].
  - intros Hs. apply with_handle_Some in Hs as (hd & Hh & Hu & Hs).
    destruct (do_drop_reg w h hd) as [w1 r1] eqn:E1. destruct (do_drop_arc E w1 h hd) as [w2 r2] eqn:E2. injection Hs as <- _.
    destruct (drop_reg_agree w h hd w1 r1 HA Hh E1) as [HA1 _]. eapply drop_arc_agree; eassumption.
  - intros Hs. apply with_handle_Some in Hs as (hd & Hh & Hu & Hs). eapply drop_reg_agree; eassumption.
  - destruct (w_handles w !! h) as [hd|]; [|discriminate]. destruct (h_unreg hd); [|discriminate].
    intros [= Hs]. eapply drop_arc_agree; eassumption.
  - intros [= <- _]. destruct (run_job_sub w i) as (A & B & C & D).
    eapply dirs_agree_sub; [exact HA|exact A|rewrite B; eauto|rewrite C; auto|exact D].
  - intros [= <- _]. split; cbn; intros; rewrite ?lookup_empty in *; discriminate.
Qed.

Lemma dirs_agree_run es : forall w w' rs, dirs_agree E w -> run E w es = Some (w', rs) -> dirs_agree E w'.
Proof.
  induction es as [|e es IH]; intros w w' rs HA Hr; cbn [run] in Hr; [injection Hr as <- _; exact HA|].
  destruct (step E w e) as [[w1 r]|] eqn:Es; [|discriminate].
  destruct (run E w1 es) as [[w2 rs2]|] eqn:Er; [|discriminate]. injection Hr as <- _.
  eapply IH; [eapply dirs_agree_step; eassumption|exact Er].
Qed.

Lemma dirs_agree_reach es w rs : run E world0 es = Some (w, rs) -> dirs_agree E w.
Proof. apply dirs_agree_run. split; cbn; intros; rewrite ?lookup_empty in *; discriminate. Qed.

(** If the thread is still running after it worked on its queue, the queue
    was done, in particular the removal at its end. *)
Lemma iter_dead n i : forall w x, w_insts w !! i = Some x -> i_io x = IoDead -> Nat.iter n (fun w => run_job E w i) w = w.
Proof.
  induction n as [|n IH]; intros w x Hx Hd; [reflexivity|]. rewrite Nat.iter_succ.
  rewrite (IH w x Hx Hd). unfold run_job. rewrite Hx, Hd. reflexivity.
Qed.

Lemma iter_remove q : forall w i x x2,
  w_insts w !! i = Some x -> i_queue x = q ++ [JRemove] ->
  w_insts (Nat.iter (length (i_queue x)) (fun w => run_job E w i) w) !! i = Some x2 -> i_io x2 = IoRun ->
  d_data (dir_of (Nat.iter (length (i_queue x)) (fun w => run_job E w i) w) (i_dir x)) = None.
Proof.
  induction q as [|j q IH]; intros w i x x2 Hx Hq; rewrite Hq; cbn [app length]; rewrite ?Nat.iter_succ_r.
  - change (Nat.iter 0 (fun w => run_job E w i) (run_job E w i)) with (run_job E w i).
    unfold run_job. rewrite Hx, Hq. destruct (i_io x) eqn:Hio; cbn [app].
    + intros _ _. unfold dir_of. cbn. rewrite lookup_insert. reflexivity.
    + intros H1 H2. rewrite Hx in H1. injection H1 as <-. congruence.
  - assert (G : exists y, w_insts (run_job E w i) !! i = Some y /\ i_dir y = i_dir x /\
       (i_io y = IoDead \/ i_queue y = q ++ [JRemove])).
    { unfold run_job. rewrite Hx, Hq. destruct (i_io x) eqn:Hio; [|exists x; auto].
      cbn [app]. destruct j as [m dup|].
      - destruct (write _ _ _ m dup) as [s ok]. cbn. rewrite lookup_insert. eexists. split; [reflexivity|]. cbn.
        split; [reflexivity|]. auto.
      - cbn. rewrite lookup_insert. eexists. split; [reflexivity|]. cbn. auto. }
    destruct G as (y & Hy & Dy & [Dead|Qy]).
    + rewrite (iter_dead _ i _ y Hy Dead). intros H1 H2. rewrite Hy in H1. injection H1 as <-. congruence.
    + rewrite <- Qy, <- Dy. apply IH; assumption.
Qed.

End Agree.

(** What remains: if the store is not closed when clear_data is called (a get
    does not answer InstanceClosed), Ok means empty.  For every run whatever:
    dead threads, panics, kills, several spellings. *)
Theorem C30_clear_partial E es w rs h w' key t :
  env_ok E -> run E world0 es = Some (w, rs) ->
  (exists key0 t0, answer E w (EGet h key0 t0) <> Some (RErr InstanceClosed)) ->
  step E w (EClear h) = Some (w', ROk None) ->
  answer E w' (EGet h key t) = Some (RErr KeyNotFound).
Proof.
  intros HE Hr Hopen Hs. pose proof (dirs_agree_reach E es w rs Hr) as HA. cbn [step] in Hs.
  apply with_handle_Some in Hs as (hd & Hh & Hu & Hs). unfold do_clear in Hs.
  destruct (w_insts w !! h_inst hd) as [x|] eqn:Hx; [|congruence].
  destruct (i_poison x) eqn:Hp; [congruence|].
  assert (Hv : i_valid x = true).
  { destruct Hopen as (key0 & t0 & Hne). destruct (i_valid x) eqn:Hv; [reflexivity|]. exfalso. apply Hne. unfold answer. cbn [step].
    unfold with_handle. rewrite Hh, Hu. unfold on_inst. rewrite Hx. cbn. unfold inst_get. rewrite Hp, Hv. reflexivity. }
  destruct (impl_clear E w (h_inst hd) x) as [w1 r1] eqn:Ec.
  unfold impl_clear in Ec. rewrite Hv in Ec. cbn [negb] in Ec.
  destruct (post (i_invalid x) JRemove) as [x1 rp] eqn:Ep.
  assert (X1 : i_queue x1 = i_queue x ++ [JRemove] /\ i_dir x1 = i_dir x).
  { unfold post in Ep. apply (f_equal fst) in Ep. destruct (i_sender _); cbn [fst] in Ep; subst x1; auto. }
  destruct X1 as [Q1 D1].
  destruct rp; [|injection Ec as <- <-; congruence..].
  assert (Hin : w_insts (set_inst w (h_inst hd) x1) !! h_inst hd = Some x1) by apply lookup_insert.
  unfold drain in Ec. rewrite Hin in Ec. set (w2 := Nat.iter _ _ _) in *.
  destruct (w_insts w2 !! h_inst hd) as [x2|] eqn:Hx2; [|injection Ec as <- <-; congruence].
  destruct (i_io x2) eqn:Hio; injection Ec as <- <-; [|congruence].
  pose proof (iter_remove E (i_queue x) _ _ x1 x2 Hin Q1 Hx2 Hio) as Hnone. fold w2 in Hnone.
  set (w3 := set_inst w2 (h_inst hd) (i_quit x2)) in *.
  assert (Hdir : i_dir x = e_canon E (h_path hd)) by (eapply (da_handle E w HA); eassumption).
  rewrite D1, Hdir in Hnone.
  destruct (open_impl E w3 (h_path hd) (h_key hd)) as [w4 o] eqn:Eo.
  pose proof (open_impl_sub E _ _ _ _ _ Eo) as (A4 & B4 & C4 & D4 & _ & Ho).
  destruct o as [y|]; [|congruence]. destruct (Ho y eq_refl) as (_ & Vy & Py & _ & _).
  destruct (_ && _)%bool; [congruence|]. injection Hs as <-.
  assert (My : i_map y = ∅).
  { unfold open_impl in Eo. destruct (e_dir_ok E _); [|congruence].
    unfold open_config in Eo. change (dir_of w3 (e_canon E (h_path hd))) with (dir_of w2 (e_canon E (h_path hd))) in Eo.
    rewrite Hnone in Eo. cbv beta iota zeta in Eo. destruct (feature_key _ (h_key hd)) as [kk|]; [|congruence].
    destruct (open_nonce E _ _) as [w5 nonce] eqn:En.
    assert (Hf : inode w5 (w_next_ino w3) = zeros (page (e_plat E))).
    { unfold open_nonce in En. destruct (is_encrypted _); [destruct (init_nonce _ _)|]; injection En as <- _;
        unfold inode; cbn; rewrite lookup_insert; reflexivity. }
    rewrite Hf in Eo.
    pose proof (WOk_fresh E HE (feature_codec (e_feat E) kk nonce)) as (I & _).
    destruct (eo_plat _ HE) as [H64 Hpage Hmax Hhord].
    destruct (open_inv (e_plat E) (feature_codec (e_feat E) kk nonce) (record_pos (e_feat E)) (record_size (e_feat E)) H64
      (feature_law (e_feat E) kk nonce (eo_feat _ HE)) Hmax _ [] (w_seed w5) I) as (s & Es & _).
    cbn [closed_st s_file] in Es. rewrite Es in Eo. injection Eo as _ <-. reflexivity. }
  unfold answer. cbn [step]. unfold with_handle.
  assert (Hh4 : w_handles (set_inst w4 (h_inst hd) y) !! h = Some hd).
  { cbn. rewrite B4. cbn. destruct (iter_sub E (length (i_queue x1)) (h_inst hd) (set_inst w (h_inst hd) x1)) as (_ & Hw & _).
    fold w2 in Hw. rewrite Hw. exact Hh. }
  rewrite Hh4, Hu. unfold on_inst. cbn [set_inst set_insts w_insts]. rewrite lookup_insert. cbn.
  unfold inst_get. rewrite Py, Vy, My, lookup_empty. reflexivity.
Qed.

Example C30_example :
  results lim_env (clear_trace ++ [EClear 0; EGet 0 k1 TI32]) =
  Some [ROk None; ROk None; ROk None; ROk None; RErr IOError; ROk None; ROk (Some (VI32 5))] /\
  results lim_env [ENew 0 dir_d ex_key; EPut 0 k1 (VI32 5); EIo 0; EGet 0 k1 TI32; EClear 0; EGet 0 k1 TI32] =
  Some [ROk None; ROk None; ROk None; ROk (Some (VI32 5)); ROk None; RErr KeyNotFound] /\
  (* a thread that is already dead: the second clear_data panics *)
  results lim_env ([ENew 0 dir_d ex_key; EPut 0 k1 (VI32 5); EIo 0; EPut 0 k2 big50; EIo 0; EClear 0; EClear 0; EGet 0 k1 TI32]) =
  Some [ROk None; ROk None; ROk None; ROk None; ROk None; RErr IOError; RPanic; RErr LockError].
Proof. split_and!; vm_compute; reflexivity. Qed.

(** ** C41 *)

(** The property as wished for: the library works on a 32-bit platform as it
    does on a 64-bit one (C02). *)
Definition works_on_32_bit : Prop :=
  forall E keyof es, usz (e_plat E) = 4%nat -> 8 <= page (e_plat E) < 2 ^ 32 -> maxfile (e_plat E) < 2 ^ 63 -> hord_ok (e_plat E) ->
    feature_ok (e_feat E) -> (forall i, length (e_rng E i) = nonce_len) ->
    Forall (call_ok E keyof) es -> one_spelling E es -> room E (writes es) ->
    option_map snd (run E world0 es) = option_map snd (spec_run (e_canon E) spec0 es).

Lemma open_32_fails E w p k : usz (e_plat E) = 4%nat -> (open_impl E w p k).2 = None.
Proof.
  intros H4. unfold open_impl. destruct (e_dir_ok E p); [|reflexivity]. destruct (open_config E w _) as [w1 ino].
  destruct (feature_key _ k); [|reflexivity]. destruct (open_nonce E w1 _) as [w2 nonce].
  unfold open_file, read_all, write_offset, header. destruct (slice 0 len_offset _) as [hd|] eqn:Es; [|reflexivity].
  assert (L : length hd = 8%nat).
  { unfold slice in Es. destruct (_ && _)%bool eqn:Eb; [|discriminate]. injection Es as <-.
    apply andb_true_iff in Eb as [_ Eb]. apply N.leb_le in Eb. unfold len_offset, len in *. rewrite take_length, drop_length. revert Eb. generalize (length (take (N.to_nat (N.of_nat (length (inode w2 ino)))) (inode w2 ino))). clear. intros n Hn.
    change (N.to_nat (8 - 0)) with 8%nat. change (N.to_nat 0) with 0%nat. lia. }
  rewrite L, H4. reflexivity.
Qed.

(** On a 32-bit platform every open panics: the 8 header bytes are converted
    to an array of [usize] (4) bytes, in every world and for every file. *)
Theorem C41_every_open_panics E w h p k w' r :
  usz (e_plat E) = 4%nat -> w_insts w = ∅ -> step E w (ENew h p k) = Some (w', r) -> r = RPanic /\ w_insts w' = ∅ /\ w_handles w' = w_handles w.
Proof.
  intros H4 Hno. cbn [step]. destruct (w_handles w !! h); [discriminate|]. intros [= Hs]. revert Hs. unfold do_new.
  destruct (w_poison w). { intros [= <- <-]. auto. }
  unfold lookup_reg. rewrite Hno.
  assert (G : (match w_reg w !! p with Some i => if bool_decide (is_Some ((∅ : gmap N inst) !! i)) then Some i else None | None => None end) = None).
  { destruct (w_reg w !! p); [|reflexivity]. rewrite lookup_empty. rewrite bool_decide_eq_false_2; [reflexivity|]. intros [? ?]. discriminate. }
  rewrite G. destruct (open_impl E w p k) as [w1 o] eqn:Eo. pose proof (open_32_fails E w p k H4) as Hn. rewrite Eo in Hn. cbn in Hn. subst o.
  apply open_impl_sub in Eo as (A & B & _). intros [= <- <-]. cbn. rewrite A, B. auto.
Qed.

(** So no store is ever opened on such a platform: in every run every open
    panics and no other call can be made. *)
Theorem C41_nothing_works E es : forall w rs,
  usz (e_plat E) = 4%nat -> run E world0 es = Some (w, rs) ->
  w_handles w = ∅ /\ forall n h p k, es !! n = Some (ENew h p k) -> rs !! n = Some RPanic.
Proof.
  intros w rs H4. assert (G : forall es0 w0, w_insts w0 = ∅ -> w_handles w0 = ∅ -> run E w0 es0 = Some (w, rs) ->
    w_handles w = ∅ /\ forall n h p k, es0 !! n = Some (ENew h p k) -> rs !! n = Some RPanic).
  { intros es0. revert rs. induction es0 as [|e es0 IH]; intros rs0 w0 Hi Hh Hr; cbn [run] in Hr.
    - injection Hr as <- _. split; [exact Hh|]. intros n h p k. rewrite lookup_nil. discriminate.
    - destruct (step E w0 e) as [[w1 r]|] eqn:Es; [|discriminate]. destruct (run E w1 es0) as [[w2 rs2]|] eqn:Er; [|discriminate].
      injection Hr as -> <-.
      assert (G : w_insts w1 = ∅ /\ w_handles w1 = ∅ /\ forall h p k, e = ENew h p k -> r = RPanic).
      { destruct e; try (cbn [step] in Es; unfold with_handle in Es; rewrite Hh, lookup_empty in Es; discriminate).
        - apply (C41_every_open_panics E w0) in Es as (-> & A & B); [|assumption..]. rewrite A, B, Hh. auto.
        - cbn [step] in Es. injection Es as <- _. unfold run_job. rewrite Hi, lookup_empty. split_and!; auto. discriminate.
        - cbn [step] in Es. injection Es as <- _. split_and!; auto. discriminate. }
      destruct G as (A & B & C). destruct (IH rs2 w1 A B Er) as [D D']. split; [exact D|].
      intros n h p k. destruct n as [|n]; cbn; [|apply D']. intros [= ->]. rewrite (C h p k eq_refl). reflexivity. }
  intros Hr. eapply G; [..|exact Hr]; reflexivity.
Qed.

Definition env32 : env :=
  Env (Plat 4 64 (2 ^ 40) (fun i m => map snd (map_to_list m))) FPlain ex_dir_ok ex_canon ex_rng.

Theorem C41_works_on_32_bit_refuted : ~ works_on_32_bit.
Proof.
  intros H. assert (T : results env32 [ENew 0 dir_d ex_key] = Some [RPanic]) by (vm_compute; reflexivity).
  assert (G : results env32 [ENew 0 dir_d ex_key] = Some [ROk None]).
  { unfold results. rewrite (H env32 ex_keyof [ENew 0 dir_d ex_key]); try reflexivity.
    - split; reflexivity || discriminate.
    - intros i m. reflexivity.
    - apply calls_okb_ok. vm_compute. reflexivity.
    - apply one_spellingb_ok. vm_compute. reflexivity.
    - apply roomb_ok. vm_compute. reflexivity. }
  rewrite T in G. discriminate G.
Qed.

Example C41_example : usz (e_plat env32) = 4%nat /\ is_Some (run env32 world0 [ENew 0 dir_d ex_key; ENew 1 dir_e ex_key; EKill; ENew 2 dir_d ex_key]) /\
  results env32 [ENew 0 dir_d ex_key; ENew 1 dir_e ex_key; EKill; ENew 2 dir_d ex_key] = Some [RPanic; RPanic; ROk None; RPanic].
Proof.
  assert (T : results env32 [ENew 0 dir_d ex_key; ENew 1 dir_e ex_key; EKill; ENew 2 dir_d ex_key] = Some [RPanic; RPanic; ROk None; RPanic])
    by (vm_compute; reflexivity).
  split; [reflexivity|]. split; [|exact T]. unfold results in T. destruct (run env32 world0 _); [eauto|discriminate].
Qed.

(** ** C43 *)

(** The property as wished for: leaving out the panicking call changes no
    other answer. *)
Definition panics_are_contained (E : env) : Prop :=
  forall es1 h key es2 w rs w' rs',
    run E world0 (es1 ++ EPutPanic h key :: es2) = Some (w, rs) -> run E world0 (es1 ++ es2) = Some (w', rs') ->
    rs = take (length es1) rs' ++ RPanic :: drop (length es1) rs'.

(** It is false of the code: the serializer runs under the write lock
    (mmkv.rs:181-186), so its panic poisons the store. *)
Theorem C43_put_panic_refuted : ~ panics_are_contained (ex_env FPlain).
Proof.
  intros H.
  assert (T : match run (ex_env FPlain) world0 ([ENew 0 dir_d ex_key] ++ EPutPanic 0 k1 :: [EPut 0 k1 (VI32 1)]),
                    run (ex_env FPlain) world0 ([ENew 0 dir_d ex_key] ++ [EPut 0 k1 (VI32 1)]) with
              | Some (_, rs), Some (_, rs') =>
                  match rs, rs' with [ROk None; RPanic; RErr LockError], [ROk None; ROk None] => true | _, _ => false end
              | _, _ => false
              end = true) by (vm_compute; reflexivity).
  destruct (run (ex_env FPlain) world0 ([ENew 0 dir_d ex_key] ++ EPutPanic 0 k1 :: [EPut 0 k1 (VI32 1)])) as [[w rs]|] eqn:Hr; [|discriminate T].
  destruct (run (ex_env FPlain) world0 ([ENew 0 dir_d ex_key] ++ [EPut 0 k1 (VI32 1)])) as [[w' rs']|] eqn:Hr'; [|discriminate T].
  specialize (H _ _ _ _ _ _ _ _ Hr Hr'). subst rs.
  destruct rs' as [|a [|b [|c l]]]; cbn in T; repeat case_match; subst; try discriminate.
Qed.

(** How bad it is: after it, every put, get, delete and clear_data through
    any handle of that store fails with LockError, in every world, until the
    store is dropped. *)
Theorem C43_put_panic_poisons E w h hd x key w' r :
  w_handles w !! h = Some hd -> h_unreg hd = false -> w_insts w !! h_inst hd = Some x -> i_poison x = false ->
  step E w (EPutPanic h key) = Some (w', r) ->
  r = RPanic /\
  forall h' hd' k v t, w_handles w' !! h' = Some hd' -> h_unreg hd' = false -> h_inst hd' = h_inst hd ->
    step E w' (EPut h' k v) = Some (w', RErr LockError) /\ step E w' (EGet h' k t) = Some (w', RErr LockError) /\
    step E w' (EDelete h' k) = Some (w', RErr LockError) /\ step E w' (EClear h') = Some (w', RErr LockError).
Proof.
  intros Hh Hu Hx Hp. cbn [step]. unfold with_handle. rewrite Hh, Hu. unfold on_inst. rewrite Hx. unfold inst_put_panic. rewrite Hp.
  intros [= <- <-]. split; [reflexivity|]. intros h' hd' k v t Hh' Hu' Hi. rewrite Hh', Hu', Hi. cbn [set_inst set_insts w_insts].
  rewrite lookup_insert. unfold inst_put, inst_get, inst_delete, do_clear. cbn [i_with_poison i_poison].
  assert (G : set_inst (set_inst w (h_inst hd) (i_with_poison x)) (h_inst hd) (i_with_poison x) = set_inst w (h_inst hd) (i_with_poison x)).
  { unfold set_inst, set_insts. cbn. rewrite insert_insert. reflexivity. }
  rewrite Hi. cbn [set_inst set_insts w_insts]. rewrite lookup_insert. cbn [i_with_poison i_poison].
  split_and!; try (rewrite <- G at 2; reflexivity). reflexivity.
Qed.

(** A panicking deserializer, on the other hand, changes nothing, and its
    panic reaches the caller exactly when the same get without it would have
    returned a value; otherwise the call answers what that get would. *)
Theorem C43_get_panic_partial E w h key t w' r : step E w (EGetPanic h key t) = Some (w', r) ->
  w' = w /\
  exists r0, step E w (EGet h key t) = Some (w, r0) /\
    r = (match r0 with ROk _ => RPanic | RErr e => RErr e | RPanic => RPanic end).
Proof.
  cbn [step]. intros Hs. apply with_handle_Some in Hs as (hd & Hh & Hu & Hs). unfold with_handle. rewrite Hh, Hu. unfold on_inst in *.
  destruct (w_insts w !! h_inst hd) as [x|] eqn:Hx.
  - injection Hs as <- <-. rewrite !set_inst_same by exact Hx. split; [reflexivity|]. eexists. split; [reflexivity|].
    destruct (inst_get x key t); reflexivity.
  - injection Hs as <- <-. split; [reflexivity|]. eexists. split; [reflexivity|]. reflexivity.
Qed.

(** And the damage of a panicking serializer is confined to the calls through
    handles of that store while it is open: nothing is lost, other stores go
    on, and after dropping its handles it can be opened again.  [quiet] are
    the events that are not calls (other than drops) on instance [i]. *)
Definition calls_inst (w : world) (i : N) (e : event) : bool :=
  match e with
  | EPut h _ _ | EPutPanic h _ | EGet h _ _ | EGetPanic h _ _ | EDelete h _ | EClear h =>
      match w_handles w !! h with Some hd => h_inst hd =? i | None => false end
  | _ => false
  end.

Fixpoint quiet (E : env) (i : N) (w : world) (es : list event) : Prop :=
  match es with
  | [] => True
  | e :: r => calls_inst w i e = false /\ match step E w e with Some (w1, _) => quiet E i w1 r | None => True end
  end.

(** [w] with instance [i] poisoned, if it exists. *)
Definition poisoned (i : N) (w : world) : world := set_insts w (alter i_with_poison i (w_insts w)).

Lemma alter_insert_eq i x (m : gmap N inst) : alter i_with_poison i (<[i := x]> m) = <[i := i_with_poison x]> (alter i_with_poison i m).
Proof.
  apply map_eq. intros j. destruct (decide (i = j)) as [<-|Hne].
  - rewrite lookup_alter, !lookup_insert. reflexivity.
  - rewrite lookup_alter_ne, !lookup_insert_ne, lookup_alter_ne by exact Hne. reflexivity.
Qed.

Lemma alter_insert_ne i j x (m : gmap N inst) : j <> i -> alter i_with_poison i (<[j := x]> m) = <[j := x]> (alter i_with_poison i m).
Proof.
  intros Hne. apply map_eq. intros k. destruct (decide (i = k)) as [<-|Hk].
  - rewrite lookup_alter, !lookup_insert_ne, lookup_alter by exact Hne. reflexivity.
  - rewrite lookup_alter_ne by exact Hk. destruct (decide (j = k)) as [<-|Hj].
    + rewrite !lookup_insert. reflexivity.
    + rewrite !lookup_insert_ne, lookup_alter_ne by assumption. reflexivity.
Qed.

Lemma alter_delete i j (m : gmap N inst) : alter i_with_poison i (delete j m) = delete j (alter i_with_poison i m).
Proof.
  apply map_eq. intros k. destruct (decide (i = k)) as [<-|Hk].
  - rewrite lookup_alter. destruct (decide (j = i)) as [<-|Hj].
    + rewrite !lookup_delete. reflexivity.
    + rewrite !lookup_delete_ne, lookup_alter by exact Hj. reflexivity.
  - rewrite lookup_alter_ne by exact Hk. destruct (decide (j = k)) as [<-|Hj].
    + rewrite !lookup_delete. reflexivity.
    + rewrite !lookup_delete_ne, lookup_alter_ne by assumption. reflexivity.
Qed.

Section Poison.
Context (E : env) (i : N).

Lemma run_job_poisoned w j : run_job E (poisoned i w) j = poisoned i (run_job E w j).
Proof.
  unfold run_job. cbn [poisoned set_insts w_insts]. destruct (decide (j = i)) as [->|Hne].
  - rewrite lookup_alter. destruct (w_insts w !! i) as [x|] eqn:Hx; [|reflexivity]. cbn [fmap option_fmap option_map].
    destruct x as [m v p q io sn jn dr ino k nn ml ps tr]. cbn [i_with_poison i_io i_queue].
    destruct io, q as [|[mm dup|] q]; try reflexivity.
    + change (i_codec E (Inst m v true (JWrite mm dup :: q) IoRun sn jn dr ino k nn ml ps tr)) with (i_codec E (Inst m v p (JWrite mm dup :: q) IoRun sn jn dr ino k nn ml ps tr)).
      change (i_st (poisoned i w) (Inst m v true (JWrite mm dup :: q) IoRun sn jn dr ino k nn ml ps tr)) with (i_st w (Inst m v p (JWrite mm dup :: q) IoRun sn jn dr ino k nn ml ps tr)).
      destruct (write _ _ _ mm dup) as [s ok]. unfold poisoned, set_seed, set_inode, set_inst, set_insts. cbn. rewrite alter_insert_eq. reflexivity.
    + unfold poisoned, set_dir, set_inst, set_insts. cbn. rewrite alter_insert_eq. reflexivity.
  - rewrite lookup_alter_ne by congruence. destruct (w_insts w !! j) as [x|] eqn:Hx; [|reflexivity].
    destruct (i_io x), (i_queue x) as [|[mm dup|] q]; try reflexivity.
    + change (i_st (poisoned i w) x) with (i_st w x). destruct (write _ _ _ mm dup) as [s ok].
      unfold poisoned, set_seed, set_inode, set_inst, set_insts. cbn. rewrite alter_insert_ne by exact Hne. reflexivity.
    + unfold poisoned, set_dir, set_inst, set_insts. cbn. rewrite alter_insert_ne by exact Hne. reflexivity.
Qed.

Lemma iter_poisoned n j w : Nat.iter n (fun w => run_job E w j) (poisoned i w) = poisoned i (Nat.iter n (fun w => run_job E w j) w).
Proof. induction n as [|n IH]; [reflexivity|]. rewrite !Nat.iter_succ, IH. apply run_job_poisoned. Qed.

Lemma lookup_poisoned w j : w_insts (poisoned i w) !! j = if decide (j = i) then i_with_poison <$> w_insts w !! i else w_insts w !! j.
Proof.
  cbn. destruct (decide (j = i)) as [->|Hne]; [apply lookup_alter|]. apply lookup_alter_ne. congruence.
Qed.

Lemma drain_poisoned w j : drain E (poisoned i w) j = poisoned i (drain E w j).
Proof.
  unfold drain. rewrite lookup_poisoned. destruct (decide (j = i)) as [->|Hne].
  - destruct (w_insts w !! i) as [x|]; [|reflexivity]. cbn. apply (iter_poisoned (length (i_queue x))).
  - destruct (w_insts w !! j) as [x|]; [|reflexivity]. apply iter_poisoned.
Qed.

Lemma open_config_poisoned w d : open_config E (poisoned i w) d = (poisoned i (open_config E w d).1, (open_config E w d).2).
Proof. unfold open_config. change (dir_of (poisoned i w) d) with (dir_of w d). destruct (d_data _); reflexivity. Qed.

Lemma open_nonce_poisoned w d : open_nonce E (poisoned i w) d = (poisoned i (open_nonce E w d).1, (open_nonce E w d).2).
Proof.
  unfold open_nonce. change (dir_of (poisoned i w) d) with (dir_of w d). change (w_rng (poisoned i w)) with (w_rng w).
  destruct (is_encrypted _); [|reflexivity]. destruct (init_nonce _ _). reflexivity.
Qed.

Lemma open_impl_poisoned w p k : open_impl E (poisoned i w) p k = (poisoned i (open_impl E w p k).1, (open_impl E w p k).2).
Proof.
  unfold open_impl. destruct (e_dir_ok E p); [|reflexivity]. rewrite open_config_poisoned.
  destruct (open_config E w _) as [w1 ino]. cbn [fst snd]. destruct (feature_key _ k); [|reflexivity].
  rewrite open_nonce_poisoned. destruct (open_nonce E w1 _) as [w2 nonce]. cbn [fst snd].
  change (inode (poisoned i w2) ino) with (inode w2 ino). change (w_seed (poisoned i w2)) with (w_seed w2).
  destruct (open_file _ _ _ _) as [[s m]|]; reflexivity.
Qed.

Lemma set_inst_poisoned w j x : j <> i -> set_inst (poisoned i w) j x = poisoned i (set_inst w j x).
Proof. intros H. unfold set_inst, poisoned, set_insts. cbn. rewrite alter_insert_ne by exact H. reflexivity. Qed.

Lemma on_inst_poisoned w j f : j <> i -> on_inst (poisoned i w) j f = (poisoned i (on_inst w j f).1, (on_inst w j f).2).
Proof.
  intros H. unfold on_inst. rewrite lookup_poisoned. destruct (decide (j = i)); [contradiction|].
  destruct (w_insts w !! j) as [x|]; [|reflexivity]. destruct (f x) as [y r]. rewrite set_inst_poisoned by exact H. reflexivity.
Qed.

Lemma impl_clear_poisoned w j x : j <> i -> impl_clear E (poisoned i w) j x = (poisoned i (impl_clear E w j x).1, (impl_clear E w j x).2).
Proof.
  intros H. unfold impl_clear. destruct (negb (i_valid x)); [reflexivity|]. destruct (post _ _) as [x1 r].
  rewrite set_inst_poisoned by exact H. destruct r; [|reflexivity..]. rewrite drain_poisoned, lookup_poisoned.
  destruct (decide (j = i)); [contradiction|]. destruct (w_insts (drain E _ j) !! j) as [x2|]; [|reflexivity].
  rewrite set_inst_poisoned by exact H. reflexivity.
Qed.

Lemma do_clear_poisoned w hd : h_inst hd <> i -> do_clear E (poisoned i w) hd = (poisoned i (do_clear E w hd).1, (do_clear E w hd).2).
Proof.
  intros H. unfold do_clear. rewrite lookup_poisoned. destruct (decide (h_inst hd = i)); [contradiction|].
  destruct (w_insts w !! h_inst hd) as [x|]; [|reflexivity]. destruct (i_poison x); [reflexivity|].
  rewrite impl_clear_poisoned by exact H. destruct (impl_clear E w _ x) as [w1 r]. cbn [fst snd].
  destruct r; [|reflexivity..]. rewrite open_impl_poisoned. destruct (open_impl E w1 _ _) as [w2 [y|]]; cbn [fst snd].
  - rewrite lookup_poisoned. destruct (decide (h_inst hd = i)); [contradiction|].
    destruct (_ && _)%bool; rewrite set_inst_poisoned by exact H; reflexivity.
  - rewrite lookup_poisoned. destruct (decide (h_inst hd = i)); [contradiction|].
    destruct (w_insts w2 !! h_inst hd); [|reflexivity]. rewrite set_inst_poisoned by exact H. reflexivity.
Qed.

Lemma lookup_reg_poisoned w p : lookup_reg (poisoned i w) p = lookup_reg w p.
Proof.
  unfold lookup_reg. change (w_reg (poisoned i w)) with (w_reg w). destruct (w_reg w !! p) as [j|]; [|reflexivity].
  rewrite lookup_poisoned. destruct (decide (j = i)) as [->|]; [|reflexivity].
  assert (G : is_Some (i_with_poison <$> w_insts w !! i) <-> is_Some (w_insts w !! i)) by apply fmap_is_Some.
  destruct (bool_decide_reflect (is_Some (i_with_poison <$> w_insts w !! i))) as [A|A], (bool_decide_reflect (is_Some (w_insts w !! i))) as [B|B]; tauto.
Qed.

Lemma do_drop_reg_poisoned w h hd : do_drop_reg (poisoned i w) h hd = (poisoned i (do_drop_reg w h hd).1, (do_drop_reg w h hd).2).
Proof.
  unfold do_drop_reg. change (w_poison (poisoned i w)) with (w_poison w). change (strong (poisoned i w)) with (strong w).
  destruct (w_poison w); [reflexivity|]. destruct (Nat.eqb _ 1); reflexivity.
Qed.

Lemma do_drop_arc_poisoned w h hd : do_drop_arc E (poisoned i w) h hd = (poisoned i (do_drop_arc E w h hd).1, (do_drop_arc E w h hd).2).
Proof.
  unfold do_drop_arc. change (strong (poisoned i w)) with (strong w). destruct (Nat.eqb _ 1); [|reflexivity].
  rewrite drain_poisoned. set (w1 := drain E w (h_inst hd)). cbn [fst snd].
  assert (R : match w_insts (poisoned i w1) !! h_inst hd with
              | Some x => if i_join x then match i_io x with IoRun => ROk None | IoDead => RPanic end else ROk None
              | None => ROk None end =
              (match w_insts w1 !! h_inst hd with
              | Some x => if i_join x then match i_io x with IoRun => ROk None | IoDead => RPanic end else ROk None
              | None => ROk None end : result)).
  { rewrite lookup_poisoned. destruct (decide (h_inst hd = i)) as [->|]; [|reflexivity]. destruct (w_insts w1 !! i); reflexivity. }
  rewrite R. unfold poisoned, set_handles, set_insts. cbn. rewrite alter_delete. reflexivity.
Qed.

Lemma with_handle_poisoned w h (f g : handle -> world * result) :
  (forall hd, w_handles w !! h = Some hd -> f hd = (poisoned i (g hd).1, (g hd).2)) ->
  with_handle (poisoned i w) h f = match with_handle w h g with Some (w1, r) => Some (poisoned i w1, r) | None => None end.
Proof.
  intros H. unfold with_handle. change (w_handles (poisoned i w)) with (w_handles w).
  destruct (w_handles w !! h) as [hd|]; [|reflexivity]. destruct (h_unreg hd); [reflexivity|].
  rewrite (H hd eq_refl). destruct (g hd). reflexivity.
Qed.

Lemma step_poisoned w e : i < w_next_inst w -> calls_inst w i e = false ->
  step E (poisoned i w) e = match step E w e with Some (w1, r) => Some (poisoned i w1, r) | None => None end.
Proof.
  intros Hi Hc.
  assert (Hh : forall h hd, (match w_handles w !! h with Some hd => h_inst hd =? i | None => false end) = false ->
    w_handles w !! h = Some hd -> h_inst hd <> i).
  { intros h hd H1 H2. rewrite H2 in H1. apply N.eqb_neq, H1. }
  destruct e as [h p k|h k v|h k|h k t|h k t|h k|h|h|h|h|j|]; cbn [step calls_inst] in *.
  - change (w_handles (poisoned i w)) with (w_handles w). destruct (w_handles w !! h); [reflexivity|]. unfold do_new.
    change (w_poison (poisoned i w)) with (w_poison w). destruct (w_poison w); [reflexivity|]. rewrite lookup_reg_poisoned.
    destruct (lookup_reg w p); [reflexivity|]. rewrite open_impl_poisoned.
    pose proof (open_impl_sub E w p k _ _ (surjective_pairing _)) as (_ & _ & _ & D & _).
    destruct (open_impl E w p k) as [w1 [x|]]; cbn [fst snd] in *; [|reflexivity].
    unfold poisoned, set_insts. cbn. rewrite alter_insert_ne by lia. reflexivity.
  - apply with_handle_poisoned. intros hd H. apply on_inst_poisoned. eauto.
  - apply with_handle_poisoned. intros hd H. apply on_inst_poisoned. eauto.
  - apply with_handle_poisoned. intros hd H. apply on_inst_poisoned. eauto.
  - apply with_handle_poisoned. intros hd H. apply on_inst_poisoned. eauto.
  - apply with_handle_poisoned. intros hd H. apply on_inst_poisoned. eauto.
  - apply with_handle_poisoned. intros hd H. apply do_clear_poisoned. eauto.
  - apply with_handle_poisoned. intros hd H. rewrite do_drop_reg_poisoned. destruct (do_drop_reg w h hd) as [w1 r1]. cbn [fst snd].
    rewrite do_drop_arc_poisoned. destruct (do_drop_arc E w1 h hd) as [w2 r2]. reflexivity.
  - apply with_handle_poisoned. intros hd H. apply do_drop_reg_poisoned.
  - change (w_handles (poisoned i w)) with (w_handles w). destruct (w_handles w !! h) as [hd|]; [|reflexivity].
    destruct (h_unreg hd); [|reflexivity]. rewrite do_drop_arc_poisoned. destruct (do_drop_arc E w h hd). reflexivity.
  - rewrite run_job_poisoned. reflexivity.
  - unfold poisoned, set_insts. cbn. f_equal. f_equal. f_equal. symmetry. apply map_eq. intros j. rewrite lookup_empty.
    destruct (decide (i = j)) as [<-|Hne]; [rewrite lookup_alter|rewrite lookup_alter_ne by exact Hne]; rewrite lookup_empty; reflexivity.
Qed.

Lemma next_inst_mono w e w' r : dirs_agree E w -> step E w e = Some (w', r) -> w_next_inst w <= w_next_inst w'.
Proof.
  intros HA. destruct e as [h p k|h k v|h k|h k t|h k t|h k|h|h|h|h|j|]; cbn [step].
  - destruct (w_handles w !! h); [discriminate|]. intros [= Es]. revert Es. unfold do_new.
    destruct (w_poison w). { intros [= <- _]. lia. }
    destruct (lookup_reg w p). { intros [= <- _]. cbn. lia. }
    destruct (open_impl E w p k) as [w1 o] eqn:Eo. apply open_impl_sub in Eo as (_ & _ & _ & D & _).
    destruct o; intros [= <- _]; cbn; lia.
  - intros Hs. apply with_handle_Some in Hs as (hd & Hh & Hu & Hs). apply on_inst_sub in Hs as (_ & _ & _ & D); [lia|intros; apply put_dir].
  - intros Hs. apply with_handle_Some in Hs as (hd & Hh & Hu & Hs).
    apply on_inst_sub in Hs as (_ & _ & _ & D); [lia|intros x; unfold inst_put_panic; destruct (i_poison x); reflexivity].
  - intros Hs. apply with_handle_Some in Hs as (hd & Hh & Hu & Hs). apply on_inst_sub in Hs as (_ & _ & _ & D); [lia|reflexivity].
  - intros Hs. apply with_handle_Some in Hs as (hd & Hh & Hu & Hs). apply on_inst_sub in Hs as (_ & _ & _ & D); [lia|reflexivity].
  - intros Hs. apply with_handle_Some in Hs as (hd & Hh & Hu & Hs). apply on_inst_sub in Hs as (_ & _ & _ & D); [lia|intros; apply delete_dir].
  - intros Hs. apply with_handle_Some in Hs as (hd & Hh & Hu & Hs). apply (do_clear_sub E w h hd w' r HA Hh) in Hs as (_ & _ & _ & D). lia.
  - intros Hs. apply with_handle_Some in Hs as (hd & Hh & Hu & Hs). destruct (do_drop_reg w h hd) as [w1 r1] eqn:E1.
    destruct (do_drop_arc E w1 h hd) as [w2 r2] eqn:E2. injection Hs as <- _.
    assert (A : w_next_inst w1 = w_next_inst w). { unfold do_drop_reg in E1. destruct (w_poison w); [|destruct (Nat.eqb _ 1)]; injection E1 as <- _; reflexivity. }
    assert (B : w_next_inst w2 = w_next_inst w1).
    { unfold do_drop_arc in E2. destruct (Nat.eqb _ 1); injection E2 as <- _; [|reflexivity]. apply (drain_sub E w1 (h_inst hd)). }
    lia.
  - intros Hs. apply with_handle_Some in Hs as (hd & Hh & Hu & Hs). unfold do_drop_reg in Hs.
    destruct (w_poison w); [|destruct (Nat.eqb _ 1)]; injection Hs as <- _; cbn; lia.
  - destruct (w_handles w !! h) as [hd|]; [|discriminate]. destruct (h_unreg hd); [|discriminate]. intros [= Hs].
    unfold do_drop_arc in Hs. destruct (Nat.eqb _ 1); injection Hs as <- _; cbn; [|lia]. destruct (drain_sub E w (h_inst hd)) as (_ & _ & _ & D). lia.
  - intros [= <- _]. destruct (run_job_sub E w j) as (_ & _ & _ & D). lia.
  - intros [= <- _]. cbn. lia.
Qed.

Lemma run_poisoned es : forall w, dirs_agree E w -> i < w_next_inst w -> quiet E i w es ->
  run E (poisoned i w) es = match run E w es with Some (w1, rs) => Some (poisoned i w1, rs) | None => None end.
Proof.
  induction es as [|e es IH]; intros w HA Hi Hq; cbn [run quiet] in *; [reflexivity|]. destruct Hq as [Hc Hq].
  rewrite (step_poisoned w e Hi Hc). destruct (step E w e) as [[w1 r]|] eqn:Es; [|reflexivity].
  rewrite (IH w1); [destruct (run E w1 es) as [[w2 rs]|]; reflexivity|eapply dirs_agree_step; eassumption| |exact Hq].
  pose proof (next_inst_mono w e w1 r HA Es). lia.
Qed.

End Poison.

Theorem C43_put_panic_partial E es1 h hd key es2 w0 rs0 w rs :
  run E world0 es1 = Some (w0, rs0) -> w_handles w0 !! h = Some hd ->
  quiet E (h_inst hd) w0 es2 ->
  run E world0 (es1 ++ es2) = Some (w, rs) -> h_unreg hd = false ->
  exists w' r, run E world0 (es1 ++ EPutPanic h key :: es2) = Some (w', take (length es1) rs ++ r :: drop (length es1) rs) /\
    (r = RPanic \/ r = RErr LockError) /\ w_dirs w' = w_dirs w /\ w_inodes w' = w_inodes w /\ w_handles w' = w_handles w.
Proof.
  intros Hr Hh Hq Hrun Hu. rewrite run_app in *. rewrite Hr in *.
  assert (L : length rs0 = length es1).
  { clear -Hr. revert Hr. generalize world0. revert rs0 w0. induction es1 as [|e es IH]; intros rs0 w0 w Hs; cbn in Hs.
    - injection Hs as _ <-. reflexivity.
    - destruct (step E w e) as [[w1 r]|]; [|discriminate]. destruct (run E w1 es) as [[w2 rs2]|] eqn:Er; [|discriminate].
      injection Hs as _ <-. cbn. f_equal. eapply IH, Er. }
  destruct (run E w0 es2) as [[w2 rs2]|] eqn:E2; [|discriminate]. injection Hrun as <- <-.
  pose proof (dirs_agree_reach E es1 w0 rs0 Hr) as HA.
  cbn [run step]. unfold with_handle. rewrite Hh, Hu. unfold on_inst.
  rewrite <- L, take_app, drop_app.
  destruct (w_insts w0 !! h_inst hd) as [x|] eqn:Hx.
  - assert (G : exists r, (let '(x', r) := inst_put_panic x in (set_inst w0 (h_inst hd) x', r)) = (poisoned (h_inst hd) w0, r) /\
      (r = RPanic \/ r = RErr LockError)).
    { unfold inst_put_panic, poisoned, set_inst. destruct (i_poison x) eqn:Hp; [exists (RErr LockError)|exists RPanic]; (split; [|auto]); f_equal; f_equal; apply map_eq; intros j;
        (destruct (decide (h_inst hd = j)) as [<-|Hne]; [rewrite lookup_alter, lookup_insert, Hx|rewrite lookup_alter_ne, lookup_insert_ne by exact Hne; reflexivity]); cbn.
      - f_equal. destruct x. cbn in *. subst. reflexivity.
      - reflexivity. }
    destruct G as (r & -> & Hrr). rewrite run_poisoned; [|exact HA|eapply (da_bound E w0 HA); eassumption|exact Hq].
    rewrite E2. eexists _, r. split; [reflexivity|]. split; [exact Hrr|]. auto.
  - rewrite E2. eexists _, RPanic. split; [reflexivity|]. auto.
Qed.

(** Example: the store with a panicking put loses nothing; its neighbour goes
    on; after dropping and reopening it works again. *)
Definition quiet_after : list event :=
  [ENew 1 dir_e ex_key; EPut 1 k1 hello; EDrop 0; ENew 2 dir_d ex_key; EPut 2 k2 (VI32 2); EGet 2 k1 TI32].

Example C43_example :
  (exists w0 rs0 hd, run (ex_env FPlain) world0 [ENew 0 dir_d ex_key; EPut 0 k1 (VI32 1)] = Some (w0, rs0) /\ w_handles w0 !! 0 = Some hd /\
    quiet (ex_env FPlain) (h_inst hd) w0 quiet_after) /\
  results (ex_env FPlain) ([ENew 0 dir_d ex_key; EPut 0 k1 (VI32 1)] ++ EPutPanic 0 k2 :: quiet_after) =
  Some [ROk None; ROk None; RPanic; ROk None; ROk None; ROk None; ROk None; ROk None; ROk (Some (VI32 1))].
Proof.
  split; [|vm_compute; reflexivity].
  assert (T : match run (ex_env FPlain) world0 [ENew 0 dir_d ex_key; EPut 0 k1 (VI32 1)] with
              | Some (w0, _) => match w_handles w0 !! 0 with Some hd => (fix q w es := match es with [] => true | e :: r =>
                   negb (calls_inst w (h_inst hd) e) && match step (ex_env FPlain) w e with Some (w1, _) => q w1 r | None => true end end) w0 quiet_after
                 | None => false end
              | None => false end = true) by (vm_compute; reflexivity).
  destruct (run (ex_env FPlain) world0 [ENew 0 dir_d ex_key; EPut 0 k1 (VI32 1)]) as [[w0 rs0]|]; [|discriminate T].
  destruct (w_handles w0 !! 0) as [hd|] eqn:Hh; [|discriminate T]. exists w0, rs0, hd. split; [reflexivity|]. split; [exact Hh|].
  clear Hh. revert w0 T. induction quiet_after as [|e es IH]; intros w0 T; cbn; [exact Logic.I|].
  apply andb_true_iff in T as [T1 T2]. apply negb_true_iff in T1. split; [exact T1|].
  destruct (step (ex_env FPlain) w0 e) as [[w1 r]|]; [|exact Logic.I]. apply IH, T2.
Qed.

(** ** C48 *)

(** The property as wished for. *)
Definition failed_open_is_contained (E : env) (keyof : bytes -> bytes) : Prop :=
  forall es w rs h p key w1 h2 p2 w2 r2,
    ordinary E keyof es -> run E world0 es = Some (w, rs) ->
    step E w (ENew h p key) = Some (w1, RPanic) ->
    e_dir_ok E p2 = true -> e_canon E p2 <> e_canon E p -> feature_key (e_feat E) (keyof (e_canon E p2)) <> None ->
    step E w1 (ENew h2 p2 (keyof (e_canon E p2))) = Some (w2, r2) -> r2 = ROk None.

(** It is false of the code: the panic happens while the registry's write
    lock is held (mmkv.rs:84-104). *)
Theorem C48_failed_open_refuted : ~ failed_open_is_contained (ex_env FPlain) ex_keyof.
Proof.
  intros H.
  assert (O : ordinary (ex_env FPlain) ex_keyof []) by (apply ordinaryb_ok; [apply ex_env_ok; exact Logic.I|vm_compute; reflexivity]).
  assert (T : match step (ex_env FPlain) world0 (ENew 0 (str "!"%string) ex_key) with
              | Some (w1, RPanic) =>
                  match step (ex_env FPlain) w1 (ENew 1 dir_d ex_key) with Some (_, RPanic) => true | _ => false end
              | _ => false
              end = true) by (vm_compute; reflexivity).
  destruct (step (ex_env FPlain) world0 (ENew 0 (str "!"%string) ex_key)) as [[w1 [| | ]]|] eqn:E1; try discriminate T.
  destruct (step (ex_env FPlain) w1 (ENew 1 dir_d ex_key)) as [[w2 r2]|] eqn:E2; [|discriminate T].
  assert (Hr2 : r2 = ROk None).
  { eapply (H [] world0 [] 0 (str "!"%string) ex_key w1 1 dir_d w2 r2 O eq_refl E1); [reflexivity| |discriminate|exact E2].
    vm_compute. discriminate. }
  subst r2. discriminate T.
Qed.

(** How bad it is: after one panicking open, every open of every directory
    panics and so does every drop of a handle, until the process ends. *)
Lemma poison_stays E w e w' r : w_poison w = true -> e <> EKill -> step E w e = Some (w', r) ->
  w_poison w' = true /\
  match e with ENew _ _ _ | EDrop _ | EDropReg _ => r = RPanic | _ => True end.
Proof.
  intros Hp Hk.
  assert (J : forall w j, w_poison (run_job E w j) = w_poison w).
  { intros w0 j. unfold run_job. destruct (w_insts w0 !! j) as [x|]; [|reflexivity].
    destruct (i_io x), (i_queue x) as [|[m dup|] q]; try reflexivity. destruct (write _ _ _ m dup) as [s ok]. reflexivity. }
  assert (I : forall n w j, w_poison (Nat.iter n (fun w => run_job E w j) w) = w_poison w).
  { intros n w0 j. induction n as [|n IH]; [reflexivity|]. rewrite Nat.iter_succ, J. exact IH. }
  assert (D : forall w j, w_poison (drain E w j) = w_poison w).
  { intros w0 j. unfold drain. destruct (w_insts w0 !! j); [apply I|reflexivity]. }
  assert (OI : forall w j f w' r, on_inst w j f = (w', r) -> w_poison w' = w_poison w).
  { intros w0 j f w0' r0. unfold on_inst. destruct (w_insts w0 !! j) as [x|]; [destruct (f x)|]; intros [= <- _]; reflexivity. }
  assert (DA : forall w h hd w' r, do_drop_arc E w h hd = (w', r) -> w_poison w' = w_poison w).
  { intros w0 h hd w0' r0. unfold do_drop_arc. destruct (Nat.eqb _ 1); intros [= <- _]; cbn; [apply D|reflexivity]. }
  destruct e as [h p k|h k v|h k|h k t|h k t|h k|h|h|h|h|j|]; cbn [step]; try congruence.
  - destruct (w_handles w !! h); [discriminate|]. unfold do_new. rewrite Hp. intros [= <- <-]. auto.
  - intros Hs. apply with_handle_Some in Hs as (hd & _ & _ & Hs). apply OI in Hs. split; [congruence|exact Logic.I].
  - intros Hs. apply with_handle_Some in Hs as (hd & _ & _ & Hs). apply OI in Hs. split; [congruence|exact Logic.I].
  - intros Hs. apply with_handle_Some in Hs as (hd & _ & _ & Hs). apply OI in Hs. split; [congruence|exact Logic.I].
  - intros Hs. apply with_handle_Some in Hs as (hd & _ & _ & Hs). apply OI in Hs. split; [congruence|exact Logic.I].
  - intros Hs. apply with_handle_Some in Hs as (hd & _ & _ & Hs). apply OI in Hs. split; [congruence|exact Logic.I].
  - intros Hs. apply with_handle_Some in Hs as (hd & _ & _ & Hs). split; [|exact Logic.I]. unfold do_clear in Hs.
    destruct (w_insts w !! h_inst hd) as [x|]; [|congruence]. destruct (i_poison x); [congruence|].
    destruct (impl_clear E w (h_inst hd) x) as [w1 r1] eqn:Ec.
    assert (P1 : w_poison w1 = true).
    { unfold impl_clear in Ec. destruct (negb (i_valid x)); [congruence|]. destruct (post _ _) as [x1 rp].
      destruct rp; [|injection Ec as <- _; exact Hp..]. destruct (w_insts (drain E _ _) !! _); injection Ec as <- _; cbn; rewrite D; exact Hp. }
    destruct r1; [|congruence..]. destruct (open_impl E w1 _ _) as [w2 o] eqn:Eo.
    pose proof (open_impl_sub E _ _ _ _ _ Eo) as (_ & _ & _ & _ & P2 & _). rewrite P1 in P2.
    destruct o; [destruct (_ && _)%bool; injection Hs as <- _; exact P2|].
    destruct (w_insts w2 !! _); injection Hs as <- _; exact P2.
  - intros Hs. apply with_handle_Some in Hs as (hd & _ & _ & Hs). destruct (do_drop_reg w h hd) as [w1 r1] eqn:E1.
    destruct (do_drop_arc E w1 h hd) as [w2 r2] eqn:E2. injection Hs as <- <-. unfold do_drop_reg in E1. rewrite Hp in E1.
    injection E1 as <- <-. apply DA in E2. split; [exact (eq_trans E2 Hp)|reflexivity].
  - intros Hs. apply with_handle_Some in Hs as (hd & _ & _ & Hs). unfold do_drop_reg in Hs. rewrite Hp in Hs. injection Hs as <- <-. auto.
  - destruct (w_handles w !! h) as [hd|]; [|discriminate]. destruct (h_unreg hd); [|discriminate]. intros [= Hs].
    apply DA in Hs. split; [congruence|exact Logic.I].
  - intros [= <- _]. rewrite J. auto.
Qed.

Theorem C48_failed_open_blocks_everything E w h p key w1 : 
  step E w (ENew h p key) = Some (w1, RPanic) ->
  forall es w' rs n, run E w1 es = Some (w', rs) -> Forall (fun e => e <> EKill) es ->
    match es !! n with Some (ENew _ _ _) | Some (EDrop _) => rs !! n = Some RPanic | _ => True end.
Proof.
  intros Hs. assert (P1 : w_poison w1 = true).
  { cbn [step] in Hs. destruct (w_handles w !! h); [discriminate|]. injection Hs as Hs. revert Hs. unfold do_new.
    destruct (w_poison w) eqn:Hp; [congruence|]. destruct (lookup_reg w p); [congruence|].
    destruct (open_impl E w p key) as [w2 [x|]]; [congruence|]. intros [= <-]. reflexivity. }
  clear Hs. intros es. revert w1 P1. induction es as [|e es IH]; intros w1 P1 w' rs n Hr HF.
  - rewrite lookup_nil. exact Logic.I.
  - cbn [run] in Hr. destruct (step E w1 e) as [[w2 r]|] eqn:Es; [|discriminate].
    destruct (run E w2 es) as [[w3 rs3]|] eqn:Er; [|discriminate]. injection Hr as <- <-.
    apply Forall_cons in HF as [Hk HF]. destruct (poison_stays E w1 e w2 r P1 Hk Es) as [P2 He].
    destruct n as [|n]; cbn [lookup list_lookup]; [destruct e; auto; rewrite He; reflexivity|].
    apply (IH w2 P2 w3 rs3 n Er HF).
Qed.

(** What remains: the stores that are open go on.  Opening something that is
    not a directory changes no answer of the later puts, gets, deletes,
    clears and background work. *)
Definition no_registry (e : event) : Prop :=
  match e with ENew _ _ _ | EDrop _ | EDropReg _ => False | _ => True end.

Section RegPoison.
Context (E : env).

Lemma set_poison_job w j : run_job E (set_poison w) j = set_poison (run_job E w j).
Proof.
  unfold run_job. cbn [set_poison w_insts]. destruct (w_insts w !! j) as [x|]; [|reflexivity].
  destruct (i_io x), (i_queue x) as [|[m dup|] q]; try reflexivity. change (i_st (set_poison w) x) with (i_st w x).
  destruct (write _ _ _ m dup) as [s ok]. reflexivity.
Qed.

Lemma set_poison_drain w j : drain E (set_poison w) j = set_poison (drain E w j).
Proof.
  unfold drain. cbn [set_poison w_insts]. destruct (w_insts w !! j) as [x|]; [|reflexivity].
  generalize (length (i_queue x)) as n. induction n as [|n IH]; [reflexivity|]. rewrite !Nat.iter_succ, IH. apply set_poison_job.
Qed.

Lemma set_poison_open w p k : open_impl E (set_poison w) p k = (set_poison (open_impl E w p k).1, (open_impl E w p k).2).
Proof.
  unfold open_impl. destruct (e_dir_ok E p); [|reflexivity].
  assert (C : open_config E (set_poison w) (e_canon E p) = (set_poison (open_config E w (e_canon E p)).1, (open_config E w (e_canon E p)).2)).
  { unfold open_config. change (dir_of (set_poison w) (e_canon E p)) with (dir_of w (e_canon E p)). destruct (d_data _); reflexivity. }
  rewrite C. destruct (open_config E w _) as [w1 ino]. cbn [fst snd]. destruct (feature_key _ k); [|reflexivity].
  assert (N : open_nonce E (set_poison w1) (e_canon E p) = (set_poison (open_nonce E w1 (e_canon E p)).1, (open_nonce E w1 (e_canon E p)).2)).
  { unfold open_nonce. change (dir_of (set_poison w1) (e_canon E p)) with (dir_of w1 (e_canon E p)). change (w_rng (set_poison w1)) with (w_rng w1).
    destruct (is_encrypted _); [|reflexivity]. destruct (init_nonce _ _). reflexivity. }
  rewrite N. destruct (open_nonce E w1 _) as [w2 nonce]. cbn [fst snd].
  change (inode (set_poison w2) ino) with (inode w2 ino). change (w_seed (set_poison w2)) with (w_seed w2).
  destruct (open_file _ _ _ _) as [[s m]|]; reflexivity.
Qed.

Lemma set_poison_clear w hd : do_clear E (set_poison w) hd = (set_poison (do_clear E w hd).1, (do_clear E w hd).2).
Proof.
  unfold do_clear. cbn [set_poison w_insts]. destruct (w_insts w !! h_inst hd) as [x|]; [|reflexivity].
  destruct (i_poison x); [reflexivity|].
  assert (C : impl_clear E (set_poison w) (h_inst hd) x = (set_poison (impl_clear E w (h_inst hd) x).1, (impl_clear E w (h_inst hd) x).2)).
  { unfold impl_clear. destruct (negb (i_valid x)); [reflexivity|]. destruct (post _ _) as [x1 r].
    change (set_inst (set_poison w) (h_inst hd) x1) with (set_poison (set_inst w (h_inst hd) x1)).
    destruct r; [|reflexivity..]. rewrite set_poison_drain. cbn [set_poison w_insts].
    destruct (w_insts (drain E _ _) !! _); reflexivity. }
  rewrite C. destruct (impl_clear E w _ x) as [w1 r]. cbn [fst snd]. destruct r; [|reflexivity..].
  rewrite set_poison_open. destruct (open_impl E w1 _ _) as [w2 [y|]]; cbn [fst snd].
  - cbn [set_poison w_insts]. destruct (_ && _)%bool; reflexivity.
  - cbn [set_poison w_insts]. destruct (w_insts w2 !! h_inst hd); reflexivity.
Qed.

Lemma set_poison_step w e : no_registry e -> e <> EKill ->
  step E (set_poison w) e = match step E w e with Some (w1, r) => Some (set_poison w1, r) | None => None end.
Proof.
  intros Hn Hk. destruct e as [h p k|h k v|h k|h k t|h k t|h k|h|h|h|h|j|]; cbn [step no_registry] in *; try contradiction; try congruence;
    unfold with_handle; cbn [set_poison w_handles]; try (destruct (w_handles w !! h) as [hd|]; [|reflexivity]); try (destruct (h_unreg hd); [reflexivity|]).
  1-5: unfold on_inst; cbn [set_poison w_insts]; destruct (w_insts w !! h_inst hd) as [x|]; [|reflexivity]; try reflexivity.
  - destruct (inst_put x k v). reflexivity.
  - destruct (inst_put_panic x). reflexivity.
  - destruct (inst_delete x k). reflexivity.
  - rewrite set_poison_clear. destruct (do_clear E w hd). reflexivity.
  - destruct (h_unreg hd); [|reflexivity]. unfold do_drop_arc. change (strong (set_poison w)) with (strong w).
    destruct (Nat.eqb _ 1); [|reflexivity]. rewrite set_poison_drain. reflexivity.
  - rewrite set_poison_job. reflexivity.
Qed.

Lemma set_poison_run es : forall w, Forall (fun e => no_registry e /\ e <> EKill) es ->
  run E (set_poison w) es = match run E w es with Some (w1, rs) => Some (set_poison w1, rs) | None => None end.
Proof.
  induction es as [|e es IH]; intros w HF; cbn [run]; [reflexivity|]. apply Forall_cons in HF as [[Hn Hk] HF].
  rewrite (set_poison_step w e Hn Hk). destruct (step E w e) as [[w1 r]|]; [|reflexivity]. rewrite (IH w1 HF).
  destruct (run E w1 es) as [[w2 rs]|]; reflexivity.
Qed.

End RegPoison.

Theorem C48_open_stores_go_on_partial E es1 h p key es2 w0 rs0 w1 w rs :
  e_dir_ok E p = false -> run E world0 es1 = Some (w0, rs0) -> step E w0 (ENew h p key) = Some (w1, RPanic) ->
  Forall (fun e => no_registry e /\ e <> EKill) es2 -> run E w0 es2 = Some (w, rs) ->
  run E w1 es2 = Some (set_poison w, rs).
Proof.
  intros Hd Hr Hs HF Hrun.
  assert (Hw : w1 = set_poison w0).
  { cbn [step] in Hs. destruct (w_handles w0 !! h); [discriminate|]. injection Hs as Hs. revert Hs. unfold do_new.
    destruct (w_poison w0) eqn:Hp.
    - intros [= <-]. destruct w0. cbn in *. subst. reflexivity.
    - destruct (lookup_reg w0 p); [congruence|]. unfold open_impl. rewrite Hd. intros [= <-]. reflexivity. }
  rewrite Hw, (set_poison_run E es2 w0 HF), Hrun. reflexivity.
Qed.

Example C48_example :
  e_dir_ok (ex_env FPlain) (str "!"%string) = false /\
  results (ex_env FPlain) [ENew 0 dir_d ex_key; EPut 0 k1 (VI32 1); ENew 1 (str "!"%string) ex_key; EPut 0 k2 hello; EGet 0 k1 TI32; EClear 0;
                           EGet 0 k1 TI32; ENew 2 dir_e ex_key; EDrop 0] =
  Some [ROk None; ROk None; RPanic; ROk None; ROk (Some (VI32 1)); ROk None; RErr KeyNotFound; RPanic; RPanic].
Proof. split; vm_compute; reflexivity. Qed.
