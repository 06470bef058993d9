(** C61: logging and the stored data. *)
From Verif Require Import Bytes Utf8 Proto ProtoFacts Value Codec.
From Verif Require Logging.
From Verif Require Import Store StoreFacts Encrypt World Spec Hyps Refine WorldInv WorldStep Main Frames Reach Examples P_Store Slots Crash P_Kill P_Kill2 Logged.
From Verif Require P_Fail.
From Coq Require Import ZifyBool ZifyNat ZifyN.
From Coq Require String. Import (notations) String.
Local Open Scope N_scope.

Section Eq.
Context (E : env) (bad : N -> level -> bool).
Notation P := (e_plat E).

(** Only lines of level Error and Warn can fail. *)
Context (Q : forall k lv, bad k lv = true -> lv = Logging.Error \/ lv = Logging.Warn).

Lemma q_info k : bad k Logging.Info = false.
Proof. destruct (bad k Logging.Info) eqn:B; [|reflexivity]. destruct (Q _ _ B); discriminate. Qed.
Lemma q_debug k : bad k Logging.Debug = false.
Proof. destruct (bad k Logging.Debug) eqn:B; [|reflexivity]. destruct (Q _ _ B); discriminate. Qed.
Lemma q_verbose k : bad k Logging.Verbose = false.
Proof. destruct (bad k Logging.Verbose) eqn:B; [|reflexivity]. destruct (Q _ _ B); discriminate. Qed.

(** Reading [v] meets no failing log call. *)
Definition reads (C : codec) (v : bytes) : Prop := forall k, exists k', lread_all E bad C k v = (k', Some (read_all P C v)).

Lemma reads_quiet C v : (forall k lv, bad k lv = false) -> reads C v.
Proof.
  intros N k. unfold lread_all, read_all. destruct (write_offset P v) as [e|]; [|eauto].
  assert (G : forall fuel k start pos acc cnt, exists k', liter_map bad C k fuel v start e pos acc cnt = (k', Some (iter_map C fuel v start e pos acc cnt))); [|apply G].
  clear k. induction fuel as [|f IH]; intros k start pos acc cnt; cbn [liter_map iter_map]; destruct (e <=? start); eauto.
  destruct (slice start e v) as [bs|]; [|eauto]. destruct (dec C bs pos) as [[o l]|er|]; [|rewrite N; eauto|eauto].
  cbv zeta. destruct o as [m|]; [apply IH|]. rewrite N. apply IH.
Qed.

Lemma lexpand_eq k s : exists k', lexpand E bad k s = (k', expand P s).
Proof. unfold lexpand, expand. rewrite !q_info. destruct (_ <=? _); cbv zeta; eauto. Qed.

Lemma lrewrite_eq C l : forall k max s, exists k', lrewrite E bad C k max l s = (k', rewrite P C max l s).
Proof.
  induction l as [|m r IH]; intros k max s; cbn [lrewrite rewrite]; [eauto|].
  destruct (enc C m (s_pos s)) as [b|er|]; [|eauto..]. destruct (write_offset P (view s)) as [wo|]; [|eauto].
  destruct (max <? _).
  - destruct (lexpand_eq k s) as [k1 ->]. destruct (expand P s) as [s1 [|]]; [|eauto].
    destruct (append_incr P s1 b) as [s2 [|]]; eauto.
  - destruct (append_incr P s b) as [s2 [|]]; eauto.
Qed.

Lemma lwrite_eq C k s m dup : reads C (view s) -> exists k', lwrite E bad C k s m dup = (k', write P C s m dup).
Proof.
  intros R. unfold lwrite, write. destruct (enc C m (s_pos s)) as [b|er|]; [|eauto..].
  destruct (write_offset P (view s)) as [wo|]; [|eauto]. cbv zeta.
  set (s1 := if dup then with_trim s true else s). destruct (_ <=? s_ml s1); [eauto|].
  assert (V : view s1 = view s) by (unfold s1; destruct dup; reflexivity).
  destruct (s_trim s1).
  - unfold ltrim, trim. rewrite !q_info. rewrite <- V in R. destruct (R (k + 2)) as [k1 ->].
    destruct (read_all P C (view s1)) as [snap cnt| |]; [|eauto..]. cbv zeta. rewrite q_info.
    destruct (reset P s1) as [s2 [|]]; [|eauto].
    destruct (lrewrite_eq C (hord P (s_seed s2) (apply_kv snap m)) (k1 + 1) (s_ml s1) (with_pos (with_seed s2 (s_seed s2 + 1)) 0)) as [k2 ->].
    destruct (rewrite _ _ _ _ _) as [s3 [|]]; [rewrite q_info|]; eauto.
  - destruct (lexpand_eq k s1) as [k1 ->]. destruct (expand P s1) as [s2 [|]]; eauto.
Qed.

Lemma lrun_job_eq k w i : (forall x, w_insts w !! i = Some x -> i_io x = IoRun -> (exists m dup q, i_queue x = JWrite m dup :: q) -> reads (i_codec E x) (view (i_st w x))) ->
  exists k', lrun_job E bad k w i = (k', run_job E w i).
Proof.
  intros R. unfold lrun_job, run_job. destruct (w_insts w !! i) as [x|] eqn:Hx; [|eauto].
  destruct (i_io x) eqn:Hr; [|eauto]. destruct (i_queue x) as [|[m dup|] q] eqn:Hq; [eauto| |].
  - destruct (lwrite_eq (i_codec E x) k (i_st w x) m dup) as [k1 ->]; [apply (R x); eauto|].
    destruct (write _ _ _ _ _) as [s ok]. eauto.
  - cbv zeta. rewrite q_info. eauto.
Qed.

Lemma lopen_eq k w p key :
  (forall w1 ino ky w2 nonce, open_config E w (e_canon E p) = (w1, ino) -> feature_key (e_feat E) key = Some ky ->
     open_nonce E w1 (e_canon E p) = (w2, nonce) -> reads (feature_codec (e_feat E) ky nonce) (inode w2 ino)) ->
  (forall n, is_encrypted (e_feat E) = true -> d_meta (dir_of w (e_canon E p)) = Some n -> length n <> nonce_len -> forall k lv, bad k lv = false) ->
  exists k', lopen_impl E bad k w p key = (k', (fst (open_impl E w p key), match snd (open_impl E w p key) with Some x => OGood x | None => OPanic end)).
Proof.
  intros R M. unfold lopen_impl, open_impl. destruct (e_dir_ok E p); [|eauto]. cbv zeta.
  destruct (open_config E w (e_canon E p)) as [w1 ino] eqn:Ec.
  destruct (feature_key (e_feat E) key) as [ky|] eqn:Ek; [|eauto].
  assert (Hm : d_meta (dir_of w1 (e_canon E p)) = d_meta (dir_of w (e_canon E p))).
  { unfold open_config in Ec. destruct (d_data (dir_of w (e_canon E p))) as [j|].
    - injection Ec as <- _. reflexivity.
    - injection Ec as <- _. unfold dir_of at 1. cbn. rewrite lookup_insert. reflexivity. }
  assert (N : exists k2, lopen_nonce E bad k w1 (e_canon E p) = (k2, Some (open_nonce E w1 (e_canon E p)))).
  { unfold lopen_nonce. destruct (is_encrypted (e_feat E)) eqn:Ee; [|eauto]. rewrite Hm.
    destruct (d_meta (dir_of w (e_canon E p))) as [n|] eqn:En; [|eauto].
    destruct (Nat.eqb_spec (length n) nonce_len) as [|Hl]; [eauto|]. rewrite !(M n eq_refl eq_refl Hl). eauto. }
  destruct N as [k2 ->]. destruct (open_nonce E w1 (e_canon E p)) as [w2 nonce] eqn:Eo.
  specialize (R w1 ino ky w2 nonce eq_refl eq_refl Eo). unfold lopen_file, open_file.
  rewrite (take_ge (inode w2 ino)) by (unfold len; lia). destruct (R k2) as [k3 ->].
  destruct (read_all _ _ _) as [mm cnt| |]; [|eauto..]. rewrite q_info. eauto.
Qed.

End Eq.

(** * Without failing log calls *)

(** The registry is not poisoned when a handle is dropped (a dropped handle
    would panic, and may then panic a second time). *)
Definition drops_clean (E : env) (w : world) (es : list event) : Prop :=
  forall es1 h es2 w1 rs1, es = es1 ++ EDrop h :: es2 -> run E w es1 = Some (w1, rs1) -> w_poison w1 = false.

(** No thread was left behind in an earlier life of the process: whoever gave
    up a thread has waited for it (in World.v only [clear_data] does). *)
Definition settled_inst (x : inst) : Prop := i_join x = false -> i_valid x = false /\ (i_queue x = [] \/ i_io x = IoDead).
Definition settled (w : world) : Prop := forall i x, w_insts w !! i = Some x -> settled_inst x.

Definition whole_drops (es : list event) : Prop := forall h, ~ In (EDropReg h) es /\ ~ In (EDropArc h) es.

Section Settled.
Context (E : env).

Lemma settled_orphan x : settled_inst x -> orphan x = false.
Proof.
  intros S. unfold orphan. destruct (i_join x) eqn:J; [reflexivity|]. destruct (S J) as [_ [H|H]]; rewrite H; [destruct (i_io x)|]; reflexivity.
Qed.

Lemma settled_set w i x : settled w -> settled_inst x -> settled (set_inst w i x).
Proof.
  intros St Hx j y. cbn. destruct (decide (i = j)) as [->|Hne]; [rewrite lookup_insert; intros [= <-]; exact Hx|].
  rewrite lookup_insert_ne by exact Hne. apply St.
Qed.

Lemma settled_job w i : settled w -> settled (run_job E w i).
Proof.
  intros St. unfold run_job. destruct (w_insts w !! i) as [x|] eqn:Hx; [|exact St]. destruct (i_io x) eqn:Hr; [|exact St].
  pose proof (St i x Hx) as Sx.
  destruct (i_queue x) as [|[m dup|] q] eqn:Hq; [exact St| |].
  - destruct (write _ _ _ _ _) as [s ok]. intros j y Hy. eapply (settled_set w i (i_after x q (if ok then IoRun else IoDead) s)); [exact St| |exact Hy].
    intros J. destruct (Sx J) as [_ [H|H]]; congruence.
  - intros j y Hy. eapply (settled_set w i (i_with_queue x q)); [exact St| |exact Hy].
    intros J. destruct (Sx J) as [_ [H|H]]; congruence.
Qed.

Lemma settled_iter i n : forall w, settled w -> settled (Nat.iter n (fun w => run_job E w i) w).
Proof. induction n as [|n IH]; intros w St; [exact St|]. rewrite Nat.iter_succ. apply settled_job, IH, St. Qed.

Lemma settled_drain w i : settled w -> settled (drain E w i).
Proof. intros St. unfold drain. destruct (w_insts w !! i); [apply settled_iter|]; exact St. Qed.

(** After waiting for a thread, its queue is empty or it has died. *)
Lemma drained i n : forall w x, w_insts w !! i = Some x -> length (i_queue x) = n ->
  exists y, w_insts (Nat.iter n (fun w => run_job E w i) w) !! i = Some y /\ i_valid y = i_valid x /\ i_join y = i_join x /\ (i_queue y = [] \/ i_io y = IoDead).
Proof.
  induction n as [|n IH]; intros w x Hx Hl.
  - exists x. destruct (i_queue x); [auto|discriminate Hl].
  - rewrite Nat.iter_succ_r. destruct (i_queue x) as [|j q] eqn:Hq; [discriminate Hl|]. injection Hl as Hl.
    destruct (i_io x) eqn:Hr.
    + assert (G : exists x1, w_insts (run_job E w i) !! i = Some x1 /\ i_valid x1 = i_valid x /\ i_join x1 = i_join x /\ i_queue x1 = q).
      { unfold run_job. rewrite Hx, Hr, Hq. destruct j as [m dup|].
        - destruct (write _ _ _ _ _) as [s ok]. eexists. split; [apply lookup_insert|]. auto.
        - eexists. split; [apply lookup_insert|]. auto. }
      destruct G as (x1 & Hx1 & V & J & Q). destruct (IH _ x1 Hx1) as (y & A & B & C & D); [rewrite Q; exact Hl|].
      exists y. split_and!; congruence || exact D.
    + assert (G : forall m, Nat.iter m (fun w => run_job E w i) w = w).
      { intros m. induction m as [|m IHm]; [reflexivity|]. rewrite Nat.iter_succ, IHm. unfold run_job. rewrite Hx, Hr. reflexivity. }
      specialize (G (S n)). rewrite Nat.iter_succ_r in G. rewrite G. exists x. auto.
Qed.

Lemma settled_step w e w' r : settled w -> step E w e = Some (w', r) -> settled w'.
Proof.
  intros St.
  assert (OI : forall i f w1 r1, (forall x, settled_inst x -> settled_inst (f x).1) -> on_inst w i f = (w1, r1) -> settled w1).
  { intros i f w1 r1 Hf. unfold on_inst. destruct (w_insts w !! i) as [x|] eqn:Hx; [|intros [= <- _]; exact St].
    specialize (Hf x (St i x Hx)). destruct (f x). intros [= <- _]. apply settled_set; assumption. }
  assert (Po : forall x j, i_valid x = true -> settled_inst x -> settled_inst (post x j).1).
  { intros x j V S. unfold post. assert (G : settled_inst (i_with_queue x (i_queue x ++ [j]))).
    { intros J. destruct (S J) as [V' _]. congruence. }
    destruct (i_sender x); exact G. }
  assert (HA : forall w h hd w1 r1, settled w -> do_drop_arc E w h hd = (w1, r1) -> settled w1).
  { intros v h hd w1 r1 Sv. unfold do_drop_arc. destruct (Nat.eqb _ 1); intros [= <- _]; [|exact Sv].
    intros j y. cbn. rewrite lookup_delete_Some. intros [_ Hy]. eapply settled_drain; [exact Sv|exact Hy]. }
  assert (HR : forall h hd w1 r1, do_drop_reg w h hd = (w1, r1) -> settled w1).
  { intros h hd w1 r1. unfold do_drop_reg. destruct (w_poison w); [intros [= <- _]; exact St|].
    destruct (Nat.eqb _ 1); intros [= <- _]; exact St. }
  assert (Op : forall v p k v1 o, settled v -> open_impl E v p k = (v1, o) -> settled v1 /\ forall x, o = Some x -> i_join x = true).
  { intros v p k v1 o Sv. unfold open_impl. destruct (e_dir_ok E p); [|intros [= <- <-]; split; [exact Sv|discriminate]].
    destruct (open_config E v _) as [w2 ino] eqn:E1.
    assert (S2 : settled w2) by (unfold open_config in E1; destruct (d_data _); injection E1 as <- _; exact Sv).
    destruct (feature_key _ k) as [kk|]; [|intros [= <- <-]; split; [exact S2|discriminate]].
    destruct (open_nonce E w2 _) as [w3 nonce] eqn:E2.
    assert (S3 : settled w3) by (unfold open_nonce in E2; destruct (is_encrypted _); [destruct (init_nonce _ _)|]; injection E2 as <- _; exact S2).
    destruct (open_file _ _ _ _) as [[s m]|]; intros [= <- <-]; (split; [exact S3|]); [intros x [= <-]; reflexivity|discriminate]. }
  destruct e as [h path key|h key v|h key|h key t|h key t|h key|h|h|h|h|i|]; cbn [step]; unfold with_handle.
  - destruct (w_handles w !! h); [discriminate|]. unfold do_new. destruct (w_poison w); [intros [= <- _]; exact St|].
    destruct (lookup_reg w path); [intros [= <- _]; exact St|].
    destruct (open_impl E w path key) as [w1 o] eqn:Eo. destruct (Op _ _ _ _ _ St Eo) as [S1 Hx].
    destruct o as [x|]; intros [= <- _]; [|exact S1]. apply (settled_set w1 (w_next_inst w1) x S1). intros J. rewrite (Hx x eq_refl) in J. discriminate J.
  - destruct (w_handles w !! h) as [hd|]; [|discriminate]. destruct (h_unreg hd); [discriminate|]. intros [= Hs]. eapply OI; [|exact Hs].
    intros x Sx. unfold inst_put. destruct (i_poison x); [exact Sx|]. destruct (buffer_new key v); [|exact Sx..].
    destruct (i_valid x) eqn:V; [|exact Sx]. apply Po; [exact V|exact Sx].
  - destruct (w_handles w !! h) as [hd|]; [|discriminate]. destruct (h_unreg hd); [discriminate|]. intros [= Hs]. eapply OI; [|exact Hs].
    intros x Sx. unfold inst_put_panic. destruct (i_poison x); exact Sx.
  - destruct (w_handles w !! h) as [hd|]; [|discriminate]. destruct (h_unreg hd); [discriminate|]. intros [= Hs]. eapply OI; [|exact Hs].
    intros x Sx. exact Sx.
  - destruct (w_handles w !! h) as [hd|]; [|discriminate]. destruct (h_unreg hd); [discriminate|]. intros [= Hs]. eapply OI; [|exact Hs].
    intros x Sx. exact Sx.
  - destruct (w_handles w !! h) as [hd|]; [|discriminate]. destruct (h_unreg hd); [discriminate|]. intros [= Hs]. eapply OI; [|exact Hs].
    intros x Sx. unfold inst_delete. destruct (i_poison x); [exact Sx|]. destruct (i_valid x) eqn:V; [|exact Sx].
    destruct (i_map x !! key); [|exact Sx]. apply Po; [exact V|exact Sx].
  - destruct (w_handles w !! h) as [hd|]; [|discriminate]. destruct (h_unreg hd); [discriminate|]. unfold do_clear.
    destruct (w_insts w !! h_inst hd) as [x|] eqn:Hx; [|intros [= <- _]; exact St]. destruct (i_poison x); [intros [= <- _]; exact St|].
    destruct (impl_clear E w (h_inst hd) x) as [w1 r1] eqn:Ec.
    assert (S1 : settled w1).
    { unfold impl_clear in Ec. destruct (i_valid x) eqn:V; cbn [negb] in Ec; [|injection Ec as <- _; exact St].
      destruct (post (i_invalid x) JRemove) as [x1 r2] eqn:Ep.
      assert (S0 : settled_inst x1 /\ i_valid x1 = false).
      { unfold post in Ep. assert (G : settled_inst (i_with_queue (i_invalid x) (i_queue (i_invalid x) ++ [JRemove]))).
        { intros J. destruct (St _ x Hx J) as [V' _]. congruence. }
        destruct (i_sender (i_invalid x)); injection Ep as <- _; split; try exact G; reflexivity. }
      destruct S0 as [S0 V1]. destruct r2; [|injection Ec as <- _; apply settled_set; assumption..].
      assert (S2 : settled (drain E (set_inst w (h_inst hd) x1) (h_inst hd))) by (apply settled_drain, settled_set; assumption).
      assert (Hx1 : w_insts (set_inst w (h_inst hd) x1) !! h_inst hd = Some x1) by apply lookup_insert.
      destruct (drained (h_inst hd) _ _ x1 Hx1 eq_refl) as (y & Hy & Vy & Jy & Qy).
      unfold drain in Ec, S2. rewrite Hx1 in Ec, S2. rewrite Hy in Ec. injection Ec as <- _.
      apply settled_set; [exact S2|]. intros _. cbn. split; [congruence|exact Qy]. }
    destruct r1; [|intros [= <- _]; exact S1..].
    destruct (open_impl E w1 (h_path hd) (h_key hd)) as [w2 o] eqn:Eo. destruct (Op _ _ _ _ _ S1 Eo) as [S2 Hj].
    destruct o as [y|].
    + assert (Sy : settled_inst y) by (intros J; rewrite (Hj y eq_refl) in J; discriminate J).
      destruct (_ && _); intros [= <- _]; apply settled_set; assumption || exact Sy.
    + intros [= <- _]. destruct (w_insts w2 !! h_inst hd) as [z|] eqn:Hz; [|exact S2]. apply settled_set; [exact S2|]. exact (S2 _ _ Hz).
  - destruct (w_handles w !! h) as [hd|]; [|discriminate]. destruct (h_unreg hd); [discriminate|].
    destruct (do_drop_reg w h hd) as [w1 r1] eqn:E1. destruct (do_drop_arc E w1 h hd) as [w2 r2] eqn:E2. intros [= <- _].
    eapply HA; [|exact E2]. eapply HR, E1.
  - destruct (w_handles w !! h) as [hd|]; [|discriminate]. destruct (h_unreg hd); [discriminate|]. intros [= Hs]. eapply HR, Hs.
  - destruct (w_handles w !! h) as [hd|]; [|discriminate]. destruct (h_unreg hd); [|discriminate]. intros [= Hs]. eapply HA; [exact St|exact Hs].
  - intros [= <- _]. apply settled_job, St.
  - intros [= <- _]. intros i x. cbn. rewrite lookup_empty. discriminate.
Qed.

Lemma settled_run es : forall w w' rs, settled w -> run E w es = Some (w', rs) -> settled w'.
Proof.
  induction es as [|e r IH]; intros w w' rs St; cbn [run]; [intros [= <- _]; exact St|].
  destruct (step E w e) as [[w1 x]|] eqn:Es; [|discriminate]. destruct (run E w1 r) as [[w2 xs]|] eqn:Er; [|discriminate].
  intros [= <- _]. eapply IH; [|exact Er]. eapply settled_step; eassumption.
Qed.

Lemma settled_0 : settled world0.
Proof. intros i x. cbn. rewrite lookup_empty. discriminate. Qed.

End Settled.

Section Quiet.
Context (E : env) (bad : N -> level -> bool) (N0 : forall k lv, bad k lv = false).

Lemma quiet_Q k lv : bad k lv = true -> lv = Logging.Error \/ lv = Logging.Warn.
Proof. rewrite N0. discriminate. Qed.

Lemma quiet_job k w i : exists k', lrun_job E bad k w i = (k', run_job E w i).
Proof. apply lrun_job_eq; [exact quiet_Q|]. intros. apply reads_quiet, N0. Qed.

Lemma quiet_iter i n : forall k w, exists k', Nat.iter n (fun kw => lrun_job E bad kw.1 kw.2 i) (k, w) = (k', Nat.iter n (fun w => run_job E w i) w).
Proof.
  induction n as [|n IH]; intros k w; [exists k; reflexivity|]. destruct (IH k w) as [k1 H1].
  rewrite !Nat.iter_succ, H1. cbn [fst snd]. apply quiet_job.
Qed.

Lemma quiet_drain k w i : exists k', ldrain E bad k w i = (k', drain E w i).
Proof. unfold ldrain, drain. destruct (w_insts w !! i); [apply quiet_iter|eauto]. Qed.

Lemma quiet_open k w p key :
  exists k', lopen_impl E bad k w p key = (k', (fst (open_impl E w p key), match snd (open_impl E w p key) with Some x => OGood x | None => OPanic end)).
Proof. apply lopen_eq; [exact quiet_Q| |auto]. intros. apply reads_quiet, N0. Qed.

Lemma quiet_clear k w hd : exists k', ldo_clear E bad k w hd = LAns k' (fst (do_clear E w hd)) (snd (do_clear E w hd)).
Proof.
  unfold ldo_clear, do_clear. destruct (w_insts w !! h_inst hd) as [x|] eqn:Hx; [|eauto]. destruct (i_poison x); [eauto|].
  assert (HC : exists k1, limpl_clear E bad k w (h_inst hd) x = (k1, (fst (impl_clear E w (h_inst hd) x), snd (impl_clear E w (h_inst hd) x), false))).
  { unfold limpl_clear, impl_clear. rewrite !N0. destruct (negb (i_valid x)); [eauto|].
    destruct (post (i_invalid x) JRemove) as [x1 r]. destruct r as [o|er|]; [|eauto..].
    destruct (quiet_drain (k + 1) (set_inst w (h_inst hd) x1) (h_inst hd)) as [k2 ->].
    destruct (w_insts (drain E (set_inst w (h_inst hd) x1) (h_inst hd)) !! h_inst hd); eauto. }
  destruct HC as [k1 ->]. destruct (impl_clear E w (h_inst hd) x) as [w1 r]. cbn [fst snd].
  destruct r as [o|er|]; [|eauto..]. destruct (quiet_open k1 w1 (h_path hd) (h_key hd)) as [k2 ->].
  destruct (open_impl E w1 (h_path hd) (h_key hd)) as [w2 [y|]]; cbn [fst snd]; [|unfold poisoned_at; eauto].
  rewrite !N0. cbn [orb]. destruct (i_join (default x (w_insts w1 !! h_inst hd))); cbn [andb]; [|eauto].
  destruct (i_io (default x (w_insts w1 !! h_inst hd))); eauto.
Qed.

Lemma quiet_step k w e : settled w -> whole_drops [e] -> (forall h, e = EDrop h -> w_poison w = false) ->
  match step E w e with
  | Some (w', r) => exists k', lstep E bad k w e = Some (LAns k' w' r)
  | None => lstep E bad k w e = None
  end.
Proof.
  intros St Hw Hp. destruct e as [h path key|h key v|h key|h key t|h key t|h key|h|h|h|h|i|];
    try (cbn [lstep]; destruct (step E w _) as [[w' r]|]; eauto; fail).
  - cbn [step lstep]. destruct (w_handles w !! h); [reflexivity|]. unfold do_new, ldo_new.
    destruct (w_poison w); [eauto|]. destruct (lookup_reg w path) as [i|]; [rewrite N0; eauto|].
    destruct (quiet_open k w path key) as [k1 ->]. destruct (open_impl E w path key) as [w1 [x|]]; cbn [fst snd]; eauto.
  - cbn [step lstep]. unfold with_handle. destruct (w_handles w !! h) as [hd|]; [|reflexivity]. destruct (h_unreg hd); [reflexivity|].
    destruct (quiet_clear k w hd) as [k1 ->]. destruct (do_clear E w hd) as [w' r]. eauto.
  - cbn [step lstep]. unfold with_handle. destruct (w_handles w !! h) as [hd|]; [|reflexivity]. destruct (h_unreg hd); [reflexivity|].
    unfold ldrop_reg. specialize (Hp h eq_refl). rewrite Hp, N0. unfold do_drop_reg. rewrite Hp. cbn [fst snd].
    set (w1 := set_handles _ _). unfold ldrop_arc, do_drop_arc. destruct (Nat.eqb (strong w1 (h_inst hd)) 1); [|eauto].
    assert (Ho : match w_insts w1 !! h_inst hd with Some x => orphan x | None => false end = false).
    { assert (w_insts w1 = w_insts w) as -> by (unfold w1; destruct (Nat.eqb _ 1); reflexivity).
      destruct (w_insts w !! h_inst hd) as [x|] eqn:Hx; [|reflexivity]. eapply settled_orphan, St, Hx. }
    rewrite Ho. destruct (quiet_drain (k + 1) w1 (h_inst hd)) as [k2 ->]. rewrite !N0. cbn [orb].
    destruct (w_insts (drain E w1 (h_inst hd)) !! h_inst hd) as [x|]; [|eauto].
    destruct (i_join x); [|eauto]. destruct (i_io x); eauto.
  - destruct (Hw h) as [A _]. destruct A. left. reflexivity.
  - destruct (Hw h) as [_ A]. destruct A. left. reflexivity.
  - cbn [step lstep]. destruct (quiet_job k w i) as [k1 ->]. eauto.
Qed.

End Quiet.

(** If no log call panics, a process with logging behaves in every detail as
    if the log calls were not there, whatever else happens to it: same
    answers, same files, same everything, from any state. *)
Theorem C61_logging_is_only_observation E bad es : (forall k lv, bad k lv = false) ->
  forall k w, settled w -> whole_drops es -> drops_clean E w es ->
  match run E w es with
  | Some (w', rs) => exists k', lrun E bad k w es = Some (Ran k' w' rs)
  | None => lrun E bad k w es = None
  end.
Proof.
  intros N0. induction es as [|e r IH]; intros k w St Hw Hd; cbn [run lrun]; [eauto|].
  assert (S1 : whole_drops [e]).
  { intros h. destruct (Hw h) as [A B]. split; intros [->|[]]; [apply A|apply B]; left; reflexivity. }
  assert (S2 : forall h, e = EDrop h -> w_poison w = false).
  { intros h ->. apply (Hd [] h r w []); reflexivity. }
  pose proof (quiet_step E bad N0 k w e St S1 S2) as G. destruct (step E w e) as [[w1 x]|] eqn:Es; [|rewrite G; reflexivity].
  destruct G as [k1 ->].
  assert (Hw' : whole_drops r).
  { intros h. destruct (Hw h) as [A B]. split; intros C; [apply A|apply B]; right; exact C. }
  assert (Hd' : drops_clean E w1 r).
  { intros es1 h es2 w2 rs1 -> Hr. apply (Hd (e :: es1) h es2 w2 (x :: rs1)); [reflexivity|]. cbn [run]. rewrite Es, Hr. reflexivity. }
  specialize (IH k1 w1 (settled_step E w e w1 x St Es) Hw' Hd'). destruct (run E w1 r) as [[w2 xs]|]; [|rewrite IH; reflexivity].
  destruct IH as [k2 ->]. eauto.
Qed.

(** * Quiet levels *)

(** ** Reading a well-formed file logs nothing *)

Section Clean.
Context (E : env) (bad : N -> level -> bool) (C : codec) (pos_ok : N -> Prop) (sz : kv -> N).
Context (H64 : usz (e_plat E) = 8%nat) (Hlaw : codec_law C pos_ok sz) (Hmaxf : maxfile (e_plat E) < 2 ^ 63).
Notation P := (e_plat E).
Notation rec_ok := (rec_ok sz).
Notation positions_ok := (positions_ok pos_ok).

Lemma liter_ok rs : forall k pre slack c n acc cnt fuel,
  Forall rec_ok rs -> positions_ok (n + N.of_nat (length rs)) ->
  enc_list C (n mod 2 ^ 32) rs = Some c -> (length c <= fuel)%nat ->
  exists r, liter_map bad C k fuel (pre ++ c ++ slack) (len pre) (len pre + len c) (n mod 2 ^ 32) acc (cnt mod 2 ^ 32) = (k, Some r).
Proof.
  induction rs as [|m r IH]; intros k pre slack c n acc cnt fuel HF Hp Ec0 Hf.
  - cbn [enc_list] in Ec0. injection Ec0 as <-. cbn [len length].
    rewrite !N.add_0_r. destruct fuel; cbn [liter_map]; rewrite N.leb_refl; eauto.
  - cbn [enc_list] in Ec0. inversion HF as [|? ? [Hok Hsz] HF']; subst.
    destruct (enc C m (n mod 2 ^ 32)) as [b| |] eqn:Eb; [|discriminate|discriminate].
    destruct (enc_list C _ r) as [c'|] eqn:Ec; [|discriminate]. injection Ec0 as <-.
    destruct (law_rt _ _ _ Hlaw m (n mod 2 ^ 32) c' Hok Hsz) as (b' & Eb' & Lb & Hd).
    { apply Hp. cbn. lia. }
    rewrite Eb in Eb'. injection Eb' as <-.
    pose proof (law_min _ _ _ Hlaw m) as Hmin.
    rewrite app_length in Hf. assert (Hb5 : (5 <= length b)%nat) by (unfold len in Lb; lia).
    destruct fuel as [|f]; [lia|]. cbn [liter_map].
    destruct (N.leb_spec (len pre + len (b ++ c')) (len pre)) as [Hle|_].
    { rewrite len_app in Hle. lia. }
    pose proof (slice_mid pre (b ++ c') slack) as Es. rewrite Es, Hd.
    cbv zeta. cbv iota. rewrite !mod32_succ.
    rewrite mod32_succ in Ec.
    replace (pre ++ (b ++ c') ++ slack) with ((pre ++ b) ++ c' ++ slack) by (rewrite <- !app_assoc; reflexivity).
    replace (len pre + sz m) with (len (pre ++ b)) by (rewrite len_app; lia).
    replace (len pre + len (b ++ c')) with (len (pre ++ b) + len c') by (rewrite !len_app; lia).
    apply (IH k (pre ++ b) slack c' (n + 1)); [exact HF'| |exact Ec|lia].
    eapply positions_mono; [|exact Hp]. cbn. lia.
Qed.

(** Whatever log calls would do, the answer is that of the plain reader. *)
Lemma liter_agrees fuel : forall k k' v start e pos acc cnt r,
  liter_map bad C k fuel v start e pos acc cnt = (k', Some r) -> iter_map C fuel v start e pos acc cnt = r.
Proof.
  induction fuel as [|f IH]; intros k k' v start e pos acc cnt r; cbn [liter_map iter_map]; destruct (e <=? start);
    try (intros [= _ <-]; reflexivity).
  destruct (slice start e v) as [bs|]; [|intros [= _ <-]; reflexivity].
  destruct (dec C bs pos) as [[o l]|er|]; [| |intros [= _ <-]; reflexivity].
  - cbv zeta. destruct (match o with Some _ => false | None => _ end); [discriminate|apply IH].
  - destruct (bad k Logging.Error); [discriminate|]. intros [= _ <-]; reflexivity.
Qed.

Lemma reads_inv_k k s rs : Inv C pos_ok sz s rs -> lread_all E bad C k (view s) = (k, Some (read_all P C (view s))).
Proof.
  intros I. destruct (inv_content _ _ _ _ H64 Hlaw Hmaxf _ _ I) as (c & sl & Ec & Ef & Elc).
  rewrite (view_full _ (inv_ml _ _ _ _ _ I)).
  pose proof (inv_size _ _ _ _ _ I) as Hz. rewrite Ef in Hz |- *. rewrite shape_len in Hz.
  unfold lread_all, read_all. rewrite (write_offset_shape P H64) by lia.
  destruct (liter_ok rs k (be 8 (len c)) sl c 0 ∅ 0 (length (shape c sl)) (inv_ok _ _ _ _ _ I)) as [r G].
  - rewrite N.add_0_l. exact (inv_pos_ok _ _ _ _ _ I).
  - exact Ec.
  - unfold shape. rewrite !app_length. lia.
  - rewrite len_be in G. change (N.of_nat 8) with 8 in G. change (0 mod 2 ^ 32) with 0 in G.
    unfold len_offset. rewrite (N.add_comm (len c) 8). unfold shape in *. rewrite G.
    rewrite (liter_agrees _ _ _ _ _ _ _ _ _ _ G). reflexivity.
Qed.

Lemma reads_inv s rs : Inv C pos_ok sz s rs -> reads E bad C (view s).
Proof. intros I k. exists k. eapply reads_inv_k, I. Qed.

End Clean.

Section Severe.
Context (E : env) (HE : env_ok E) (keyof : bytes -> bytes) (U : bytes -> Prop).
Context (HU_dir : forall p, U p -> e_dir_ok E p = true).
Context (HU_key : forall p, U p -> feature_key (e_feat E) (keyof (e_canon E p)) <> None).
Context (HU_inj : forall p p', U p -> U p' -> e_canon E p = e_canon E p' -> p = p').
Context (bad : N -> level -> bool) (Q : forall k lv, bad k lv = true -> lv = Logging.Error \/ lv = Logging.Warn).
Notation P := (e_plat E).
Notation canon := (e_canon E).
Notation WInv := (WInv E keyof U).

Lemma reads_WOk x w rs c : WOk E (i_codec E x) (i_st w x) rs c -> reads E bad (i_codec E x) (view (i_st w x)).
Proof.
  intros (I & _). destruct (eo_plat _ HE) as [H64 Hpage Hmax Hhord].
  eapply reads_inv; [exact H64|exact (law_of E HE _ x eq_refl)|exact Hmax|exact I].
Qed.

(** The meta files are never of a wrong length. *)
Definition metas_ok (w : world) : Prop :=
  is_encrypted (e_feat E) = true -> forall d n, d_meta (dir_of w d) = Some n -> length n = nonce_len.

Lemma lwrites q : forall k w i x rs c tl,
  w_insts w !! i = Some x -> i_io x = IoRun -> i_queue x = map jw q ++ tl -> Forall (good E) (map fst q) ->
  WOk E (i_codec E x) (i_st w x) rs c -> room E (c + N.of_nat (length q)) ->
  exists k', Nat.iter (length q) (fun kw => lrun_job E bad kw.1 kw.2 i) (k, w) = (k', Nat.iter (length q) (fun w => run_job E w i) w).
Proof.
  induction q as [|[m dup] q IH]; intros k w i x rs c tl Hi Hrun Hq HF HW Hroom; [exists k; reflexivity|].
  inversion HF as [|? ? Hm HF']; subst. cbn [map length] in *. cbn [fst] in Hm.
  destruct (write_WOk E HE (i_codec E x) (i_st w x) rs c m dup) as (s1 & rs1 & E1 & W1 & R1 & _).
  { apply feature_law, (eo_feat _ HE). } { exact HW. } { exact Hm. }
  { eapply room_mono; [|exact Hroom]. lia. }
  destruct (lrun_job_eq E bad Q k w i) as [k1 J].
  { intros x' Hx' _ _. rewrite Hi in Hx'. injection Hx' as <-. eapply reads_WOk, HW. }
  set (x1 := i_after x (map jw q ++ tl) IoRun s1).
  set (w1 := set_seed (set_inode (set_inst w i x1) (i_ino x) (s_file s1)) (s_seed s1)).
  assert (Ejob : run_job E w i = w1).
  { unfold run_job. rewrite Hi, Hrun, Hq. cbn [app]. unfold jw at 1. cbn [fst snd]. rewrite E1. reflexivity. }
  assert (Est : i_st w1 x1 = St (s_file s1) (s_ml s1) (s_pos s1) (s_trim s1) (s_seed s1) []).
  { unfold i_st, w1, inode. cbn. rewrite lookup_insert. reflexivity. }
  destruct (IH k1 w1 i x1 rs1 (c + 1) tl) as [k2 G].
  - apply lookup_insert.
  - reflexivity.
  - reflexivity.
  - exact HF'.
  - eapply WOk_ext; [..|exact W1]; rewrite Est; reflexivity.
  - eapply room_mono; [|exact Hroom]. lia.
  - exists k2. rewrite !Nat.iter_succ_r. cbn [fst snd]. rewrite J, Ejob. exact G.
Qed.

Lemma lopen_severe k w p S n : U p -> WorldInv.dir_ok E keyof w S n (canon p) -> metas_ok w ->
  (forall i, d_data (dir_of w (canon p)) = Some i -> i < w_next_ino w) ->
  exists k' w' y, lopen_impl E bad k w p (keyof (canon p)) = (k', (w', OGood y)) /\ open_impl E w p (keyof (canon p)) = (w', Some y).
Proof.
  intros Up Hd Hm Hf.
  destruct (open_impl_ok E HE keyof U HU_dir HU_key HU_inj w p S n Up Hd Hf) as (w' & y & Eo & _ & Iy & _).
  pose proof (Iy (fun _ _ => True) Logic.I) as I0. destruct (io_state _ _ _ _ _ _ _ I0) as (q & rs & c & _ & _ & B3 & _).
  destruct (lopen_eq E bad Q k w p (keyof (canon p))) as [k' G].
  - intros w1 ino ky w2 nonce Ec Ek En. revert Eo. unfold open_impl. rewrite (HU_dir p Up). cbv zeta. rewrite Ec, Ek, En.
    destruct (open_file _ _ _ _) as [[s m]|] eqn:Ef; [|discriminate]. intros [= <- <-].
    pose proof (reads_WOk _ _ _ _ B3) as R. unfold open_file in Ef. destruct (read_all _ _ _) in Ef; [|discriminate..].
    injection Ef as <- _. unfold view, i_st, i_codec in R. cbn in R. rewrite take_ge in R by (unfold len; lia). exact R.
  - intros nn He Hn Hl. destruct Hl. eapply Hm; eassumption.
  - exists k', w', y. rewrite G, Eo. auto.
Qed.

Lemma severe_clear k w sp H n h hd : WInv w sp H n -> w_handles w !! h = Some hd -> metas_ok w -> room E n ->
  exists k' w', ldo_clear E bad k w hd = LAns k' w' (ROk None) /\ do_clear E w hd = (w', ROk None).
Proof.
  intros W Hh Hm Hroom. destruct (clear_step E HE keyof U HU_dir HU_key HU_inj w sp H n h hd W Hh Hroom) as (wf & Hc & _).
  destruct (handle_cases E keyof U w sp H n h hd W Hh) as (Hsp & Hun & Up & Hk & Hr & x & Hx & Dx & I).
  destruct (io_state _ _ _ _ _ _ _ I) as (q & rs & c & B1 & B2 & B3 & B4 & B5 & B6 & B7).
  set (x1 := i_with_queue (i_invalid x) (i_queue x ++ [JRemove])).
  set (w1 := set_inst w (h_inst hd) x1).
  assert (Hx1 : w_insts w1 !! h_inst hd = Some x1) by apply lookup_insert.
  assert (Hq1 : i_queue x1 = map jw q ++ [JRemove]) by (cbn; rewrite B1; reflexivity).
  assert (Hrun1 : i_io x1 = IoRun) by exact (io_run _ _ _ _ _ _ _ I).
  assert (B3' : WOk E (i_codec E x1) (i_st w1 x1) rs c) by (eapply WOk_ext; [..|exact B3]; reflexivity).
  assert (Hroom' : room E (c + N.of_nat (length q))) by (eapply room_mono; [|exact Hroom]; lia).
  destruct (run_writes E (Rp := clean E) HE q w1 (h_inst hd) x1 rs c [JRemove] Hx1 Hrun1 Hq1 B2 B3' Hroom') as (s & rs' & Er & Ws & Rs & _).
  destruct (lwrites q (k + 1) w1 (h_inst hd) x1 rs c [JRemove] Hx1 Hrun1 Hq1 B2 B3' Hroom') as [k1 Lr]. rewrite Er in Lr.
  set (w2 := set_seed _ _) in Er, Lr.
  set (dd2 := Dir None (if is_encrypted (e_feat E) then None else d_meta (dir_of w2 (i_dir x1)))).
  set (y2 := i_with_queue (i_after x1 [JRemove] IoRun s) []).
  assert (Hy : w_insts w2 !! h_inst hd = Some (i_after x1 [JRemove] IoRun s)) by apply lookup_insert.
  assert (Erm : run_job E w2 (h_inst hd) = set_inst (set_dir w2 (i_dir x1) dd2) (h_inst hd) y2).
  { unfold run_job. rewrite Hy. reflexivity. }
  assert (Lrm : lrun_job E bad k1 w2 (h_inst hd) = (k1 + 1, set_inst (set_dir w2 (i_dir x1) dd2) (h_inst hd) y2)).
  { unfold lrun_job. rewrite Hy. cbn [i_after i_io i_queue]. rewrite (q_info bad Q). reflexivity. }
  set (w3 := set_inst (set_dir w2 (i_dir x1) dd2) (h_inst hd) y2) in *.
  assert (Ld : ldrain E bad (k + 1) w1 (h_inst hd) = (k1 + 1, w3)).
  { unfold ldrain. rewrite Hx1, Hq1, app_length, map_length. cbn [length]. rewrite Nat.add_1_r, Nat.iter_succ, Lr. cbn [fst snd]. exact Lrm. }
  assert (Dr : drain E w1 (h_inst hd) = w3).
  { unfold drain. rewrite Hx1, Hq1, app_length, map_length. cbn [length]. rewrite Nat.add_1_r, Nat.iter_succ, Er. exact Erm. }
  assert (Hy3 : w_insts w3 !! h_inst hd = Some y2) by apply lookup_insert.
  set (w4 := set_inst w3 (h_inst hd) (i_quit y2)).
  assert (Li : limpl_clear E bad k w (h_inst hd) x = (k1 + 1, (w4, ROk None, false))).
  { unfold limpl_clear. rewrite (io_valid _ _ _ _ _ _ _ I). cbn [negb]. unfold post. cbn [i_invalid i_sender i_io i_queue].
    rewrite (io_sender _ _ _ _ _ _ _ I), (io_run _ _ _ _ _ _ _ I). rewrite (q_debug bad Q). fold x1. fold w1. rewrite Ld, Hy3. reflexivity. }
  assert (Pi : impl_clear E w (h_inst hd) x = (w4, ROk None)).
  { unfold impl_clear. rewrite (io_valid _ _ _ _ _ _ _ I). cbn [negb]. unfold post. cbn [i_invalid i_sender i_io i_queue].
    rewrite (io_sender _ _ _ _ _ _ _ I), (io_run _ _ _ _ _ _ _ I). fold x1. fold w1. rewrite Dr, Hy3. reflexivity. }
  assert (Dx1 : i_dir x1 = canon (h_path hd)) by exact Dx.
  assert (Hd4 : dir_of w4 (canon (h_path hd)) = dd2).
  { unfold w4, w3, dir_of. cbn. rewrite <- Dx1. rewrite lookup_insert. reflexivity. }
  assert (Hd4' : forall d, d <> canon (h_path hd) -> dir_of w4 d = dir_of w d).
  { intros d Hne. unfold w4, w3, dir_of. cbn. rewrite lookup_insert_ne by (rewrite Dx; congruence). reflexivity. }
  assert (Hm4 : metas_ok w4).
  { intros He d nn Hn. destruct (decide (d = canon (h_path hd))) as [->|Hne].
    - rewrite Hd4 in Hn. unfold dd2 in Hn. rewrite He in Hn. discriminate Hn.
    - rewrite Hd4' in Hn by exact Hne. eapply Hm; eassumption. }
  destruct (lopen_severe (k1 + 1) w4 (h_path hd) ∅ n Up) as (k2 & w5 & y & Lo & Po).
  { unfold WorldInv.dir_ok. rewrite Hd4. reflexivity. }
  { exact Hm4. }
  { rewrite Hd4. discriminate. }
  revert Hc. unfold do_clear, ldo_clear. rewrite Hx, (io_poison _ _ _ _ _ _ _ I), Li, Pi, Hk, Lo, Po.
  assert (Hold : w_insts w4 !! h_inst hd = Some (i_quit y2)) by apply lookup_insert.
  rewrite Hold. change (default x (Some (i_quit y2))) with (i_quit y2). cbn [i_quit i_join andb].
  rewrite (q_debug bad Q). eauto.
Qed.

Lemma severe_step k w sp H n e : WInv w sp H n -> call_ok E keyof e -> in_U U e -> room E (n + wcount e) -> metas_ok w -> settled w ->
  match step E w e with
  | Some (w', r) => exists k', lstep E bad k w e = Some (LAns k' w' r)
  | None => lstep E bad k w e = None
  end.
Proof.
  intros W Hc HUe Hroom Hm St. assert (Hroom' : room E n) by (eapply room_mono; [|exact Hroom]; lia).
  destruct e as [h path key|h key v|h key|h key t|h key t|h key|h|h|h|h|i|]; cbn [call_ok] in Hc; try contradiction;
    try (cbn [lstep]; destruct (step E w _) as [[w' r]|]; eauto; fail).
  - cbn [step lstep]. destruct (w_handles w !! h) as [hd|] eqn:Hh; [reflexivity|]. unfold do_new, ldo_new.
    rewrite (wi_poison _ _ _ _ _ _ _ W). destruct (lookup_reg w path) as [i|] eqn:Hl; [rewrite (q_debug bad Q); eauto|].
    destruct Hc as (_ & -> & _). cbn [in_U] in HUe.
    assert (Hno : forall i x, w_insts w !! i = Some x -> i_dir x <> canon path).
    { intros i x Hx Hd. destruct (wi_insts _ _ _ _ _ _ _ W i x Hx) as (_ & _ & (p' & Hp') & _).
      destruct (wi_reg _ _ _ _ _ _ _ W p' i Hp') as (Up' & x' & Hx' & Dx'). rewrite Hx in Hx'. injection Hx' as <-.
      assert (p' = path) as -> by (apply HU_inj; congruence). unfold lookup_reg in Hl. rewrite Hp' in Hl.
      rewrite bool_decide_true in Hl by eauto. discriminate Hl. }
    destruct (lopen_severe k w path (contents sp (canon path)) n HUe (wi_dirs _ _ _ _ _ _ _ W _ Hno) Hm
      (fun i => wi_fresh _ _ _ _ _ _ _ W (canon path) i)) as (k1 & w1 & y & -> & ->). eauto.
  - cbn [step lstep]. unfold with_handle. destruct (w_handles w !! h) as [hd|] eqn:Hh; [|reflexivity].
    destruct (handle_cases E keyof U w sp H n h hd W Hh) as (_ & Hun & _). rewrite Hun.
    destruct (severe_clear k w sp H n h hd W Hh Hm Hroom') as (k1 & w1 & -> & ->). eauto.
  - cbn [step lstep]. unfold with_handle. destruct (w_handles w !! h) as [hd|] eqn:Hh; [|reflexivity].
    destruct (handle_cases E keyof U w sp H n h hd W Hh) as (_ & Hun & Up & Hk & Hr & x & Hx & Dx & I). rewrite Hun.
    destruct (drop_step E HE keyof U HU_dir HU_key HU_inj w sp H n h hd W Hh Hroom') as (wf & r1 & w1 & D1 & -> & D2 & _).
    unfold ldrop_reg. rewrite (wi_poison _ _ _ _ _ _ _ W), (q_debug bad Q), D1. cbn [fst snd].
    assert (Hi1 : w_insts w1 = w_insts w /\ w_inodes w1 = w_inodes w /\ w_seed w1 = w_seed w).
    { unfold do_drop_reg in D1. rewrite (wi_poison _ _ _ _ _ _ _ W) in D1. injection D1 as <-. destruct (Nat.eqb _ 1); auto. }
    destruct Hi1 as (Hi1 & Hi2 & Hi3).
    revert D2. unfold ldrop_arc, do_drop_arc. destruct (Nat.eqb (strong w1 (h_inst hd)) 1); [|intros [= <-]; eauto].
    assert (Ho : match w_insts w1 !! h_inst hd with Some x => orphan x | None => false end = false).
    { rewrite Hi1, Hx. eapply settled_orphan, St, Hx. }
    rewrite Ho. destruct (io_state _ _ _ _ _ _ _ I) as (q & rs & c & B1 & B2 & B3 & B4 & B5 & B6 & B7).
    assert (Hx1 : w_insts w1 !! h_inst hd = Some x) by (rewrite Hi1; exact Hx).
    assert (Ld : exists k2, ldrain E bad (k + 1) w1 (h_inst hd) = (k2, drain E w1 (h_inst hd))).
    { unfold ldrain, drain. rewrite Hx1. replace (length (i_queue x)) with (length q) by (rewrite B1, map_length; reflexivity).
      apply (lwrites q (k + 1) w1 (h_inst hd) x rs c []); auto.
      - apply (io_run _ _ _ _ _ _ _ I).
      - rewrite app_nil_r. exact B1.
      - eapply WOk_ext; [..|exact B3]; unfold i_st, inode; cbn; rewrite ?Hi2; reflexivity.
      - eapply room_mono; [|exact Hroom']. lia. }
    destruct Ld as [k2 ->]. rewrite !(q_debug bad Q), !(q_verbose bad Q). cbn [orb].
    destruct (w_insts (drain E w1 (h_inst hd)) !! h_inst hd) as [z|]; [|intros [= <-]; eauto].
    destruct (i_join z); [|intros [= <-]; eauto]. destruct (i_io z); intros [= <-]; eauto.
  - cbn [step lstep]. destruct (lrun_job_eq E bad Q k w i) as [k1 ->]; [|eauto].
    intros x Hx _ _. destruct (wi_insts _ _ _ _ _ _ _ W i x Hx) as (_ & I & _).
    destruct (io_state _ _ _ _ _ _ _ I) as (q & rs & c & B1 & B2 & B3 & _). eapply reads_WOk, B3.
Qed.

End Severe.

Section Metas.
Context (E : env) (HE : env_ok E).
Notation metas_ok := (metas_ok E).

Lemma metas_same w w' : w_dirs w' = w_dirs w -> metas_ok w -> metas_ok w'.
Proof. intros Hd M He d n Hn. apply (M He d n). unfold dir_of in *. rewrite <- Hd. exact Hn. Qed.

Lemma metas_job w i : metas_ok w -> metas_ok (run_job E w i).
Proof.
  intros M. unfold run_job. destruct (w_insts w !! i) as [x|]; [|exact M]. destruct (i_io x); [|exact M].
  destruct (i_queue x) as [|[m dup|] q]; [exact M| |].
  - destruct (write _ _ _ _ _) as [s ok]. eapply metas_same, M. reflexivity.
  - intros He d n. cbn [set_inst set_insts set_dir]. unfold dir_of at 1. cbn. destruct (decide (i_dir x = d)) as [->|Hne].
    + rewrite lookup_insert. cbn. rewrite He. discriminate.
    + rewrite lookup_insert_ne by exact Hne. apply (M He d n).
Qed.

Lemma metas_iter i n : forall w, metas_ok w -> metas_ok (Nat.iter n (fun w => run_job E w i) w).
Proof. induction n as [|n IH]; intros w M; [exact M|]. rewrite Nat.iter_succ. apply metas_job, IH, M. Qed.

Lemma metas_drain w i : metas_ok w -> metas_ok (drain E w i).
Proof. intros M. unfold drain. destruct (w_insts w !! i); [apply metas_iter|]; exact M. Qed.

Lemma metas_open w p key : metas_ok w -> metas_ok (fst (open_impl E w p key)).
Proof.
  intros M. unfold open_impl. destruct (e_dir_ok E p); [|exact M]. cbv zeta.
  destruct (open_config E w (e_canon E p)) as [w1 ino] eqn:Ec.
  assert (M1 : metas_ok w1).
  { unfold open_config in Ec. destruct (d_data (dir_of w (e_canon E p))); injection Ec as <- _; [exact M|].
    intros He d n. unfold dir_of at 1. cbn. destruct (decide (e_canon E p = d)) as [->|Hne].
    - rewrite lookup_insert. cbn. apply (M He d n).
    - rewrite lookup_insert_ne by exact Hne. apply (M He d n). }
  destruct (feature_key (e_feat E) key) as [ky|]; [|exact M1].
  destruct (open_nonce E w1 (e_canon E p)) as [w2 nonce] eqn:En.
  assert (M2 : metas_ok w2).
  { unfold open_nonce in En. destruct (is_encrypted (e_feat E)) eqn:Ee; [|injection En as <- _; exact M1].
    destruct (init_nonce (d_meta (dir_of w1 (e_canon E p))) (e_rng E (w_rng w1))) as [n0 meta'] eqn:Ei. injection En as <- _.
    intros He d n. unfold dir_of at 1. cbn. destruct (decide (e_canon E p = d)) as [<-|Hne]; cycle 1.
    { rewrite lookup_insert_ne by exact Hne. apply (M1 He d n). }
    rewrite lookup_insert. cbn. intros [= <-]. unfold init_nonce in Ei. pose proof (eo_rng _ HE (w_rng w1)) as Hl.
    destruct (d_meta (dir_of w1 (e_canon E p))) as [n1|] eqn:Hd; [|congruence].
    destruct (Nat.eqb_spec (length n1) nonce_len); congruence. }
  destruct (open_file _ _ _ _) as [[s m]|]; exact M2.
Qed.

Lemma metas_step w e w' r : metas_ok w -> step E w e = Some (w', r) -> metas_ok w'.
Proof.
  intros M. assert (OI : forall i f w1 r1, on_inst w i f = (w1, r1) -> metas_ok w1).
  { intros i f w1 r1. unfold on_inst. destruct (w_insts w !! i) as [x|]; [|intros [= <- _]; exact M].
    destruct (f x). intros [= <- _]. eapply metas_same, M. reflexivity. }
  assert (HA : forall w h hd w1 r1, metas_ok w -> do_drop_arc E w h hd = (w1, r1) -> metas_ok w1).
  { intros v h hd w1 r1 Mv. unfold do_drop_arc. destruct (Nat.eqb _ 1); intros [= <- _]; [|exact Mv].
    eapply metas_same, metas_drain, Mv. reflexivity. }
  assert (HR : forall h hd w1 r1, do_drop_reg w h hd = (w1, r1) -> metas_ok w1).
  { intros h hd w1 r1. unfold do_drop_reg. destruct (w_poison w); [intros [= <- _]; exact M|].
    destruct (Nat.eqb _ 1); intros [= <- _]; exact M. }
  destruct e as [h path key|h key v|h key|h key t|h key t|h key|h|h|h|h|i|]; cbn [step]; unfold with_handle.
  - destruct (w_handles w !! h); [discriminate|]. unfold do_new. destruct (w_poison w); [intros [= <- _]; exact M|].
    destruct (lookup_reg w path); [intros [= <- _]; exact M|]. pose proof (metas_open w path key M) as Mo.
    destruct (open_impl E w path key) as [w1 [x|]]; intros [= <- _]; exact Mo.
  - destruct (w_handles w !! h) as [hd|]; [|discriminate]. destruct (h_unreg hd); [discriminate|]. intros [= Hs]. eapply OI, Hs.
  - destruct (w_handles w !! h) as [hd|]; [|discriminate]. destruct (h_unreg hd); [discriminate|]. intros [= Hs]. eapply OI, Hs.
  - destruct (w_handles w !! h) as [hd|]; [|discriminate]. destruct (h_unreg hd); [discriminate|]. intros [= Hs]. eapply OI, Hs.
  - destruct (w_handles w !! h) as [hd|]; [|discriminate]. destruct (h_unreg hd); [discriminate|]. intros [= Hs]. eapply OI, Hs.
  - destruct (w_handles w !! h) as [hd|]; [|discriminate]. destruct (h_unreg hd); [discriminate|]. intros [= Hs]. eapply OI, Hs.
  - destruct (w_handles w !! h) as [hd|]; [|discriminate]. destruct (h_unreg hd); [discriminate|]. unfold do_clear.
    destruct (w_insts w !! h_inst hd) as [x|]; [|intros [= <- _]; exact M]. destruct (i_poison x); [intros [= <- _]; exact M|].
    destruct (impl_clear E w (h_inst hd) x) as [w1 r1] eqn:Ec.
    assert (M1 : metas_ok w1).
    { unfold impl_clear in Ec. destruct (negb (i_valid x)); [injection Ec as <- _; exact M|].
      destruct (post (i_invalid x) JRemove) as [x1 r2]. destruct r2; [|injection Ec as <- _; exact M..].
      assert (M2 : metas_ok (drain E (set_inst w (h_inst hd) x1) (h_inst hd))) by (apply metas_drain; exact M).
      destruct (w_insts (drain E (set_inst w (h_inst hd) x1) (h_inst hd)) !! h_inst hd); injection Ec as <- _; exact M2. }
    destruct r1; [|intros [= <- _]; exact M1..]. pose proof (metas_open w1 (h_path hd) (h_key hd) M1) as Mo.
    destruct (open_impl E w1 (h_path hd) (h_key hd)) as [w2 [y|]]; cbn [fst] in Mo.
    + destruct (_ && _); intros [= <- _]; exact Mo.
    + intros [= <- _]. destruct (w_insts w2 !! h_inst hd); exact Mo.
  - destruct (w_handles w !! h) as [hd|]; [|discriminate]. destruct (h_unreg hd); [discriminate|].
    destruct (do_drop_reg w h hd) as [w1 r1] eqn:E1. destruct (do_drop_arc E w1 h hd) as [w2 r2] eqn:E2. intros [= <- _].
    eapply HA; [|exact E2]. eapply HR, E1.
  - destruct (w_handles w !! h) as [hd|]; [|discriminate]. destruct (h_unreg hd); [discriminate|]. intros [= Hs]. eapply HR, Hs.
  - destruct (w_handles w !! h) as [hd|]; [|discriminate]. destruct (h_unreg hd); [|discriminate]. intros [= Hs]. eapply HA; [exact M|exact Hs].
  - intros [= <- _]. apply metas_job, M.
  - intros [= <- _]. exact M.
Qed.

Lemma metas_run es : forall w w' rs, metas_ok w -> run E w es = Some (w', rs) -> metas_ok w'.
Proof.
  induction es as [|e r IH]; intros w w' rs M; cbn [run]; [intros [= <- _]; exact M|].
  destruct (step E w e) as [[w1 x]|] eqn:Es; [|discriminate]. destruct (run E w1 r) as [[w2 xs]|] eqn:Er; [|discriminate].
  intros [= <- _]. eapply IH; [|exact Er]. eapply metas_step; eassumption.
Qed.

Lemma metas_0 : metas_ok world0.
Proof. intros _ d n. unfold dir_of. cbn. rewrite lookup_empty. discriminate. Qed.

End Metas.

(** If only lines of level Error and Warn can fail (the level is set to
    Warn or less), an ordinary process never notices: nothing in it is worth
    an Error or a Warn. *)
Theorem C61_quiet_levels E keyof bad es w rs :
  ordinary E keyof es -> (forall k lv, bad k lv = true -> lv = Logging.Error \/ lv = Logging.Warn) ->
  run E world0 es = Some (w, rs) -> exists k, lrun E bad 0 world0 es = Some (Ran k w rs).
Proof.
  intros HO Q Hr.
  assert (G : forall b a wa ra k, es = a ++ b -> run E world0 a = Some (wa, ra) ->
    exists k', match run E wa b with Some (w', r) => lrun E bad k wa b = Some (Ran k' w' r) | None => True end).
  { induction b as [|e b IH]; intros a wa ra k Ees Ha; [exists k; reflexivity|]. cbn [run lrun].
    destruct (reach_prefix E keyof es HO a (e :: b) wa ra Ees Ha) as (sp & _ & W).
    assert (Hc : call_ok E keyof e).
    { pose proof (or_calls _ _ _ HO) as HF. rewrite Ees in HF. apply Forall_app in HF as [_ HF]. inversion HF. assumption. }
    assert (HU : in_U (PU es) e).
    { pose proof (in_U_all es a [e] b Ees) as HF. inversion HF. assumption. }
    assert (Hroom : room E (writes a + wcount e)).
    { eapply room_mono; [|apply (or_room _ _ _ HO)]. rewrite Ees, writes_app, writes_cons. lia. }
    pose proof (metas_run E (or_env _ _ _ HO) a world0 wa ra (metas_0 E) Ha) as Hm.
    pose proof (severe_step E (or_env _ _ _ HO) keyof (PU es) (PU_dir E keyof es HO) (PU_key E keyof es HO) (PU_inj E keyof es HO) bad Q k wa sp _ _ e W Hc HU Hroom Hm (settled_run E a world0 wa ra settled_0 Ha)) as S1.
    destruct (step E wa e) as [[w1 x]|] eqn:Es; [|exists k; exact Logic.I]. destruct S1 as [k1 ->].
    destruct (IH (a ++ [e]) w1 (ra ++ [x]) k1) as [k2 G2].
    - rewrite <- app_assoc. exact Ees.
    - rewrite run_app, Ha. cbn [run]. rewrite Es. reflexivity.
    - exists k2. destruct (run E w1 b) as [[w2 xs]|]; [|exact Logic.I]. rewrite G2. reflexivity. }
  destruct (G es [] world0 [] 0 eq_refl eq_refl) as [k H]. rewrite Hr in H. eauto.
Qed.

(** * Failing lines *)

(** ** Inside a write

    Whatever log calls fail while a record is written, the file is one that
    an ordinary kill between two records could have left. *)
Section Cut.
Context (E : env) (bad : N -> level -> bool) (C : codec) (pos_ok : N -> Prop) (sz : kv -> N).
Context (H64 : usz (e_plat E) = 8%nat) (Hlaw : codec_law C pos_ok sz) (Hmaxf : maxfile (e_plat E) < 2 ^ 63).
Notation P := (e_plat E).
Notation Inv := (Inv C pos_ok sz).
Notation rec_ok := (rec_ok sz).
Notation used := (used sz).
Notation grow := (grow sz).
Notation positions_ok := (positions_ok pos_ok).

(** The file of [s] is that of a store holding the records [rs]. *)
Definition holds (s : st) (rs : list kv) : Prop := exists t, Inv t rs /\ s_file t = s_file s.

Lemma lexpand_cut k s rs k' s' ok : Inv s rs -> len (s_file s) + page P <= maxfile P -> lexpand E bad k s = (k', (s', ok)) ->
  holds s' rs /\ (ok = true -> expand P s = (s', true)).
Proof.
  intros I Hb. unfold lexpand. destruct (expand_inv P _ _ _ H64 Hmaxf s rs I Hb) as (s1 & E1 & I1 & F1 & _).
  destruct (bad k Logging.Info).
  { intros [= _ <- <-]. split; [exists s; auto|discriminate]. }
  unfold expand in E1 |- *. destruct (_ <=? _); [|discriminate E1]. cbv zeta in *. injection E1 as E1.
  destruct (bad (k + 1) Logging.Info); intros [= _ <- <-]; (split; [exists s1; split; [exact I1|subst s1; reflexivity]|]);
    [discriminate|intros _; reflexivity].
Qed.

Lemma lrewrite_cut l : forall k s rs max k' s' ok,
  Inv s rs -> Forall rec_ok l -> Forall (fun m => sz m <= page P) l ->
  positions_ok (N.of_nat (length rs + length l)) ->
  max <= len (s_file s) ->
  len (s_file s) + page P * grow max (used rs) l <= maxfile P ->
  lrewrite E bad C k max l s = (k', (s', ok)) ->
  exists l1 l2, l = l1 ++ l2 /\ holds s' (rs ++ l1) /\ (ok = true -> rewrite P C max l s = (s', true)).
Proof.
  induction l as [|m l IH]; intros k s rs max k' s' ok I HF HP Hp Hmax Hb.
  - cbn [lrewrite rewrite]. intros [= _ <- <-]. exists [], []. rewrite (app_nil_r rs). split; [reflexivity|]. split; [exists s; auto|reflexivity].
  - inversion HF as [|? ? Hm HF']; subst. inversion HP as [|? ? Hmp HP']; subst.
    assert (Hp1 : positions_ok (N.of_nat (length rs) + 1)).
    { eapply positions_mono; [|exact Hp]. cbn [length]. lia. }
    destruct (inv_encode _ _ _ _ H64 Hlaw Hmaxf s rs m I Hm Hp1) as (b & Eb & Lb).
    cbn [lrewrite rewrite StoreFacts.grow] in *. rewrite Eb, (inv_write_offset _ _ _ _ H64 Hlaw Hmaxf s rs I).
    pose proof (inv_size _ _ _ _ _ I) as Hs. pose proof (inv_used _ _ _ _ H64 Hlaw Hmaxf _ _ I) as Hu. pose proof Hm as [Hok Hsz].
    rewrite (modulus_64 _ H64), (N.mod_small (used rs + len b)) by lia.
    rewrite Lb.
    assert (Hused : used (rs ++ [m]) = used rs + sz m).
    { unfold StoreFacts.used. rewrite total_app. cbn [total fold_right]. lia. }
    assert (Next : forall k1 s1 k' s' ok, Inv s1 rs -> s_pos s1 = s_pos s -> used rs + sz m <= len (s_file s1) -> max <= len (s_file s1) ->
      len (s_file s1) + page P * grow max (used rs + sz m) l <= maxfile P ->
      (let '(s2, ok2) := append_incr P s1 b in if ok2 then lrewrite E bad C k1 max l s2 else (k1, (s2, false))) = (k', (s', ok)) ->
      exists l1 l2, m :: l = l1 ++ l2 /\ holds s' (rs ++ l1) /\
        (ok = true -> (let '(s2, ok2) := append_incr P s1 b in if ok2 then rewrite P C max l s2 else (s2, false)) = (s', true))).
    { intros k1 s1 k2 s2 ok2 I1 PO1 Hfit Hm1 Hb1.
      destruct (append_incr_inv _ _ _ _ H64 Hlaw Hmaxf s1 rs m b I1 (conj Hok Hsz) Hp1) as (s3 & E2 & I2 & ML2 & L2 & TR2 & SE2 & _).
      { rewrite PO1. exact Eb. } { exact Hfit. }
      rewrite E2. intros Hl. destruct (IH k1 s3 (rs ++ [m]) max k2 s2 ok2 I2 HF' HP') as (l1 & l2 & -> & Hh & Hok2); auto.
      - eapply positions_mono; [|exact Hp]. rewrite app_length. cbn [length]. lia.
      - lia.
      - rewrite Hused. lia.
      - exists (m :: l1), l2. rewrite <- app_assoc in Hh. auto. }
    destruct (N.ltb_spec max (used rs + sz m)) as [Hlt|Hge].
    + destruct (lexpand E bad k s) as [k1 [s1 ok1]] eqn:El.
      destruct (lexpand_cut k s rs k1 s1 ok1 I ltac:(lia) El) as [Hh Hok1].
      destruct ok1.
      * destruct (expand_inv P _ _ _ H64 Hmaxf s rs I) as (s2 & E1 & I1 & F1 & L1 & ML1 & PO1 & TR1 & SE1 & EF1); [lia|].
        rewrite (Hok1 eq_refl) in E1. injection E1 as <-. rewrite (Hok1 eq_refl).
        apply Next; auto; lia.
      * intros [= _ <- <-]. exists [], (m :: l). rewrite (app_nil_r rs). split_and!; auto. discriminate.
    + apply Next; auto; lia.
Qed.

Lemma lwrite_cut k s rs m dup k' s' ok :
  Inv s rs -> rec_ok m -> sz m <= page P -> Forall (fun x => sz x <= page P) rs -> hord_ok P ->
  positions_ok (N.of_nat (length rs) + 1) ->
  len (s_file s) + page P * (1 + sz m / 5) <= maxfile P ->
  lwrite E bad C k s m dup = (k', (s', ok)) ->
  (ok = true /\ write P C s m dup = (s', true)) \/
  ok = false /\ (holds s' rs \/
    exists l1 l2 effs, Permutation (l1 ++ l2) (live (apply_kv (replay rs) m)) /\ holds s' l1 /\
      s_eff (fst (write P C s m dup)) = s_eff s ++ FStore 0 (be 8 0) :: effs).
Proof.
  intros I Hm Hmp HFp Hh Hp Hb. unfold lwrite, write.
  destruct (inv_encode _ _ _ _ H64 Hlaw Hmaxf s rs m I Hm Hp) as (b & Eb & Lb).
  rewrite Eb, (inv_write_offset _ _ _ _ H64 Hlaw Hmaxf s rs I). cbv zeta.
  set (s0 := if dup then with_trim s true else s).
  assert (I0 : Inv s0 rs) by (unfold s0; destruct dup; [apply inv_trim_irrel|]; exact I).
  assert (F0 : s_file s0 = s_file s) by (unfold s0; destruct dup; reflexivity).
  assert (P0 : s_pos s0 = s_pos s) by (unfold s0; destruct dup; reflexivity).
  assert (EF0 : s_eff s0 = s_eff s) by (unfold s0; destruct dup; reflexivity).
  pose proof (inv_size _ _ _ _ _ I0) as Hs. pose proof (inv_used _ _ _ _ H64 Hlaw Hmaxf _ _ I0) as Hu. pose proof (inv_ml _ _ _ _ _ I0) as Hml.
  pose proof (law_min _ _ _ Hlaw m) as Hmin. pose proof Hm as [Hok Hsz]. clearbody s0.
  rewrite (modulus_64 _ H64), (N.mod_small (len b + used rs)), Hml by lia.
  destruct (N.leb_spec (len b + used rs) (len (s_file s0))) as [Hfit|Hover].
  - destruct (append_incr_inv _ _ _ _ H64 Hlaw Hmaxf s0 rs m b I0 Hm Hp) as (s2 & E2 & _); [rewrite P0; exact Eb|lia|].
    rewrite E2. intros [= _ <- <-]. left. auto.
  - destruct (s_trim s0) eqn:Htr.
    + unfold ltrim, trim. destruct (bad k Logging.Info).
      { intros [= _ <- <-]. right. split; [reflexivity|]. left. exists s0. auto. }
      destruct (bad (k + 1) Logging.Info).
      { intros [= _ <- <-]. right. split; [reflexivity|]. left. exists s0. auto. }
      destruct (reads_inv E bad C pos_ok sz H64 Hlaw Hmaxf s0 rs I0 (k + 2)) as [k1 ->].
      rewrite (inv_read_all _ _ _ _ H64 Hlaw Hmaxf s0 rs I0). cbv zeta.
      set (M := apply_kv (replay rs) m). assert (HM : M = replay (rs ++ [m])) by (symmetry; apply replay_snoc).
      destruct (bad k1 Logging.Info).
      { intros [= _ <- <-]. right. split; [reflexivity|]. left. exists s0. auto. }
      destruct (inv_content _ _ _ _ H64 Hlaw Hmaxf _ _ I0) as (c & sl & Ec & F & L).
      unfold reset.
      assert (E1 : store_len P s0 0 = (do_eff (FStore 0 (be 8 0)) s0, true)).
      { unfold store_len. rewrite H64, Hml, F, shape_len. unfold len_offset. cbn [Nat.eqb andb].
        destruct (N.leb_spec 8 (8 + len c + len sl)); [reflexivity|lia]. }
      rewrite E1. set (s1 := do_eff (FStore 0 (be 8 0)) s0).
      assert (F1 : s_file s1 = be 8 0 ++ c ++ sl).
      { cbn [s1 do_eff s_file]. rewrite F. unfold shape. change (be 8 (len c) ++ c ++ sl) with ([] ++ be 8 (len c) ++ (c ++ sl)).
        rewrite apply_store_mid; [reflexivity|reflexivity|]. rewrite !len_be. reflexivity. }
      set (order := hord P (s_seed s1) M).
      assert (Hord : Permutation order (live M)) by apply Hh.
      assert (Htot : total sz order <= total sz rs + sz m /\ (length order <= length rs + 1)%nat).
      { rewrite (total_perm sz _ _ Hord), Hord, HM. pose proof (live_replay_total sz (rs ++ [m])) as G.
        rewrite total_app, app_length in G. unfold total in *. cbn [fold_right length] in G. lia. }
      assert (Hoks : Forall rec_ok order).
      { rewrite Hord, HM. apply live_Forall, Forall_app. split; [apply (inv_ok _ _ _ _ _ I)|constructor; [exact Hm|constructor]]. }
      assert (Hops : Forall (fun x => sz x <= page P) order).
      { rewrite Hord, HM. apply live_Forall, Forall_app. split; [exact HFp|constructor; [exact Hmp|constructor]]. }
      assert (Hl1 : len (s_file s1) = len (s_file s0)).
      { rewrite F1, F, shape_len, !len_app, len_be. lia. }
      set (s2 := with_pos (with_seed s1 (s_seed s1 + 1)) 0).
      assert (I2 : Inv s2 []).
      { split.
        - constructor.
        - intros i Hi. cbn in Hi. lia.
        - exists [], (c ++ sl). split; [reflexivity|]. exact F1.
        - transitivity (s_ml s0); [reflexivity|]. rewrite Hml. symmetry. exact Hl1.
        - reflexivity.
        - change (s_file s2) with (s_file s1). rewrite Hl1. exact Hs. }
      assert (Hg : grow (s_ml s0) (used []) order <= 1 + sz m / 5).
      { change (used []) with 8. etransitivity; [apply (grow_bound P C pos_ok sz H64 Hlaw Hmaxf)|].
        unfold StoreFacts.used in *. rewrite Hml.
        destruct (N.leb_spec (8 + total sz order) (len (s_file s0))); [lia|].
        assert ((8 + total sz order - len (s_file s0) - 1) / 5 <= sz m / 5) by (apply N.div_le_mono; lia). lia. }
      destruct (lrewrite E bad C (k1 + 1) (s_ml s0) order s2) as [k2 [s3 ok3]] eqn:El.
      destruct (lrewrite_cut order (k1 + 1) s2 [] (s_ml s0) k2 s3 ok3 I2 Hoks Hops) as (l1 & l2 & Hl & Hho & Hok3); auto.
      { cbn [length]. eapply positions_mono; [|exact Hp]. lia. }
      { change (s_file s2) with (s_file s1). rewrite Hl1, Hml. lia. }
      { change (s_file s2) with (s_file s1). rewrite Hl1, F0. nia. }
      assert (Heff : exists effs, s_eff (fst (let '(s5, ok) := rewrite P C (s_ml s0) order s2 in if ok then (with_trim s5 false, true) else (s5, false)))
        = s_eff s ++ FStore 0 (be 8 0) :: effs).
      { destruct (rewrite P C (s_ml s0) order s2) as [s5 ok5] eqn:E5. destruct (rewrite_log P C _ _ _ _ _ E5) as (effs & A & _). exists effs.
        assert (A' : s_eff s5 = s_eff s ++ FStore 0 (be 8 0) :: effs).
        { rewrite A. cbn [s2 s1 with_pos with_seed do_eff s_eff]. rewrite EF0, <- app_assoc. reflexivity. }
        destruct ok5; exact A'. }
      destruct Heff as [effs Heff]. fold M. fold order. fold s2.
      assert (Cut : forall s4, s_file s4 = s_file s3 -> false = false /\ (holds s4 rs \/ exists l1 l2 effs, Permutation (l1 ++ l2) (live M) /\ holds s4 l1 /\
        s_eff (fst (let '(s5, ok) := rewrite P C (s_ml s0) order s2 in if ok then (with_trim s5 false, true) else (s5, false))) = s_eff s ++ FStore 0 (be 8 0) :: effs)).
      { intros s4 F4. split; [reflexivity|]. right. exists l1, l2, effs. split; [rewrite <- Hl; exact Hord|]. split; [|exact Heff].
        destruct Hho as (t & It & Ft). exists t. rewrite F4. auto. }
      destruct ok3.
      * destruct (bad k2 Logging.Info); intros [= _ <- <-].
        -- right. apply Cut. reflexivity.
        -- left. split; [reflexivity|]. rewrite (Hok3 eq_refl). reflexivity.
      * intros [= _ <- <-]. right. apply Cut. reflexivity.
    + destruct (lexpand E bad k s0) as [k1 [s1 ok1]] eqn:El.
      destruct (lexpand_cut k s0 rs k1 s1 ok1 I0 ltac:(rewrite F0; nia) El) as [Hho Hok1].
      destruct ok1; [|intros [= _ <- <-]; right; auto].
      rewrite (Hok1 eq_refl).
      destruct (expand_inv P _ _ _ H64 Hmaxf s0 rs I0 ltac:(rewrite F0; nia)) as (s2 & E1 & I1 & F1 & L1 & ML1 & PO1 & _).
      rewrite (Hok1 eq_refl) in E1. injection E1 as <-.
      destruct (append_incr_inv _ _ _ _ H64 Hlaw Hmaxf s1 rs m b I1 Hm Hp) as (s3 & E2 & _); [rewrite PO1, P0; exact Eb|lia|].
      rewrite E2. intros [= _ <- <-]. left. auto.
Qed.

End Cut.

(** A background write, with any log calls failing in any way.  Either it is
    done exactly as without logging; or the background thread is dead,
    nothing but the file of this store has changed, and a process started
    afterwards can open the directory and finds either what the file held
    before, or, if the write was compacting, a part of what it should hold
    after: no wrong and no old values.  Missing: that nothing is lost (it may
    be, see below). *)
Theorem C61_a_failing_line_in_a_write_partial E keyof bad k es w rs0 i x m dup q k' w' h p :
  ordinary E keyof es -> run E world0 es = Some (w, rs0) -> w_insts w !! i = Some x -> i_queue x = JWrite m dup :: q ->
  In p (paths es) -> e_canon E p = i_dir x ->
  lrun_job E bad k w i = (k', w') ->
  w' = run_job E w i \/
  (exists y, w_insts w' = <[i := y]> (w_insts w) /\ i_io y = IoDead /\ i_map y = i_map x) /\
  w_dirs w' = w_dirs w /\ w_handles w' = w_handles w /\ w_reg w' = w_reg w /\ w_poison w' = w_poison w /\
  (forall ino, ino <> i_ino x -> inode w' ino = inode w ino) /\
  exists S w2, step E (killed w') (ENew h p (keyof (i_dir x))) = Some (w2, ROk None) /\ answers_as E w2 h S /\
    ((exists s', killed_to E es w s' /\ S = contents s' (i_dir x)) \/
     (compacts E w i /\ exists s', killed_to E (es ++ [EIo i]) (run_job E w i) s' /\ S ⊆ contents s' (i_dir x))).
Proof.
  intros HO Hr Hx Hq Hp Hcp Hl.
  destruct (reach_job E keyof es w rs0 i x m dup q HO Hr Hx Hq) as (s1 & rs & rs1 & c0 & Ew & Heff & HW & Hm & Hroom & HW1 & Hrep & Hk).
  destruct (reach_inst E keyof es w rs0 i x HO Hr Hx) as (Hrun & _).
  destruct (eo_plat _ (or_env _ _ _ HO)) as [H64 Hpage Hmax Hhord]. pose proof (law_of E (or_env _ _ _ HO) _ x eq_refl) as Hlaw.
  pose proof HW as (I & HG & HL & HS & HD).
  assert (Hpos1 : positions_ok (record_pos (e_feat E)) (N.of_nat (length rs) + 1)).
  { eapply positions_mono; [|apply (room_positions E), Hroom]. lia. }
  assert (Hb : len (s_file (i_st w x)) + page (e_plat E) * (1 + record_size (e_feat E) m / 5) <= maxfile (e_plat E)).
  { destruct Hm as [_ Hm]. destruct Hroom as [Hr1 _]. etransitivity; [|exact Hr1].
    assert (record_size (e_feat E) m / 5 <= page (e_plat E)).
    { transitivity (record_size (e_feat E) m); [|exact Hm]. apply N.div_le_upper_bound; lia. }
    nia. }
  assert (Heff0 : job_effects E w i = s_eff (fst (write (e_plat E) (i_codec E x) (i_st w x) m dup))) by (rewrite Heff, Ew; reflexivity).
  assert (Hrj : run_job E w i = set_seed (set_inode (set_inst w i (i_after x q IoRun s1)) (i_ino x) (s_file s1)) (s_seed s1)).
  { unfold run_job. rewrite Hx, Hrun, Hq, Ew. reflexivity. }
  unfold lrun_job in Hl. rewrite Hx, Hrun, Hq in Hl.
  destruct (lwrite E bad (i_codec E x) k (i_st w x) m dup) as [k1 [s ok]] eqn:Elw. injection Hl as _ Hl.
  destruct (lwrite_cut E bad (i_codec E x) _ _ H64 Hlaw Hmax k _ rs m dup k1 s ok I (good_rec E (or_env _ _ _ HO) m Hm) (proj2 Hm)
    (good_sizes E _ HG) Hhord Hpos1 Hb Elw) as [[-> E1]|[-> Hcut]].
  { left. rewrite E1 in Ew. injection Ew as ->. rewrite Hrj. symmetry. exact Hl. }
  right. subst w'. split; [|split_and!].
  { eexists. split; [reflexivity|]. auto. }
  1-4: reflexivity.
  { intros ino Hne. unfold inode. cbn. rewrite lookup_insert_ne by congruence. reflexivity. }
  assert (Open : forall t l, Inv (i_codec E x) (record_pos (e_feat E)) (record_size (e_feat E)) t l -> s_file t = s_file s ->
    exists w2, step E (killed (set_seed (set_inode (set_inst w i (i_after x q IoDead s)) (i_ino x) (s_file s)) (s_seed s))) (ENew h p (keyof (i_dir x))) = Some (w2, ROk None) /\
      forall k t, step E w2 (EGet h k t) = Some (w2, get_answer (replay l) k t)).
  { intros t l It Ft.
    destruct (reach E keyof es HO w rs0 Hr) as (sp & Hsp & W).
    destruct (wi_insts _ _ _ _ _ _ _ W i x Hx) as (_ & Io & _).
    destruct (PU_call E keyof es HO p Hp) as [Hdo Hkey]. rewrite Hcp in Hkey.
    destruct (feature_key (e_feat E) (keyof (i_dir x))) as [ky|] eqn:Hky; [|contradiction].
    assert (HC : feature_codec (e_feat E) ky (if is_encrypted (e_feat E) then i_nonce x else []) = i_codec E x).
    { unfold i_codec. rewrite (io_key _ _ _ _ _ _ _ Io). unfold kof. rewrite Hky. destruct (e_feat E); reflexivity. }
    assert (Hne : s_file s <> []).
    { rewrite <- Ft. destruct (inv_file _ _ _ _ _ It) as (c & sl & _ & Hf). rewrite Hf. intros G. apply (f_equal (length (A:=byte))) in G.
      unfold shape in G. rewrite app_length, be_length in G. cbn in G. lia. }
    pose proof (inv_read_all _ _ _ _ H64 Hlaw Hmax _ _ It) as Hread. rewrite (view_full _ (inv_ml _ _ _ _ _ It)), Ft in Hread.
    set (wc := killed _).
    pose proof (open_answers E wc h p (keyof (i_dir x)) ky (if is_encrypted (e_feat E) then i_nonce x else []) (i_ino x) (s_file s)) as G.
    rewrite HC, Hread in G. apply G.
    - reflexivity.
    - apply lookup_empty.
    - unfold lookup_reg, wc, killed. cbn [w_reg]. rewrite lookup_empty. reflexivity.
    - exact Hdo.
    - rewrite Hcp. exact (io_data _ _ _ _ _ _ _ Io).
    - unfold wc, inode. cbn. rewrite lookup_insert. reflexivity.
    - exact Hne.
    - exact Hky.
    - pose proof (io_meta _ _ _ _ _ _ _ Io) as M. unfold meta_ok in M. rewrite Hcp. destruct (e_feat E); [reflexivity|]. exact M. }
  destruct Hcut as [(t & It & Ft)|(l1 & l2 & effs & Hperm & (t & It & Ft) & Hef)].
  - destruct (Open t rs It Ft) as (w2 & Hst & Hget).
    destruct (persisted E keyof es w rs0 i x rs c0 HO Hr Hx HW) as (s' & Hkt & HR).
    exists (contents s' (i_dir x)), w2. split; [exact Hst|]. split.
    + intros kk tt Ht. rewrite Hget. unfold get_answer. rewrite (get_refines E _ _ kk tt HR Ht). reflexivity.
    + left. eauto.
  - destruct (Open t l1 It Ft) as (w2 & Hst & Hget).
    destruct (after_job E keyof es w rs0 i x s1 rs1 _ m dup q HO Hr Hx Hq Ew HW1) as (s' & Hkt & HR).
    rewrite <- Hrep in Hperm.
    destruct (rel_prefix E (replay rs1) (contents s' (i_dir x)) l1 l2 (keyed_replay rs1) Hperm HR) as (S & HSS & HRS & _).
    exists S, w2. split; [exact Hst|]. split.
    + intros kk tt Ht. rewrite Hget. unfold get_answer. rewrite (get_refines E _ _ kk tt HRS Ht). reflexivity.
    + right. split; [|eauto]. exists effs. rewrite Heff0, Hef. reflexivity.
Qed.

(** ** Opening without a log thread *)

Section Open.
Context (E : env) (HE : env_ok E) (keyof : bytes -> bytes) (U : bytes -> Prop).
Context (HU_dir : forall p, U p -> e_dir_ok E p = true).
Context (HU_key : forall p, U p -> feature_key (e_feat E) (keyof (e_canon E p)) <> None).
Context (HU_inj : forall p p', U p -> U p' -> e_canon E p = e_canon E p' -> p = p').
Context (bad : N -> level -> bool).
Notation canon := (e_canon E).

(** Opening logs one line, at the end. *)
Lemma lopen_any k w p S n : U p -> WorldInv.dir_ok E keyof w S n (canon p) -> metas_ok E w ->
  (forall i, d_data (dir_of w (canon p)) = Some i -> i < w_next_ino w) ->
  exists w' y, open_impl E w p (keyof (canon p)) = (w', Some y) /\
    lopen_impl E bad k w p (keyof (canon p)) =
      if bad k Logging.Info then
        if bad (k + 1) Logging.Verbose || bad (k + 2) Logging.Debug then (k + 3, (w', OAbort)) else (k + 3, (w', OPanic))
      else (k + 1, (w', OGood y)).
Proof.
  intros Up Hd Hm Hf.
  destruct (open_impl_ok E HE keyof U HU_dir HU_key HU_inj w p S n Up Hd Hf) as (w' & y & Eo & _ & Iy & _).
  pose proof (Iy (fun _ _ => True) Logic.I) as I0. destruct (io_state _ _ _ _ _ _ _ I0) as (q & rs & c & _ & _ & (B3 & _) & _).
  exists w', y. split; [exact Eo|]. revert Eo. unfold open_impl, lopen_impl. rewrite (HU_dir p Up). cbv zeta.
  destruct (open_config E w (canon p)) as [w1 ino] eqn:Ec. destruct (feature_key _ _) as [ky|]; [|discriminate].
  assert (Hm1 : metas_ok E w1).
  { intros He d n0. unfold open_config in Ec. destruct (d_data (dir_of w (canon p))); injection Ec as <- _; [apply (Hm He)|].
    unfold dir_of at 1. cbn. destruct (decide (canon p = d)) as [->|Hne]; [rewrite lookup_insert|rewrite lookup_insert_ne by exact Hne]; apply (Hm He). }
  assert (N : lopen_nonce E bad k w1 (canon p) = (k, Some (open_nonce E w1 (canon p)))).
  { unfold lopen_nonce. destruct (is_encrypted (e_feat E)) eqn:Ee; [|reflexivity].
    destruct (d_meta (dir_of w1 (canon p))) as [n0|] eqn:En; [|reflexivity]. rewrite (Hm1 Ee _ _ En), Nat.eqb_refl. reflexivity. }
  rewrite N. destruct (open_nonce E w1 (canon p)) as [w2 nonce]. unfold open_file, lopen_file.
  rewrite (take_ge (inode w2 ino)) by (unfold len; lia).
  destruct (read_all (e_plat E) (feature_codec (e_feat E) ky nonce) (inode w2 ino)) as [m cnt| |] eqn:Er; [|discriminate..].
  intros [= <- <-].
  destruct (eo_plat _ HE) as [H64 Hpage Hmax Hhord].
  assert (R : lread_all E bad (feature_codec (e_feat E) ky nonce) k (inode w2 ino) = (k, Some (IDone m cnt))).
  { pose proof (reads_inv_k E bad _ _ _ H64 (law_of E HE _ _ eq_refl) Hmax k _ rs B3) as R.
    unfold view, i_st, i_codec in R. cbn in R. rewrite take_ge in R by (unfold len; lia). rewrite R, Er. reflexivity. }
  rewrite R. destruct (bad k Logging.Info); [|reflexivity]. destruct (_ || _); reflexivity.
Qed.
End Open.

(** Once the log thread is gone (every wanted line panics), opening a
    directory that is not open yet: with level Debug or Verbose (the default,
    logger.rs:77) the process aborts; with level Info the call panics and no
    store can be opened any more in this process. *)
Theorem C61_open_without_a_log_thread E keyof bad k es w rs h p threshold :
  ordinary E keyof (es ++ [ENew h p (keyof (e_canon E p))]) -> run E world0 es = Some (w, rs) ->
  w_handles w !! h = None -> lookup_reg w p = None ->
  (forall k' lv, k <= k' -> Logging.wanted threshold lv = true -> bad k' lv = true) ->
  (forall k' lv, Logging.wanted threshold lv = false -> bad k' lv = false) ->
  match threshold with
  | Logging.Verbose | Logging.Debug => exists w', lstep E bad k w (ENew h p (keyof (e_canon E p))) = Some (LAbort w')
  | Logging.Info => exists k' w', lstep E bad k w (ENew h p (keyof (e_canon E p))) = Some (LAns k' w' RPanic) /\
      forall h' p' key k2, w_handles w !! h' = None -> exists k3 w2, lstep E bad k2 w' (ENew h' p' key) = Some (LAns k3 w2 RPanic)
  | _ => exists k' w', lstep E bad k w (ENew h p (keyof (e_canon E p))) = Some (LAns k' w' (ROk None))
  end.
Proof.
  intros HO Hr Hh Hl Hdead Hquiet.
  destruct (reach_prefix E keyof _ HO es [ENew h p (keyof (e_canon E p))] w rs eq_refl Hr) as (sp & _ & W).
  assert (Up : PU (es ++ [ENew h p (keyof (e_canon E p))]) p).
  { unfold PU. rewrite paths_app. apply in_or_app. right. left. reflexivity. }
  pose proof (PU_inj E keyof _ HO) as HU_inj.
  assert (Hno : forall i x, w_insts w !! i = Some x -> i_dir x <> e_canon E p).
  { intros i x Hx Hd. destruct (wi_insts _ _ _ _ _ _ _ W i x Hx) as (_ & _ & (p' & Hp') & _).
    destruct (wi_reg _ _ _ _ _ _ _ W p' i Hp') as (Up' & x' & Hx' & Dx'). rewrite Hx in Hx'. injection Hx' as <-.
    assert (p' = p) as -> by (apply HU_inj; congruence). unfold lookup_reg in Hl. rewrite Hp' in Hl.
    rewrite bool_decide_true in Hl by eauto. discriminate Hl. }
  destruct (lopen_any E (or_env _ _ _ HO) keyof _ (PU_dir E keyof _ HO) (PU_key E keyof _ HO) HU_inj bad k w p _ _ Up
    (wi_dirs _ _ _ _ _ _ _ W _ Hno) (metas_run E (or_env _ _ _ HO) es world0 w rs (metas_0 E) Hr)
    (fun i => wi_fresh _ _ _ _ _ _ _ W (e_canon E p) i)) as (w1 & y & Eo & Lo).
  destruct (P_Fail.open_impl_sub E _ _ _ _ _ Eo) as (_ & Eh & _ & _ & _ & _).
  cbn [lstep]. rewrite Hh. unfold ldo_new. rewrite (wi_poison _ _ _ _ _ _ _ W), Hl, Lo.
  destruct threshold.
  - rewrite Hquiet by reflexivity. eauto.
  - rewrite Hquiet by reflexivity. eauto.
  - rewrite Hquiet by reflexivity. eauto.
  - rewrite (Hdead k Logging.Info) by (lia || reflexivity). rewrite (Hquiet _ Logging.Verbose), (Hquiet _ Logging.Debug) by reflexivity. cbn [orb].
    eexists _, _. split; [reflexivity|]. intros h' p' key k2 Hh'. cbn [set_poison w_handles w_poison]. rewrite Eh, Hh'. eauto.
  - rewrite (Hdead k Logging.Info) by (lia || reflexivity). rewrite (Hdead (k + 2) Logging.Debug) by (lia || reflexivity). rewrite orb_true_r. eauto.
  - rewrite (Hdead k Logging.Info) by (lia || reflexivity). rewrite (Hdead (k + 2) Logging.Debug) by (lia || reflexivity). rewrite orb_true_r. eauto.
Qed.

(** The number of log calls never goes back. *)
Lemma liter_ge bad C fuel : forall k v a e p acc c, k <= fst (liter_map bad C k fuel v a e p acc c).
Proof.
  induction fuel as [|f IH]; intros k v a e p acc c; cbn [liter_map]; destruct (e <=? a); cbn [fst]; try lia.
  destruct (slice _ _ _); cbn [fst]; [|lia]. destruct (dec _ _ _) as [[o ol]|er|]; cbn [fst]; try lia.
  - destruct o; cbv zeta.
    + eapply N.le_trans; [|apply IH]. lia.
    + destruct (bad k _); cbn [fst]; [lia|]. eapply N.le_trans; [|apply IH]. lia.
  - destruct (bad k _); cbn [fst]; lia.
Qed.

Lemma lread_ge E bad C k v : k <= fst (lread_all E bad C k v).
Proof. unfold lread_all. destruct (write_offset _ _); [apply liter_ge|cbn; lia]. Qed.

Lemma lexpand_ge E bad k s : k <= fst (lexpand E bad k s).
Proof. unfold lexpand. repeat case_match; cbn [fst]; lia. Qed.

Lemma lrewrite_ge E bad C l : forall k m s, k <= fst (lrewrite E bad C k m l s).
Proof.
  induction l as [|a r IH]; intros k m s; cbn [lrewrite]; [cbn; lia|]. destruct (enc _ _ _); cbn [fst]; try lia.
  destruct (write_offset _ _); cbn [fst]; [|lia]. destruct (m <? _).
  - pose proof (lexpand_ge E bad k s) as G. destruct (lexpand _ _ _ _) as [k1 [s1 ok]]. cbn [fst] in G. destruct ok; [|exact G].
    destruct (append_incr _ _ _) as [s2 [|]]; [|exact G]. eapply N.le_trans; [exact G|apply IH].
  - destruct (append_incr _ _ _) as [s2 [|]]; [apply IH|cbn; lia].
Qed.

Lemma ltrim_ge E bad C k s m : k <= fst (ltrim E bad C k s m).
Proof.
  unfold ltrim. destruct (bad k _); [cbn; lia|]. destruct (bad (k + 1) _); [cbn; lia|].
  pose proof (lread_ge E bad C (k + 2) (view s)) as G. destruct (lread_all _ _ _ _ _) as [k1 r]. cbn [fst] in G.
  destruct r as [[snap cnt| |]|]; [|cbn; lia..]. destruct (bad k1 _); [cbn; lia|]. cbv zeta. destruct (reset _ _) as [s1 [|]]; [|cbn; lia].
  match goal with |- context [lrewrite ?a ?b ?c ?d ?e ?f ?g] => pose proof (lrewrite_ge a b c f d e g) as G2; destruct (lrewrite a b c d e f g) as [k2 [s3 [|]]] end;
    cbn [fst] in *; lia.
Qed.

Lemma lwrite_ge E bad C k s m d : k <= fst (lwrite E bad C k s m d).
Proof.
  unfold lwrite. destruct (enc _ _ _); [|cbn; lia..]. destruct (write_offset _ _); [|cbn; lia]. cbv zeta.
  destruct (_ <=? _); [cbn; lia|]. destruct (s_trim _); [apply ltrim_ge|].
  match goal with |- context [lexpand ?a ?b ?c ?d] => pose proof (lexpand_ge a b c d) as G; destruct (lexpand a b c d) as [k1 [s2 [|]]] end; exact G.
Qed.

Lemma ljob_ge E bad k w i : k <= fst (lrun_job E bad k w i).
Proof.
  unfold lrun_job. destruct (w_insts w !! i) as [x|]; [|cbn; lia]. destruct (i_io x); [|cbn; lia]. destruct (i_queue x) as [|[m dup|] q]; [cbn; lia| |cbn; lia].
  pose proof (lwrite_ge E bad (i_codec E x) k (i_st w x) m dup) as G. destruct (lwrite _ _ _ _ _ _ _) as [k1 [s ok]]. exact G.
Qed.

Lemma ldrain_ge E bad k w i : k <= fst (ldrain E bad k w i).
Proof.
  unfold ldrain. destruct (w_insts w !! i) as [x|]; [|cbn; lia]. generalize (length (i_queue x)). intros n.
  induction n as [|n IH]; [cbn; lia|]. rewrite Nat.iter_succ. destruct (Nat.iter n _ _) as [k1 w1]. cbn [fst snd] in *.
  eapply N.le_trans; [exact IH|apply ljob_ge].
Qed.

(** Waiting for a thread keeps the instance and what is known about joining it. *)
Lemma ldrain_join E bad k w i x : w_insts w !! i = Some x ->
  exists y, w_insts (snd (ldrain E bad k w i)) !! i = Some y /\ i_join y = i_join x.
Proof.
  intros Hx. unfold ldrain. rewrite Hx.
  assert (G : forall n, exists y, w_insts (snd (Nat.iter n (fun kw => lrun_job E bad kw.1 kw.2 i) (k, w))) !! i = Some y /\ i_join y = i_join x); [|apply G].
  induction n as [|n (y & Hy & J)]; [exists x; split; [exact Hx|reflexivity]|]. rewrite Nat.iter_succ. destruct (Nat.iter n _ _) as [k1 w1]. cbn [fst snd] in *.
  unfold lrun_job. rewrite Hy. destruct (i_io y); [|eauto]. destruct (i_queue y) as [|[m dup|] q]; [eauto| |].
  - destruct (lwrite _ _ _ _ _ _ _) as [k2 [s ok]]. cbn [snd]. eexists. split; [apply lookup_insert|exact J].
  - cbn [snd]. destruct (bad k1 _); (eexists; split; [apply lookup_insert|exact J]).
Qed.


(** The same for [clear_data]: once a Debug line fails, the call panics, and
    from then on every call through any handle of that store fails. *)
Theorem C61_clear_without_a_log_thread E keyof bad k es w rs h hd :
  ordinary E keyof es -> run E world0 es = Some (w, rs) -> w_handles w !! h = Some hd -> bad k Logging.Debug = true ->
  exists k' w', lstep E bad k w (EClear h) = Some (LAns k' w' RPanic) /\
    forall h' hd' k2 key v t, w_handles w !! h' = Some hd' -> h_inst hd' = h_inst hd ->
      lstep E bad k2 w' (EPut h' key v) = Some (LAns k2 w' (RErr LockError)) /\
      lstep E bad k2 w' (EGet h' key t) = Some (LAns k2 w' (RErr LockError)) /\
      lstep E bad k2 w' (EDelete h' key) = Some (LAns k2 w' (RErr LockError)) /\
      lstep E bad k2 w' (EClear h') = Some (LAns k2 w' (RErr LockError)).
Proof.
  intros HO Hr Hh Hb. destruct (reach E keyof es HO w rs Hr) as (sp & _ & W).
  destruct (handle_cases E keyof _ w sp _ _ h hd W Hh) as (_ & Hun & _ & _ & _ & x & Hx & _ & I).
  cbn [lstep]. rewrite Hh, Hun. unfold ldo_clear. rewrite Hx, (io_poison _ _ _ _ _ _ _ I).
  unfold limpl_clear. rewrite (io_valid _ _ _ _ _ _ _ I). cbn [negb]. unfold post. cbn [i_invalid i_sender i_io i_queue].
  rewrite (io_sender _ _ _ _ _ _ _ I), (io_run _ _ _ _ _ _ _ I), Hb.
  set (y := i_quit _). eexists _, _. split; [reflexivity|]. unfold poisoned_at. cbn [set_inst set_insts w_insts]. rewrite lookup_insert.
  assert (Hy : i_poison (i_with_poison y) = true) by reflexivity. set (w' := set_inst _ _ _).
  intros h' hd' k2 key v t Hh' Hi. destruct (handle_cases E keyof _ w sp _ _ h' hd' W Hh') as (_ & Hun' & _).
  assert (L : w_insts w' !! h_inst hd' = Some (i_with_poison y)) by (rewrite Hi; apply lookup_insert).
  assert (L' : w_handles w' !! h' = Some hd') by exact Hh'.
  cbn [lstep step]. unfold with_handle. rewrite L', Hun'. unfold on_inst, ldo_clear. rewrite L. unfold inst_put, inst_get, inst_delete. rewrite Hy.
  rewrite (set_inst_same _ _ _ L). auto.
Qed.

(** And for closing: with the log thread gone, closing one of several handles
    panics and leaves a process that cannot open any store; closing the last
    one ends the process. *)
Theorem C61_drop_without_a_log_thread E keyof bad k es w rs h hd :
  ordinary E keyof es -> run E world0 es = Some (w, rs) -> w_handles w !! h = Some hd ->
  (forall k', k <= k' -> bad k' Logging.Debug = true) ->
  ((forall h' hd', w_handles w !! h' = Some hd' -> h_inst hd' = h_inst hd -> h' = h) ->
     exists w', lstep E bad k w (EDrop h) = Some (LAbort w')) /\
  ((exists h' hd', w_handles w !! h' = Some hd' /\ h_inst hd' = h_inst hd /\ h' <> h) ->
     exists k' w', lstep E bad k w (EDrop h) = Some (LAns k' w' RPanic) /\
       forall h2 p key k2, w_handles w !! h2 = None -> lstep E bad k2 w' (ENew h2 p key) = Some (LAns k2 w' RPanic)).
Proof.
  intros HO Hr Hh Hb. destruct (reach E keyof es HO w rs Hr) as (sp & _ & W).
  destruct (handle_cases E keyof _ w sp _ _ h hd W Hh) as (_ & Hun & _ & _ & _ & x & Hx & _ & I).
  cbn [lstep]. rewrite Hh, Hun. unfold ldrop_reg. rewrite (wi_poison _ _ _ _ _ _ _ W), (Hb k) by lia.
  set (w1 := set_poison (fst (do_drop_reg w h hd))).
  assert (A1 : w_insts w1 = w_insts w /\ w_handles w1 = <[h := Handle (h_path hd) (h_key hd) (h_inst hd) true]> (w_handles w)).
  { unfold w1, do_drop_reg. rewrite (wi_poison _ _ _ _ _ _ _ W). destruct (Nat.eqb _ 1); split; reflexivity. }
  destruct A1 as [A1 A2].
  assert (Hs : forall n, Nat.eqb (strong w1 (h_inst hd)) n = Nat.eqb (strong w (h_inst hd)) n).
  { intros n. f_equal. unfold strong. rewrite A2. 
    rewrite <- (insert_id (w_handles w) h hd Hh) at 2. rewrite <- (insert_delete_insert (w_handles w) h hd), <- (insert_delete_insert (w_handles w)).
    rewrite !map_to_list_insert by apply lookup_delete.
    rewrite !filter_cons. cbn [snd]. rewrite !decide_True by reflexivity. reflexivity. }
  unfold ldrop_arc. rewrite Hs. split.
  - intros Hlast. rewrite (proj2 (strong_1 w h hd Hh) Hlast). cbn [Nat.eqb]. rewrite A1, Hx.
    unfold orphan. rewrite (io_join _ _ _ _ _ _ _ I). cbn [negb andb].
    rewrite <- A1 in Hx. destruct (ldrain_join E bad (k + 1) w1 (h_inst hd) x Hx) as (y & Hy & Jy).
    pose proof (ldrain_ge E bad (k + 1) w1 (h_inst hd)) as Hge.
    destruct (ldrain E bad (k + 1) w1 (h_inst hd)) as [k2 w2]. cbn [fst snd] in Hy, Hge. rewrite Hy, Jy, (io_join _ _ _ _ _ _ _ I).
    destruct (i_io y); [|eauto]. rewrite (Hb (k2 + 1)) by lia. rewrite orb_true_r. eauto.
  - intros (h' & hd' & Hh' & Hi & Hne). destruct (Nat.eqb_spec (strong w (h_inst hd)) 1) as [H1|H1].
    { exfalso. apply Hne. apply (proj1 (strong_1 w h hd Hh) H1 h' hd' Hh' Hi). }
    eexists _, _. split; [reflexivity|]. intros h2 p key k2 Hh2. assert (h2 <> h) by congruence.
    cbn [lstep set_handles w_handles]. rewrite lookup_delete_ne, A2, lookup_insert_ne, Hh2 by congruence. reflexivity.
Qed.

(** * What does not hold *)

(** The wished-for property: whatever a logger does, the store gives the same
    answers. *)
Definition logging_never_matters (E : env) : Prop :=
  forall keyof bad es w rs, ordinary E keyof es -> run E world0 es = Some (w, rs) ->
  exists k w', lrun E bad 0 world0 es = Some (Ran k w' rs).

(** The log thread dies at line [n], at level Info; from line [m] on all is
    well again (a new process, or logging was turned off). *)
Definition first_life (n m : N) (k : N) (lv : level) : bool := (k <? m) && dead_from n Logging.Info k lv.

Definition bs (n : nat) : value := VBytes (repeat x00 n).

(** Two keys are stored and written; an overwrite of the first compacts the
    file, which has to grow for that: the line announcing it comes when the
    old records are gone already. *)
Definition ex_loss : list event :=
  [ENew 0 dir_d ex_key; EPut 0 k1 (bs 2); EPut 0 k2 (bs 20); EIo 0; EIo 0; EPut 0 k1 (bs 20); EIo 0; EGet 0 k2 TBytes;
   EDrop 0; ENew 1 dir_d ex_key; EGet 1 k1 TBytes; EGet 1 k2 TBytes].

(** A key whose put had returned Ok, whose record was written and which was
    not touched since is gone when the store is opened again. *)
Theorem C61_logging_loses_data_refuted : ~ logging_never_matters (ex_env FPlain).
Proof.
  intros H.
  assert (T : match run (ex_env FPlain) world0 ex_loss, lrun (ex_env FPlain) (first_life 4 5) 0 world0 ex_loss with
    | Some (_, rs), Some (Ran _ _ rs') => match nth_error rs 11, nth_error rs' 11 with Some (ROk (Some _)), Some (RErr KeyNotFound) => true | _, _ => false end
    | _, _ => false end = true) by (vm_compute; reflexivity).
  destruct (run (ex_env FPlain) world0 ex_loss) as [[w rs]|] eqn:Hr; [|discriminate T].
  destruct (H ex_keyof (first_life 4 5) ex_loss w rs) as (k & w' & G); [|exact Hr|].
  { apply ordinaryb_ok; [apply ex_env_ok; exact Logic.I|vm_compute; reflexivity]. }
  rewrite G in T. destruct (nth_error rs 11) as [[[?|]|[]|]|]; discriminate T.
Qed.

(** [clear_data] whose first line fails lets go of the background thread with
    the removal still to do.  A store opened there afterwards and used as
    usual loses everything when the thread gets to it. *)
Definition ex_orphan : list event :=
  [ENew 0 dir_d ex_key; EPut 0 k1 (bs 2); EIo 0; EClear 0; EDrop 0;
   ENew 1 dir_d ex_key; EPut 1 k2 (bs 3); EIo 1; EIo 0; EGet 1 k2 TBytes; EDrop 1;
   ENew 2 dir_d ex_key; EGet 2 k2 TBytes].

Theorem C61_a_thread_left_behind :
  ordinary (ex_env FPlain) ex_keyof ex_orphan /\
  option_map (fun wr => drop 5 (snd wr)) (run (ex_env FPlain) world0 ex_orphan) =
    Some [ROk None; ROk None; ROk None; ROk None; ROk (Some (bs 3)); ROk None; ROk None; ROk (Some (bs 3))] /\
  match lrun (ex_env FPlain) (fun k _ => k =? 1) 0 world0 ex_orphan with
  | Some (Ran _ _ rs) => drop 3 rs =
      [RPanic; ROk None; ROk None; ROk None; ROk None; ROk None; ROk (Some (bs 3)); ROk None; ROk None; RErr KeyNotFound]
  | _ => False
  end.
Proof.
  split; [apply ordinaryb_ok; [apply ex_env_ok; exact Logic.I|vm_compute; reflexivity]|]. split; vm_compute; reflexivity.
Qed.

(** * Examples *)

Definition the_results (o : option lend) : option (list result) := match o with Some (Ran _ _ rs) => Some rs | _ => None end.

(** The hypotheses are met by a history with a compaction that has to grow the
    file, a close and a reopening; eleven lines are written in it. *)
Example C61_example :
  ordinary (ex_env FPlain) ex_keyof ex_loss /\ whole_drops ex_loss /\ drops_clean (ex_env FPlain) world0 ex_loss /\ settled world0 /\
  match lrun (ex_env FPlain) (fun _ _ => false) 0 world0 ex_loss with Some (Ran k _ rs) => k = 11 /\ length rs = 12%nat | _ => False end /\
  the_results (lrun (ex_env FPlain) (fun _ lv => match lv with Logging.Error | Logging.Warn => true | _ => false end) 0 world0 ex_loss)
    = results (ex_env FPlain) ex_loss.
Proof.
  split; [apply ordinaryb_ok; [apply ex_env_ok; exact Logic.I|vm_compute; reflexivity]|].
  split; [intros h; split; intros H; repeat (destruct H as [H|H]; [discriminate H|]); exact H|].
  split.
  { intros es1 h es2 w1 rs1 H Hr. assert (Hl : length es1 = 8%nat).
    { assert (G : nth_error ex_loss (length es1) = Some (EDrop h)) by (rewrite H, nth_error_app2, Nat.sub_diag by lia; reflexivity).
      do 13 (destruct es1 as [|? es1]; [first [reflexivity|discriminate G]|cbn [length nth_error ex_loss] in G]). destruct (length es1); discriminate G. }
    assert (es1 = firstn 8 ex_loss) as -> by (rewrite H, firstn_app, Hl, Nat.sub_diag, firstn_all2, app_nil_r by lia; reflexivity).
    assert (T : match run (ex_env FPlain) world0 (firstn 8 ex_loss) with Some (w, _) => w_poison w = false | None => True end) by (vm_compute; reflexivity).
    rewrite Hr in T. exact T. }
  split; [apply settled_0|]. split; vm_compute; auto.
Qed.

(** A failing line in a compacting write, as in the theorem. *)
Example C61_write_example :
  let es := firstn 6 ex_loss in
  match run (ex_env FPlain) world0 es with
  | Some (w, _) => match w_insts w !! 0 with
     | Some x => e_canon (ex_env FPlain) dir_d = i_dir x /\ (exists m dup q, i_queue x = JWrite m dup :: q) /\
         forall n, In n [1; 2; 3; 4; 5; 6] ->
           match w_insts (snd (lrun_job (ex_env FPlain) (first_life n 7) 1 w 0)) !! 0 with Some y => i_io y = IoDead | None => False end
     | None => False end
  | None => False end.
Proof.
  cbv zeta.
  assert (T : match run (ex_env FPlain) world0 (firstn 6 ex_loss) with
  | Some (w, _) => match w_insts w !! 0 with
     | Some x => bool_decide (e_canon (ex_env FPlain) dir_d = i_dir x) && match i_queue x with JWrite _ _ :: _ => true | _ => false end &&
         forallb (fun n => match w_insts (snd (lrun_job (ex_env FPlain) (first_life n 7) 1 w 0)) !! 0 with
           | Some y => match i_io y with IoDead => true | IoRun => false end | None => false end) [1; 2; 3; 4; 5; 6]
     | None => false end
  | None => false end = true) by (vm_compute; reflexivity).
  destruct (run (ex_env FPlain) world0 (firstn 6 ex_loss)) as [[w rs]|]; [|discriminate T].
  destruct (w_insts w !! 0) as [x|]; [|discriminate T]. apply andb_true_iff in T as [T Tn]. apply andb_true_iff in T as [Td Tq].
  apply bool_decide_eq_true in Td. split; [exact Td|]. split.
  - destruct (i_queue x) as [|[m dup|] q]; try discriminate Tq. eauto.
  - intros n Hn. rewrite forallb_forall in Tn. specialize (Tn n Hn).
    destruct (w_insts _ !! 0) as [y|]; [|discriminate Tn]. destruct (i_io y); [discriminate Tn|reflexivity].
Qed.

(** Opening without a log thread, at the three kinds of level. *)
Example C61_open_example :
  map (fun t => match lrun (ex_env FPlain) (dead_from 1 t) 0 world0 [ENew 0 dir_d ex_key; ENew 1 dir_e ex_key] with
                | Some (Ran _ _ rs) => Some (true, rs) | Some (Aborted _ rs) => Some (false, rs) | None => None end)
    [Logging.Verbose; Logging.Info; Logging.Warn] =
  [Some (false, [ROk None]); Some (true, [ROk None; RPanic]); Some (true, [ROk None; ROk None])].
Proof. vm_compute. reflexivity. Qed.

(** Two handles of one store, the log thread gone from the fourth line on. *)
Example C61_without_a_log_thread_example :
  let es := [ENew 0 dir_d ex_key; EPut 0 k1 (bs 2); ENew 1 dir_d ex_key] in
  ordinary (ex_env FPlain) ex_keyof (es ++ [EDrop 0; EDrop 1]) /\
  (forall k', 3 <= k' -> dead_from 3 Logging.Verbose k' Logging.Debug = true) /\
  the_results (lrun (ex_env FPlain) (dead_from 3 Logging.Verbose) 0 world0 (es ++ [EDrop 0])) = the_results (lrun (ex_env FPlain) (fun _ _ => false) 0 world0 (es ++ [EDrop 0])) /\
  the_results (lrun (ex_env FPlain) (dead_from 2 Logging.Verbose) 0 world0 (es ++ [EDrop 0; ENew 2 dir_e ex_key])) = Some [ROk None; ROk None; ROk None; RPanic; RPanic] /\
  match lrun (ex_env FPlain) (dead_from 3 Logging.Verbose) 0 world0 (es ++ [EDrop 0; EDrop 1]) with Some (Aborted _ rs) => rs = [ROk None; ROk None; ROk None; ROk None] | _ => False end /\
  the_results (lrun (ex_env FPlain) (dead_from 2 Logging.Verbose) 0 world0 (es ++ [EClear 1; EGet 0 k1 TBytes])) = Some [ROk None; ROk None; ROk None; RPanic; RErr LockError].
Proof.
  split; [apply ordinaryb_ok; [apply ex_env_ok; exact Logic.I|vm_compute; reflexivity]|].
  split. { intros k' Hk. unfold dead_from. replace (3 <=? k') with true by lia. reflexivity. }
  repeat split; vm_compute; reflexivity.
Qed.
