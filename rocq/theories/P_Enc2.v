(** C38, C39, C44: the nonce and the record numbers of an encrypted store
    over its life, and wrong keys. *)
From Verif Require Import Bytes Utf8 Proto ProtoFacts Crc8 Value Codec Store StoreFacts Encrypt World Spec Hyps Refine WorldInv WorldStep Main Frames Reach Examples P_Map P_Store Slots Crash P_Kill P_Corrupt P_Enc.
From Coq Require Import ZifyBool ZifyNat ZifyN.
From Coq Require String. Import (notations) String.
Local Open Scope N_scope.

(** * The disk along a trace *)

(** The same files with the same contents. *)
Definition disk_eq (w w' : world) : Prop := (forall d, dir_of w' d = dir_of w d) /\ (forall j, inode w' j = inode w j).

Lemma disk_eq_file w w' d : disk_eq w w' -> file_at w' d = file_at w d.
Proof. intros [A B]. unfold file_at. rewrite A. destruct (d_data (dir_of w d)); cbn; [rewrite B|]; reflexivity. Qed.

Lemma disk_eq_meta w w' d : disk_eq w w' -> meta_at w' d = meta_at w d.
Proof. intros [A _]. unfold meta_at. rewrite A. reflexivity. Qed.

(** Background work does not look at handles and the registry. *)
Definition rehandle (w : world) (r : gmap bytes N) (h : gmap N handle) : world := set_handles (set_reg w r) h.

Lemma run_job_rehandle E w r h i : run_job E (rehandle w r h) i = rehandle (run_job E w i) r h.
Proof.
  unfold run_job, rehandle. cbn [set_handles set_reg w_insts]. destruct (w_insts w !! i) as [x|]; [|reflexivity].
  destruct (i_io x), (i_queue x) as [|[m dup|] q]; try reflexivity.
  change (i_st (set_handles (set_reg w r) h) x) with (i_st w x). destruct (write _ _ _ _ _) as [s ok]. reflexivity.
Qed.

Lemma iter_job_rehandle E w r h i k :
  Nat.iter k (fun w => run_job E w i) (rehandle w r h) = rehandle (Nat.iter k (fun w => run_job E w i) w) r h.
Proof. induction k as [|k IH]; [reflexivity|]. cbn [Nat.iter nat_rect]. unfold Nat.iter in IH. rewrite IH. apply run_job_rehandle. Qed.

Lemma iter_shift {A} (f : A -> A) k x : Nat.iter k f (f x) = f (Nat.iter k f x).
Proof. induction k as [|k IH]; [reflexivity|]. simpl. f_equal. exact IH. Qed.

Lemma run_ios E i k : forall w,
  run E w (repeat (EIo i) k) = Some (Nat.iter k (fun w => run_job E w i) w, repeat (ROk None) k).
Proof.
  induction k as [|k IH]; intros w; [reflexivity|]. cbn [repeat run step]. rewrite IH. f_equal. f_equal.
  exact (iter_shift (fun w0 => run_job E w0 i) k w).
Qed.

(** Closing a handle does to the disk what some background work does. *)
Lemma drop_is_work E w h w' r :
  w_poison w = false -> step E w (EDrop h) = Some (w', r) ->
  exists i k w1 rs1, run E w (repeat (EIo i) k) = Some (w1, rs1) /\ disk_eq w1 w' /\
    (forall j x, w_insts w' !! j = Some x -> w_insts w1 !! j = Some x).
Proof.
  intros Hpo Hst. cbn [step] in Hst. unfold with_handle in Hst. destruct (w_handles w !! h) as [hd|]; [|discriminate Hst].
  destruct (h_unreg hd); [discriminate Hst|]. injection Hst as Hst. unfold do_drop_reg in Hst. rewrite Hpo in Hst.
  set (hs := <[h := Handle (h_path hd) (h_key hd) (h_inst hd) true]>) in Hst.
  assert (Hw : exists rg, set_handles (if Nat.eqb (strong w (h_inst hd)) 1 then set_reg w (delete (h_path hd) (w_reg w)) else w)
      (hs (w_handles (if Nat.eqb (strong w (h_inst hd)) 1 then set_reg w (delete (h_path hd) (w_reg w)) else w))) = rehandle w rg (hs (w_handles w))).
  { destruct (Nat.eqb (strong w (h_inst hd)) 1); [exists (delete (h_path hd) (w_reg w)); reflexivity|exists (w_reg w); unfold rehandle; destruct w; reflexivity]. }
  destruct Hw as (rg & Hw). rewrite Hw in Hst. unfold do_drop_arc in Hst.
  destruct (Nat.eqb (strong (rehandle w rg (hs (w_handles w))) (h_inst hd)) 1).
  - unfold drain in Hst. change (w_insts (rehandle w rg (hs (w_handles w)))) with (w_insts w) in Hst.
    destruct (w_insts w !! h_inst hd) as [x|] eqn:Hx.
    + exists (h_inst hd), (length (i_queue x)). eexists _, _. split; [apply run_ios|].
      rewrite iter_job_rehandle in Hst. injection Hst as <- _. split; [split; reflexivity|].
      intros j y Hy. cbn in Hy. apply lookup_delete_Some in Hy as [_ Hy]. exact Hy.
    + exists 0, 0%nat, w, []. split; [reflexivity|]. injection Hst as <- _. split; [split; reflexivity|].
      intros j y Hy. cbn in Hy. apply lookup_delete_Some in Hy as [_ Hy]. exact Hy.
  - exists 0, 0%nat, w, []. split; [reflexivity|]. injection Hst as <- _. split; [split; reflexivity|]. intros j y Hy. exact Hy.
Qed.

Lemma ordinary_ios E keyof es i k : ordinary E keyof es -> ordinary E keyof (es ++ repeat (EIo i) k).
Proof.
  intros [A B C D]. assert (Hp : paths (repeat (EIo i) k) = []) by (induction k; [reflexivity|assumption]).
  assert (Hw : writes (repeat (EIo i) k) = 0).
  { clear Hp. induction k as [|k IH]; [reflexivity|]. cbn [repeat]. rewrite writes_cons, IH. reflexivity. }
  split.
  - exact A.
  - apply Forall_app. split; [exact B|]. apply Forall_forall. intros e He. apply elem_of_list_In, repeat_spec in He. subst e. exact Logic.I.
  - intros p p'. rewrite paths_app, Hp, app_nil_r. apply C.
  - rewrite writes_app, Hw, N.add_0_r. exact D.
Qed.

Lemma ordinary_snoc_io E keyof es i : ordinary E keyof es -> ordinary E keyof (es ++ [EIo i]).
Proof. intros H. exact (ordinary_ios E keyof es i 1 H). Qed.

Lemma run_snoc E w0 es w rs e w' r : run E w0 es = Some (w, rs) -> step E w e = Some (w', r) -> run E w0 (es ++ [e]) = Some (w', rs ++ [r]).
Proof. intros A B. rewrite run_app, A. cbn [run]. rewrite B. reflexivity. Qed.

(** A background step of a reachable world: nothing, or a write. *)
Lemma io_cases E keyof es w rs0 i :
  ordinary E keyof es -> run E world0 es = Some (w, rs0) ->
  run_job E w i = w \/ exists x m dup q, w_insts w !! i = Some x /\ i_queue x = JWrite m dup :: q.
Proof.
  intros HO Hr. destruct (w_insts w !! i) as [x|] eqn:Hx; [|left; unfold run_job; rewrite Hx; reflexivity].
  destruct (reach_inst E keyof es w rs0 i x HO Hr Hx) as (Hrun & _ & _ & q & _ & _ & Q & _).
  destruct q as [|[m dup] q]; [left; unfold run_job; rewrite Hx, Hrun, Q; reflexivity|].
  right. exists x, m, dup, (map jw q). split; [reflexivity|exact Q].
Qed.

Lemma io_meta_same E keyof es w rs0 i d :
  ordinary E keyof es -> run E world0 es = Some (w, rs0) -> meta_at (run_job E w i) d = meta_at w d.
Proof.
  intros HO Hr. destruct (io_cases E keyof es w rs0 i HO Hr) as [->|(x & m & dup & q & Hx & Hq)]; [reflexivity|].
  destruct (reach_inst E keyof es w rs0 i x HO Hr Hx) as (Hrun & _). unfold run_job. rewrite Hx, Hrun, Hq.
  destruct (write _ _ _ _ _) as [s ok]. reflexivity.
Qed.

Lemma ios_meta_same E keyof i d k : forall es w rs0 w1 rs1,
  ordinary E keyof es -> run E world0 es = Some (w, rs0) -> run E w (repeat (EIo i) k) = Some (w1, rs1) -> meta_at w1 d = meta_at w d.
Proof.
  induction k as [|k IH]; intros es w rs0 w1 rs1 HO Hr H1; [injection H1 as <- _; reflexivity|].
  cbn [repeat run step] in H1. destruct (run E (run_job E w i) (repeat (EIo i) k)) as [[w2 rs2]|] eqn:H2; [|discriminate H1]. injection H1 as <- _.
  rewrite (IH (es ++ [EIo i]) (run_job E w i) (rs0 ++ [ROk None]) w2 rs2); [|apply ordinary_snoc_io, HO| |exact H2].
  - eapply io_meta_same; eassumption.
  - eapply run_snoc; [exact Hr|reflexivity].
Qed.

(** Opening a directory leaves an existing data file and its nonce alone. *)
Lemma new_keeps E keyof es w rs0 h p key w' r d f :
  ordinary E keyof (es ++ [ENew h p key]) -> run E world0 es = Some (w, rs0) -> step E w (ENew h p key) = Some (w', r) ->
  file_at w d = Some f -> file_at w' d = Some f /\ meta_at w' d = meta_at w d.
Proof.
  intros HO Hr Hst Hf. pose proof (ordinary_app_l _ _ _ _ HO) as HO1.
  destruct (reach_prefix E keyof _ HO es [ENew h p key] w rs0 eq_refl Hr) as (sp & Hs & W).
  pose proof (or_calls _ _ _ HO) as HC. apply Forall_app in HC as [_ HC]. apply Forall_cons in HC as [Hc _]. cbn in Hc. destruct Hc as (Hd & Hk & Hfk).
  destruct (decide (e_canon E p = d)) as [<-|Hne].
  - destruct (tampered_dir E keyof es w rs0 _ f HO1 Hr Hf) as (ino & nonce & Hdata & Hino & _ & HM).
    pose proof (reach_file E keyof es w rs0 _ f HO1 Hr Hf) as (s & rs & Hs' & (I & _)).
    cbn [step] in Hst. destruct (w_handles w !! h); [discriminate Hst|]. injection Hst as Hst. unfold do_new in Hst.
    rewrite (wi_poison _ _ _ _ _ _ _ W) in Hst. destruct (lookup_reg w p) as [i|]; [injection Hst as <- _; auto|].
    assert (Hcn : config_new (e_plat E) f = f).
    { destruct (inv_file _ _ _ _ _ I) as (c & sl & _ & Hfe). unfold config_new. rewrite Hs' in Hfe.
      destruct (N.eqb_spec (len f) 0) as [H0|]; [|reflexivity]. unfold shape in Hfe. rewrite Hfe, len_app, len_be in H0. lia. }
    unfold open_impl in Hst. rewrite Hd in Hst. cbv zeta in Hst. unfold open_config in Hst. rewrite Hdata, Hino, Hcn in Hst.
    destruct (feature_key (e_feat E) key) as [k|]; [|congruence].
    assert (G : forall w1 : world, w1 = set_inode w ino f -> let '(w2, nc) := open_nonce E w1 (e_canon E p) in
       file_at w2 (e_canon E p) = Some f /\ meta_at w2 (e_canon E p) = meta_at w (e_canon E p)).
    { intros w1 ->. unfold open_nonce. destruct (e_feat E) as [|A]; cbn [is_encrypted].
      - split; [|reflexivity]. unfold file_at, dir_of, inode in *. cbn. rewrite Hdata. cbn. rewrite lookup_insert. reflexivity.
      - destruct HM as [HM HL]. change (d_meta (dir_of (set_inode w ino f) (e_canon E p))) with (d_meta (dir_of w (e_canon E p))).
        unfold init_nonce. rewrite HM, HL. change (Nat.eqb nonce_len nonce_len) with true. cbv iota.
        unfold file_at, meta_at, dir_of, inode in *. cbn. rewrite lookup_insert. cbn. rewrite HM.
        change (default (Dir None None) (w_dirs w !! e_canon E p)) with (default (Dir None None) (w_dirs w !! e_canon E p)).
        rewrite Hdata. cbn. rewrite lookup_insert. auto. }
    specialize (G _ eq_refl). destruct (open_nonce E (set_inode w ino f) (e_canon E p)) as [w2 nc].
    destruct (open_file _ _ _ _) as [[s2 m2]|]; injection Hst as <- _; exact G.
  - destruct (step_frame E (or_env _ _ _ HO) keyof _ (PU_dir E keyof _ HO) (PU_key E keyof _ HO) (PU_inj E keyof _ HO) w sp _ _ (ENew h p key) w' r d W) as [A B].
    { cbn. auto. } { apply (or_room _ _ _ HO1). } { exact Hst. } { cbn. congruence. }
    split; [rewrite A; exact Hf|exact B].
Qed.

(** * C39 *)

(** Every encrypted store has a nonce file of 11 bytes, and its live
    instance, if any, uses exactly that nonce. *)
Theorem C39_nonce_file_has_11_bytes E A keyof es w rs0 d f :
  ordinary E keyof es -> run E world0 es = Some (w, rs0) -> e_feat E = FEncrypted A -> file_at w d = Some f ->
  exists n, meta_at w d = Some n /\ length n = 11%nat /\
    forall i x, w_insts w !! i = Some x -> i_dir x = d -> i_nonce x = n.
Proof.
  intros HO Hr HF Hf. destruct (tampered_dir E keyof es w rs0 d f HO Hr Hf) as (ino & n & _ & _ & _ & HM).
  rewrite HF in HM. destruct HM as [HM HL]. exists n. split_and!; [exact HM|exact HL|].
  intros i x Hx Dx. destruct (reach E keyof es HO w rs0 Hr) as (sp & _ & W). destruct (wi_insts _ _ _ _ _ _ _ W i x Hx) as (_ & I & _).
  pose proof (io_meta _ _ _ _ _ _ _ I) as M. unfold meta_ok in M. rewrite HF in M. destruct M as [M _]. rewrite Dx, HM in M. congruence.
Qed.

Lemma open_impl_meta E w p key w' y A : e_feat E = FEncrypted A -> open_impl E w p key = (w', Some y) ->
  meta_at w' (e_canon E p) = Some (fst (init_nonce (meta_at w (e_canon E p)) (e_rng E (w_rng w)))).
Proof.
  intros HF H. unfold open_impl in H. destruct (e_dir_ok E p); [|discriminate H]. cbv zeta in H. set (d := e_canon E p) in *.
  destruct (open_config E w d) as [w1 ino] eqn:Ec. destruct (feature_key _ key) as [k|]; [|discriminate H].
  assert (H1 : d_meta (dir_of w1 d) = meta_at w d /\ w_rng w1 = w_rng w).
  { unfold open_config in Ec. unfold meta_at. destruct (d_data (dir_of w d)); injection Ec as <- <-; split; try reflexivity.
    unfold dir_of at 1. cbn. rewrite lookup_insert. reflexivity. }
  destruct H1 as [H1 H2]. destruct (open_nonce E w1 d) as [w2 nonce] eqn:En.
  assert (Hw : meta_at w2 d = Some (fst (init_nonce (meta_at w d) (e_rng E (w_rng w))))).
  { unfold open_nonce in En. rewrite HF in En. cbn [is_encrypted] in En. rewrite H1, H2 in En.
    destruct (init_nonce (meta_at w d) (e_rng E (w_rng w))) as [a b] eqn:Ei. injection En as <- <-.
    unfold meta_at, dir_of. cbn. rewrite lookup_insert. cbn. f_equal.
    unfold init_nonce in Ei. destruct (meta_at w d) as [n0|]; [destruct (Nat.eqb _ _)|]; congruence. }
  destruct (open_file _ _ _ _) as [[s m]|]; [|discriminate H]. injection H as <- _. exact Hw.
Qed.

(** The first open of a directory creates the nonce file, with what the
    random generator delivers. *)
Theorem C39_first_open_creates_the_nonce E A keyof es w rs0 h p key w' r :
  ordinary E keyof (es ++ [ENew h p key]) -> run E world0 es = Some (w, rs0) -> e_feat E = FEncrypted A ->
  file_at w (e_canon E p) = None -> meta_at w (e_canon E p) = None -> step E w (ENew h p key) = Some (w', r) ->
  r = ROk None /\ meta_at w' (e_canon E p) = Some (e_rng E (w_rng w)) /\ length (e_rng E (w_rng w)) = 11%nat.
Proof.
  intros HO Hr HF Hf Hm Hst. destruct (reach_prefix E keyof _ HO es [ENew h p key] w rs0 eq_refl Hr) as (sp & Hs & W).
  pose proof (or_calls _ _ _ HO) as HC. apply Forall_app in HC as [_ HC]. apply Forall_cons in HC as [Hc _]. cbn in Hc. destruct Hc as (Hd & -> & Hfk).
  assert (Up : PU (es ++ [ENew h p (keyof (e_canon E p))]) p) by (unfold PU; rewrite paths_app; apply in_or_app; right; left; reflexivity).
  cbn [step] in Hst. destruct (w_handles w !! h) eqn:Hh; [discriminate Hst|]. injection Hst as Hst.
  destruct (new_step E (or_env _ _ _ HO) keyof _ (PU_dir E keyof _ HO) (PU_key E keyof _ HO) (PU_inj E keyof _ HO) w sp _ _ h p W Hh Up) as (w2 & Hn & _).
  rewrite Hn in Hst. injection Hst as <- <-. split; [reflexivity|]. split; [|apply (eo_rng _ (or_env _ _ _ HO))].
  unfold do_new in Hn. rewrite (wi_poison _ _ _ _ _ _ _ W), (lookup_reg_inv E keyof _ w sp _ _ p W) in Hn.
  destruct (w_reg w !! p) as [i|] eqn:Hreg.
  { destruct (wi_reg _ _ _ _ _ _ _ W p i Hreg) as (_ & x & Hx & Dx). destruct (wi_insts _ _ _ _ _ _ _ W i x Hx) as (_ & I & _).
    pose proof (io_data _ _ _ _ _ _ _ I) as D. rewrite Dx in D. unfold file_at in Hf. rewrite D in Hf. discriminate Hf. }
  destruct (open_impl E w p (keyof (e_canon E p))) as [w1 [y|]] eqn:Eo; [|discriminate Hn]. injection Hn as <-.
  pose proof (open_impl_meta E w p _ w1 y A HF Eo) as G. rewrite Hm in G. exact G.
Qed.

(** No later call except clear_data changes it: opening again, also after
    all handles were closed, uses the same nonce. *)
Theorem C39_nonce_is_kept E keyof es w rs0 e w' r d f :
  ordinary E keyof (es ++ [e]) -> run E world0 es = Some (w, rs0) -> step E w e = Some (w', r) -> file_at w d = Some f ->
  (forall h hd, e = EClear h -> w_handles w !! h = Some hd -> e_canon E (h_path hd) <> d) ->
  meta_at w' d = meta_at w d.
Proof.
  intros HO Hr Hst Hf Hcl. pose proof (ordinary_app_l _ _ _ _ HO) as HO1.
  pose proof (or_calls _ _ _ HO) as HC. apply Forall_app in HC as [_ HC]. apply Forall_cons in HC as [Hc _].
  destruct (reach_prefix E keyof _ HO es [e] w rs0 eq_refl Hr) as (sp & Hs & W).
  destruct e as [h path key|h key v|h key|h key t|h key t|h key|h|h|h|h|i|]; cbn [call_ok] in Hc; try contradiction.
  - eapply new_keeps; eassumption.
  - cbn [step] in Hst. unfold with_handle, on_inst in Hst. destruct (w_handles w !! h) as [hd|]; [|discriminate Hst].
    destruct (h_unreg hd); [discriminate Hst|]. destruct (w_insts w !! h_inst hd) as [x|]; [|injection Hst as <- _; reflexivity].
    destruct (inst_put x key v) as [x' r']. injection Hst as <- _. reflexivity.
  - cbn [step] in Hst. unfold with_handle, on_inst in Hst. destruct (w_handles w !! h) as [hd|]; [|discriminate Hst].
    destruct (h_unreg hd); [discriminate Hst|]. destruct (w_insts w !! h_inst hd) as [x|]; injection Hst as <- _; reflexivity.
  - cbn [step] in Hst. unfold with_handle, on_inst in Hst. destruct (w_handles w !! h) as [hd|]; [|discriminate Hst].
    destruct (h_unreg hd); [discriminate Hst|]. destruct (w_insts w !! h_inst hd) as [x|]; [|injection Hst as <- _; reflexivity].
    destruct (inst_delete x key) as [x' r']. injection Hst as <- _. reflexivity.
  - destruct (w_handles w !! h) as [hd|] eqn:Hh; [|cbn [step] in Hst; unfold with_handle in Hst; rewrite Hh in Hst; discriminate Hst].
    apply (step_frame E (or_env _ _ _ HO) keyof _ (PU_dir E keyof _ HO) (PU_key E keyof _ HO) (PU_inj E keyof _ HO) w sp _ _ (EClear h) w' r d W);
      [exact Logic.I|apply (or_room _ _ _ HO1)|exact Hst|]. cbn. rewrite Hh. cbn. intros [= Heq]. apply (Hcl h hd); auto.
  - destruct (drop_is_work E w h w' r (wi_poison _ _ _ _ _ _ _ W) Hst) as (i & k & w1 & rs1 & H1 & H2 & _).
    rewrite (disk_eq_meta w1 w' d H2). eapply ios_meta_same; eassumption.
  - cbn [step] in Hst. injection Hst as <- _. eapply io_meta_same; eassumption.
Qed.

(** clear_data removes the nonce file; the store goes on with a fresh one. *)
Theorem C39_clear_makes_a_new_nonce E A keyof es w rs0 h hd w' r :
  ordinary E keyof es -> run E world0 es = Some (w, rs0) -> e_feat E = FEncrypted A ->
  w_handles w !! h = Some hd -> step E w (EClear h) = Some (w', r) ->
  r = ROk None /\ meta_at w' (e_canon E (h_path hd)) = Some (e_rng E (w_rng w)) /\ length (e_rng E (w_rng w)) = 11%nat.
Proof.
  intros HO Hr HF Hh Hst. destruct (reach E keyof es HO w rs0 Hr) as (sp & Hs & W). pose proof (or_env _ _ _ HO) as HE.
  cbn [step] in Hst. unfold with_handle in Hst. rewrite Hh in Hst.
  destruct (handle_cases E keyof _ w sp _ _ h hd W Hh) as (Hsp & Hun & Up & Hk & Hreg & x & Hx & Dx & I). rewrite Hun in Hst. injection Hst as Hst.
  destruct (clear_step E HE keyof _ (PU_dir E keyof _ HO) (PU_key E keyof _ HO) (PU_inj E keyof _ HO) w sp _ _ h hd W Hh (or_room _ _ _ HO)) as (w2 & Hcl & _).
  rewrite Hcl in Hst. injection Hst as <- <-. split; [reflexivity|]. split; [|apply (eo_rng _ HE)].
  unfold do_clear in Hcl. rewrite Hx, (io_poison _ _ _ _ _ _ _ I) in Hcl.
  unfold impl_clear in Hcl. rewrite (io_valid _ _ _ _ _ _ _ I) in Hcl. cbn [negb] in Hcl.
  unfold post in Hcl. cbn [i_invalid i_sender i_io i_queue] in Hcl.
  rewrite (io_sender _ _ _ _ _ _ _ I), (io_run _ _ _ _ _ _ _ I) in Hcl.
  destruct (io_state _ _ _ _ _ _ _ I) as (q & rs & c & B1 & B2 & B3 & B4 & B5 & B6 & B7).
  set (x1 := i_with_queue (i_invalid x) (i_queue x ++ [JRemove])) in Hcl.
  set (w1 := set_inst w (h_inst hd) x1) in Hcl.
  assert (Hx1 : w_insts w1 !! h_inst hd = Some x1) by apply lookup_insert.
  assert (Hq1 : i_queue x1 = map jw q ++ [JRemove]) by (cbn; rewrite B1; reflexivity).
  assert (Hrun1 : i_io x1 = IoRun) by exact (io_run _ _ _ _ _ _ _ I).
  assert (B3' : WOk E (i_codec E x1) (i_st w1 x1) rs c) by (eapply WOk_ext; [..|exact B3]; reflexivity).
  destruct (run_writes E (Rp := clean E) HE q w1 (h_inst hd) x1 rs c [JRemove] Hx1 Hrun1 Hq1 B2 B3') as (s & rs' & Er & Ws & Rs & _).
  { eapply room_mono; [|apply (or_room _ _ _ HO)]. lia. }
  unfold drain in Hcl. rewrite Hx1, Hq1, app_length, map_length in Hcl. cbn [length] in Hcl.
  rewrite Nat.add_1_r, Nat.iter_succ, Er in Hcl.
  set (wa := set_seed _ _) in Hcl.
  set (dd2 := Dir None (if is_encrypted (e_feat E) then None else d_meta (dir_of wa (i_dir x1)))).
  set (y2 := i_with_queue (i_after x1 [JRemove] IoRun s) []).
  assert (Erm : run_job E wa (h_inst hd) = set_inst (set_dir wa (i_dir x1) dd2) (h_inst hd) y2).
  { unfold run_job. unfold wa at 1. cbn [set_seed set_inode set_inst set_insts w_insts]. rewrite lookup_insert. reflexivity. }
  rewrite Erm in Hcl.
  change (w_insts (set_inst (set_dir wa (i_dir x1) dd2) (h_inst hd) y2)) with (<[h_inst hd := y2]> (w_insts wa)) in Hcl.
  rewrite lookup_insert in Hcl. cbn [y2 i_with_queue i_after i_io] in Hcl. fold y2 in Hcl.
  match type of Hcl with context [open_impl E ?w0 _ _] => set (w3 := w0) in Hcl end.
  assert (Hm3 : meta_at w3 (e_canon E (h_path hd)) = None).
  { unfold meta_at, w3. erewrite dir_of_insert by reflexivity. cbn [i_after i_dir x1 i_with_queue i_invalid]. rewrite Dx.
    destruct (decide (e_canon E (h_path hd) = e_canon E (h_path hd))); [|congruence]. unfold dd2. rewrite HF. reflexivity. }
  assert (Hr3 : w_rng w3 = w_rng w) by reflexivity.
  destruct (open_impl E w3 (h_path hd) (h_key hd)) as [w4 [y|]] eqn:Eo; [|discriminate Hcl].
  pose proof (open_impl_meta E w3 _ _ w4 y A HF Eo) as G. rewrite Hm3, Hr3 in G. cbn [init_nonce fst] in G.
  match type of Hcl with (if ?b then _ else _) = _ => destruct b end; injection Hcl as <-; [|exact G]. 
  exact G.
Qed.

(** A nonce file of another length is replaced without a crash. *)
Theorem C39_bad_nonce_is_replaced E A keyof es w rs0 d f n h p :
  ordinary E keyof es -> run E world0 es = Some (w, rs0) -> e_feat E = FEncrypted A ->
  file_at w d = Some f -> In p (paths es) -> e_canon E p = d -> length n <> 11%nat ->
  exists w', step E (tampered_meta w d f (Some n)) (ENew h p (keyof d)) = Some (w', ROk None) /\
    meta_at w' d = Some (e_rng E (w_rng w)) /\ length (e_rng E (w_rng w)) = 11%nat.
Proof.
  intros HO Hr HF Hf Hp Hcp Hn. destruct (PU_call E keyof es HO p Hp) as [_ Hk]. rewrite Hcp, HF in Hk. cbn in Hk.
  destruct (parse_key (keyof d)) as [k|] eqn:Ek; [|congruence].
  destruct (C37_foreign_key_or_nonce E A keyof es w rs0 d f (Some n) h p (keyof d) k _ HO Hr HF Hf Hp Hcp Ek eq_refl)
    as (rs & cs & n0 & _ & _ & _ & w' & A1 & A2 & _).
  exists w'. split; [exact A1|]. split; [|apply (eo_rng _ (or_env _ _ _ HO))]. rewrite A2. f_equal.
  cbn [init_nonce]. destruct (Nat.eqb_spec (length n) nonce_len) as [Hl|]; [|reflexivity]. contradiction.
Qed.

Example C39_example :
  let E := ex_env (FEncrypted toy_aead) in
  ordinary E ex_keyof (ex_two ++ [ENew 0 dir_d ex_key; EClear 0]) /\
  exists w rs0 f w' rs', run E world0 ex_two = Some (w, rs0) /\ file_at w dir_d = Some f /\ meta_at w dir_d = Some (ex_rng 0) /\
    run E w [ENew 0 dir_d ex_key; EClear 0] = Some (w', rs') /\ meta_at w' dir_d = Some (ex_rng 2).
Proof.
  set (E := ex_env (FEncrypted toy_aead)). cbv zeta. split.
  { apply ordinaryb_ok; [apply ex_env_ok, toy_aead_correct|vm_compute; reflexivity]. }
  assert (T : match run E world0 ex_two with
    | Some (w, _) => match file_at w dir_d, meta_at w dir_d, run E w [ENew 0 dir_d ex_key; EClear 0] with
       | Some _, Some n, Some (w', _) => bool_decide (n = ex_rng 0) && match meta_at w' dir_d with Some n' => bool_decide (n' = ex_rng 2) | None => false end
       | _, _, _ => false end
    | None => false end = true) by (vm_compute; reflexivity).
  destruct (run E world0 ex_two) as [[w rs0]|]; [|discriminate T].
  destruct (file_at w dir_d) as [f|] eqn:Hf; [|discriminate T]. destruct (meta_at w dir_d) as [n|] eqn:Hm; [|discriminate T].
  destruct (run E w _) as [[w' rs']|] eqn:Hr; [|discriminate T]. apply andb_true_iff in T as [T1 T2]. apply bool_decide_eq_true in T1. subst n.
  destruct (meta_at w' dir_d) as [n'|] eqn:Hm'; [|discriminate T2]. apply bool_decide_eq_true in T2. subst n'.
  exists w, rs0, f, w', rs'. auto.
Qed.

(** * C38 *)

(** The records in a file are determined by its bytes. *)
Lemma enc_list_unique F key nonce : feature_ok F -> forall rs n rs' c,
  Forall (fun m => kv_ok m = true /\ record_size F m < 2 ^ 32) rs -> Forall (fun m => kv_ok m = true /\ record_size F m < 2 ^ 32) rs' ->
  (forall i, i < n + N.of_nat (length rs) -> record_pos F (i mod 2 ^ 32)) ->
  enc_list (feature_codec F key nonce) (n mod 2 ^ 32) rs = Some c -> enc_list (feature_codec F key nonce) (n mod 2 ^ 32) rs' = Some c -> rs = rs'.
Proof.
  intros HF. pose proof (feature_law F key nonce HF) as HL. induction rs as [|m rs IH]; intros n rs' c HA HA' Hp Hc Hc'.
  - cbn in Hc. injection Hc as <-. destruct rs' as [|m' rs']; [reflexivity|]. cbn [enc_list] in Hc'.
    apply Forall_cons in HA' as [[Hk Hs] _].
    destruct (enc (feature_codec F key nonce) m' (n mod 2 ^ 32)) as [b| |] eqn:Eb; try discriminate Hc'. destruct (enc_list _ _ rs'); [|discriminate Hc'].
    injection Hc' as Hc'. apply app_eq_nil in Hc' as [-> _]. exfalso.
    assert (Hl : forall m p, enc (feature_codec F key nonce) m p = ROk [] -> False).
    { clear. intros m p. destruct F as [|A]; cbn [feature_codec enc crc_codec aes_codec].
      - unfold crc_enc. cbv zeta. discriminate.
      - unfold aes_enc. destruct (stream_encrypt A key nonce (encode_kv m) p) as [x| |]; discriminate. }
    eapply Hl, Eb.
  - cbn [enc_list] in Hc. apply Forall_cons in HA as [[Hk Hs] HA].
    assert (Hpn : record_pos F (n mod 2 ^ 32)) by (apply Hp; cbn [length]; lia).
    destruct (law_rt _ _ _ HL m (n mod 2 ^ 32) [] Hk Hs Hpn) as (b & Eb & Lb & _). rewrite Eb in Hc. rewrite mod32_succ in Hc.
    destruct (enc_list (feature_codec F key nonce) ((n + 1) mod 2 ^ 32) rs) as [c1|] eqn:Ec; [|discriminate Hc]. injection Hc as <-.
    destruct rs' as [|m' rs'].
    { cbn in Hc'. injection Hc' as Hc'. symmetry in Hc'. apply app_eq_nil in Hc' as [-> _]. pose proof (law_min _ _ _ HL m). rewrite <- Lb in H. cbn in H. lia. }
    cbn [enc_list] in Hc'. apply Forall_cons in HA' as [[Hk' Hs'] HA'].
    destruct (law_rt _ _ _ HL m' (n mod 2 ^ 32) [] Hk' Hs' Hpn) as (b' & Eb' & Lb' & _). rewrite Eb' in Hc'. rewrite mod32_succ in Hc'.
    destruct (enc_list (feature_codec F key nonce) ((n + 1) mod 2 ^ 32) rs') as [c1'|] eqn:Ec'; [|discriminate Hc']. injection Hc' as Hc'.
    destruct (law_rt _ _ _ HL m (n mod 2 ^ 32) c1 Hk Hs Hpn) as (b0 & Eb0 & _ & D). rewrite Eb in Eb0. injection Eb0 as <-.
    destruct (law_rt _ _ _ HL m' (n mod 2 ^ 32) c1' Hk' Hs' Hpn) as (b0 & Eb0 & _ & D'). rewrite Eb' in Eb0. injection Eb0 as <-.
    rewrite Hc', D in D'. injection D' as <- _. f_equal. rewrite Eb in Eb'. injection Eb' as <-. apply app_inv_head in Hc'. subst c1'.
    apply (IH (n + 1) rs' c1); auto. intros i Hi. apply Hp. cbn [length]. lia.
Qed.

Lemma holds_unique E keyof w d f rs rs' :
  env_ok E -> len f < 2 ^ 63 -> good_records E rs -> Forall (fun m => kv_ok m = true /\ record_size (e_feat E) m < 2 ^ 32) rs' ->
  holds (dir_codec E keyof w d) f rs -> holds (dir_codec E keyof w d) f rs' -> rs = rs'.
Proof.
  intros HE Hl HG HG' (c & un & Hf & Hc) (c' & un' & Hf' & Hc').
  assert (c = c') as <-.
  { assert (len c < 2 ^ 64 /\ len c' < 2 ^ 64) as [L L'].
    { split; [rewrite Hf, !len_app in Hl|rewrite Hf', !len_app in Hl]; lia. }
    rewrite Hf in Hf'.
    apply app_inj_1 in Hf' as [Hb Hr]; [|rewrite !be_length; reflexivity].
    apply (f_equal unbe) in Hb. rewrite !unbe_be in Hb. change (256 ^ N.of_nat 8) with (2 ^ 64) in Hb. rewrite !N.mod_small in Hb by assumption.
    apply app_inj_1 in Hr as [Hr _]; [exact Hr|]. unfold len in Hb. lia. }
  change 0 with (0 mod 2 ^ 32) in Hc, Hc'. unfold dir_codec in *. eapply enc_list_unique; [apply (eo_feat _ HE)|apply HG|exact HG'| |exact Hc|exact Hc'].
  intros i Hi. rewrite N.add_0_l in Hi. apply (good_positions E rs HG i Hi).
Qed.

(** No nonce reuse: the file after [es1] and the file after [es1 ++ es2] (they
    are the same file if [es2] is empty) never hold different plaintexts
    sealed under the same nonce.  The key of a directory is fixed. *)
Definition no_reuse (E : env) (keyof : bytes -> bytes) (es1 es2 : list event) : Prop :=
  forall w1 q1 w2 q2 d f1 f2 n1 n2 rs1 rs2 i1 i2 m1 m2,
  run E world0 es1 = Some (w1, q1) -> run E world0 (es1 ++ es2) = Some (w2, q2) ->
  file_at w1 d = Some f1 -> file_at w2 d = Some f2 -> meta_at w1 d = Some n1 -> meta_at w2 d = Some n2 ->
  holds (dir_codec E keyof w1 d) f1 rs1 -> holds (dir_codec E keyof w2 d) f2 rs2 -> good_records E rs1 -> good_records E rs2 ->
  rs1 !! i1 = Some m1 -> rs2 !! i2 = Some m2 ->
  stream_nonce n1 (N.of_nat i1) = stream_nonce n2 (N.of_nat i2) -> m1 = m2.

(** Nonces differ if the nonce files or the record numbers do. *)
Lemma stream_nonce_inj n1 n2 p1 p2 : length n1 = length n2 -> p1 < 2 ^ 32 -> p2 < 2 ^ 32 ->
  stream_nonce n1 p1 = stream_nonce n2 p2 -> n1 = n2 /\ p1 = p2.
Proof.
  unfold stream_nonce. intros Hl H1 H2 H. apply app_inj_1 in H as [-> H]; [|exact Hl]. split; [reflexivity|].
  apply app_inj_1 in H as [H _]; [|rewrite !be_length; reflexivity]. apply (f_equal unbe) in H. rewrite !unbe_be in H.
  change (256 ^ N.of_nat 4) with (2 ^ 32) in H. rewrite !N.mod_small in H by assumption. exact H.
Qed.

(** The property as one would wish it. *)
Definition nonces_never_reused (E : env) : Prop :=
  forall A keyof es1 es2, e_feat E = FEncrypted A -> ordinary E keyof (es1 ++ es2) -> no_reuse E keyof es1 es2.

(** It is false: compaction restarts the numbering at 0 under the same
    nonce.  The page is full, the third put overwrites the first key. *)
Definition ex_reuse : list event :=
  [ENew 0 dir_d ex_key; EPut 0 k1 (VI32 5); EPut 0 k2 hello; EIo 0; EIo 0].
Definition ex_reuse2 : list event := [EPut 0 k1 (VI32 7); EIo 0].

(** Does the file hold exactly these records? *)
Definition holdsb (C : codec) (f : bytes) (rs : list kv) : bool :=
  match enc_list C 0 rs with Some c => bool_decide (take (8 + length c) f = be 8 (len c) ++ c) | None => false end.

Lemma holdsb_ok C f rs : holdsb C f rs = true -> holds C f rs.
Proof.
  unfold holdsb. destruct (enc_list C 0 rs) as [c|] eqn:Hc; [|discriminate]. intros T. apply bool_decide_eq_true in T.
  exists c, (drop (8 + length c) f). split; [|exact Hc]. rewrite app_assoc, <- T. symmetry. apply take_drop.
Qed.

Theorem C38_nonce_reuse_refuted : ~ nonces_never_reused (ex_env (FEncrypted toy_aead)).
Proof.
  set (E := ex_env (FEncrypted toy_aead)). intros H.
  assert (HO : ordinary E ex_keyof (ex_reuse ++ ex_reuse2)) by (apply ordinaryb_ok; [apply ex_env_ok, toy_aead_correct|vm_compute; reflexivity]).
  set (rs1 := [ex_m k1 (VI32 5); ex_m k2 hello]). set (rs2 := [ex_m k1 (VI32 7); ex_m k2 hello]).
  assert (T : match run E world0 ex_reuse, run E world0 (ex_reuse ++ ex_reuse2) with
    | Some (w1, _), Some (w2, _) => match file_at w1 dir_d, meta_at w1 dir_d, file_at w2 dir_d, meta_at w2 dir_d with
       | Some f1, Some n1, Some f2, Some n2 => bool_decide (n1 = ex_rng 0) && bool_decide (n2 = ex_rng 0) &&
          holdsb (aes_codec toy_aead ex_k (ex_rng 0)) f1 rs1 && holdsb (aes_codec toy_aead ex_k (ex_rng 0)) f2 rs2
       | _, _, _, _ => false end
    | _, _ => false end = true) by (vm_compute; reflexivity).
  destruct (run E world0 ex_reuse) as [[w1 q1]|] eqn:R1; [|discriminate T].
  destruct (run E world0 (ex_reuse ++ ex_reuse2)) as [[w2 q2]|] eqn:R2; [|discriminate T].
  destruct (file_at w1 dir_d) as [f1|] eqn:F1; [|discriminate T]. destruct (meta_at w1 dir_d) as [n1|] eqn:M1; [|discriminate T].
  destruct (file_at w2 dir_d) as [f2|] eqn:F2; [|discriminate T]. destruct (meta_at w2 dir_d) as [n2|] eqn:M2; [|discriminate T].
  apply andb_true_iff in T as [T T4]. apply andb_true_iff in T as [T T3]. apply andb_true_iff in T as [T1 T2].
  apply bool_decide_eq_true in T1, T2. subst n1 n2. apply holdsb_ok in T3, T4.
  assert (HG : good_records E rs1 /\ good_records E rs2).
  { split; (split; [repeat constructor; vm_compute; reflexivity|vm_compute; reflexivity]). }
  assert (Hm : ex_m k1 (VI32 5) = ex_m k1 (VI32 7)).
  { apply (H toy_aead ex_keyof ex_reuse ex_reuse2 eq_refl HO w1 q1 w2 q2 dir_d f1 f2 (ex_rng 0) (ex_rng 0) rs1 rs2 0%nat 0%nat); try assumption; try apply HG; try reflexivity.
    - unfold dir_codec. rewrite M1. exact T3.
    - unfold dir_codec. rewrite M2. exact T4. }
  vm_compute in Hm. discriminate Hm.
Qed.

(** What does hold.  A background write either compacts or appends: then it
    uses the first number that no record of the file has. *)
Lemma io_records E keyof es w rs0 i x m dup q f rs :
  ordinary E keyof es -> run E world0 es = Some (w, rs0) -> w_insts w !! i = Some x -> i_queue x = JWrite m dup :: q ->
  file_at w (i_dir x) = Some f -> holds (dir_codec E keyof w (i_dir x)) f rs -> good_records E rs ->
  exists w' f' rs' s', step E w (EIo i) = Some (w', ROk None) /\
    file_at w' (i_dir x) = Some f' /\ holds (dir_codec E keyof w' (i_dir x)) f' rs' /\ good_records E rs' /\
    meta_at w' (i_dir x) = meta_at w (i_dir x) /\ w_insts w' !! i = Some (i_after x q IoRun s') /\
    (8 + bytes_of (e_feat E) rs + record_size (e_feat E) m <= len f \/ (dup || i_trim x)%bool = false ->
      rs' = rs ++ [m] /\ s_trim s' = (dup || i_trim x)%bool).
Proof.
  intros HO Hr Hx Hq Hf0 Hh HG.
  destruct (reach_write E keyof es w rs0 i x m dup q HO Hr Hx Hq)
    as (s & s' & rs1 & rs' & c & w' & Hs & HW & Hm & Hst & Hf & Hf' & Hc & Hc' & HW' & Hrep & Hk & Hy).
  assert (HFa : forall s0 rs1 c1, WOk E (i_codec E x) s0 rs1 c1 -> Forall (fun m => kv_ok m = true /\ record_size (e_feat E) m < 2 ^ 32) rs1).
  { intros s0 l c1 (_ & G & _). destruct (eo_plat _ (or_env _ _ _ HO)) as [_ Hpage _ _].
    eapply Forall_impl; [exact G|]. intros y [[A _] B]. split; [exact A|lia]. }
  rewrite Hf in Hf0. injection Hf0 as <-.
  assert (rs = rs1) as <-.
  { eapply (holds_unique E keyof w (i_dir x) (s_file s)); [apply (or_env _ _ _ HO)|eapply file_small; eassumption|exact HG|eapply HFa, HW|exact Hh|].
    rewrite Hc. eapply Inv_holds. destruct HW as (I & _). exact I. }
  assert (Hr' : run E world0 (es ++ [EIo i]) = Some (w', rs0 ++ [ROk None])) by (eapply run_snoc; eassumption).
  destruct (reach_records E keyof _ w' _ (i_dir x) (s_file s') (ordinary_snoc_io _ _ _ i HO) Hr' Hf') as (rs2 & Hh2 & HG2).
  assert (rs2 = rs') as ->.
  { eapply (holds_unique E keyof w' (i_dir x) (s_file s')); [apply (or_env _ _ _ HO)|eapply (file_small E keyof); [apply (ordinary_snoc_io _ _ _ i HO)|exact Hr'|exact Hf']|exact HG2|eapply HFa, HW'|exact Hh2|].
    rewrite Hc'. eapply Inv_holds. destruct HW' as (I & _). exact I. }
  exists w', (s_file s'), rs', s'. split_and!; auto.
  - cbn [step] in Hst. injection Hst as <-. eapply io_meta_same; eassumption.
  - intros Hno. rewrite bytes_of_total in *. change (i_trim x) with (s_trim (i_st w x)) in *. rewrite <- Hs in *. clear Hs.
    destruct Hk as [Hfit A _ B _|Hfull Hnt A _ B _|Hfull Ht _ _ _ _].
    + auto.
    + split; [exact A|]. rewrite B. auto.
    + unfold used in Hfull. destruct Hno as [Hno|Hno]; [lia|congruence].
Qed.

Theorem C38_appends_use_fresh_numbers_partial E keyof es w rs0 i x m dup q f rs :
  ordinary E keyof es -> run E world0 es = Some (w, rs0) -> w_insts w !! i = Some x -> i_queue x = JWrite m dup :: q ->
  file_at w (i_dir x) = Some f -> holds (dir_codec E keyof w (i_dir x)) f rs -> good_records E rs ->
  exists w' f' rs', step E w (EIo i) = Some (w', ROk None) /\
    file_at w' (i_dir x) = Some f' /\ holds (dir_codec E keyof w' (i_dir x)) f' rs' /\
    (8 + bytes_of (e_feat E) rs + record_size (e_feat E) m <= len f \/ (dup || i_trim x)%bool = false -> rs' = rs ++ [m]).
Proof.
  intros HO Hr Hx Hq Hf Hh HG. destruct (io_records E keyof es w rs0 i x m dup q f rs HO Hr Hx Hq Hf Hh HG) as (w' & f' & rs' & s' & A & B & C & _ & _ & _ & D).
  exists w', f', rs'. split_and!; auto. intros H. apply D, H.
Qed.

(** In one file no two records are sealed under the same nonce, whatever the
    history. *)
Theorem C38_one_file_partial E A keyof es w rs0 d f n rs i1 i2 m1 m2 :
  e_feat E = FEncrypted A -> ordinary E keyof es -> run E world0 es = Some (w, rs0) -> file_at w d = Some f -> meta_at w d = Some n ->
  holds (dir_codec E keyof w d) f rs -> good_records E rs -> rs !! i1 = Some m1 -> rs !! i2 = Some m2 ->
  stream_nonce n (N.of_nat i1) = stream_nonce n (N.of_nat i2) -> i1 = i2.
Proof.
  intros HF _ _ _ _ _ [_ B] L1 L2 H. rewrite HF in B. pose proof (lookup_lt_Some _ _ _ L1). pose proof (lookup_lt_Some _ _ _ L2).
  apply stream_nonce_inj in H as [_ Q]; [lia|reflexivity|lia|lia].
Qed.

(** And there is no reuse at all in a history without overwrites, deletions
    of existing keys and clears, whatever else happens. *)
Fixpoint only_new_keys (canon : bytes -> bytes) (s : spec) (es : list event) : Prop :=
  match es with
  | [] => True
  | e :: r =>
      match e with
      | EPut h k _ | EDelete h k => forall d, sp_handles s !! h = Some d -> contents s d !! k = None
      | EClear _ => False
      | _ => True
      end /\ match spec_step canon s e with Some (s1, _) => only_new_keys canon s1 r | None => True end
  end.

(** No writer has seen an overwrite. *)
Definition never_trims (w : world) : Prop :=
  forall i x, w_insts w !! i = Some x -> i_trim x = false /\ Forall (fun j => match j with JWrite _ dup => dup = false | JRemove => False end) (i_queue x).

Definition not_other (E : env) (keyof : bytes -> bytes) (w w' : world) : Prop :=
  forall d f rs, file_at w d = Some f -> holds (dir_codec E keyof w d) f rs -> good_records E rs ->
  exists f' more, file_at w' d = Some f' /\ meta_at w' d = meta_at w d /\ holds (dir_codec E keyof w' d) f' (rs ++ more) /\ good_records E (rs ++ more).

Lemma not_other_refl E keyof w : not_other E keyof w w.
Proof. intros d f rs A B C. exists f, []. rewrite app_nil_r. auto. Qed.

Lemma not_other_trans E keyof w1 w2 w3 : not_other E keyof w1 w2 -> not_other E keyof w2 w3 -> not_other E keyof w1 w3.
Proof.
  intros A B d f rs Hf Hh HG. destruct (A d f rs Hf Hh HG) as (f2 & m2 & Hf2 & Hm2 & Hh2 & HG2).
  destruct (B d f2 _ Hf2 Hh2 HG2) as (f3 & m3 & Hf3 & Hm3 & Hh3 & HG3). exists f3, (m2 ++ m3). rewrite app_assoc. split_and!; auto. congruence.
Qed.

Lemma not_other_disk E keyof w w' : disk_eq w w' -> not_other E keyof w w'.
Proof.
  intros HD d f rs A B C. exists f, []. rewrite app_nil_r, (disk_eq_file _ _ _ HD), (disk_eq_meta _ _ _ HD). split_and!; auto.
  unfold dir_codec in *. rewrite (disk_eq_meta _ _ _ HD). exact B.
Qed.

Lemma io_not_other E keyof es w rs0 i :
  ordinary E keyof es -> run E world0 es = Some (w, rs0) -> never_trims w ->
  not_other E keyof w (run_job E w i) /\ never_trims (run_job E w i).
Proof.
  intros HO Hr NT. destruct (io_cases E keyof es w rs0 i HO Hr) as [->|(x & m & dup & q & Hx & Hq)]; [split; [apply not_other_refl|exact NT]|].
  destruct (NT i x Hx) as [Ht Hqs]. rewrite Hq in Hqs. apply Forall_cons in Hqs as [-> Hqs].
  destruct (reach_inst E keyof es w rs0 i x HO Hr Hx) as (_ & _ & Hf0 & _).
  destruct (reach_records E keyof es w rs0 _ _ HO Hr Hf0) as (rs1 & Hh1 & HG1).
  destruct (io_records E keyof es w rs0 i x m false q _ rs1 HO Hr Hx Hq Hf0 Hh1 HG1) as (w' & f' & rs' & s' & A & B & C & D & M & Hy & G).
  cbn [step] in A. injection A as <-. destruct G as [-> Hs']. { right. rewrite Ht. reflexivity. }
  destruct (run_job_frame E w i x Hx) as ((y & Hins & _) & Hfr & Hfi & _).
  split.
  - intros d f rs Hf Hh HG. destruct (decide (d = i_dir x)) as [->|Hne].
    + rewrite Hf in Hf0. injection Hf0 as ->.
      assert (rs = rs1) as -> by (eapply (holds_unique E keyof w (i_dir x)); [apply (or_env _ _ _ HO)|eapply file_small; eassumption|exact HG|apply HG1|exact Hh|exact Hh1]).
      exists f', [m]. auto.
    + assert (S : same_disk w (run_job E w i) d).
      { eapply (C28_other_directories_untouched E keyof es w rs0 (EIo i)); [exact HO|exact Hr|exact Logic.I|reflexivity|]. cbn. rewrite Hx. cbn. congruence. }
      destruct S as [S1 S2]. exists f, []. rewrite app_nil_r, S1, S2. unfold dir_codec in *. rewrite S2. auto.
  - intros j z Hz. rewrite Hins in Hz. destruct (decide (i = j)) as [<-|Hne].
    + rewrite lookup_insert in Hz. injection Hz as <-. rewrite Hins, lookup_insert in Hy. injection Hy as ->.
      cbn [i_after i_trim i_queue]. rewrite Hs', Ht. auto.
    + rewrite lookup_insert_ne in Hz by exact Hne. apply (NT j z Hz).
Qed.

Lemma ios_not_other E keyof i k : forall es w rs0 w1 rs1,
  ordinary E keyof es -> run E world0 es = Some (w, rs0) -> never_trims w -> run E w (repeat (EIo i) k) = Some (w1, rs1) ->
  not_other E keyof w w1 /\ never_trims w1.
Proof.
  induction k as [|k IH]; intros es w rs0 w1 rs1 HO Hr NT H1; [injection H1 as <- _; split; [apply not_other_refl|exact NT]|].
  cbn [repeat run step] in H1. destruct (run E (run_job E w i) (repeat (EIo i) k)) as [[w2 rs2]|] eqn:H2; [|discriminate H1]. injection H1 as <- _.
  destruct (io_not_other E keyof es w rs0 i HO Hr NT) as [A B].
  destruct (IH (es ++ [EIo i]) (run_job E w i) (rs0 ++ [ROk None]) w2 rs2) as [C D];
    [apply ordinary_snoc_io, HO|eapply run_snoc; [exact Hr|reflexivity]|exact B|exact H2|].
  split; [eapply not_other_trans; eassumption|exact D].
Qed.

Lemma open_impl_new E w p key w1 o : open_impl E w p key = (w1, o) ->
  w_insts w1 = w_insts w /\ match o with Some y => i_trim y = false /\ i_queue y = [] | None => True end.
Proof.
  intros Eo. unfold open_impl in Eo. destruct (e_dir_ok E p); [|injection Eo as <- <-; auto]. cbv zeta in Eo.
  destruct (open_config E w (e_canon E p)) as [wc ino] eqn:Ec.
  assert (H1 : w_insts wc = w_insts w) by (unfold open_config in Ec; destruct (d_data _); injection Ec as <- _; reflexivity).
  destruct (feature_key _ key) as [k|]; [|injection Eo as <- <-; auto].
  destruct (open_nonce E wc (e_canon E p)) as [wn nonce] eqn:En.
  assert (H2 : w_insts wn = w_insts w).
  { unfold open_nonce in En. destruct (is_encrypted _); [destruct (init_nonce _ _)|]; injection En as <- _; exact H1. }
  unfold open_file in Eo. destruct (read_all _ _ _) as [M cnt| |]; injection Eo as <- <-; auto.
Qed.

Lemma step_not_other E keyof es w rs0 e w' r sp :
  ordinary E keyof (es ++ [e]) -> run E world0 es = Some (w, rs0) -> never_trims w -> step E w e = Some (w', r) ->
  spec_run (e_canon E) spec0 es = Some (sp, rs0) -> only_new_keys (e_canon E) sp [e] ->
  not_other E keyof w w' /\ never_trims w'.
Proof.
  intros HO Hr NT Hst Hsp HN. pose proof (ordinary_app_l _ _ _ _ HO) as HO1.
  pose proof (or_calls _ _ _ HO) as HC. apply Forall_app in HC as [_ HC]. apply Forall_cons in HC as [Hc _].
  destruct (reach_prefix E keyof _ HO es [e] w rs0 eq_refl Hr) as (sp' & Hs & W). rewrite Hsp in Hs. injection Hs as <-.
  destruct HN as [HN _].
  assert (Hone : forall i x x', w_insts w !! i = Some x -> i_trim x' = i_trim x ->
    (Forall (fun j => match j with JWrite _ dup => dup = false | JRemove => False end) (i_queue x')) -> never_trims (set_inst w i x')).
  { intros i x x' Hx Ht Hq j z Hz. cbn in Hz. destruct (decide (i = j)) as [<-|Hne].
    - rewrite lookup_insert in Hz. injection Hz as <-. rewrite Ht. split; [apply (NT i x Hx)|exact Hq].
    - rewrite lookup_insert_ne in Hz by exact Hne. apply (NT j z Hz). }
  assert (Hset : forall i x', not_other E keyof w (set_inst w i x')) by (intros i x'; apply not_other_disk; split; reflexivity).
  destruct e as [h path key|h key v|h key|h key t|h key t|h key|h|h|h|h|i|]; cbn [call_ok] in Hc; try contradiction.
  - split.
    + intros d f rs Hf Hh HG. destruct (new_keeps E keyof es w rs0 h path key w' r d f HO Hr Hst Hf) as [A B].
      exists f, []. rewrite app_nil_r. unfold dir_codec in *. rewrite B. auto.
    + cbn [step] in Hst. destruct (w_handles w !! h); [discriminate Hst|]. injection Hst as Hst. unfold do_new in Hst.
      rewrite (wi_poison _ _ _ _ _ _ _ W) in Hst. destruct (lookup_reg w path); [injection Hst as <- _; exact NT|].
      destruct (open_impl E w path key) as [w1 o] eqn:Eo. destruct (open_impl_new E w path key w1 o Eo) as [Hi Hy]. destruct o as [y|].
      * destruct Hy as [Ht Hq]. injection Hst as <- _. intros j z Hz. cbn in Hz. rewrite Hi in Hz.
        destruct (decide (w_next_inst w1 = j)) as [<-|Hne].
        -- rewrite lookup_insert in Hz. injection Hz as <-. rewrite Ht, Hq. split; [reflexivity|constructor].
        -- rewrite lookup_insert_ne in Hz by exact Hne. apply (NT j z Hz).
      * injection Hst as <- _. intros j z Hz. cbn in Hz. rewrite Hi in Hz. apply (NT j z Hz).
  - cbn [step] in Hst. unfold with_handle, on_inst in Hst. destruct (w_handles w !! h) as [hd|] eqn:Hh; [|discriminate Hst].
    destruct (handle_cases E keyof _ w sp _ _ h hd W Hh) as (Hsp1 & Hun & _ & _ & _ & x & Hx & Dx & I). rewrite Hun, Hx in Hst.
    specialize (HN _ Hsp1). rewrite <- Dx in HN. pose proof (same_inst_rel E keyof _ w sp _ _ _ x W Hx key) as R. rewrite HN in R.
    destruct (inst_put x key v) as [x' r'] eqn:Ep. injection Hst as <- _. split; [apply Hset|].
    unfold inst_put in Ep. rewrite (io_poison _ _ _ _ _ _ _ I), (io_valid _ _ _ _ _ _ _ I), R in Ep. cbn in Ep.
    destruct (NT _ _ Hx) as [Ht Hq].
    destruct (buffer_new key v) as [m| |]; [|injection Ep as <- _; eapply Hone; [exact Hx|reflexivity|exact Hq]..].
    unfold post in Ep. cbn in Ep. rewrite (io_sender _ _ _ _ _ _ _ I) in Ep. injection Ep as <- _.
    eapply Hone; [exact Hx|reflexivity|]. cbn. apply Forall_app. split; [exact Hq|]. constructor; [reflexivity|constructor].
  - cbn [step] in Hst. unfold with_handle, on_inst in Hst. destruct (w_handles w !! h) as [hd|] eqn:Hh; [|discriminate Hst].
    destruct (handle_cases E keyof _ w sp _ _ h hd W Hh) as (Hsp1 & Hun & _ & _ & _ & x & Hx & Dx & I). rewrite Hun, Hx in Hst.
    injection Hst as <- _. split; [apply Hset|]. eapply Hone; [exact Hx|reflexivity|apply (NT _ _ Hx)].
  - cbn [step] in Hst. unfold with_handle, on_inst in Hst. destruct (w_handles w !! h) as [hd|] eqn:Hh; [|discriminate Hst].
    destruct (handle_cases E keyof _ w sp _ _ h hd W Hh) as (Hsp1 & Hun & _ & _ & _ & x & Hx & Dx & I). rewrite Hun, Hx in Hst.
    specialize (HN _ Hsp1). rewrite <- Dx in HN. pose proof (same_inst_rel E keyof _ w sp _ _ _ x W Hx key) as R. rewrite HN in R.
    destruct (inst_delete x key) as [x' r'] eqn:Ep. injection Hst as <- _. split; [apply Hset|].
    unfold inst_delete in Ep. rewrite (io_poison _ _ _ _ _ _ _ I), (io_valid _ _ _ _ _ _ _ I), R in Ep. injection Ep as <- _.
    eapply Hone; [exact Hx|reflexivity|apply (NT _ _ Hx)].
  - destruct (drop_is_work E w h w' r (wi_poison _ _ _ _ _ _ _ W) Hst) as (i & k & w1 & rs1 & H1 & H2 & H3).
    destruct (ios_not_other E keyof i k es w rs0 w1 rs1 HO1 Hr NT H1) as [A B]. split.
    + eapply not_other_trans; [exact A|apply not_other_disk, H2].
    + intros j z Hz. apply (B j z), H3, Hz.
  - cbn [step] in Hst. injection Hst as <- _. eapply io_not_other; eassumption.
Qed.

Lemma only_new_app canon a : forall s b s1 r1, only_new_keys canon s (a ++ b) -> spec_run canon s a = Some (s1, r1) ->
  only_new_keys canon s a /\ only_new_keys canon s1 b.
Proof.
  induction a as [|e a IH]; intros s b s1 r1 H Hs.
  - cbn in Hs. injection Hs as <- _. split; [exact Logic.I|exact H].
  - cbn [app only_new_keys spec_run] in *. destruct H as [H0 H]. destruct (spec_step canon s e) as [[s2 x]|]; [|discriminate Hs].
    destruct (spec_run canon s2 a) as [[s3 r3]|] eqn:Ea; [|discriminate Hs]. injection Hs as <- _.
    destruct (IH s2 b s3 r3 H Ea) as [A B]. auto.
Qed.

Lemma run_not_other E keyof es2 : forall es1 w1 q1 w2 q2 sp,
  ordinary E keyof (es1 ++ es2) -> run E world0 es1 = Some (w1, q1) -> run E w1 es2 = Some (w2, q2) -> never_trims w1 ->
  spec_run (e_canon E) spec0 es1 = Some (sp, q1) -> only_new_keys (e_canon E) sp es2 ->
  not_other E keyof w1 w2 /\ never_trims w2.
Proof.
  induction es2 as [|e es2 IH]; intros es1 w1 q1 w2 q2 sp HO H1 H2 NT Hs HN.
  - cbn in H2. injection H2 as <- _. split; [apply not_other_refl|exact NT].
  - cbn [run] in H2. destruct (step E w1 e) as [[wa ra]|] eqn:Hst; [|discriminate H2].
    destruct (run E wa es2) as [[wb qb]|] eqn:H3; [|discriminate H2]. injection H2 as <- _.
    assert (HO' : ordinary E keyof ((es1 ++ [e]) ++ es2)) by (rewrite <- app_assoc; exact HO).
    pose proof (ordinary_app_l _ _ _ _ HO') as HO1.
    pose proof (run_snoc E world0 es1 w1 q1 e wa ra H1 Hst) as H1'.
    destruct (reach E keyof _ HO1 wa _ H1') as (sp1 & Hsp1 & _).
    assert (Hse : exists sp2, spec_step (e_canon E) sp e = Some (sp2, ra) /\ sp2 = sp1).
    { rewrite spec_run_app, Hs in Hsp1. cbn [spec_run] in Hsp1. destruct (spec_step (e_canon E) sp e) as [[s2 x2]|]; [|discriminate Hsp1].
      injection Hsp1 as <- Hx. apply app_inv_head in Hx. injection Hx as <-. eauto. }
    destruct Hse as (sp2 & Hse & ->). cbn [only_new_keys] in HN. rewrite Hse in HN. destruct HN as [HN0 HN].
    destruct (step_not_other E keyof es1 w1 q1 e wa ra sp HO1 H1 NT Hst Hs) as [A B].
    { cbn [only_new_keys]. rewrite Hse. auto. }
    destruct (IH (es1 ++ [e]) wa (q1 ++ [ra]) wb qb sp1 HO' H1' H3 B Hsp1 HN) as [C D].
    split; [eapply not_other_trans; eassumption|exact D].
Qed.

Theorem C38_no_reuse_without_overwrites_partial E A keyof es1 es2 :
  e_feat E = FEncrypted A -> ordinary E keyof (es1 ++ es2) -> only_new_keys (e_canon E) spec0 (es1 ++ es2) -> no_reuse E keyof es1 es2.
Proof.
  intros HFe HO HN w1 q1 w2 q2 d f1 f2 n1 n2 rs1 rs2 i1 i2 m1 m2 H1 H2 F1 F2 M1 M2 Hh1 Hh2 HG1 HG2 L1 L2 Hsn.
  pose proof (ordinary_app_l _ _ _ _ HO) as HO1. destruct (reach E keyof es1 HO1 w1 q1 H1) as (sp & Hsp & _).
  destruct (C39_nonce_file_has_11_bytes E A keyof es1 w1 q1 d f1) as (n1' & M1' & N1 & _); auto.
  destruct (C39_nonce_file_has_11_bytes E A keyof (es1 ++ es2) w2 q2 d f2) as (n2' & M2' & N2 & _); auto.
  rewrite M1 in M1'. injection M1' as <-. rewrite M2 in M2'. injection M2' as <-.
  assert (i1 = i2) as <-.
  { pose proof (lookup_lt_Some _ _ _ L1). pose proof (lookup_lt_Some _ _ _ L2). destruct HG1 as [_ B1], HG2 as [_ B2]. rewrite HFe in B1, B2.
    apply stream_nonce_inj in Hsn as [_ Q]; [lia|congruence|lia|lia]. }
  destruct (only_new_app (e_canon E) es1 spec0 es2 sp q1 HN Hsp) as [HN1 HN2].
  destruct (run_not_other E keyof es1 [] world0 [] w1 q1 spec0 HO1 eq_refl H1) as [_ NT1].
  { intros j z Hz. cbn in Hz. rewrite lookup_empty in Hz. discriminate Hz. } { reflexivity. } { exact HN1. }
  rewrite run_app, H1 in H2. destruct (run E w1 es2) as [[w2' q2']|] eqn:H3; [|discriminate H2]. injection H2 as -> _.
  destruct (run_not_other E keyof es2 es1 w1 q1 w2 q2' sp HO H1 H3 NT1 Hsp HN2) as [Q _].
  destruct (Q d f1 rs1 F1 Hh1 HG1) as (f' & more & F' & _ & Hh' & HG'). rewrite F2 in F'. injection F' as <-.
  assert (Hr2 : run E world0 (es1 ++ es2) = Some (w2, q1 ++ q2')). { rewrite run_app, H1. rewrite H3. reflexivity. }
  assert (rs1 ++ more = rs2) as <-.
  { eapply (holds_unique E keyof w2 d f2); [apply (or_env _ _ _ HO)|exact (file_small E keyof _ w2 _ d f2 HO Hr2 F2)|exact HG'|apply HG2|exact Hh'|exact Hh2]. }
  rewrite lookup_app_l in L2 by (apply lookup_lt_Some in L1; exact L1). congruence.
Qed.

Fixpoint only_new_keysb (canon : bytes -> bytes) (s : spec) (es : list event) : bool :=
  match es with
  | [] => true
  | e :: r =>
      match e with
      | EPut h k _ | EDelete h k => match sp_handles s !! h with Some d => match contents s d !! k with None => true | _ => false end | None => true end
      | EClear _ => false
      | _ => true
      end && match spec_step canon s e with Some (s1, _) => only_new_keysb canon s1 r | None => true end
  end.

Lemma only_new_keysb_ok canon es : forall s, only_new_keysb canon s es = true -> only_new_keys canon s es.
Proof.
  induction es as [|e es IH]; intros s H; [exact Logic.I|]. cbn [only_new_keysb only_new_keys] in *. apply andb_true_iff in H as [H1 H2]. split.
  - destruct e; try exact Logic.I; try discriminate H1; intros d Hd; rewrite Hd in H1; destruct (contents s d !! key); congruence.
  - destruct (spec_step canon s e) as [[s1 x]|]; [apply IH, H2|exact Logic.I].
Qed.

Example C38_example :
  ordinary (ex_env (FEncrypted toy_aead)) ex_keyof (ex_two ++ [ENew 0 dir_d ex_key; EPut 0 k3 hello; EIo 1]) /\
  only_new_keys ex_canon spec0 (ex_two ++ [ENew 0 dir_d ex_key; EPut 0 k3 hello; EIo 1]) /\
  option_map snd (run (ex_env (FEncrypted toy_aead)) world0 (ex_two ++ [ENew 0 dir_d ex_key; EPut 0 k3 hello; EIo 1])) <> None.
Proof.
  split; [apply ordinaryb_ok; [apply ex_env_ok, toy_aead_correct|vm_compute; reflexivity]|].
  split; [|vm_compute; discriminate].
  apply only_new_keysb_ok. vm_compute. reflexivity.
Qed.

(** * C44 *)

(** Nobody holds a handle of directory [d]. *)
Definition closed (E : env) (w : world) (d : bytes) : Prop :=
  forall h hd, w_handles w !! h = Some hd -> e_canon E (h_path hd) <> d.

(** The property as one would wish it: who opens a directory with a key under
    which the cipher rejects every stored ciphertext sees no value. *)
Definition wrong_key_sees_nothing (E : env) : Prop :=
  forall A keyof es w rs0 h p key k f rs cs nonce w' r key' t v,
  e_feat E = FEncrypted A -> ordinary E keyof es -> run E world0 es = Some (w, rs0) ->
  In p (paths es) -> file_at w (e_canon E p) = Some f -> meta_at w (e_canon E p) = Some nonce ->
  holds (dir_codec E keyof w (e_canon E p)) f rs -> good_records E rs -> sealed A (kof E keyof (e_canon E p)) nonce 0 rs cs ->
  parse_key key = Some k -> (forall i c, cs !! i = Some c -> unseal A k (stream_nonce nonce (N.of_nat i)) c = None) ->
  step E w (ENew h p key) = Some (w', r) -> option_map snd (step E w' (EGet h key' t)) <> Some (ROk (Some v)).

Lemma says_rejected A k nonce l : forall n acc, n + N.of_nat (length l) < 2 ^ 32 ->
  (forall i c, l !! i = Some c -> unseal A k (stream_nonce nonce (n + N.of_nat i)) c = None) ->
  says (FEncrypted A) k nonce n l acc = acc.
Proof.
  induction l as [|b l IH]; intros n acc Hn Hr0; [reflexivity|]. cbn [says body_entry]. cbn [length] in Hn. rewrite N.mod_small by lia.
  pose proof (Hr0 0%nat b eq_refl) as H0. replace (n + N.of_nat 0) with n in H0 by lia. unfold stream_decrypt. rewrite H0.
  destruct (n =? counter_max); cbn [apply_opt]; (apply IH; [lia|]); intros i c Hi;
    replace (n + 1 + N.of_nat i) with (n + N.of_nat (S i)) by lia; apply (Hr0 (S i) c Hi).
Qed.

Lemma sealed_fun A key nonce n rs cs cs' : sealed A key nonce n rs cs -> sealed A key nonce n rs cs' -> cs = cs'.
Proof.
  intros H. revert cs'. induction H as [|n m c rs cs Hc HS IH]; intros cs' H'; inversion H' as [|? ? c' ? cs0 Hc' HS']; subst; [reflexivity|].
  rewrite Hc in Hc'. injection Hc' as <-. f_equal. apply IH, HS'.
Qed.

(** It is false while the directory is open: the key of a second open is
    ignored, the new handle shares the running store. *)
Definition other_key : bytes := str "00000000000000000000000000000001"%string.

Theorem C44_wrong_key_refuted : ~ wrong_key_sees_nothing (ex_env (FEncrypted toy_aead)).
Proof.
  set (E := ex_env (FEncrypted toy_aead)). intros H.
  set (es := [ENew 0 dir_d ex_key; EPut 0 k1 (VI32 5); EPut 0 k2 hello; EIo 0; EIo 0]).
  assert (HO : ordinary E ex_keyof es) by (apply ordinaryb_ok; [apply ex_env_ok, toy_aead_correct|vm_compute; reflexivity]).
  set (ok := default [] (parse_key other_key)).
  assert (T : match run E world0 es with
    | Some (w, _) => match file_at w dir_d, meta_at w dir_d with
       | Some f, Some n => bool_decide (n = ex_rng 0) && holdsb (aes_codec toy_aead ex_k (ex_rng 0)) f ex_rs &&
          match step E w (ENew 9 dir_d other_key) with
          | Some (w', _) => match step E w' (EGet 9 k1 TI32) with Some (_, ROk (Some (VI32 z))) => Z.eqb z 5 | _ => false end
          | None => false end
       | _, _ => false end
    | None => false end = true) by (vm_compute; reflexivity).
  destruct (run E world0 es) as [[w rs0]|] eqn:Hr; [|discriminate T].
  destruct (file_at w dir_d) as [f|] eqn:Hf; [|discriminate T]. destruct (meta_at w dir_d) as [n|] eqn:Hm; [|discriminate T].
  apply andb_true_iff in T as [T T3]. apply andb_true_iff in T as [T1 T2]. apply bool_decide_eq_true in T1. subst n. apply holdsb_ok in T2.
  destruct (step E w (ENew 9 dir_d other_key)) as [[w' r]|] eqn:Hst; [|discriminate T3].
  refine (H toy_aead ex_keyof es w rs0 9 dir_d other_key ok f ex_rs ex_cs (ex_rng 0) w' r k1 TI32 (VI32 5)
    eq_refl HO Hr _ Hf Hm _ _ _ _ _ Hst _).
  - left. reflexivity.
  - unfold dir_codec. change (e_canon E dir_d) with dir_d. rewrite Hm. exact T2.
  - split; [repeat constructor; vm_compute; reflexivity|vm_compute; reflexivity].
  - repeat constructor; vm_compute; reflexivity.
  - reflexivity.
  - intros [|[|i]] c Hc; cbn in Hc; [injection Hc as <-; vm_compute; reflexivity..|discriminate Hc].
  - destruct (step E w' (EGet 9 k1 TI32)) as [[w2 [o|e|]]|]; try discriminate T3. destruct o as [v|]; [|discriminate T3].
    destruct v; try discriminate T3. apply Z.eqb_eq in T3. subst. reflexivity.
Qed.

(** It holds when nobody has the directory open: the open succeeds and every
    key is absent. *)
Theorem C44_wrong_key_partial E A keyof es w rs0 h p key k f rs cs nonce w' r :
  e_feat E = FEncrypted A -> ordinary E keyof es -> run E world0 es = Some (w, rs0) ->
  In p (paths es) -> file_at w (e_canon E p) = Some f -> meta_at w (e_canon E p) = Some nonce ->
  holds (dir_codec E keyof w (e_canon E p)) f rs -> good_records E rs -> sealed A (kof E keyof (e_canon E p)) nonce 0 rs cs ->
  parse_key key = Some k -> (forall i c, cs !! i = Some c -> unseal A k (stream_nonce nonce (N.of_nat i)) c = None) ->
  closed E w (e_canon E p) ->
  step E w (ENew h p key) = Some (w', r) ->
  r = ROk None /\ forall key' t, step E w' (EGet h key' t) = Some (w', RErr KeyNotFound).
Proof.
  intros HF HO Hr Hp Hf Hm Hh HG HS Hk Hrej Hcl Hst.
  destruct (eo_plat _ (or_env _ _ _ HO)) as [H64 _ _ _]. pose proof (eo_feat _ (or_env _ _ _ HO)) as HA. rewrite HF in HA. cbn in HA.
  destruct (reach E keyof es HO w rs0 Hr) as (sp & _ & W). destruct (PU_call E keyof es HO p Hp) as [Hdo _].
  destruct (tampered_dir E keyof es w rs0 _ f HO Hr Hf) as (ino & n0 & Hdata & Hino & HC & HM). rewrite HF in HM. destruct HM as [HM HL].
  unfold meta_at in Hm. rewrite HM in Hm. injection Hm as ->.
  pose proof (file_small E keyof es w rs0 _ f HO Hr Hf) as Hsm.
  destruct Hh as (c & un & Hfe & Hc). rewrite HC, HF in Hc. cbn [feature_codec] in Hc.
  destruct HG as [HG HGn]. rewrite HF in HG, HGn. change 0 with (0 mod 2 ^ 32) in Hc.
  destruct (enc_sealed A _ nonce rs HA 0 c HG Hc) as (cs' & HS' & Hcs & HFc).
  rewrite <- (sealed_fun _ _ _ _ _ _ _ HS HS') in *. clear HS' cs'.
  destruct (frames_read (e_plat E) (FEncrypted A) k nonce cs un H64) as (cnt & Hread).
  { eapply Forall_impl; [exact HFc|]. cbn. intros b Hb. lia. }
  { rewrite <- Hcs. rewrite Hfe, !len_app in Hsm. lia. }
  rewrite <- Hcs, <- Hfe in Hread. cbn [feature_codec] in Hread.
  assert (Hne : f <> []). { rewrite Hfe. intros H. apply (f_equal (length (A:=byte))) in H. rewrite app_length, be_length in H. cbn in H. lia. }
  assert (Hh : w_handles w !! h = None). { cbn [step] in Hst. destruct (w_handles w !! h); [discriminate Hst|reflexivity]. }
  assert (Hreg : lookup_reg w p = None).
  { rewrite (lookup_reg_inv E keyof _ w sp _ _ p W). destruct (w_reg w !! p) as [i|] eqn:Hi; [|reflexivity]. exfalso.
    destruct (wi_reg _ _ _ _ _ _ _ W p i Hi) as (_ & x & Hx & Dx). destruct (wi_insts _ _ _ _ _ _ _ W i x Hx) as (_ & _ & _ & h1 & hd1 & Hh1 & Hi1).
    destruct (handle_cases E keyof _ w sp _ _ h1 hd1 W Hh1) as (_ & _ & _ & _ & _ & y & Hy & Dy & _). rewrite Hi1, Hx in Hy. injection Hy as <-.
    apply (Hcl h1 hd1 Hh1). congruence. }
  pose proof (open_encrypted E A w h p key k ino f nonce HF (wi_poison _ _ _ _ _ _ _ W) Hh Hreg Hdo Hdata Hino Hne) as G.
  rewrite HF in G. specialize (G Hk). unfold meta_at in G. rewrite HM in G. cbn [init_nonce] in G. rewrite HL in G. specialize (G eq_refl). rewrite Hread in G.
  destruct G as (w2 & Hst2 & _ & Hget). rewrite Hst in Hst2. injection Hst2 as -> ->. split; [reflexivity|]. intros key' t. rewrite Hget.
  rewrite says_rejected; [|rewrite <- (sealed_length _ _ _ _ _ _ HS), N.add_0_l; clear -HGn; lia|intros i c0 Hi; rewrite N.add_0_l; apply Hrej, Hi].
  unfold get_answer. rewrite lookup_empty. reflexivity.
Qed.

Example C44_example :
  let E := ex_env (FEncrypted toy_aead) in
  exists w rs0 f, ordinary E ex_keyof ex_two /\ run E world0 ex_two = Some (w, rs0) /\ file_at w dir_d = Some f /\ meta_at w dir_d = Some (ex_rng 0) /\
    holds (dir_codec E ex_keyof w dir_d) f ex_rs /\ good_records E ex_rs /\ sealed toy_aead (kof E ex_keyof dir_d) (ex_rng 0) 0 ex_rs ex_cs /\
    closed E w dir_d /\
    exists k, parse_key other_key = Some k /\ forall i c, ex_cs !! i = Some c -> unseal toy_aead k (stream_nonce (ex_rng 0) (N.of_nat i)) c = None.
Proof.
  destruct C37_example as (w & rs0 & f & A & B & C & D & G & H & _). exists w, rs0, f. split_and!; auto.
  - apply ex_two_ordinary. auto.
  - assert (T : match run (ex_env (FEncrypted toy_aead)) world0 ex_two with Some (w, _) => Nat.eqb (length (map_to_list (w_handles w))) 0 | None => false end = true) by (vm_compute; reflexivity).
    rewrite A in T. apply Nat.eqb_eq in T. destruct (map_to_list (w_handles w)) eqn:Hl; [|discriminate T]. apply map_to_list_empty_iff in Hl.
    intros h hd Hh. rewrite Hl, lookup_empty in Hh. discriminate Hh.
  - eexists. split; [reflexivity|]. intros [|[|i]] c Hc; cbn in Hc; [injection Hc as <-; vm_compute; reflexivity..|discriminate Hc].
Qed.
