(** C79, C80: when a panic takes the whole process with it. *)
From Verif Require Import Bytes Utf8 Proto ProtoFacts Crc8 Value Codec Store StoreFacts Encrypt World Spec Hyps Refine WorldInv WorldStep Main Frames Reach Examples P_Map P_Store Slots Crash P_Kill P_Corrupt Power P_Power Abort.
From Coq Require Import ZifyBool ZifyNat ZifyN.
From Coq Require String. Import (notations) String.
Local Open Scope N_scope.

(** * A job that ends the process kills the thread *)
Section Jobs.
Context (pr : profile) (E : env).

Lemma job_ends_dead w i : job_ends pr E w i = true ->
  exists y, w_insts (run_job E w i) !! i = Some y /\ i_io y = IoDead.
Proof.
  unfold job_ends, run_job. destruct (w_insts w !! i) as [x|]; [|discriminate].
  destruct (i_io x); [|discriminate]. destruct (i_queue x) as [|[m dup|] q]; try discriminate.
  destruct (write _ _ _ _ _) as [s ok]. intros H. apply andb_true_iff in H as [H _]. destruct ok; [discriminate|].
  eexists. cbn. rewrite lookup_insert. split; reflexivity.
Qed.

Lemma dead_stays w i y : w_insts w !! i = Some y -> i_io y = IoDead -> run_job E w i = w.
Proof. intros H D. unfold run_job. rewrite H, D. reflexivity. Qed.

Lemma iter_dead n w i y : w_insts w !! i = Some y -> i_io y = IoDead -> Nat.iter n (fun w => run_job E w i) w = w.
Proof. intros H D. induction n as [|n IH]; [reflexivity|]. cbn [Nat.iter]. unfold Nat.iter in *. cbn. rewrite IH. apply (dead_stays _ _ _ H D). Qed.

Lemma iter_shift n w i : Nat.iter (S n) (fun w => run_job E w i) w = Nat.iter n (fun w => run_job E w i) (run_job E w i).
Proof. induction n as [|n IH]; [reflexivity|]. change (run_job E (Nat.iter (S n) (fun w => run_job E w i) w) i = run_job E (Nat.iter n (fun w => run_job E w i) (run_job E w i)) i). rewrite IH. reflexivity. Qed.

Lemma jobs_end_dead i : forall n w, jobs_end pr E n w i = true ->
  exists y, w_insts (Nat.iter n (fun w => run_job E w i) w) !! i = Some y /\ i_io y = IoDead.
Proof.
  induction n as [|n IH]; intros w H; [discriminate|]. cbn [jobs_end] in H. rewrite iter_shift. apply orb_true_iff in H as [H|H].
  - destruct (job_ends_dead w i H) as (y & Hy & D). rewrite (iter_dead n _ i y Hy D). eauto.
  - apply IH, H.
Qed.

Lemma queue_ends_dead w i : queue_ends pr E w i = true ->
  exists y, w_insts (drain E w i) !! i = Some y /\ i_io y = IoDead.
Proof. unfold queue_ends, drain. destruct (w_insts w !! i) as [x|]; [|discriminate]. apply jobs_end_dead. Qed.

Lemma run_job_join w i x : w_insts w !! i = Some x -> exists y, w_insts (run_job E w i) !! i = Some y /\ i_join y = i_join x.
Proof.
  intros H. unfold run_job. rewrite H. destruct (i_io x); [|eauto]. destruct (i_queue x) as [|[m dup|] q].
  - eauto.
  - destruct (write _ _ _ _ _) as [s ok]. eexists. cbn. rewrite lookup_insert. split; reflexivity.
  - eexists. cbn. rewrite lookup_insert. split; reflexivity.
Qed.

Lemma drain_join w i x : w_insts w !! i = Some x -> exists y, w_insts (drain E w i) !! i = Some y /\ i_join y = i_join x.
Proof.
  intros H. unfold drain. rewrite H. generalize (length (i_queue x)) as n. clear -H. intros n. revert w x H.
  induction n as [|n IH]; intros w x H; [cbn; eauto|]. rewrite iter_shift. destruct (run_job_join w i x H) as (y & Hy & Jy).
  destruct (IH _ _ Hy) as (z & Hz & Jz). exists z. split; [exact Hz|congruence].
Qed.

(** Opening that works does not end the process. *)
Lemma open_ends_none w p key : open_ends pr E w p key = true -> snd (open_impl E w p key) = None.
Proof.
  unfold open_ends, open_impl. destruct (e_dir_ok E p); [|reflexivity]. cbv zeta.
  destruct (open_config E w (e_canon E p)) as [w1 ino]. destruct (feature_key (e_feat E) key) as [k|]; [|reflexivity].
  destruct (open_nonce E w1 (e_canon E p)) as [w2 nonce]. destruct (open_file _ _ _ _) as [[s m]|]; [discriminate|reflexivity].
Qed.

End Jobs.

(** * C79: ordinary use never ends the process *)

Lemma ordinary_ends pr E keyof es e w rs0 w' r :
  ordinary E keyof (es ++ [e]) -> run E world0 es = Some (w, rs0) -> step E w e = Some (w', r) -> ends pr E w e = false.
Proof.
  intros HO Hr Hst.
  assert (Hr2 : run E world0 (es ++ [e]) = Some (w', rs0 ++ [r])).
  { rewrite run_app, Hr. cbn [run]. rewrite Hst. reflexivity. }
  destruct (reach E keyof _ HO w' _ Hr2) as (sp2 & Hs2 & W2).
  pose proof (ordinary_app_l E keyof _ _ HO) as HO1. destruct (reach E keyof _ HO1 w _ Hr) as (sp & Hs & W).
  pose proof (C03_ordinary_calls_never_panic _ _ _ _ _ HO Hr2) as HP. apply Forall_app in HP as [_ HP].
  apply Forall_cons_1 in HP as [HP _].
  pose proof (or_calls _ _ _ HO) as HC. apply Forall_app in HC as [_ HC]. apply Forall_cons_1 in HC as [HC _].
  rewrite spec_run_app, Hs in Hs2. cbn [spec_run] in Hs2.
  destruct (spec_step (e_canon E) sp e) as [[sp3 r3]|] eqn:Hsp; [|discriminate Hs2].
  injection Hs2 as _ Hrr. apply app_inj_tail in Hrr as [_ ->].
  unfold ends. assert (HA : panics E w e = false).
  { unfold panics. rewrite Hst. destruct r; try reflexivity. contradiction. }
  rewrite HA, andb_false_r. cbn [orb].
  destruct e; try reflexivity; try contradiction HC.
  - (* ENew *) cbn [step] in Hst. destruct (w_handles w !! h); [discriminate|]. injection Hst as Hst.
    unfold do_new in Hst. destruct (w_poison w); [reflexivity|]. destruct (lookup_reg w path); [reflexivity|].
    destruct (open_ends pr E w path key) eqn:Ho; [|reflexivity]. apply open_ends_none in Ho.
    destruct (open_impl E w path key) as [w1 ox]. cbn in Ho. subst ox. injection Hst as _ <-. contradiction.
  - (* EClear *) cbn [step] in Hst. unfold with_handle in Hst. destruct (w_handles w !! h) as [hd|]; [|reflexivity].
    destruct (h_unreg hd); [discriminate|]. injection Hst as Hst. unfold do_clear in Hst.
    cbn [spec_step] in Hsp. destruct (sp_handles sp !! h); [|discriminate Hsp]. injection Hsp as _ <-.
    destruct (w_insts w !! h_inst hd) as [x|] eqn:Hx; [|reflexivity].
    destruct (i_poison x); [reflexivity|].
    unfold impl_clear in *. destruct (i_valid x) eqn:V; cbn [negb andb orb] in *.
    + destruct (post (i_invalid x) JRemove) as [x1 r1] eqn:Ep. destruct r1 as [v|e|]; [|reflexivity|reflexivity].
      set (w1 := set_inst w (h_inst hd) x1) in *.
      destruct (queue_ends pr E w1 (h_inst hd)) eqn:Hq.
      * destruct (queue_ends_dead pr E w1 _ Hq) as (y & Hy & D). rewrite Hy, D in Hst. discriminate Hst.
      * cbn [orb]. destruct (w_insts (drain E w1 (h_inst hd)) !! h_inst hd) as [x2|]; [|reflexivity].
        destruct (i_io x2); [|reflexivity]. destruct (open_ends pr E _ (h_path hd) (h_key hd)) eqn:Ho; [|reflexivity].
        apply open_ends_none in Ho. destruct (open_impl E _ (h_path hd) (h_key hd)) as [w3 oy]. cbn in Ho. subst oy. discriminate Hst.
    + destruct (open_ends pr E w (h_path hd) (h_key hd)) eqn:Ho; [|reflexivity].
      apply open_ends_none in Ho. destruct (open_impl E w (h_path hd) (h_key hd)) as [w3 oy]. cbn in Ho. subst oy. discriminate Hst.
  - (* EDrop *) cbn [step] in Hst. unfold with_handle in Hst. destruct (w_handles w !! h) as [hd|]; [|reflexivity].
    destruct (h_unreg hd); [discriminate|]. injection Hst as Hst.
    unfold do_drop_reg in *. rewrite (wi_poison _ _ _ _ _ _ _ W) in *.
    set (w1 := set_handles _ _) in *. destruct (do_drop_arc E w1 h hd) as [w2 r2] eqn:Hd. injection Hst as _ <-. cbn [snd].
    rewrite orb_false_r. destruct (Nat.eqb (strong w1 (h_inst hd)) 1) eqn:Hs1; [|reflexivity]. cbn [andb].
    destruct (queue_ends pr E w1 (h_inst hd)) eqn:Hq; [|reflexivity].
    destruct (queue_ends_dead pr E w1 _ Hq) as (y & Hy & D). unfold do_drop_arc in Hd. rewrite Hs1, Hy, D in Hd.
    assert (Hw1 : w_insts w1 = w_insts w) by (unfold w1; destruct (Nat.eqb _ _); reflexivity).
    destruct (w_insts w !! h_inst hd) as [x|] eqn:Hx; cycle 1.
    { unfold queue_ends in Hq. rewrite Hw1, Hx in Hq. discriminate Hq. }
    destruct (wi_insts _ _ _ _ _ _ _ W _ x Hx) as (_ & I & _).
    rewrite <- Hw1 in Hx. destruct (drain_join E w1 _ x Hx) as (y' & Hy' & J). rewrite Hy in Hy'. injection Hy' as <-.
    rewrite J, (io_join _ _ _ _ _ _ _ I) in Hd. injection Hd as _ <-. contradiction.
  - (* EIo *) destruct (job_ends pr E w i) eqn:Hj; [|reflexivity].
    destruct (job_ends_dead pr E w i Hj) as (y & Hy & D). cbn [step] in Hst. injection Hst as <- _.
    destruct (wi_insts _ _ _ _ _ _ _ W2 i y Hy) as (_ & I & _). rewrite (io_run _ _ _ _ _ _ _ I) in D. discriminate D.
Qed.

(** A process of ordinary calls goes on to the end and answers as World.v
    says, however it was built and whatever msync does. *)
Theorem C79_ordinary_process_goes_on_partial pr E keyof es w rs :
  ordinary E keyof es -> run E world0 es = Some (w, rs) -> frun pr E world0 es = Some (w, rs, false).
Proof.
  intros HO Hr.
  assert (G : forall a b w1 ra rb, es = a ++ b -> run E world0 a = Some (w1, ra) -> run E w1 b = Some (w, rb) ->
    frun pr E w1 b = Some (w, rb, false)).
  { clear Hr rs. intros a b. revert a. induction b as [|e b IH]; intros a w1 ra rb He Ha Hb.
    - cbn in Hb |- *. injection Hb as -> <-. reflexivity.
    - cbn [run] in Hb. destruct (step E w1 e) as [[w2 r]|] eqn:Hst; [|discriminate].
      destruct (run E w2 b) as [[w3 rb']|] eqn:Hrb; [|discriminate]. injection Hb as -> <-.
      cbn [frun]. unfold fstep. rewrite Hst.
      assert (Ee : es = (a ++ [e]) ++ b) by (rewrite He, <- app_assoc; reflexivity).
      rewrite (ordinary_ends pr E keyof a e w1 ra w2 r); [|rewrite Ee in HO; eapply ordinary_app_l, HO|exact Ha|exact Hst].
      rewrite (IH (a ++ [e]) w2 (ra ++ [r]) rb' Ee); [reflexivity| |exact Hrb].
      rewrite run_app, Ha. cbn [run]. rewrite Hst. reflexivity. }
  apply (G [] es world0 [] rs eq_refl); [reflexivity|exact Hr].
Qed.

(** * C79: flushing a map *)

(** The length word lies in the file and so does everything it announces. *)
Definition length_fits (f : bytes) : Prop := 8 <= len f /\ unbe (take 8 f) + 8 <= len f.

Lemma offset_of P f : usz P = 8%nat -> 8 <= len f -> write_offset P f = Some ((unbe (take 8 f) + 8) mod 2 ^ 64).
Proof.
  intros H64 H8. unfold write_offset, header, slice, len_offset. destruct (N.leb_spec 8 (len f)); [|lia].
  change (0 <=? 8) with true. cbn [andb]. change (N.to_nat (8 - 0)) with 8%nat. change (N.to_nat 0) with 0%nat. rewrite drop_0.
  rewrite take_length. replace (8 `min` length f)%nat with 8%nat by (unfold len in *; lia). unfold modulus. rewrite H64. reflexivity.
Qed.

Lemma offset_short P f : len f < 8 -> write_offset P f = None.
Proof. intros H. unfold write_offset, header, slice, len_offset. destruct (N.leb_spec 8 (len f)); [lia|]. rewrite andb_false_r. reflexivity. Qed.

Lemma offset_le P f n : usz P = 8%nat -> write_offset P f = Some n -> n = (unbe (take 8 f) + 8) mod 2 ^ 64 /\ 8 <= len f.
Proof.
  intros H64 H. destruct (N.le_gt_cases 8 (len f)) as [H8|H8].
  - rewrite (offset_of P f H64 H8) in H. injection H as <-. auto.
  - rewrite (offset_short P f H8) in H. discriminate H.
Qed.

(** Which maps cannot be dropped. *)
Lemma drop_panics pr E f : usz (e_plat E) = 8%nat ->
  map_drop_panics pr E (len f) f = true <-> len f < 8 \/ p_msync pr (len f) ((unbe (take 8 f) + 8) mod 2 ^ 64) = false.
Proof.
  intros H64. unfold map_drop_panics. rewrite to_nat_len, firstn_all. destruct (N.le_gt_cases 8 (len f)) as [H8|H8].
  - rewrite (offset_of _ f H64 H8). rewrite negb_true_iff. split; [auto|]. intros [|H]; [lia|exact H].
  - rewrite (offset_short _ f H8). split; auto.
Qed.

Lemma fits_drops pr E f : usz (e_plat E) = 8%nat -> profile_ok pr -> length_fits f -> map_drop_panics pr E (len f) f = false.
Proof.
  intros H64 Hp [H8 Hn]. apply not_true_iff_false. intros H. apply (drop_panics pr E f H64) in H as [H|H]; [lia|].
  rewrite Hp in H; [discriminate H|]. etransitivity; [|exact Hn]. apply N.mod_le. discriminate.
Qed.

(** While a store is in ordinary use its map can be flushed at any time. *)
Theorem C79_live_maps_flush pr E keyof es w rs i x :
  ordinary E keyof es -> run E world0 es = Some (w, rs) -> profile_ok pr -> w_insts w !! i = Some x ->
  map_drop_panics pr E (i_ml x) (inode w (i_ino x)) = false.
Proof.
  intros HO Hr Hp Hx. destruct (reach_inst E keyof es w rs i x HO Hr Hx) as (_ & HC & _ & q & rs1 & c & _ & _ & HW & _).
  destruct HW as (I & _). destruct (eo_plat _ (or_env _ _ _ HO)) as [H64 Hpage Hmax Hhord].
  pose proof (law_of E (or_env _ _ _ HO) _ x eq_refl) as Hlaw.
  pose proof (inv_write_offset _ _ _ _ H64 Hlaw Hmax _ _ I) as Ho. pose proof (inv_used _ _ _ _ H64 Hlaw Hmax _ _ I) as Hu.
  pose proof (inv_ml _ _ _ _ _ I) as Hml. unfold view in Ho. cbn [i_st s_file s_ml] in Ho, Hu, Hml.
  unfold map_drop_panics. rewrite Ho, Hp; [reflexivity|]. rewrite Hml. exact Hu.
Qed.

(** * C79: opening *)

Lemma open_ends_left pr E w h p key k nonce ino f :
  w_poison w = false -> w_handles w !! h = None -> lookup_reg w p = None ->
  e_dir_ok E p = true -> d_data (dir_of w (e_canon E p)) = Some ino -> inode w ino = f -> f <> [] ->
  feature_key (e_feat E) key = Some k ->
  match e_feat E with FPlain => nonce = [] | FEncrypted _ => d_meta (dir_of w (e_canon E p)) = Some nonce /\ length nonce = nonce_len end ->
  ends pr E w (ENew h p key) =
    match read_all (e_plat E) (feature_codec (e_feat E) k nonce) f with IDone _ _ => false | _ => fatal pr E (len f) f end.
Proof.
  intros Hpo Hh Hreg Hd Hdata Hf Hne Hk Hmeta.
  assert (Ho : open_ends pr E w p key =
    match read_all (e_plat E) (feature_codec (e_feat E) k nonce) f with IDone _ _ => false | _ => fatal pr E (len f) f end).
  { unfold open_ends. rewrite Hd. cbv zeta. unfold open_config. rewrite Hdata, Hf.
    assert (Hc : config_new (e_plat E) f = f).
    { unfold config_new. destruct (N.eqb_spec (len f) 0) as [H0|]; [|reflexivity]. destruct f; [congruence|]. unfold len in H0. cbn in H0. lia. }
    rewrite Hc, Hk. unfold open_nonce, is_encrypted. destruct (e_feat E) as [|A] eqn:HF.
    - subst nonce. unfold inode. cbn. rewrite lookup_insert. cbn. unfold open_file. rewrite to_nat_len, firstn_all.
      destruct (read_all _ _ f); reflexivity.
    - destruct Hmeta as [Hm Hl]. change (dir_of (set_inode w ino f) (e_canon E p)) with (dir_of w (e_canon E p)).
      rewrite Hm. unfold init_nonce. rewrite Hl, Nat.eqb_refl. unfold inode. cbn. rewrite lookup_insert. cbn.
      unfold open_file. rewrite to_nat_len, firstn_all. destruct (read_all _ _ f); reflexivity. }
  pose proof (open_answers E w h p key k nonce ino f Hpo Hh Hreg Hd Hdata Hf Hne Hk Hmeta) as G.
  unfold ends, panics. rewrite Hpo, Hreg, Ho.
  destruct (read_all (e_plat E) (feature_codec (e_feat E) k nonce) f).
  - destruct G as (w' & -> & _). rewrite andb_false_r. reflexivity.
  - destruct G as (w' & ->). unfold fatal. destruct (p_abort pr); reflexivity.
  - destruct G as (w' & ->). unfold fatal. destruct (p_abort pr); reflexivity.
Qed.

(** Opening, in a new process, a directory whose data file was given the
    content [f]. *)
Lemma ends_tampered pr E keyof es w rs0 d f0 f h p :
  ordinary E keyof es -> run E world0 es = Some (w, rs0) -> file_at w d = Some f0 -> f <> [] ->
  In p (paths es) -> e_canon E p = d ->
  ends pr E (tampered w d f) (ENew h p (keyof d)) =
    match read_all (e_plat E) (dir_codec E keyof w d) f with IDone _ _ => false | _ => fatal pr E (len f) f end.
Proof.
  intros HO Hr Hf0 Hf Hp Hcp. destruct (tampered_dir E keyof es w rs0 d f0 HO Hr Hf0) as (ino & nonce & Hd & _ & HC & HM).
  destruct (PU_call E keyof es HO p Hp) as [Hdo Hkey]. rewrite Hcp in Hkey. rewrite HC. unfold kof.
  destruct (feature_key (e_feat E) (keyof d)) as [ky|] eqn:Hky; [|contradiction]. cbn [default from_option].
  unfold tampered. rewrite Hd. set (wc := killed (set_inode w ino f)).
  apply open_ends_left with (ino := ino).
  - reflexivity.
  - apply lookup_empty.
  - unfold lookup_reg, wc, killed. cbn [w_reg]. rewrite lookup_empty. reflexivity.
  - exact Hdo.
  - rewrite Hcp. exact Hd.
  - unfold wc, inode. cbn. rewrite lookup_insert. reflexivity.
  - exact Hf.
  - exact Hky.
  - rewrite Hcp. exact HM.
Qed.

(** Exactly which data files end the process that opens them: the unreadable
    ones (C14), if panics abort, or the file is too short to have a length, or
    msync refuses the length it finds there. *)
Theorem C79_which_files_end_the_process pr E keyof es w rs0 d f f' h p :
  ordinary E keyof es -> run E world0 es = Some (w, rs0) -> file_at w d = Some f -> In p (paths es) -> e_canon E p = d ->
  f' <> [] -> len f' < 2 ^ 32 ->
  ends pr E (tampered w d f') (ENew h p (keyof d)) = true <->
    (forall bodies, ~ readable (e_feat E) f' bodies) /\
    (p_abort pr = true \/ len f' < 8 \/ p_msync pr (len f') ((unbe (take 8 f') + 8) mod 2 ^ 64) = false).
Proof.
  intros HO Hr Hf Hp Hcp Hne Hl. destruct (eo_plat _ (or_env _ _ _ HO)) as [H64 _ _ _].
  rewrite (ends_tampered pr E keyof es w rs0 d f f' h p HO Hr Hf Hne Hp Hcp).
  destruct (tampered_dir E keyof es w rs0 d f HO Hr Hf) as (ino & nonce & _ & _ & HC & _). rewrite HC.
  destruct (read_readable (e_plat E) (e_feat E) (kof E keyof d) nonce f' H64 Hl) as [A B].
  assert (F : fatal pr E (len f') f' = true <-> p_abort pr = true \/ len f' < 8 \/ p_msync pr (len f') ((unbe (take 8 f') + 8) mod 2 ^ 64) = false).
  { unfold fatal. rewrite orb_true_iff, (drop_panics pr E f' H64). reflexivity. }
  destruct (read_all (e_plat E) (feature_codec (e_feat E) (kof E keyof d) nonce) f') as [M cnt| |] eqn:Hread.
  - split; [discriminate|]. intros [Hno _]. specialize (B Hno). congruence.
  - rewrite F. split; [|tauto]. intros H. split; [|exact H]. intros bodies Hb. destruct (A bodies Hb) as (c & Hc). congruence.
  - rewrite F. split; [|tauto]. intros H. split; [|exact H]. intros bodies Hb. destruct (A bodies Hb) as (c & Hc). congruence.
Qed.

(** A file of 1 to 7 bytes ends the process whatever the profile. *)
Theorem C79_short_file_ends_the_process pr E keyof es w rs0 d f f' h p :
  ordinary E keyof es -> run E world0 es = Some (w, rs0) -> file_at w d = Some f -> In p (paths es) -> e_canon E p = d ->
  f' <> [] -> len f' < 8 -> ends pr E (tampered w d f') (ENew h p (keyof d)) = true.
Proof.
  intros HO Hr Hf Hp Hcp Hne Hl.
  apply (C79_which_files_end_the_process pr E keyof es w rs0 d f f' h p HO Hr Hf Hp Hcp Hne); [lia|]. split; [|auto].
  intros bodies [H8 _]. lia.
Qed.

(** With unwinding, a damaged file whose length word fits never ends the
    process (opening answers or panics). *)
Theorem C79_damage_behind_the_length_partial pr E keyof es w rs0 d f f' h p :
  ordinary E keyof es -> run E world0 es = Some (w, rs0) -> file_at w d = Some f -> In p (paths es) -> e_canon E p = d ->
  profile_ok pr -> p_abort pr = false -> length_fits f' ->
  ends pr E (tampered w d f') (ENew h p (keyof d)) = false.
Proof.
  intros HO Hr Hf Hp Hcp Hpr Hab Hfit. destruct (eo_plat _ (or_env _ _ _ HO)) as [H64 _ _ _].
  assert (Hne : f' <> []). { intros ->. destruct Hfit as [H _]. cbn in H. lia. }
  rewrite (ends_tampered pr E keyof es w rs0 d f f' h p HO Hr Hf Hne Hp Hcp).
  unfold fatal. rewrite Hab, (fits_drops pr E f' H64 Hpr Hfit). destruct (read_all _ _ _); reflexivity.
Qed.

(** * C79: after a kill *)

Lemma fits_extend f n : length_fits f -> length_fits (f ++ zeros n).
Proof.
  intros [H8 Hn]. unfold length_fits. rewrite take_app_le by (unfold len in H8; lia). rewrite len_app. lia.
Qed.

Lemma store_length a d f : a + len d <= len f -> len (apply_eff (FStore a d) f) = len f.
Proof. intros H. cbn [apply_eff]. rewrite !len_app, len_take, len_drop. lia. Qed.

Lemma fits_store f a d : length_fits f -> 8 <= a -> a + len d <= len f -> length_fits (apply_eff (FStore a d) f).
Proof.
  intros [H8 Hn] Ha Hle. unfold length_fits. rewrite (store_length a d f Hle). cbn [apply_eff].
  rewrite take_app_le by (rewrite take_length; unfold len in *; lia). rewrite take_take.
  replace (8 `min` N.to_nat a)%nat with 8%nat by lia. auto.
Qed.

Lemma fits_length f n : 8 <= len f -> n + 8 <= len f -> len f < 2 ^ 63 -> length_fits (apply_eff (FStore 0 (be 8 n)) f).
Proof.
  intros H8 Hn Hm. unfold length_fits. rewrite store_length by (rewrite len_be; lia). split; [exact H8|]. cbn [apply_eff].
  change (N.to_nat 0) with 0%nat. rewrite take_0. cbn [app]. rewrite take_app_alt by (rewrite be_length; reflexivity).
  rewrite unbe_be_small by (change (256 ^ N.of_nat 8) with (2 ^ 64); lia). exact Hn.
Qed.

Lemma fits_shape c sl : len (shape c sl) < 2 ^ 63 -> length_fits (shape c sl).
Proof.
  intros H. unfold length_fits. rewrite shape_len in *. unfold shape. rewrite take_app_alt by (rewrite be_length; reflexivity).
  rewrite unbe_be_small by (change (256 ^ N.of_nat 8) with (2 ^ 64); lia). lia.
Qed.

(** From [s] to [s'] the length fits after each of the effects. *)
Definition steady (s s' : st) : Prop :=
  s_ml s' = len (s_file s') /\ exists es, s_eff s' = s_eff s ++ es /\ s_file s' = apply_effs es (s_file s) /\
    Forall (fun e => match e with FStore a d => a = 0 \/ 8 <= a | FExtend _ => True end) es /\
    forall j e, nth_error es j = Some e -> length_fits (apply_effs (firstn (S j) es) (s_file s)) /\
      match e with FStore a d => a + len d <= len (apply_effs (firstn j es) (s_file s)) | FExtend _ => True end.

Section Steady.
Context (P : plat) (C : codec) (H64 : usz P = 8%nat) (Hmax : maxfile P < 2 ^ 63).

Definition sound (s : st) : Prop := s_ml s = len (s_file s) /\ length_fits (s_file s) /\ len (s_file s) < 2 ^ 63.

Lemma steady_keep s s' : s_ml s' = s_ml s -> s_eff s' = s_eff s -> s_file s' = s_file s -> sound s -> steady s s'.
Proof.
  intros A B D (M & _). split; [congruence|]. exists []. rewrite app_nil_r. split_and!; auto. intros [|j] e H; discriminate H.
Qed.

Lemma steady_trans a b c : steady a b -> steady b c -> steady a c.
Proof.
  intros (_ & e1 & A1 & B1 & F1 & G1) (M & e2 & A2 & B2 & F2 & G2). split; [exact M|]. exists (e1 ++ e2).
  rewrite A2, A1, app_assoc. split; [reflexivity|]. split; [rewrite B2, B1; unfold apply_effs; rewrite fold_left_app; reflexivity|].
  split; [apply Forall_app; auto|]. intros j e Hj. destruct (Nat.lt_ge_cases j (length e1)) as [L|L].
  - rewrite nth_error_app1 in Hj by exact L. rewrite !firstn_app. replace (S j - length e1)%nat with 0%nat by lia.
    replace (j - length e1)%nat with 0%nat by lia. rewrite !firstn_O, !app_nil_r. apply G1, Hj.
  - rewrite nth_error_app2 in Hj by exact L. rewrite !firstn_app, (firstn_all2 (n := j) e1), (firstn_all2 (n := S j) e1) by lia.
    replace (S j - length e1)%nat with (S (j - length e1)) by lia. specialize (G2 _ _ Hj). rewrite B1 in G2.
    unfold apply_effs in *. rewrite !fold_left_app. exact G2.
Qed.

Lemma steady_one s e s' : s_eff s' = s_eff s ++ [e] -> s_file s' = apply_eff e (s_file s) -> s_ml s' = len (s_file s') ->
  length_fits (s_file s') -> match e with FStore a d => (a = 0 \/ 8 <= a) /\ a + len d <= len (s_file s) | FExtend _ => True end ->
  steady s s'.
Proof.
  intros A B M L Hc. split; [exact M|]. exists [e]. split_and!; auto.
  - constructor; [|constructor]. destruct e; [apply Hc|exact Logic.I].
  - intros [|[|j]] e' Hj; try discriminate Hj. cbn in Hj. injection Hj as <-. cbn. rewrite <- B. split; [exact L|].
    destruct e; [apply Hc|exact Logic.I].
Qed.

Lemma append_steady s b s' : sound s -> append P s b = (s', true) -> steady s s' /\ sound s'.
Proof.
  intros (M & L & Hl) H. pose proof L as [H8 Hn]. unfold append in H.
  assert (Hv : view s = s_file s) by (unfold view; rewrite M, to_nat_len, firstn_all; reflexivity). rewrite Hv in H.
  rewrite (offset_of P _ H64 H8) in H. cbv zeta in H. rewrite (N.mod_small (_ + 8)) in H by lia.
  set (n := unbe (take 8 (s_file s))) in *.
  assert (Hm : modulus P = 2 ^ 64) by (unfold modulus; rewrite H64; reflexivity). rewrite Hm in H. unfold len_offset in *.
  replace ((n + 8 + 2 ^ 64 - 8) mod 2 ^ 64) with n in H
    by (replace (n + 8 + 2 ^ 64 - 8) with (n + 1 * 2 ^ 64) by lia; rewrite N.mod_add by discriminate; rewrite N.mod_small by lia; reflexivity).
  unfold store_len in H. rewrite H64 in H. unfold len_offset in H. destruct (8 <=? s_ml s) eqn:C8; [|cbn in H; discriminate H]. cbn [Nat.eqb andb] in H.
  match type of H with context [s_ml (do_eff ?e s)] => change (s_ml (do_eff e s)) with (s_ml s) in H end.
  destruct (N.leb_spec (n + 8 + len b) (s_ml s)) as [Hle|]; [|discriminate H]. apply (f_equal fst) in H. cbn [fst] in H. subst s'.
  rewrite M in Hle. rewrite N.mod_small by lia.
  set (s1 := do_eff (FStore 0 (be 8 (len b + n))) s).
  assert (F1 : s_file s1 = apply_eff (FStore 0 (be 8 (len b + n))) (s_file s)) by reflexivity.
  assert (L1 : len (s_file s1) = len (s_file s)) by (rewrite F1; apply store_length; rewrite len_be; lia).
  assert (T1 : length_fits (s_file s1)) by (rewrite F1; apply fits_length; lia).
  assert (F2 : s_file (do_eff (FStore (n + 8) b) s1) = apply_eff (FStore (n + 8) b) (s_file s1)) by reflexivity.
  assert (L2 : len (s_file (do_eff (FStore (n + 8) b) s1)) = len (s_file s1)) by (rewrite F2; apply store_length; lia).
  assert (T2 : length_fits (s_file (do_eff (FStore (n + 8) b) s1))) by (rewrite F2; apply fits_store; [exact T1|lia|lia]).
  fold s1.
  split.
  - apply (steady_trans s s1).
    + apply (steady_one s (FStore 0 (be 8 (len b + n)))); [reflexivity|reflexivity|rewrite L1; exact M|exact T1|]. rewrite len_be. split; [auto|lia].
    + apply (steady_one s1 (FStore (n + 8) b)); [reflexivity|reflexivity|rewrite L2, L1; exact M|exact T2|]. split; [right; lia|lia].
  - split; [rewrite L2, L1; exact M|]. split; [exact T2|]. rewrite L2, L1. exact Hl.
Qed.

Lemma append_incr_steady s b s' : sound s -> append_incr P s b = (s', true) -> steady s s' /\ sound s'.
Proof.
  intros Hs H. unfold append_incr in H. destruct (append P s b) as [s1 ok] eqn:Ea. destruct ok; [|discriminate H]. injection H as <-.
  destruct (append_steady s b s1 Hs Ea) as [A B]. split; [|exact B]. eapply steady_trans; [exact A|]. apply steady_keep; auto.
Qed.

Lemma expand_steady s s' : sound s -> expand P s = (s', true) -> steady s s' /\ sound s'.
Proof.
  intros (M & L & Hl) H. unfold expand in H. destruct (N.leb_spec (len (s_file s) + page P) (maxfile P)) as [Hle|]; [|discriminate H].
  injection H as <-. cbn [do_eff s_file s_ml s_pos s_trim s_seed s_eff apply_eff].
  pose proof (fits_extend _ (page P) L) as T.
  assert (Hlen : len (s_file s ++ zeros (page P)) = len (s_file s) + page P).
  { rewrite len_app. f_equal. unfold zeros. rewrite len_replicate. lia. }
  split.
  - apply (steady_one s (FExtend (page P))); [reflexivity|reflexivity|reflexivity|exact T|exact Logic.I].
  - split; [reflexivity|]. split; [exact T|]. cbn [s_file]. lia.
Qed.

Lemma rewrite_steady max l : forall s s', sound s -> rewrite P C max l s = (s', true) -> steady s s' /\ sound s'.
Proof.
  induction l as [|m l IH]; intros s s' Hs H; cbn [rewrite] in H.
  - injection H as <-. split; [apply steady_keep; auto|exact Hs].
  - destruct (enc C m (s_pos s)) as [b| |]; try discriminate H.
    destruct (write_offset P (view s)) as [o|]; [|discriminate H].
    destruct (if max <? (o + len b) mod modulus P then expand P s else (s, true)) as [s1 ok1] eqn:E1.
    destruct ok1; [|discriminate H].
    assert (L1 : steady s s1 /\ sound s1).
    { destruct (max <? _); [eapply expand_steady; eassumption|]. injection E1 as <-. split; [apply steady_keep; auto|exact Hs]. }
    destruct L1 as [A1 B1]. destruct (append_incr P s1 b) as [s2 ok2] eqn:E2. destruct ok2; [|discriminate H].
    destruct (append_incr_steady s1 b s2 B1 E2) as [A2 B2]. destruct (IH s2 s' B2 H) as [A3 B3].
    split; [|exact B3]. eapply steady_trans; [exact A1|]. eapply steady_trans; eassumption.
Qed.

Lemma trim_steady s m s' : sound s -> trim P C s m = (s', true) -> steady s s' /\ sound s'.
Proof.
  intros Hs H. pose proof Hs as (M & L & Hl). unfold trim in H. destruct (read_all P C (view s)) as [M0 n| |]; try discriminate H.
  unfold reset in H. destruct (store_len P s 0) as [s1 ok1] eqn:E1. destruct ok1; [|discriminate H].
  destruct (rewrite P C (s_ml s) _ _) as [s3 ok3] eqn:E3. destruct ok3; [|discriminate H]. injection H as <-.
  unfold store_len in E1. rewrite H64 in E1. unfold len_offset in E1. destruct (Nat.eqb 8 8 && (8 <=? s_ml s)); [|discriminate E1]. apply (f_equal fst) in E1. cbn [fst] in E1. subst s1.
  set (s1 := do_eff (FStore 0 (be 8 0)) s) in *.
  assert (F1 : s_file s1 = apply_eff (FStore 0 (be 8 0)) (s_file s)) by reflexivity.
  pose proof L as [H8 _].
  assert (L1 : len (s_file s1) = len (s_file s)) by (rewrite F1; apply store_length; rewrite len_be; lia).
  assert (T1 : length_fits (s_file s1)) by (rewrite F1; apply fits_length; lia).
  assert (A1 : steady s s1).
  { apply (steady_one s (FStore 0 (be 8 0))); [reflexivity|reflexivity|rewrite L1; exact M|exact T1|]. rewrite len_be. split; [auto|lia]. }
  assert (B1 : sound s1) by (split; [rewrite L1; exact M|]; split; [exact T1|lia]).
  match type of E3 with rewrite _ _ _ _ ?x = _ => set (s2 := x) in * end.
  assert (A2 : steady s1 s2) by (apply steady_keep; auto).
  assert (B2 : sound s2) by exact B1.
  destruct (rewrite_steady _ _ _ _ B2 E3) as [A3 B3]. split; [|exact B3].
  eapply steady_trans; [exact A1|]. eapply steady_trans; [exact A2|]. eapply steady_trans; [exact A3|]. apply steady_keep; auto.
Qed.

Lemma write_steady s m dup s' : sound s -> write P C s m dup = (s', true) -> steady s s' /\ sound s'.
Proof.
  intros Hs H. unfold write in H. destruct (enc C m (s_pos s)) as [b| |]; try discriminate H.
  destruct (write_offset P (view s)) as [o|]; [|discriminate H]. cbv zeta in H.
  set (s1 := if dup then with_trim s true else s) in *.
  assert (A1 : steady s s1 /\ sound s1) by (unfold s1; destruct dup; (split; [apply steady_keep; auto|exact Hs])).
  destruct A1 as [A1 B1]. clearbody s1. destruct (_ <=? _).
  { destruct (append_incr_steady _ _ _ B1 H) as [A2 B2]. split; [eapply steady_trans; eassumption|exact B2]. }
  destruct (s_trim s1).
  { destruct (trim_steady _ _ _ B1 H) as [A2 B2]. split; [eapply steady_trans; eassumption|exact B2]. }
  destruct (expand P s1) as [s2 ok2] eqn:E2. destruct ok2; [|discriminate H]. destruct (expand_steady _ _ B1 E2) as [A2 B2].
  destruct (append_incr_steady _ _ _ B2 H) as [A3 B3]. split; [|exact B3]. eapply steady_trans; [exact A1|]. eapply steady_trans; eassumption.
Qed.
End Steady.

(** Whatever a kill in the middle of a background write leaves (a growth, an
    append, a compaction; a record half copied): the length fits. *)
Lemma crash_fits E keyof es w rs0 i x m dup q f' :
  ordinary E keyof es -> run E world0 es = Some (w, rs0) -> w_insts w !! i = Some x -> i_queue x = JWrite m dup :: q ->
  crash_image (job_effects E w i) (inode w (i_ino x)) f' -> length_fits f'.
Proof.
  intros HO Hr Hx Hq (j & Hj & Hc).
  destruct (reach_job E keyof es w rs0 i x m dup q HO Hr Hx Hq) as (s1 & rs & rs1 & c0 & Ew & Heff & HW & _).
  destruct (eo_plat _ (or_env _ _ _ HO)) as [H64 Hpage Hmax Hhord]. pose proof (law_of E (or_env _ _ _ HO) _ x eq_refl) as Hlaw.
  pose proof HW as (I & _).
  pose proof (inv_ml _ _ _ _ _ I) as Hml. pose proof (inv_size _ _ _ _ _ I) as Hsz.
  assert (L0 : length_fits (s_file (i_st w x))).
  { destruct (inv_file _ _ _ _ _ I) as (c & sl & _ & Hf). rewrite Hf in *. apply fits_shape, Hsz. }
  destruct (write_steady (e_plat E) (i_codec E x) H64 Hmax (i_st w x) m dup s1 (conj Hml (conj L0 Hsz)) Ew) as [(_ & effs & A & B & F & G) _].
  cbn [i_st s_eff app s_file] in A, B, G, L0. rewrite Heff, A in Hj, Hc. clear -Hj Hc F G L0.
  assert (Hpre : length_fits (apply_effs (firstn j effs) (inode w (i_ino x)))).
  { destruct j as [|j]; [exact L0|]. destruct (nth_error effs j) as [e|] eqn:He; [apply (G j e He)|].
    apply nth_error_None in He. lia. }
  destruct Hc as [->|(e & He & Ht)]; [exact Hpre|]. destruct (G j e He) as [_ Hle].
  inversion Ht as [a d d' f Ha [Hd _] Hef]; subst. apply fits_store; [exact Hpre|exact Ha|]. unfold len in *. rewrite Hd. exact Hle.
Qed.

(** After a kill at any point of a background write a new process can open
    the directory without ending (it may have to answer with a panic, C22). *)
Theorem C79_after_a_kill_partial pr E keyof es w rs0 i x m dup q f' h p :
  ordinary E keyof es -> run E world0 es = Some (w, rs0) -> w_insts w !! i = Some x -> i_queue x = JWrite m dup :: q ->
  crash_image (job_effects E w i) (inode w (i_ino x)) f' -> In p (paths es) -> e_canon E p = i_dir x ->
  profile_ok pr -> p_abort pr = false ->
  ends pr E (crashed w i f') (ENew h p (keyof (i_dir x))) = false.
Proof.
  intros HO Hr Hx Hq Hc Hp Hcp Hpr Hab. pose proof (crash_fits E keyof es w rs0 i x m dup q f' HO Hr Hx Hq Hc) as Hfit.
  destruct (reach_inst E keyof es w rs0 i x HO Hr Hx) as (_ & _ & Hf & _).
  destruct (reach E keyof es HO w rs0 Hr) as (sp & _ & W). destruct (wi_insts _ _ _ _ _ _ _ W i x Hx) as (_ & I & _).
  assert (Hcr : crashed w i f' = tampered w (i_dir x) f').
  { unfold crashed, tampered. rewrite Hx, (io_data _ _ _ _ _ _ _ I). reflexivity. }
  rewrite Hcr. eapply C79_damage_behind_the_length_partial; eassumption.
Qed.

(** * C79: values that do not fit *)

Section Tight.
Context (P : plat) (C : codec).
Definition tight (s : st) : Prop := s_ml s = len (s_file s).

Lemma store_len_tight s n s' ok : tight s -> store_len P s n = (s', ok) -> tight s'.
Proof.
  intros T H. unfold store_len in H. destruct (Nat.eqb_spec (usz P) 8) as [H64|]; cbn [andb] in H; [|injection H as <- _; exact T].
  destruct (N.leb_spec len_offset (s_ml s)) as [H8|]; [|injection H as <- _; exact T]. apply (f_equal fst) in H. cbn [fst] in H. subst s'.
  unfold tight in *. change (s_ml (do_eff (FStore 0 (be (usz P) n)) s)) with (s_ml s).
  change (s_file (do_eff (FStore 0 (be (usz P) n)) s)) with (apply_eff (FStore 0 (be (usz P) n)) (s_file s)).
  rewrite store_length; [exact T|]. rewrite len_be, H64. unfold len_offset in H8. lia.
Qed.

Lemma append_tight s b s' ok : tight s -> append P s b = (s', ok) -> tight s'.
Proof.
  intros T H. unfold append in H. destruct (write_offset P (view s)) as [o|]; [|injection H as <- _; exact T].
  cbv zeta in H. destruct (store_len P s _) as [s1 ok1] eqn:E1. pose proof (store_len_tight _ _ _ _ T E1) as T1.
  destruct ok1; [|injection H as <- _; exact T1]. destruct (N.leb_spec (o + len b) (s_ml s1)) as [Hle|]; [|injection H as <- _; exact T1].
  apply (f_equal fst) in H. cbn [fst] in H. subst s'. unfold tight in *.
  change (s_ml (do_eff (FStore o b) s1)) with (s_ml s1).
  change (s_file (do_eff (FStore o b) s1)) with (apply_eff (FStore o b) (s_file s1)). rewrite store_length; [exact T1|lia].
Qed.

Lemma append_incr_tight s b s' ok : tight s -> append_incr P s b = (s', ok) -> tight s'.
Proof.
  intros T H. unfold append_incr in H. destruct (append P s b) as [s1 ok1] eqn:E1. pose proof (append_tight _ _ _ _ T E1) as T1.
  destruct ok1; injection H as <- _; exact T1.
Qed.

Lemma expand_tight s s' ok : tight s -> expand P s = (s', ok) -> tight s'.
Proof. intros T H. unfold expand in H. destruct (_ <=? _); injection H as <- _; [reflexivity|exact T]. Qed.

Lemma rewrite_tight max l : forall s s' ok, tight s -> rewrite P C max l s = (s', ok) -> tight s'.
Proof.
  induction l as [|m l IH]; intros s s' ok T H; cbn [rewrite] in H; [injection H as <- _; exact T|].
  destruct (enc C m (s_pos s)) as [b| |]; try (injection H as <- _; exact T).
  destruct (write_offset P (view s)) as [o|]; [|injection H as <- _; exact T].
  destruct (if max <? (o + len b) mod modulus P then expand P s else (s, true)) as [s1 ok1] eqn:E1.
  assert (T1 : tight s1) by (destruct (max <? _); [eapply expand_tight; eassumption|injection E1 as <- _; exact T]).
  destruct ok1; [|injection H as <- _; exact T1]. destruct (append_incr P s1 b) as [s2 ok2] eqn:E2.
  pose proof (append_incr_tight _ _ _ _ T1 E2) as T2. destruct ok2; [|injection H as <- _; exact T2]. eapply IH; eassumption.
Qed.

Lemma write_tight s m dup s' ok : tight s -> write P C s m dup = (s', ok) -> tight s'.
Proof.
  intros T H. unfold write in H. destruct (enc C m (s_pos s)) as [b| |]; try (injection H as <- _; exact T).
  destruct (write_offset P (view s)) as [o|]; [|injection H as <- _; exact T]. cbv zeta in H.
  set (s1 := if dup then with_trim s true else s) in *. assert (T1 : tight s1) by (unfold s1; destruct dup; exact T). clearbody s1.
  destruct (_ <=? _); [eapply append_incr_tight; eassumption|]. destruct (s_trim s1).
  - unfold trim in H. destruct (read_all P C (view s1)) as [M n| |]; try (injection H as <- _; exact T1). unfold reset in H.
    destruct (store_len P s1 0) as [s2 ok2] eqn:E2. pose proof (store_len_tight _ _ _ _ T1 E2) as T2.
    destruct ok2; [|injection H as <- _; exact T2]. destruct (rewrite P C (s_ml s1) _ _) as [s3 ok3] eqn:E3.
    assert (T3 : tight s3) by (eapply rewrite_tight; [|exact E3]; exact T2). destruct ok3; injection H as <- _; exact T3.
  - destruct (expand P s1) as [s2 ok2] eqn:E2. pose proof (expand_tight _ _ _ T1 E2) as T2.
    destruct ok2; [eapply append_incr_tight; eassumption|injection H as <- _; exact T2].
Qed.
End Tight.

Lemma put_core E w h hd x key v w1 r : w_handles w !! h = Some hd -> w_insts w !! h_inst hd = Some x -> i_sender x = true -> i_valid x = true ->
  step E w (EPut h key v) = Some (w1, ROk r) ->
  exists z, w_insts w1 !! h_inst hd = Some z /\ w_dirs w1 = w_dirs w /\ w_inodes w1 = w_inodes w /\ i_io z = IoRun /\
    i_ml z = i_ml x /\ i_ino z = i_ino x.
Proof.
  intros Hh Hx Hs Hv H. cbn [step] in H. unfold with_handle, on_inst in H. rewrite Hh, Hx in H. destruct (h_unreg hd); [discriminate H|].
  unfold inst_put in H. destruct (i_poison x); [discriminate H|]. destruct (buffer_new key v) as [m| |]; try discriminate H.
  rewrite Hv in H. unfold post in H. cbn [i_with_map i_sender i_io i_with_queue] in H. rewrite Hs in H.
  destruct (i_io x) eqn:Hio; [|discriminate H]. injection H as <- _. eexists. cbn. rewrite lookup_insert. split_and!; try reflexivity. exact Hio.
Qed.

(** A codec that reads nothing. *)
Definition blind : codec := Codec (fun _ _ => RPanic) (fun _ _ => RErr IOError).

Lemma unreadable_by_all P f : (forall C seed, open_file P C seed f = None) ->
  write_offset P f = None \/ exists n, write_offset P f = Some n /\ len f < n.
Proof.
  intros H. specialize (H blind 0). unfold open_file in H. rewrite to_nat_len, firstn_all in H. unfold read_all in H.
  destruct (write_offset P f) as [n|]; [|auto]. right. exists n. split; [reflexivity|].
  destruct (N.lt_ge_cases (len f) n) as [|Hle]; [assumption|]. exfalso.
  destruct f as [|b f]; cbn [length iter_map] in H.
  - destruct (N.leb_spec n len_offset) as [|L]; [discriminate H|]. unfold len_offset in L. cbn in Hle. lia.
  - destruct (N.leb_spec n len_offset) as [|L]; [discriminate H|]. unfold slice in H.
    destruct (N.leb_spec len_offset n); [|lia]. destruct (N.leb_spec n (len (b :: f))); [|lia]. cbn in H. discriminate H.
Qed.

(** Exactly the values that do not fit in the free space and one more page
    end the process, from any reachable state with nothing to compact, where
    panics abort or msync refuses what is not mapped. *)
Theorem C79_large_values_end_the_process pr E keyof es w rs0 h hd x f rs key v m :
  ordinary E keyof es -> run E world0 es = Some (w, rs0) -> room E (writes es + 1) ->
  w_handles w !! h = Some hd -> w_insts w !! h_inst hd = Some x ->
  i_queue x = [] -> i_trim x = false -> i_map x !! key = None ->
  file_at w (i_dir x) = Some f -> holds (dir_codec E keyof w (i_dir x)) f rs ->
  Forall (fun r => kv_ok r = true /\ record_size (e_feat E) r <= page (e_plat E)) rs -> N.of_nat (length rs) <= writes es ->
  utf8_valid key = true -> value_ok v = true -> buffer_new key v = ROk m -> record_size (e_feat E) m < 2 ^ 32 ->
  p_abort pr = true \/ (forall ml n, ml < n -> p_msync pr ml n = false) ->
  exists w1, fstep pr E w (EPut h key v) = Some (Lives w1 (ROk None)) /\
    (ends pr E w1 (EIo (h_inst hd)) = true <-> len f + page (e_plat E) < 8 + bytes_of (e_feat E) rs + record_size (e_feat E) m).
Proof.
  intros HO Hr Hroom Hh Hx Hq Ht Hk Hf Hholds HG Hlen Hu Hv Hm Hsz Hpr.
  destruct (C10_append_exact E keyof es w rs0 h hd x f rs key v m HO Hr Hroom Hh Hx Hq Ht Hk Hf Hholds HG Hlen Hu Hv Hm Hsz)
    as (w1 & w2 & y & f' & A & B & Cy & D & F & G). exists w1.
  assert (A' : fstep pr E w (EPut h key v) = Some (Lives w1 (ROk None))).
  { unfold fstep. rewrite A. unfold ends, panics. rewrite A, andb_false_r. reflexivity. }
  split; [exact A'|]. clear A'.
  destruct (reach E keyof es HO w rs0 Hr) as (sp & _ & W). destruct (wi_insts _ _ _ _ _ _ _ W _ x Hx) as (_ & I & _).
  destruct (put_core E w h hd x key v w1 None Hh Hx (io_sender _ _ _ _ _ _ _ I) (io_valid _ _ _ _ _ _ _ I) A)
    as (z & Hz & Zd & Zi & Zio & Zml & Zino).
  cbn [step] in B. injection B as B.
  assert (Hsm : ends pr E w1 (EIo (h_inst hd)) = job_ends pr E w1 (h_inst hd)).
  { unfold ends, panics. cbn [step]. rewrite andb_false_r. reflexivity. }
  rewrite Hsm. split.
  - intros Hj. destruct (job_ends_dead pr E w1 _ Hj) as (y' & Hy' & Dy). rewrite B, Cy in Hy'. injection Hy' as <-.
    apply N.lt_nge. intros Hle. apply F in Hle. congruence.
  - intros Hbig. destruct (G Hbig) as [Dy Hop].
    unfold run_job in B. rewrite Hz, Zio in B. unfold job_ends. rewrite Hz, Zio.
    destruct (i_queue z) as [|[m' dup'|] q'] eqn:Zq.
    + subst w2. rewrite Hz in Cy. injection Cy as <-. congruence.
    + destruct (write (e_plat E) (i_codec E z) (i_st w1 z) m' dup') as [s ok] eqn:Ew. rewrite <- B in Cy, D.
      cbn in Cy. rewrite lookup_insert in Cy. injection Cy as <-. destruct ok; [discriminate Dy|]. cbn [negb andb].
      assert (T : tight s).
      { eapply write_tight; [|exact Ew]. unfold tight. cbn [i_st s_ml s_file]. rewrite Zml, Zino. unfold inode. rewrite Zi.
        destruct (reach_inst E keyof es w rs0 _ x HO Hr Hx) as (_ & _ & _ & q1 & rs1 & c1 & _ & _ & (I1 & _) & _).
        pose proof (inv_ml _ _ _ _ _ I1) as Hml. exact Hml. }
      assert (Hf' : f' = s_file s).
      { unfold file_at in D. change (dir_of (set_seed (set_inode (set_inst w1 (h_inst hd) (i_after z q' IoDead s)) (i_ino z) (s_file s)) (s_seed s)) (i_dir x))
          with (dir_of w1 (i_dir x)) in D. unfold dir_of in D. rewrite Zd in D. fold (dir_of w (i_dir x)) in D.
        rewrite (io_data _ _ _ _ _ _ _ I) in D. cbn [option_map] in D. rewrite Zino in D. unfold inode in D. cbn in D. rewrite lookup_insert in D.
        injection D as <-. reflexivity. }
      subst f'. unfold fatal. destruct Hpr as [->|Hms]; [reflexivity|]. unfold map_drop_panics. rewrite T, to_nat_len, firstn_all.
      destruct (unreadable_by_all (e_plat E) (s_file s) Hop) as [->|(n & -> & Hn)]; [apply orb_true_r|].
      rewrite (Hms _ _ Hn). apply orb_true_r.
    + exfalso. rewrite <- B in Cy. cbn in Cy. rewrite lookup_insert in Cy. injection Cy as <-. cbn in Dy. congruence.
Qed.

(** A profile with unwinding where nothing behind a map is mapped, and the
    shipped one. *)
Definition unwinding : profile := Profile false (fun ml n => n <=? ml).
Definition shipped : profile := Profile true (fun ml n => n <=? ml).

Lemma unwinding_ok : profile_ok unwinding /\ profile_ok shipped.
Proof. split; intros ml n H; apply N.leb_le, H. Qed.

(** The property as wished for: ordinary calls with values of any size below
    4 GiB never end the process. *)
Definition calls_do_not_end_the_process (pr : profile) (E : env) (keyof : bytes -> bytes) : Prop :=
  forall es w rs ended, Forall (any_size_call E keyof) es -> one_spelling E es -> room E (writes es) ->
    frun pr E world0 es = Some (w, rs, ended) -> ended = false.

Definition outcome (x : option (world * list result * bool)) : option (list result * bool) :=
  match x with Some (_, rs, b) => Some (rs, b) | None => None end.

Theorem C79_large_value_refuted :
  env_ok (ex_env FPlain) /\ ~ calls_do_not_end_the_process unwinding (ex_env FPlain) ex_keyof /\
  outcome (frun unwinding (ex_env FPlain) world0 ex_big_trace) = Some ([ROk None; ROk None; ROk None; ROk None], true).
Proof.
  assert (R : outcome (frun unwinding (ex_env FPlain) world0 ex_big_trace) = Some ([ROk None; ROk None; ROk None; ROk None], true))
    by (vm_compute; reflexivity).
  split; [apply ex_env_ok; exact Logic.I|]. split; [|exact R]. intros H.
  destruct (frun unwinding (ex_env FPlain) world0 ex_big_trace) as [[[w rs] b]|] eqn:Ef; [|discriminate R].
  cbn in R. injection R as -> ->.
  assert (A : Forall (any_size_call (ex_env FPlain) ex_keyof) ex_big_trace) by (apply any_size_callsb_ok; vm_compute; reflexivity).
  specialize (H ex_big_trace w _ true A ltac:(apply one_spellingb_ok; vm_compute; reflexivity) ltac:(apply roomb_ok; vm_compute; reflexivity) Ef).
  discriminate H.
Qed.

(** A store with one record; its length word is damaged, or its record. *)
Example C79_damage_example :
  match run (ex_env FPlain) world0 [ENew 0 dir_d ex_key; EPut 0 k1 hello; EIo 0] with
  | Some (w, _) =>
      match file_at w dir_d with
      | Some f => Some (ends unwinding (ex_env FPlain) (tampered w dir_d (set_byte 0 x01 f)) (ENew 0 dir_d ex_key),
                        ends unwinding (ex_env FPlain) (tampered w dir_d (set_byte 9 x01 f)) (ENew 0 dir_d ex_key),
                        ends shipped (ex_env FPlain) (tampered w dir_d (set_byte 9 x01 f)) (ENew 0 dir_d ex_key),
                        ends unwinding (ex_env FPlain) (tampered w dir_d (take 7 f)) (ENew 0 dir_d ex_key),
                        ends shipped (ex_env FPlain) (tampered w dir_d f) (ENew 0 dir_d ex_key))
      | None => None
      end
  | None => None
  end = Some (true, false, true, true, false).
Proof. vm_compute. reflexivity. Qed.
