(** C83: the same program built with and without the encryption feature
    (Cargo.toml:33-35, mmkv_impl.rs:30-40) uses the same file names and the
    same framing of records.  What happens when a directory written by one
    build is opened by the other. *)
From Verif Require Import Bytes Utf8 Proto ProtoFacts Crc8 Value Codec Store StoreFacts Encrypt World Spec Hyps Refine WorldInv WorldStep Main Frames Reach Examples P_Map P_Store Slots Damaged Crash P_Kill P_Kill2 P_Corrupt P_Enc P_Enc2 P_Damaged P_Wrong.
From Coq Require Import ZifyBool ZifyNat ZifyN.
From Coq Require String. Import (notations) String.
Local Open Scope N_scope.

(** * What the theorems speak about *)

(** The same program and machine, built with feature set [F]. *)
Definition built (E : env) (F : feature) : env := Env (e_plat E) F (e_dir_ok E) (e_canon E) (e_rng E).

(** One build is plain and the other one encrypted. *)
Definition switched (F F' : feature) : Prop :=
  match F, F' with FPlain, FEncrypted _ | FEncrypted _, FPlain => True | _, _ => False end.

(** The [i]-th record of a file (its [b] bytes after the length) passes for
    the entry [m] of build [E]: the checksum is right, or the cipher accepts
    it under key [key] and a fresh nonce; and what it protects parses. *)
Definition passes_for (E : env) (key : bytes) (i : nat) (b : bytes) (m : kv) : Prop :=
  match e_feat E with
  | FPlain => exists body, b = body ++ [n2b (crc8 body)] /\ parse_kv body = Some m
  | FEncrypted A => exists j body, unseal A key (stream_nonce (e_rng E j) (N.of_nat i)) b = Some body /\ parse_kv body = Some m
  end.

(** No record of any data file passes for one of build [E] under the keys
    [keyof]. *)
Definition nothing_passes (E : env) (keyof : bytes -> bytes) (w : world) : Prop :=
  forall d f bodies unused, file_at w d = Some f -> f = be 8 (len (frames bodies)) ++ frames bodies ++ unused ->
  Forall (fun b => len b < 2 ^ 32) bodies ->
  forall i b m, bodies !! i = Some b -> ~ passes_for E (default [] (feature_key (e_feat E) (keyof d))) i b m.

(** * Files of either build are frames *)

Lemma enc_crc_frames rs : forall n c, Forall (fun m => crc_size m < 2 ^ 32) rs -> enc_list crc_codec n rs = Some c ->
  exists bs, c = frames bs /\ Forall (fun b => 1 <= len b /\ len b + 4 < 2 ^ 32) bs /\ length bs = length rs.
Proof.
  induction rs as [|m r IH]; intros n c HF Hc; cbn [enc_list] in Hc.
  - injection Hc as <-. exists []. split_and!; [reflexivity|constructor|reflexivity].
  - apply Forall_cons in HF as [Hz HF]. rewrite crc_enc_shape in Hc by exact Hz.
    destruct (enc_list crc_codec ((n + 1) mod 2 ^ 32) r) as [c'|] eqn:Ec; [|discriminate Hc]. injection Hc as <-.
    destruct (IH _ c' HF Ec) as (bs & -> & B & L). exists ((encode_kv m ++ [n2b (crc8 (encode_kv m))]) :: bs).
    assert (Hl : len (encode_kv m ++ [n2b (crc8 (encode_kv m))]) = len (encode_kv m) + 1) by (rewrite len_app; reflexivity).
    split_and!.
    + match goal with |- _ = frames (?x :: bs) => change (frames (x :: bs)) with (frame x ++ frames bs) end. unfold frame. rewrite Hl, <- !app_assoc. reflexivity.
    + constructor; [|exact B]. rewrite Hl. unfold crc_size in Hz. lia.
    + cbn. congruence.
Qed.

Lemma stored_frames E keyof w d s rs c : env_ok E -> (exists k n, dir_codec E keyof w d = feature_codec (e_feat E) k n) ->
  WOk E (dir_codec E keyof w d) s rs c ->
  exists bodies unused, s_file s = be 8 (len (frames bodies)) ++ frames bodies ++ unused /\
    Forall (fun b => 1 <= len b /\ len b + 4 < 2 ^ 32) bodies /\ N.of_nat (length bodies) <= c.
Proof.
  intros HE (k & nonce & HC) (I & HG & HL & _). destruct (inv_file _ _ _ _ _ I) as (cc & slack & Ec & Ef).
  assert (Hz : Forall (fun m => kv_ok m = true /\ record_size (e_feat E) m < 2 ^ 32) rs).
  { eapply Forall_impl; [exact HG|]. intros m Hm. apply (good_rec E HE m Hm). }
  rewrite HC in Ec. pose proof (eo_feat _ HE) as HA. destruct (e_feat E) as [|A]; cbn [feature_codec record_size feature_ok] in *.
  - destruct (enc_crc_frames rs 0 cc) as (bs & -> & B & L); [eapply Forall_impl; [exact Hz|]; intros m [_ Hm]; exact Hm|exact Ec|].
    exists bs, slack. split_and!; [exact Ef|exact B|lia].
  - change 0 with (0 mod 2 ^ 32) in Ec. destruct (enc_sealed A k nonce rs HA 0 cc Hz Ec) as (cs & S & -> & B).
    exists cs, slack. split_and!; [exact Ef| |pose proof (sealed_length _ _ _ _ _ _ S); lia].
    assert (B2 : Forall (fun b => 1 <= len b) cs).
    { clear - S HA Hz. revert Hz. induction S as [|n m c rs cs Hs S IH]; intros Hz; [constructor|]. apply Forall_cons in Hz as [[_ Hm] Hz].
      unfold aes_size in Hm. destruct (HA k (stream_nonce nonce (n mod 2 ^ 32)) (encode_kv m) ltac:(lia)) as (x & Hx & Hl & _). rewrite Hs in Hx. injection Hx as <-.
      constructor; [lia|apply IH, Hz]. }
    apply Forall_and. split; assumption.
Qed.

(** A body that does not pass is skipped. *)
Lemma not_passing E key i j b : (forall m, ~ passes_for E key i b m) -> N.of_nat i < 2 ^ 32 ->
  body_entry (e_feat E) key (e_rng E j) (N.of_nat i mod 2 ^ 32) b = None.
Proof.
  intros H Hi. destruct (body_entry _ _ _ _ _) as [m|] eqn:Hb; [|reflexivity]. destruct (H m). unfold passes_for, body_entry in *.
  destruct (e_feat E) as [|A].
  - destruct b as [|x b _] using rev_ind; [discriminate Hb|]. rewrite last_snoc, removelast_last in Hb.
    destruct (N.eqb_spec (crc8 b) (b2n x)) as [Hx|]; [|discriminate Hb]. exists b. split; [|exact Hb]. rewrite Hx, n2b_b2n. reflexivity.
  - unfold stream_decrypt in Hb. destruct (_ =? counter_max); [discriminate Hb|]. rewrite N.mod_small in Hb by exact Hi.
    destruct (unseal A key _ b) as [body|] eqn:Hu; [|discriminate Hb]. exists j, body. auto.
Qed.

(** A file none of whose records passes, as build [E] sees it. *)
Lemma unreadable_file E key f bodies unused n :
  env_ok E -> f = be 8 (len (frames bodies)) ++ frames bodies ++ unused ->
  Forall (fun b => 1 <= len b /\ len b + 4 < 2 ^ 32) bodies -> N.of_nat (length bodies) <= n ->
  len f <= page (e_plat E) * (1 + n * (1 + page (e_plat E))) -> len f < 2 ^ 63 ->
  (forall i b m, bodies !! i = Some b -> ~ passes_for E key i b m) -> N.of_nat (length bodies) < 2 ^ 32 ->
  unreadable (Rp := damaged E) E f key n.
Proof.
  intros HE Hf HB Hn Hs Hl Hp Hlt j.
  destruct (frame_slots_ok (e_feat E) key (e_rng E j) bodies 0) as (S1 & S2 & _).
  { eapply Forall_impl; [exact HB|]. intros b Hb. cbn beta in Hb. destruct (e_feat E); cbn [min_item]; lia. }
  assert (Hnone : forall k bs, (forall i b, bs !! i = Some b -> body_entry (e_feat E) key (e_rng E j) (N.of_nat (k + i) mod 2 ^ 32) b = None) ->
     slot_recs (frame_slots (e_feat E) key (e_rng E j) (N.of_nat k) bs) = [] /\ Forall (slot_good E) (frame_slots (e_feat E) key (e_rng E j) (N.of_nat k) bs)).
  { intros k bs. revert k. induction bs as [|b bs IH]; intros k Hk; [split; [reflexivity|constructor]|]. cbn [frame_slots].
    pose proof (Hk 0%nat b eq_refl) as Hb. rewrite Nat.add_0_r in Hb. rewrite Hb.
    replace (N.of_nat k + 1) with (N.of_nat (S k)) by lia. destruct (IH (S k)) as (A & B).
    { intros i x Hx. replace (S k + i)%nat with (k + S i)%nat by lia. apply (Hk (S i) x Hx). }
    split; [exact A|]. constructor; [exact Logic.I|exact B]. }
  destruct (Hnone 0%nat bodies) as (Hr & Hg).
  { intros i b Hb. cbn [Nat.add]. apply not_passing; [intros m; apply (Hp i b m Hb)|]. apply lookup_lt_Some in Hb. lia. }
  change (N.of_nat 0) with 0 in Hr, Hg.
  eexists. split; [|rewrite <- Hr; cbn [r_ok damaged]; apply (damaged_dOk E _ f)]; [reflexivity|]. split_and!.
  - exact S1.
  - exact Hg.
  - exists unused. unfold StoreFacts.shape. rewrite S2. exact Hf.
  - rewrite frame_slots_length. exact Hn.
  - exact Hs.
  - exact Hl.
Qed.

(** * The plain build makes no nonce files *)

Definition no_meta (w : world) : Prop := forall d, d_meta (dir_of w d) = None.

Lemma no_meta_insert (w : world) (d : bytes) (x : dirst) (w' : world) : no_meta w -> d_meta x = None -> w_dirs w' = <[d := x]> (w_dirs w) -> no_meta w'.
Proof.
  intros H Hx HD d'. unfold dir_of. rewrite HD. destruct (decide (d = d')) as [->|Hne]; [rewrite lookup_insert; exact Hx|].
  rewrite lookup_insert_ne by exact Hne. apply (H d').
Qed.

Lemma no_meta_same w w' : no_meta w -> w_dirs w' = w_dirs w -> no_meta w'.
Proof. intros H HD d. unfold dir_of. rewrite HD. apply (H d). Qed.

Lemma no_meta_job E w i : e_feat E = FPlain -> no_meta w -> no_meta (run_job E w i).
Proof.
  intros HF H. unfold run_job. destruct (w_insts w !! i) as [x|]; [|exact H]. destruct (i_io x); [|exact H].
  destruct (i_queue x) as [|[m dup|] q]; [exact H| |].
  - destruct (write _ _ _ _ _) as [s ok]. eapply no_meta_same; [exact H|reflexivity].
  - eapply no_meta_insert; [exact H| |reflexivity]. rewrite HF. apply (H (i_dir x)).
Qed.

Lemma no_meta_drain E w i : e_feat E = FPlain -> no_meta w -> no_meta (drain E w i).
Proof.
  intros HF H. unfold drain. destruct (w_insts w !! i) as [x|]; [|exact H].
  induction (length (i_queue x)) as [|k IH]; [exact H|]. cbn [Nat.iter]. apply no_meta_job; assumption.
Qed.

Lemma no_meta_open E w p key w' y : e_feat E = FPlain -> no_meta w -> open_impl E w p key = (w', y) -> no_meta w'.
Proof.
  intros HF H Ho. unfold open_impl in Ho. destruct (e_dir_ok E p); [|injection Ho as <- _; exact H].
  assert (Hc : no_meta (open_config E w (e_canon E p)).1).
  { unfold open_config. destruct (d_data (dir_of w (e_canon E p))) as [i|]; cbn [fst].
    - eapply no_meta_same; [exact H|reflexivity].
    - eapply no_meta_insert; [exact H| |reflexivity]. apply (H (e_canon E p)). }
  destruct (open_config E w (e_canon E p)) as [w1 ino]. cbn [fst] in Hc.
  destruct (feature_key (e_feat E) key) as [k|]; [|injection Ho as <- _; exact Hc].
  unfold open_nonce in Ho. rewrite HF in Ho. cbn [is_encrypted] in Ho.
  destruct (open_file _ _ _ _) as [[s m]|]; injection Ho as <- _; exact Hc.
Qed.

Lemma on_inst_dirs w i g w' r : on_inst w i g = (w', r) -> w_dirs w' = w_dirs w.
Proof. unfold on_inst. destruct (w_insts w !! i) as [x|]; [destruct (g x)|]; intros [= <- _]; reflexivity. Qed.

Lemma no_meta_clear E w i x w' r : e_feat E = FPlain -> no_meta w -> impl_clear E w i x = (w', r) -> no_meta w'.
Proof.
  intros HF H Hc. unfold impl_clear in Hc. destruct (i_valid x); cbn [negb] in Hc; [|injection Hc as <- _; exact H].
  destruct (post (i_invalid x) JRemove) as [x1 r1].
  assert (H1 : no_meta (set_inst w i x1)) by (eapply no_meta_same; [exact H|reflexivity]).
  destruct r1; [|injection Hc as <- _; exact H1..].
  pose proof (no_meta_drain E _ i HF H1) as H2.
  destruct (w_insts (drain E (set_inst w i x1) i) !! i); injection Hc as <- _; [eapply no_meta_same; [exact H2|reflexivity]|exact H2].
Qed.

Lemma no_meta_step E w e w' r : e_feat E = FPlain -> no_meta w -> step E w e = Some (w', r) -> no_meta w'.
Proof.
  intros HF H Hst.
  assert (Hreg : forall h hd w1 r1, no_meta w -> do_drop_reg w h hd = (w1, r1) -> no_meta w1).
  { intros h hd w1 r1 H0 Hd. unfold do_drop_reg in Hd. destruct (w_poison w); [|destruct (Nat.eqb _ _)]; injection Hd as <- _;
      (eapply no_meta_same; [exact H0|reflexivity]). }
  assert (Harc : forall w h hd w1 r1, no_meta w -> do_drop_arc E w h hd = (w1, r1) -> no_meta w1).
  { intros w0 h hd w1 r1 H0 Hd. unfold do_drop_arc in Hd. destruct (Nat.eqb _ _); injection Hd as <- _.
    - eapply no_meta_same; [apply (no_meta_drain E w0 (h_inst hd) HF H0)|reflexivity].
    - eapply no_meta_same; [exact H0|reflexivity]. }
  destruct e as [h path key|h key v|h key|h key t|h key t|h key|h|h|h|h|i|]; cbn [step] in Hst; unfold with_handle in Hst;
    try (destruct (w_handles w !! h) as [hd|]; [|discriminate]; destruct (h_unreg hd); [discriminate|]; injection Hst as Hst).
  - destruct (w_handles w !! h); [discriminate|]. injection Hst as Hst. unfold do_new in Hst.
    destruct (w_poison w); [injection Hst as <- _; exact H|].
    destruct (lookup_reg w path) as [i|]; [injection Hst as <- _; eapply no_meta_same; [exact H|reflexivity]|].
    destruct (open_impl E w path key) as [w1 y] eqn:Eo. pose proof (no_meta_open E w path key w1 y HF H Eo) as H1.
    destruct y; injection Hst as <- _; (eapply no_meta_same; [exact H1|reflexivity]).
  - eapply no_meta_same; [exact H|eapply on_inst_dirs, Hst].
  - eapply no_meta_same; [exact H|eapply on_inst_dirs, Hst].
  - eapply no_meta_same; [exact H|eapply on_inst_dirs, Hst].
  - eapply no_meta_same; [exact H|eapply on_inst_dirs, Hst].
  - eapply no_meta_same; [exact H|eapply on_inst_dirs, Hst].
  - unfold do_clear in Hst. destruct (w_insts w !! h_inst hd) as [x|]; [|injection Hst as <- _; exact H].
    destruct (i_poison x); [injection Hst as <- _; exact H|].
    destruct (impl_clear E w (h_inst hd) x) as [w1 r1] eqn:Ec. pose proof (no_meta_clear E w (h_inst hd) x w1 r1 HF H Ec) as H1.
    destruct r1; [|injection Hst as <- _; exact H1..].
    destruct (open_impl E w1 (h_path hd) (h_key hd)) as [w2 y] eqn:Eo. pose proof (no_meta_open E w1 _ _ w2 y HF H1 Eo) as H2.
    destruct y; [destruct (_ && _)|destruct (w_insts w2 !! h_inst hd)]; injection Hst as <- _;
      first [exact H2|eapply no_meta_same; [exact H2|reflexivity]].
  - destruct (do_drop_reg w h hd) as [w1 r1] eqn:E1. pose proof (Hreg _ _ _ _ H E1) as H1.
    destruct (do_drop_arc E w1 h hd) as [w2 r2] eqn:E2. injection Hst as <- _. eapply Harc; eassumption.
  - eapply Hreg; eassumption.
  - destruct (w_handles w !! h) as [hd|]; [|discriminate]. destruct (h_unreg hd); [|discriminate]. injection Hst as Hst. eapply Harc; eassumption.
  - injection Hst as <- _. apply no_meta_job; assumption.
  - injection Hst as <- _. eapply no_meta_same; [exact H|reflexivity].
Qed.

Lemma no_meta_run E es : e_feat E = FPlain -> forall w w' rs, no_meta w -> run E w es = Some (w', rs) -> no_meta w'.
Proof.
  intros HF. induction es as [|e es IH]; intros w w' rs H Hr; cbn [run] in Hr; [injection Hr as <- _; exact H|].
  destruct (step E w e) as [[w1 r1]|] eqn:E1; [|discriminate]. destruct (run E w1 es) as [[w2 rs2]|] eqn:E2; [|discriminate].
  injection Hr as <- _. eapply IH; [|exact E2]. eapply no_meta_step; eassumption.
Qed.

Lemma no_meta_0 : no_meta world0.
Proof. intros d. reflexivity. Qed.

(** * The other build finds empty stores *)

(** If no record passes for one of the other build by accident, then to the
    other build every directory is an ordinary empty store: no answer of any
    further history depends on what was stored, and nothing crashes. *)
Theorem C83_other_build_finds_empty_stores_partial E F' keyof keyof' es w rs0 :
  ordinary E keyof es -> run E world0 es = Some (w, rs0) -> switched (e_feat E) F' -> feature_ok F' ->
  nothing_passes (built E F') keyof' w -> writes es < 2 ^ 32 ->
  goes_on (built E F') keyof' (writes es) (killed w) spec0.
Proof.
  intros HO Hr HS HF' Hno Hw. pose proof (or_env _ _ _ HO) as HE.
  assert (HE' : env_ok (built E F')).
  { split; [apply (eo_plat _ HE)|exact HF'|apply (eo_rng _ HE)]. }
  destruct (kill_base E keyof es w rs0 HO Hr) as (_ & _ & Hi & _).
  apply (quiet_goes_on (built E F') (damaged (built E F')) (damaged_law (built E F'))); [apply quiet_killed|reflexivity|exact Hi|].
  intros d. unfold dir_ok. change (dir_of (killed w) d) with (dir_of w d). change (contents spec0 d) with (∅ : smap).
  destruct (d_data (dir_of w d)) as [ino|] eqn:Hd; [|reflexivity].
  assert (Hf : file_at w d = Some (inode w ino)) by (unfold file_at; rewrite Hd; reflexivity).
  destruct (reach_file E keyof es w rs0 d _ HO Hr Hf) as (s & rs & Hs & HW).
  destruct (tampered_dir E keyof es w rs0 d _ HO Hr Hf) as (ino' & nonce & _ & _ & HC & _).
  destruct (stored_frames E keyof w d s rs _ HE ltac:(eauto) HW) as (bodies & unused & Hfe & HB & Hn). rewrite Hs in Hfe.
  pose proof (file_small E keyof es w rs0 d _ HO Hr Hf) as Hsm. destruct HW as (_ & _ & _ & Hsz & _). rewrite Hs in Hsz.
  assert (HB' : Forall (fun b => len b < 2 ^ 32) bodies) by (eapply Forall_impl; [exact HB|]; intros b Hb; cbn beta in *; lia).
  pose proof (Hno d _ bodies unused Hf Hfe HB') as Hp.
  assert (HU : unreadable (Rp := damaged (built E F')) (built E F') (inode w ino) (kof (built E F') keyof' d) (writes es)).
  { eapply unreadable_file; [exact HE'|exact Hfe|exact HB|exact Hn|exact Hsz|exact Hsm|exact Hp|lia]. }
  change (inode (killed w) ino) with (inode w ino).
  destruct F' as [|A].
  - left. destruct (HU 0) as (s' & A1 & A2). exists [], (e_rng E 0), s'. split_and!; [exact Logic.I|exact A1|exact A2|apply rel_empty].
  - right. split; [reflexivity|]. split; [|reflexivity]. right. right. split; [|exact HU].
    unfold switched in HS. destruct (e_feat E) as [|A0] eqn:HF; [|contradiction].
    apply (no_meta_run E es HF world0 w rs0 no_meta_0 Hr).
Qed.

(** * Sessions of the other build that only read *)

(** The data files are the same, and the nonce files unless the build is an
    encrypted one. *)
Definition data_eq (E : env) (w w' : world) : Prop :=
  (forall d, d_data (dir_of w' d) = d_data (dir_of w d) /\ (is_encrypted (e_feat E) = false -> d_meta (dir_of w' d) = d_meta (dir_of w d))) /\
  (forall j, inode w' j = inode w j).

Definition data_there (w : world) (d : bytes) : Prop := exists f, file_at w d = Some f /\ f <> [].

Lemma data_eq_refl E w : data_eq E w w.
Proof. split; [intros d; split; [reflexivity|intros _; reflexivity]|reflexivity]. Qed.

Lemma data_eq_trans E w1 w2 w3 : data_eq E w1 w2 -> data_eq E w2 w3 -> data_eq E w1 w3.
Proof.
  intros [A B] [C D]. split; [|intros j; rewrite D; apply B]. intros d. destruct (A d) as [A1 A2], (C d) as [C1 C2].
  split; [congruence|]. intros H. rewrite C2, A2 by exact H. reflexivity.
Qed.

Lemma data_eq_disk E w w' : disk_eq w w' -> data_eq E w w'.
Proof. intros [A B]. split; [|exact B]. intros d. rewrite A. split; [reflexivity|intros _; reflexivity]. Qed.

Lemma data_eq_file E w w' d : data_eq E w w' -> file_at w' d = file_at w d.
Proof. intros [A B]. unfold file_at. destruct (A d) as [-> _]. destruct (d_data (dir_of w d)); [|reflexivity]. cbn. rewrite B. reflexivity. Qed.

Lemma data_there_eq E w w' d : data_eq E w w' -> data_there w d -> data_there w' d.
Proof. intros H (f & A & B). exists f. rewrite (data_eq_file _ _ _ _ H). auto. Qed.

Lemma peek_open E w p key w' y : data_there w (e_canon E p) -> open_impl E w p key = (w', y) ->
  data_eq E w w' /\ w_insts w' = w_insts w /\ w_next_ino w' = w_next_ino w /\ match y with Some x => i_queue x = [] | None => True end.
Proof.
  intros (f & Hf & Hne) H. unfold open_impl in H. set (d := e_canon E p) in *.
  destruct (e_dir_ok E p); [|injection H as <- <-; split_and!; [apply data_eq_refl|reflexivity|reflexivity|exact Logic.I]].
  unfold file_at in Hf. destruct (d_data (dir_of w d)) as [ino|] eqn:Ed; [|discriminate]. injection Hf as Hf.
  unfold open_config in H. rewrite Ed in H.
  assert (Hcf : config_new (e_plat E) (inode w ino) = inode w ino).
  { unfold config_new. destruct (N.eqb_spec (len (inode w ino)) 0) as [Hz|]; [|reflexivity]. rewrite Hf in Hz. destruct f; [contradiction|]. unfold len in Hz. cbn in Hz. lia. }
  rewrite Hcf in H. set (w1 := set_inode w ino (inode w ino)) in *.
  assert (H1 : data_eq E w w1).
  { split; [intros d'; split; [reflexivity|intros _; reflexivity]|]. intros j. unfold w1, inode at 1, set_inode. cbn [w_inodes].
    destruct (decide (j = ino)) as [->|Hj]; [rewrite lookup_insert; reflexivity|]. rewrite lookup_insert_ne by congruence. reflexivity. }
  destruct (feature_key (e_feat E) key) as [k|]; [|injection H as <- <-; split_and!; [exact H1|reflexivity|reflexivity|exact Logic.I]].
  assert (H2 : exists w2 nonce, open_nonce E w1 d = (w2, nonce) /\ data_eq E w w2 /\ w_insts w2 = w_insts w /\ w_next_ino w2 = w_next_ino w).
  { unfold open_nonce. destruct (is_encrypted (e_feat E)) eqn:HI; [|exists w1, []; split_and!; [reflexivity|exact H1|reflexivity|reflexivity]].
    destruct (init_nonce _ _) as [n m']. eexists _, n. split; [reflexivity|]. split_and!; [|reflexivity|reflexivity].
    eapply data_eq_trans; [exact H1|]. split; [|reflexivity]. intros d'. split; [|intros HI'; congruence].
    unfold dir_of at 1. cbn [w_dirs]. destruct (decide (d' = d)) as [->|Hd]; [rewrite lookup_insert; reflexivity|].
    rewrite lookup_insert_ne by congruence. reflexivity. }
  destruct H2 as (w2 & nonce & E2 & H2 & H3 & H4). rewrite E2 in H.
  destruct (open_file _ _ _ _) as [[s m]|]; injection H as <- <-; (split_and!; [exact H2|exact H3|exact H4|]); [reflexivity|exact Logic.I].
Qed.

Lemma peek_step E w e w' r : resting w -> reading e = true -> (forall p, In p (paths [e]) -> data_there w (e_canon E p)) ->
  step E w e = Some (w', r) -> data_eq E w w' /\ resting w' /\ w_next_ino w' = w_next_ino w.
Proof.
  intros HR Hre Hft Hst. destruct e as [h path key|h key v|h key|h key t|h key t|h key|h|h|h|h|i|]; try discriminate Hre;
    try (destruct (read_step E w _ w' r HR Hre ltac:(intros p []) Hst) as (A & B & C); split_and!; [apply data_eq_disk, A|exact B|exact C]).
  cbn [step] in Hst. destruct (w_handles w !! h); [discriminate|]. injection Hst as Hst. unfold do_new in Hst.
  destruct (w_poison w); [injection Hst as <- _; split_and!; [apply data_eq_refl|exact HR|reflexivity]|].
  destruct (lookup_reg w path) as [i|]; [injection Hst as <- _; split_and!; [split; [intros d; split; [reflexivity|intros _; reflexivity]|reflexivity]|exact HR|reflexivity]|].
  destruct (open_impl E w path key) as [w1 y] eqn:Eo.
  destruct (peek_open E w path key w1 y (Hft path ltac:(left; reflexivity)) Eo) as (A & B & C & D).
  destruct y as [x|]; injection Hst as <- _; (split_and!; [exact A| |exact C]).
  - intros i z Hz. cbn [w_insts] in Hz. destruct (decide (i = w_next_inst w1)) as [->|Hi]; [rewrite lookup_insert in Hz; injection Hz as <-; exact D|].
    rewrite lookup_insert_ne, B in Hz by congruence. apply (HR i z Hz).
  - intros i z Hz. cbn in Hz. rewrite B in Hz. apply (HR i z Hz).
Qed.

Lemma peek_run E es : forall w w' rs, resting w -> forallb reading es = true -> (forall p, In p (paths es) -> data_there w (e_canon E p)) ->
  run E w es = Some (w', rs) -> data_eq E w w' /\ resting w' /\ w_next_ino w' = w_next_ino w.
Proof.
  induction es as [|e es IH]; intros w w' rs HR Hre Hft Hr; cbn [run] in Hr.
  - injection Hr as <- _. split_and!; [apply data_eq_refl|exact HR|reflexivity].
  - cbn [forallb] in Hre. apply andb_true_iff in Hre as [Hre1 Hre2].
    destruct (step E w e) as [[w1 r1]|] eqn:E1; [|discriminate]. destruct (run E w1 es) as [[w2 rs2]|] eqn:E2; [|discriminate]. injection Hr as <- _.
    assert (Hp : forall p, In p (paths [e]) \/ In p (paths es) -> data_there w (e_canon E p)).
    { intros p Hp. apply Hft. change (e :: es) with ([e] ++ es). rewrite paths_app. apply in_or_app. exact Hp. }
    destruct (peek_step E w e w1 r1 HR Hre1 ltac:(intros p Hin; apply Hp; left; exact Hin) E1) as (A & B & C).
    destruct (IH w1 w2 rs2 B Hre2) as (A' & B' & C'); [|exact E2|].
    { intros p Hin. eapply data_there_eq; [exact A|]. apply Hp. right. exact Hin. }
    split_and!; [eapply data_eq_trans; eassumption|exact B'|congruence].
Qed.

(** A session of the other build that only opens, reads and closes existing
    directories (under any keys, whatever panics) does no harm: the next
    session of the original build finds everything that was persisted. *)
Theorem C83_reading_with_the_other_build_is_harmless_partial E F' keyof es w rs0 es' w' rs' :
  ordinary E keyof es -> run E world0 es = Some (w, rs0) -> switched (e_feat E) F' ->
  forallb reading es' = true -> (forall p, In p (paths es') -> file_at w (e_canon E p) <> None) ->
  run (built E F') (killed w) es' = Some (w', rs') ->
  (forall d, file_at w' d = file_at w d) /\
  exists s', killed_to E es w s' /\ goes_on E keyof (writes es) (killed w') s'.
Proof.
  intros HO Hr HS Hre Hft Hr'. destruct (kill_base E keyof es w rs0 HO Hr) as (s' & Hk & [Hi1 Hi2] & HD).
  destruct (peek_run (built E F') es' (killed w) w' rs') as (HQ & _ & A3); [| | |exact Hr'|].
  { intros i x Hx. unfold killed in Hx. cbn in Hx. rewrite lookup_empty in Hx. discriminate. }
  { exact Hre. }
  { intros p Hp. specialize (Hft p Hp). change (e_canon (built E F') p) with (e_canon E p). destruct (file_at w (e_canon E p)) as [f|] eqn:Hf; [|congruence].
    destruct (reach_files E keyof es w rs0 _ f HO Hr Hf) as [G _]. exact G. }
  split; [intros d; exact (data_eq_file _ _ _ d HQ)|]. exists s'. split; [exact Hk|]. destruct HQ as [A1 A2].
  change (w_next_ino (killed w)) with (w_next_ino w) in A3.
  assert (B1 : forall d, d_data (dir_of (killed w') d) = d_data (dir_of w d)) by (intros d; apply (A1 d)). assert (B2 : forall j, inode (killed w') j = inode w j) by exact A2.
  apply (quiet_goes_on E (damaged E) (damaged_law E)); [apply quiet_killed|apply Hk| |].
  - split.
    + intros d i. rewrite B1. intros H. change (w_next_ino (killed w')) with (w_next_ino w'). rewrite A3. eapply Hi1, H.
    + intros d d' i. rewrite !B1. apply Hi2.
  - intros d. apply (dir_ok_damaged E keyof _ _ _ _ (or_env _ _ _ HO)). specialize (HD d). apply dir_ok_clean in HD. unfold dir_ok.
    rewrite B1. change (dir_of (killed w) d) with (dir_of w d) in HD. destruct (d_data (dir_of w d)) as [ino|]; [|exact HD].
    destruct HD as (rs & nonce & M & HW & R). left. exists rs, nonce, (closed_st (inode (killed w) ino) rs). rewrite B2. split_and!; [|reflexivity|exact HW|exact R].
    unfold meta_ok in *. unfold switched in HS. destruct (e_feat E) as [|A] eqn:HF; [exact Logic.I|]. destruct F' as [|A']; [|contradiction].
    destruct (A1 d) as [_ Hm]. change (dir_of (killed w') d) with (dir_of w' d). rewrite (Hm eq_refl). exact M.
Qed.

(** * What is not so *)

(** The files of a run and how they decompose are unique. *)
Lemma frames_inj a : forall b, Forall (fun x => len x < 2 ^ 32) a -> Forall (fun x => len x < 2 ^ 32) b -> frames a = frames b -> a = b.
Proof.
  assert (Hcons : forall x l, frames (x :: l) = be 4 (len x) ++ x ++ frames l).
  { intros x l. change (frames (x :: l)) with (frame x ++ frames l). unfold frame. rewrite <- app_assoc. reflexivity. }
  assert (Hne : forall x l, frames (x :: l) <> []).
  { intros x l H. apply (f_equal len) in H. rewrite Hcons, len_app, len_be in H. change (len []) with 0 in H. lia. }
  induction a as [|x a IH]; intros [|y b] Ha Hb H; [reflexivity|destruct (Hne y b); symmetry; exact H|destruct (Hne x a); exact H|].
  apply Forall_cons in Ha as [Hx Ha]. apply Forall_cons in Hb as [Hy Hb]. rewrite !Hcons in H.
  apply app_inj_1 in H as [H1 H]; [|rewrite !be_length; reflexivity].
  assert (Hl : len x = len y).
  { apply (f_equal unbe) in H1. rewrite !unbe_be_small in H1 by (change (256 ^ N.of_nat 4) with (2 ^ 32); assumption). exact H1. }
  apply app_inj_1 in H as [H2 H]; [|unfold len in Hl; lia]. f_equal; [exact H2|apply IH; assumption].
Qed.

Lemma content_inj a b u v : be 8 (len a) ++ a ++ u = be 8 (len b) ++ b ++ v -> len (be 8 (len b) ++ b ++ v) < 2 ^ 64 -> a = b.
Proof.
  intros H Hl. pose proof (f_equal len H) as HL. rewrite !len_app, !len_be in HL. rewrite !len_app, len_be in Hl.
  apply app_inj_1 in H as [H1 H]; [|rewrite !be_length; reflexivity].
  assert (Hab : len a = len b).
  { apply (f_equal unbe) in H1. rewrite !unbe_be_small in H1 by (change (256 ^ N.of_nat 8) with (2 ^ 64); lia). exact H1. }
  apply app_inj_1 in H as [H2 _]; [exact H2|unfold len in Hab; lia].
Qed.

(** One would wish that a session of the other build that adds entries under
    keys of its own does no harm either. *)
Definition adding_with_the_other_build_is_harmless (E : env) (F' : feature) : Prop :=
  forall keyof keyof' es w rs0 es' w' rs',
  ordinary E keyof es -> run E world0 es = Some (w, rs0) -> switched (e_feat E) F' -> feature_ok F' -> nothing_passes (built E F') keyof' w ->
  ordinary (built E F') keyof' es' -> run (built E F') (killed w) es' = Some (w', rs') ->
  (forall e, In e es' -> match e with
     | EClear _ | EDelete _ _ => False
     | EPut _ k _ => forall e0, In e0 es -> match e0 with EPut _ k0 _ => k0 <> k | _ => True end
     | _ => True end) ->
  exists s', killed_to E es w s' /\ goes_on E keyof (writes es + writes es') (killed w') s'.

Definition kz : bytes := str "z"%string.
Definition ex_adds : list event :=
  [ENew 5 dir_d []; EPut 5 kz (VI32 1); EPut 5 kz (VI32 2); EPut 5 kz (VI32 3); EPut 5 kz (VI32 4); EPut 5 kz (VI32 5); EPut 5 kz (VI32 6); EDrop 5].
Definition ex_nokey (d : bytes) : bytes := [].

Lemma ex_two_world F : F = FPlain \/ F = FEncrypted toy_aead -> exists w rs0, run (ex_env F) world0 ex_two = Some (w, rs0) /\
  forall d f, file_at w d = Some f -> d = dir_d /\ file_at w dir_d = Some f.
Proof.
  intros HF.
  assert (T : match run (ex_env F) world0 ex_two with
    | Some (w, _) => match map_to_list (w_dirs w) with [(d, _)] => bool_decide (d = dir_d) | _ => false end
    | None => false end = true) by (destruct HF as [->| ->]; vm_compute; reflexivity).
  destruct (run (ex_env F) world0 ex_two) as [[w rs0]|]; [|discriminate T]. exists w, rs0. split; [reflexivity|].
  destruct (map_to_list (w_dirs w)) as [|[d0 x] [|? ?]] eqn:Hl; try discriminate T. apply bool_decide_eq_true in T. subst d0.
  intros d f Hf. enough (d = dir_d) as -> by (split; [reflexivity|exact Hf]).
  unfold file_at, dir_of in Hf. destruct (w_dirs w !! d) as [y|] eqn:Hd; [|discriminate Hf].
  apply elem_of_map_to_list in Hd. rewrite Hl in Hd. apply elem_of_list_singleton in Hd. congruence.
Qed.

(** The two ciphertexts of the example do not pass for plain records. *)
Lemma ex_two_nothing_passes : exists w rs0 f, run (ex_env (FEncrypted toy_aead)) world0 ex_two = Some (w, rs0) /\
  file_at w dir_d = Some f /\ meta_at w dir_d = Some (ex_rng 0) /\ nothing_passes (built (ex_env (FEncrypted toy_aead)) FPlain) ex_nokey w.
Proof.
  destruct C37_example as (w & rs0 & f & Hr & Hf & Hm & (c & un & Hfe & Hc) & HG & HS & _).
  destruct (ex_two_world (FEncrypted toy_aead) (or_intror eq_refl)) as (w1 & rs1 & Hr1 & Hd).
  rewrite Hr in Hr1. injection Hr1 as <- <-. exists w, rs0, f. split_and!; [exact Hr|exact Hf|exact Hm|].
  intros d f' bodies unused Hf' Hfe' HB i b m Hb Hp. destruct (Hd d f' Hf') as [-> Hf2]. rewrite Hf in Hf2. injection Hf2 as <-.
  assert (Hc2 : c = frames ex_cs).
  { unfold dir_codec in Hc. rewrite Hm in Hc. change 0 with (0 mod 2 ^ 32) in Hc.
    destruct (enc_sealed toy_aead ex_k (ex_rng 0) ex_rs toy_aead_correct 0 c (proj1 HG) Hc) as (cs & S & -> & _).
    f_equal. eapply sealed_fun; [exact S|exact HS]. }
  assert (Hbod : bodies = ex_cs).
  { apply frames_inj; [exact HB|repeat constructor; vm_compute; reflexivity|]. rewrite <- Hc2. apply (content_inj _ _ unused un).
    - rewrite <- Hfe'. exact Hfe.
    - change (len (StoreFacts.shape c un) < 2 ^ 64). unfold StoreFacts.shape. rewrite <- Hfe.
      pose proof (file_small (ex_env (FEncrypted toy_aead)) ex_keyof ex_two w rs0 dir_d f (ex_two_ordinary _ (or_intror eq_refl)) Hr Hf). lia. }
  subst bodies. destruct Hp as (body & -> & Hpar).
  assert (HT : forallb (fun b => match body_entry FPlain [] [] 0 b with None => true | Some _ => false end) ex_cs = true) by (vm_compute; reflexivity).
  rewrite forallb_forall in HT. specialize (HT _ (proj1 (elem_of_list_In _ _) (elem_of_list_lookup_2 _ _ _ Hb))).
  cbn [body_entry] in HT. rewrite last_snoc, removelast_last, b2n_n2b, N.mod_small, N.eqb_refl, Hpar in HT by apply crc8_lt. discriminate HT.
Qed.

(** It is not so: as soon as a page is full, the second put of a key rewrites
    the file with what the other build could read. *)
Theorem C83_adding_with_the_other_build_refuted : ~ adding_with_the_other_build_is_harmless (ex_env (FEncrypted toy_aead)) FPlain.
Proof.
  set (E := ex_env (FEncrypted toy_aead)). intros H.
  destruct ex_two_nothing_passes as (w & rs0 & f & Hr & Hf & Hm & Hno). fold E in Hr, Hno.
  assert (HO : ordinary E ex_keyof ex_two) by (apply ex_two_ordinary; right; reflexivity).
  assert (T : match run E world0 ex_two with
    | Some (w, _) => match run (built E FPlain) (killed w) ex_adds with
       | Some (w', _) => match option_map snd (run E (killed w') [ENew 9 dir_d ex_key; EGet 9 k1 TI32]) with
          | Some [ROk None; RErr KeyNotFound] => true | _ => false end
       | None => false end
    | None => false end = true) by (vm_compute; reflexivity).
  assert (Ti : match run E world0 ex_two with Some (w, _) => Nat.eqb (length (map_to_list (w_insts w))) 0 | None => false end = true) by (vm_compute; reflexivity).
  rewrite Hr in T, Ti. apply Nat.eqb_eq in Ti. destruct (map_to_list (w_insts w)) eqn:Hl; [|discriminate Ti]. apply map_to_list_empty_iff in Hl.
  destruct (run (built E FPlain) (killed w) ex_adds) as [[w' rs']|] eqn:Hr'; [|discriminate T].
  destruct (H ex_keyof ex_nokey ex_two w rs0 ex_adds w' rs' HO Hr Logic.I Logic.I Hno) as (s' & Hk' & Hgo); [|exact Hr'| |].
  { change (built E FPlain) with (ex_env FPlain). apply ordinaryb_ok; [apply ex_env_ok; exact Logic.I|vm_compute; reflexivity]. }
  { intros e He. repeat (destruct He as [<-|He]; [try exact Logic.I; intros e0 H0; repeat (destruct H0 as [<-|H0]; [try exact Logic.I; vm_compute; discriminate|]); destruct H0|]). destruct He. }
  destruct (killed_to_closed E ex_keyof ex_two w rs0 s' dir_d HO Hr Hk') as (sp & Hsp & Hc).
  { intros i x Hx. rewrite Hl, lookup_empty in Hx. discriminate. }
  destruct (run E (killed w') [ENew 9 dir_d ex_key; EGet 9 k1 TI32]) as [[w2 rs2]|] eqn:Hr2; [|discriminate T]. cbn [option_map snd] in T.
  specialize (Hgo [ENew 9 dir_d ex_key; EGet 9 k1 TI32] w2 rs2).
  assert (HOk : ordinary_with_kills E ex_keyof [ENew 9 dir_d ex_key; EGet 9 k1 TI32]).
  { assert (G : ordinary E ex_keyof [ENew 9 dir_d ex_key; EGet 9 k1 TI32]) by (apply ordinaryb_ok; [apply ex_env_ok, toy_aead_correct|vm_compute; reflexivity]).
    destruct G as [G1 G2 G3 G4]. split; auto. eapply Forall_impl; [exact G2|]. auto. }
  specialize (Hgo HOk ltac:(apply roomb_ok; vm_compute; reflexivity) Hr2).
  assert (Hget : match spec_run (e_canon E) spec0 ex_two with Some (s, _) => spec_get (contents s dir_d) k1 TI32 | None => RPanic end = ROk (Some (VI32 5))) by (vm_compute; reflexivity).
  rewrite Hsp, <- Hc in Hget.
  inversion Hgo as [s es s1 rs Hrun|s es s1 rs s2 es2 rs2' Hrun Hrew Hs Heq]; subst; cycle 1.
  { destruct es as [|? [|? [|? es]]]; try discriminate; cbn in *; congruence. }
  cbn [spec_run spec_step] in Hrun. rewrite (proj1 Hk'), lookup_empty in Hrun. cbn [sp_handles] in Hrun. rewrite lookup_insert in Hrun.
  change (e_canon E dir_d) with dir_d in Hrun. match type of Hrun with context [spec_get ?m _ _] => change m with (contents s' dir_d) in Hrun end. rewrite Hget in Hrun. injection Hrun as _ <-. discriminate T.
Qed.

(** One would wish that the condition on accidental matches could be dropped. *)
Definition other_build_always_finds_empty_stores (E : env) (F' : feature) : Prop :=
  forall keyof keyof' es w rs0, ordinary E keyof es -> run E world0 es = Some (w, rs0) -> switched (e_feat E) F' -> feature_ok F' ->
  writes es < 2 ^ 32 -> goes_on (built E F') keyof' (writes es) (killed w) spec0.

(** A correct cipher (though not a secret one) whose ciphertexts are plain
    records. *)
Definition leaky_pad (b : bytes) : bytes := b ++ [n2b 192; n2b 62; x00; n2b 120; x00; n2b 120; x00].
Definition leaky_aead : aead := {|
  seal := fun _ _ b => Some (leaky_pad b ++ [n2b (crc8 (leaky_pad b))]);
  unseal := fun _ _ c => Some (take (length c - 8) c)
|}.

Lemma leaky_aead_correct : aead_correct leaky_aead.
Proof.
  intros key nonce b _. eexists. split; [reflexivity|]. unfold leaky_pad. split.
  - rewrite !len_app. unfold len. cbn [length]. lia.
  - cbn [unseal leaky_aead]. f_equal. rewrite !app_length. cbn [length]. rewrite <- app_assoc.
    replace (length b + 7 + 1 - 8)%nat with (length b) by lia. apply take_app.
Qed.

(** It cannot: nothing marks the records of either build. *)
Theorem C83_other_build_always_empty_refuted : ~ other_build_always_finds_empty_stores (ex_env (FEncrypted leaky_aead)) FPlain.
Proof.
  set (E := ex_env (FEncrypted leaky_aead)). intros H.
  assert (HO : ordinary E ex_keyof ex_two) by (apply ordinaryb_ok; [apply ex_env_ok, leaky_aead_correct|vm_compute; reflexivity]).
  assert (T : match run E world0 ex_two with
    | Some (w, _) => match option_map snd (run (built E FPlain) (killed w) [ENew 9 dir_d []; EGet 9 k1 TI32]) with
          | Some [ROk None; ROk (Some (VI32 5))] => true | _ => false end
    | None => false end = true) by (vm_compute; reflexivity).
  destruct (run E world0 ex_two) as [[w rs0]|] eqn:Hr; [|discriminate T].
  destruct (run (built E FPlain) (killed w) [ENew 9 dir_d []; EGet 9 k1 TI32]) as [[w2 rs2]|] eqn:Hr2; [|discriminate T]. cbn [option_map snd] in T.
  specialize (H ex_keyof ex_nokey ex_two w rs0 HO Hr Logic.I Logic.I ltac:(vm_compute; reflexivity) [ENew 9 dir_d []; EGet 9 k1 TI32] w2 rs2).
  assert (HOk : ordinary_with_kills (built E FPlain) ex_nokey [ENew 9 dir_d []; EGet 9 k1 TI32]).
  { assert (G : ordinary (ex_env FPlain) ex_nokey [ENew 9 dir_d []; EGet 9 k1 TI32]) by (apply ordinaryb_ok; [apply ex_env_ok; exact Logic.I|vm_compute; reflexivity]).
    destruct G as [G1 G2 G3 G4]. split; [exact G1| |exact G3|exact G4]. eapply Forall_impl; [exact G2|]. intros e He. right. exact He. }
  specialize (H HOk ltac:(apply roomb_ok; vm_compute; reflexivity) Hr2).
  inversion H as [s es s1 rs Hrun|s es s1 rs s2 es2 rs2' Hrun Hrew Hs Heq]; subst; cycle 1.
  { destruct es as [|? [|? [|? es]]]; try discriminate; cbn in *; congruence. }
  vm_compute in Hrun. injection Hrun as _ <-. discriminate T.
Qed.

(** One would wish that clear_data, in whichever build, makes an end of
    everything the directory's earlier life used, the nonce in particular
    (under which nothing may be sealed twice). *)
Definition clearing_forgets_the_nonce (E : env) (F' : feature) : Prop :=
  forall keyof keyof' es w rs0 h p nonce w' rs',
  ordinary E keyof es -> run E world0 es = Some (w, rs0) -> switched (e_feat E) F' -> feature_ok F' -> In p (paths es) ->
  meta_at w (e_canon E p) = Some nonce ->
  run (built E F') (killed w) [ENew h p (keyof' p); EClear h; EDrop h] = Some (w', rs') -> rs' = [ROk None; ROk None; ROk None] ->
  meta_at w' (e_canon E p) <> Some nonce.

(** The plain build leaves the nonce file where it is; the encrypted build
    then starts again at position 0 of the old nonce. *)
Theorem C83_clearing_with_the_plain_build_refuted : ~ clearing_forgets_the_nonce (ex_env (FEncrypted toy_aead)) FPlain.
Proof.
  set (E := ex_env (FEncrypted toy_aead)). intros H.
  destruct ex_two_nothing_passes as (w & rs0 & f & Hr & Hf & Hm & _). fold E in Hr.
  assert (HO : ordinary E ex_keyof ex_two) by (apply ex_two_ordinary; right; reflexivity).
  assert (T : match run E world0 ex_two with
    | Some (w, _) => match run (built E FPlain) (killed w) [ENew 5 dir_d []; EClear 5; EDrop 5] with
       | Some (w', rs') => match meta_at w' dir_d, rs' with Some n, [ROk None; ROk None; ROk None] => bool_decide (n = ex_rng 0) | _, _ => false end
       | None => false end
    | None => false end = true) by (vm_compute; reflexivity).
  rewrite Hr in T.
  destruct (run (built E FPlain) (killed w) [ENew 5 dir_d []; EClear 5; EDrop 5]) as [[w' rs']|] eqn:Hr'; [|discriminate T].
  destruct (meta_at w' dir_d) as [n|] eqn:Hm'; [|discriminate T].
  assert (Hrs : rs' = [ROk None; ROk None; ROk None]).
  { destruct rs' as [|[[?|]| |] [|[[?|]| |] [|[[?|]| |] [|? ?]]]]; try discriminate T. reflexivity. }
  subst rs'. apply bool_decide_eq_true in T. subst n.
  apply (H ex_keyof ex_nokey ex_two w rs0 5 dir_d (ex_rng 0) w' [ROk None; ROk None; ROk None] HO Hr Logic.I Logic.I); [left; reflexivity|exact Hm|exact Hr'|reflexivity|exact Hm'].
Qed.

(** ** Examples *)

(** The hypotheses of the first theorem hold of a store with two ciphertexts. *)
Lemma C83_empty_example : exists w rs0, ordinary (ex_env (FEncrypted toy_aead)) ex_keyof ex_two /\
  run (ex_env (FEncrypted toy_aead)) world0 ex_two = Some (w, rs0) /\ switched (FEncrypted toy_aead) FPlain /\
  nothing_passes (built (ex_env (FEncrypted toy_aead)) FPlain) ex_nokey w /\ writes ex_two = 2.
Proof.
  destruct ex_two_nothing_passes as (w & rs0 & f & Hr & _ & _ & Hno). exists w, rs0.
  split; [apply ex_two_ordinary; right; reflexivity|]. split; [exact Hr|]. split; [exact Logic.I|]. split; [exact Hno|reflexivity].
Qed.

(** Both directions, computed: the other build sees nothing, uses the store
    as its own, and the owner finds his values (as long as no page is full). *)
Definition ex_switch (F F' : feature) : option (list result * list result) :=
  match run (ex_env F) world0 ex_two with
  | Some (w, _) =>
      match run (ex_env F') (killed w) [ENew 5 dir_d ex_key; EGet 5 k1 TI32; EPut 5 kz (VI32 1); EGet 5 kz TI32; EDrop 5] with
      | Some (w', rs1) => option_map (fun x => (rs1, snd x)) (run (ex_env F) (killed w') [ENew 9 dir_d ex_key; EGet 9 k1 TI32; EGet 9 kz TI32])
      | None => None
      end
  | None => None
  end.

Example C83_both_directions_example :
  ex_switch FPlain (FEncrypted toy_aead) = Some ([ROk None; RErr KeyNotFound; ROk None; ROk (Some (VI32 1)); ROk None], [ROk None; ROk (Some (VI32 5)); RErr KeyNotFound]) /\
  ex_switch (FEncrypted toy_aead) FPlain = Some ([ROk None; RErr KeyNotFound; ROk None; ROk (Some (VI32 1)); ROk None], [ROk None; ROk (Some (VI32 5)); RErr KeyNotFound]).
Proof. split; vm_compute; reflexivity. Qed.
