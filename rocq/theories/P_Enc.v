(** C37, C38, C39, C40, C44: encrypted stores, their keys and nonces. *)
From Verif Require Import Bytes Utf8 Proto ProtoFacts Crc8 Value Codec Store StoreFacts Encrypt World Spec Hyps Refine WorldInv WorldStep Main Frames Reach Examples P_Map P_Store Slots Crash P_Kill P_Corrupt.
From Coq Require Import ZifyBool ZifyNat ZifyN.
From Coq Require String. Import (notations) String.
Local Open Scope N_scope.

(** * C40 *)

(** An encoded scalar value contains no dot unless it is one. *)
Lemma enc1_dot c r p s : utf8_enc1 c ++ r = p ++ x2e :: s ->
  (p = [] /\ r = s) \/ (exists p', p = utf8_enc1 c ++ p' /\ r = p' ++ x2e :: s) \/ is_scalar c = false.
Proof.
  intros H. destruct (is_scalar c) eqn:Hs; [|auto]. unfold is_scalar in Hs.
  assert (Hc : c <= 0x10FFFF).
  { apply orb_true_iff in Hs as [Hs|Hs]; [apply N.ltb_lt in Hs; lia|]. apply andb_true_iff in Hs as [_ H2]. apply N.leb_le in H2. exact H2. }
  assert (Hne : forall n, 0x80 <= n < 256 -> n2b n <> x2e).
  { intros n Hn E. apply (f_equal b2n) in E. rewrite b2n_n2b, N.mod_small in E by lia. change (b2n x2e) with 46 in E. lia. }
  assert (D1 : c < 0x110000) by lia.
  pose proof (N.mod_lt c 64 ltac:(discriminate)). pose proof (N.mod_lt (c / 64) 64 ltac:(discriminate)). pose proof (N.mod_lt (c / 4096) 64 ltac:(discriminate)).
  unfold utf8_enc1 in *. destruct (N.ltb_spec c 0x80).
  { destruct p as [|b p]; cbn in H; injection H as J1 J2; [left; auto|]. right. left. exists p. cbn. subst. auto. }
  destruct (N.ltb_spec c 0x800).
  { assert (c / 64 < 32) by (apply N.div_lt_upper_bound; lia).
    destruct p as [|b [|b1 p]]; cbn in H.
    - injection H as J1 J2. apply Hne in J1; [contradiction|lia].
    - injection H as J1 J2 J3. apply Hne in J2; [contradiction|lia].
    - injection H as J1 J2 J3. right. left. exists p. cbn. subst. auto. }
  destruct (N.ltb_spec c 0x10000).
  { assert (c / 4096 < 16) by (apply N.div_lt_upper_bound; lia).
    destruct p as [|b [|b1 [|b2 p]]]; cbn in H.
    - injection H as J1 J2. apply Hne in J1; [contradiction|lia].
    - injection H as J1 J2 J3. apply Hne in J2; [contradiction|lia].
    - injection H as J1 J2 J3 J4. apply Hne in J3; [contradiction|lia].
    - injection H as J1 J2 J3 J4. right. left. exists p. cbn. subst. auto. }
  assert (c / 262144 < 5) by (apply N.div_lt_upper_bound; lia).
  destruct p as [|b [|b1 [|b2 [|b3 p]]]]; cbn in H.
  - injection H as J1 J2. apply Hne in J1; [contradiction|lia].
  - injection H as J1 J2 J3. apply Hne in J2; [contradiction|lia].
  - injection H as J1 J2 J3 J4. apply Hne in J3; [contradiction|lia].
  - injection H as J1 J2 J3 J4 J5. apply Hne in J4; [contradiction|lia].
  - injection H as J1 J2 J3 J4 J5. right. left. exists p. cbn. subst. auto.
Qed.

(** What follows a dot in a UTF-8 string is UTF-8. *)
Lemma utf8_after_dot s : forall cs p, forallb is_scalar cs = true -> utf8_encode cs = p ++ x2e :: s -> utf8_valid s = true.
Proof.
  induction cs as [|c cs IH]; intros p Hs H.
  - destruct p; discriminate H.
  - cbn in Hs. apply andb_true_iff in Hs as [Hc Hs]. unfold utf8_encode in *. cbn [map concat] in H.
    apply enc1_dot in H as [[-> <-]|[(p' & -> & H)|H]].
    + apply utf8_valid_encode, Hs.
    + apply (IH p'); [exact Hs|exact H].
    + congruence.
Qed.

Lemma split_last_dot_some l : forall p s, split_last_dot l = Some (p, s) -> l = p ++ x2e :: s.
Proof.
  induction l as [|b l IH]; intros p s H; [discriminate H|]. cbn in H. destruct (split_last_dot l) as [[p' s']|].
  - injection H as <- <-. rewrite (IH p' s' eq_refl). reflexivity.
  - destruct (bool_decide (b = x2e)) eqn:Hb; [|discriminate H]. injection H as <- <-. apply bool_decide_eq_true in Hb. subst. reflexivity.
Qed.

(** The nonce file is the data file's name with ".meta" appended. *)
Theorem C40_meta_name name : file_name_ok name = true -> utf8_valid name = true -> meta_name name = Some (name ++ str ".meta"%string).
Proof.
  intros _ Hu. unfold meta_name, extension, with_extension, file_stem.
  destruct (split_last_dot name) as [[p s]|] eqn:Hd; [|reflexivity].
  apply split_last_dot_some in Hd. destruct p as [|b p]; [subst name; reflexivity|].
  assert (utf8_valid s = true) as Hs. { apply utf8_valid_iff in Hu as (cs & Hc & He). eapply utf8_after_dot; [exact Hc|]. rewrite He. exact Hd. }
  rewrite Hs. f_equal. subst name. rewrite <- app_assoc. f_equal. change (x2e :: s) with ([x2e] ++ s). destruct s; reflexivity.
Qed.

(** So it is another file, and different data files have different ones. *)
Theorem C40_meta_file_is_separate name : file_name_ok name = true -> utf8_valid name = true -> meta_name name <> Some name.
Proof.
  intros Hn Hu. rewrite C40_meta_name by assumption. intros [= H]. apply (f_equal (length (A:=byte))) in H. rewrite app_length in H. cbn in H. lia.
Qed.

Theorem C40_meta_names_differ a b m : file_name_ok a = true -> file_name_ok b = true -> utf8_valid a = true -> utf8_valid b = true ->
  meta_name a = Some m -> meta_name b = Some m -> a = b.
Proof. intros Ha Hb Ua Ub. rewrite !C40_meta_name by assumption. intros [= <-] H. injection H as H. apply app_inv_tail in H. auto. Qed.

(** A name that is not UTF-8 never gets an unexpected nonce file either: the
    result is the same, or the open panics. *)
Theorem C40_non_utf8_names name m : meta_name name = Some m -> m = name ++ str ".meta"%string.
Proof.
  unfold meta_name, extension, with_extension, file_stem. destruct (split_last_dot name) as [[p s]|] eqn:Hd; cycle 1.
  { intros [= <-]. reflexivity. }
  apply split_last_dot_some in Hd. destruct p as [|b p]; [intros [= <-]; reflexivity|].
  destruct (utf8_valid s); [|discriminate]. intros [= <-]. subst name. rewrite <- (app_assoc (b :: p)). f_equal. destruct s; reflexivity.
Qed.

Example C40_example :
  file_name_ok (str "a.b"%string) = true /\ utf8_valid (str "a.b"%string) = true /\ meta_name (str "a.b"%string) = Some (str "a.b.meta"%string) /\
  meta_name (str ".b"%string) = Some (str ".b.meta"%string) /\ meta_name (str "b."%string) = Some (str "b..meta"%string) /\
  meta_name (map n2b [98; 46; 255]) = None.
Proof. vm_compute. repeat split. Qed.

(** * Opening encrypted directories *)

(** Opening directory [p] (data file [f]) with a key that parses to [k], in a
    process that does not have it open: the nonce is the content of the nonce
    file if that is 11 bytes long, else a fresh one. *)
Lemma open_encrypted E A w h p key k ino f nonce :
  e_feat E = FEncrypted A -> w_poison w = false -> w_handles w !! h = None -> lookup_reg w p = None ->
  e_dir_ok E p = true -> d_data (dir_of w (e_canon E p)) = Some ino -> inode w ino = f -> f <> [] ->
  feature_key (e_feat E) key = Some k ->
  nonce = fst (init_nonce (meta_at w (e_canon E p)) (e_rng E (w_rng w))) ->
  match read_all (e_plat E) (aes_codec A k nonce) f with
  | IDone M _ => exists w', step E w (ENew h p key) = Some (w', ROk None) /\ meta_at w' (e_canon E p) = Some nonce /\
      forall k t, step E w' (EGet h k t) = Some (w', get_answer M k t)
  | _ => exists w', step E w (ENew h p key) = Some (w', RPanic)
  end.
Proof.
  intros HF Hpo Hh Hreg Hd Hdata Hf Hne Hk Hn.
  assert (Hc : config_new (e_plat E) f = f).
  { unfold config_new. destruct (N.eqb_spec (len f) 0) as [H0|]; [|reflexivity]. destruct f; [congruence|]. unfold len in H0. cbn in H0. lia. }
  assert (Hin : init_nonce (meta_at w (e_canon E p)) (e_rng E (w_rng w)) = (nonce, nonce)).
  { subst nonce. unfold init_nonce. destruct (meta_at w (e_canon E p)) as [n|]; [|reflexivity]. destruct (Nat.eqb _ _); reflexivity. }
  cbn [step]. rewrite Hh. unfold do_new. rewrite Hpo, Hreg. unfold open_impl. rewrite Hd. cbv zeta. unfold open_config. rewrite Hdata, Hf, Hc, Hk.
  unfold open_nonce, is_encrypted. rewrite HF. unfold meta_at in Hin.
  change (d_meta (dir_of (set_inode w ino f) (e_canon E p))) with (d_meta (dir_of w (e_canon E p))).
  change (w_rng (set_inode w ino f)) with (w_rng w). rewrite Hin. cbn [w_seed set_inode].
  set (w2 := World _ _ _ _ _ _ _ _ _ _).
  assert (Hi2 : inode w2 ino = f) by (unfold inode, w2; cbn; rewrite lookup_insert; reflexivity).
  rewrite Hi2. cbn [feature_codec]. unfold open_file. rewrite take_ge by (unfold len; lia).
  destruct (read_all (e_plat E) (aes_codec A k nonce) f) as [M n| |]; cycle 1.
  { eexists. reflexivity. } { eexists. reflexivity. }
  eexists. split_and!; [reflexivity| |].
  - unfold meta_at, dir_of, w2. cbn. rewrite lookup_insert. reflexivity.
  - intros k' t. cbn [step]. unfold with_handle. cbn [w_handles]. rewrite lookup_insert. cbn [h_unreg h_inst].
    unfold on_inst. cbn [w_insts]. rewrite lookup_insert. f_equal. f_equal.
    unfold set_inst, set_insts. cbn. rewrite insert_insert. reflexivity.
Qed.

(** The process has ended; then the data file of [d] got the content [f] and
    its nonce file the content [n]. *)
Definition tampered_meta (w : world) (d f : bytes) (n : option bytes) : world :=
  match d_data (dir_of w d) with
  | Some ino => killed (set_inode (set_dir w d (Dir (Some ino) n)) ino f)
  | None => killed w
  end.

Lemma reopen_meta E A keyof es w rs0 d f0 f n h p key k nonce :
  ordinary E keyof es -> run E world0 es = Some (w, rs0) -> e_feat E = FEncrypted A -> file_at w d = Some f0 -> f <> [] ->
  In p (paths es) -> e_canon E p = d -> parse_key key = Some k ->
  nonce = fst (init_nonce n (e_rng E (w_rng w))) ->
  match read_all (e_plat E) (aes_codec A k nonce) f with
  | IDone M _ => exists w', step E (tampered_meta w d f n) (ENew h p key) = Some (w', ROk None) /\ meta_at w' d = Some nonce /\
      forall k t, step E w' (EGet h k t) = Some (w', get_answer M k t)
  | _ => exists w', step E (tampered_meta w d f n) (ENew h p key) = Some (w', RPanic)
  end.
Proof.
  intros HO Hr HF Hf0 Hf Hp Hcp Hk Hn. destruct (tampered_dir E keyof es w rs0 d f0 HO Hr Hf0) as (ino & nonce0 & Hd & _).
  destruct (PU_call E keyof es HO p Hp) as [Hdo _]. unfold tampered_meta. rewrite Hd.
  set (wc := killed (set_inode (set_dir w d (Dir (Some ino) n)) ino f)).
  pose proof (open_encrypted E A wc h p key k ino f nonce) as G. rewrite Hcp in G. apply G.
  - exact HF.
  - reflexivity.
  - apply lookup_empty.
  - unfold lookup_reg, wc, killed. cbn [w_reg]. rewrite lookup_empty. reflexivity.
  - exact Hdo.
  - unfold wc, dir_of. cbn. rewrite lookup_insert. reflexivity.
  - unfold wc, inode. cbn. rewrite lookup_insert. reflexivity.
  - exact Hf.
  - rewrite HF. exact Hk.
  - rewrite Hn. unfold wc, meta_at, dir_of. cbn. rewrite lookup_insert. reflexivity.
Qed.

(** A frame: 4 length bytes and a ciphertext. *)
Definition frame (b : bytes) : bytes := be 4 (len b) ++ b.
Definition frames (bodies : list bytes) : bytes := concat (map frame bodies).

(** Frames are slots, under every key and nonce. *)
Fixpoint frame_slots (F : feature) (key nonce : bytes) (n : N) (bodies : list bytes) : list slot :=
  match bodies with
  | [] => []
  | b :: r => (frame b, body_entry F key nonce (n mod 2 ^ 32) b) :: frame_slots F key nonce (n + 1) r
  end.

Lemma frame_slots_ok F key nonce bodies : forall n,
  Forall (fun b => min_item F <= len b /\ len b + 4 < 2 ^ 32) bodies ->
  slots (feature_codec F key nonce) n (frame_slots F key nonce n bodies) /\
  slot_bytes (frame_slots F key nonce n bodies) = frames bodies /\
  forall acc, slot_map (frame_slots F key nonce n bodies) acc = says F key nonce n bodies acc.
Proof.
  induction bodies as [|b r IH]; intros n HFa; cbn [frame_slots].
  - split_and!; [constructor|reflexivity|intros acc; reflexivity].
  - apply Forall_cons in HFa as [[Hm Hl] HFa]. destruct (IH (n + 1) HFa) as (A & B & C).
    assert (Hfl : len (frame b) = len b + 4) by (unfold frame; rewrite len_app, len_be; lia). split_and!.
    + constructor; [lia| |exact A]. intros tail. unfold frame at 1. rewrite <- app_assoc, dec_frame by assumption. rewrite Hfl. reflexivity.
    + unfold slot_bytes, frames in *. cbn [map concat fst]. rewrite B. reflexivity.
    + intros acc. cbn [says]. rewrite <- C. reflexivity.
Qed.

Lemma frames_read P F key nonce bodies unused : usz P = 8%nat ->
  Forall (fun b => min_item F <= len b /\ len b + 4 < 2 ^ 32) bodies -> len (frames bodies) < 2 ^ 63 ->
  exists cnt, read_all P (feature_codec F key nonce) (be 8 (len (frames bodies)) ++ frames bodies ++ unused)
    = IDone (says F key nonce 0 bodies ∅) cnt.
Proof.
  intros H64 HFa Hl. destruct (frame_slots_ok F key nonce bodies 0 HFa) as (A & B & C). eexists.
  rewrite <- B, <- C. apply read_slots; [exact H64|exact A|rewrite B; lia].
Qed.

(** The ciphertexts [cs] of the records [rs], numbered from [n]. *)
Inductive sealed (A : aead) (key nonce : bytes) : N -> list kv -> list bytes -> Prop :=
| sealed_nil n : sealed A key nonce n [] []
| sealed_cons n m c rs cs :
    seal A key (stream_nonce nonce (n mod 2 ^ 32)) (encode_kv m) = Some c -> sealed A key nonce (n + 1) rs cs ->
    sealed A key nonce n (m :: rs) (c :: cs).

Lemma sealed_length A key nonce n rs cs : sealed A key nonce n rs cs -> length rs = length cs.
Proof. induction 1; cbn; congruence. Qed.

(** An encrypted file holds the frames of the ciphertexts. *)
Lemma enc_sealed A key nonce rs : aead_correct A -> forall n c,
  Forall (fun m => kv_ok m = true /\ aes_size m < 2 ^ 32) rs -> enc_list (aes_codec A key nonce) (n mod 2 ^ 32) rs = Some c ->
  exists cs, sealed A key nonce n rs cs /\ c = frames cs /\ Forall (fun b => len b + 4 < 2 ^ 32) cs.
Proof.
  intros HA. induction rs as [|m r IH]; intros n c HFa Hc; cbn [enc_list] in Hc.
  - injection Hc as <-. exists []. split_and!; constructor.
  - apply Forall_cons in HFa as [[Hk Hz] HFa]. unfold aes_size in Hz.
    destruct (enc (aes_codec A key nonce) m (n mod 2 ^ 32)) as [b| |] eqn:Eb; try discriminate Hc. rewrite mod32_succ in Hc.
    destruct (enc_list (aes_codec A key nonce) ((n + 1) mod 2 ^ 32) r) as [c'|] eqn:Ec; [|discriminate Hc]. injection Hc as <-.
    destruct (IH (n + 1) c' HFa Ec) as (cs & S & Hcs & HFc).
    destruct (HA key (stream_nonce nonce (n mod 2 ^ 32)) (encode_kv m) ltac:(lia)) as (x & Hs & Hlx & _).
    cbn [enc aes_codec] in Eb. unfold aes_enc, stream_encrypt in Eb. destruct (n mod 2 ^ 32 =? counter_max); [discriminate Eb|].
    rewrite Hs in Eb. rewrite N.mod_small in Eb by lia. injection Eb as <-. exists (x :: cs). split_and!.
    + constructor; assumption.
    + unfold frames in *. cbn [map concat]. rewrite <- Hcs. reflexivity.
    + constructor; [lia|exact HFc].
Qed.

(** * C37 *)

(** The cipher resists this particular attempt: whatever body [b] of the
    file decrypts at position [i] is the ciphertext that was stored there. *)
Definition no_forgery (A : aead) (key nonce : bytes) (cs bodies : list bytes) : Prop :=
  forall i b, bodies !! i = Some b -> unseal A key (stream_nonce nonce (N.of_nat i)) b <> None -> cs !! i = Some b.

(** The records whose ciphertext is still in its place. *)
Fixpoint untouched {T} (rs : list T) (cs bodies : list bytes) : list T :=
  match rs, cs, bodies with
  | m :: rs', c :: cs', b :: bodies' => if decide (b = c) then m :: untouched rs' cs' bodies' else untouched rs' cs' bodies'
  | _, _, _ => []
  end.

Lemma says_untouched A key nonce bodies : aead_correct A -> forall n rs cs acc,
  sealed A key nonce n rs cs -> Forall (fun m => kv_ok m = true /\ aes_size m < 2 ^ 32) rs ->
  n + N.of_nat (length bodies) < 2 ^ 32 ->
  (forall i b, bodies !! i = Some b -> unseal A key (stream_nonce nonce (n + N.of_nat i)) b <> None -> cs !! i = Some b) ->
  says (FEncrypted A) key nonce n bodies acc = fold_left apply_kv (untouched rs cs bodies) acc.
Proof.
  intros HA. induction bodies as [|b r IH]; intros n rs cs acc HS HFa Hn Hno.
  - destruct rs, cs; reflexivity.
  - cbn [length] in Hn. cbn [says body_entry]. rewrite N.mod_small by lia.
    pose proof (Hno 0%nat b eq_refl) as H0. replace (n + N.of_nat 0) with n in H0 by lia.
    assert (Hno' : forall cs' : list bytes, (forall i x, cs !! S i = Some x -> cs' !! i = Some x) ->
      forall i b0, r !! i = Some b0 -> unseal A key (stream_nonce nonce (n + 1 + N.of_nat i)) b0 <> None -> cs' !! i = Some b0).
    { intros cs' Hcs i b0 Hb Hu. apply Hcs. apply (Hno (S i) b0 Hb). replace (n + N.of_nat (S i)) with (n + 1 + N.of_nat i) by lia. exact Hu. }
    assert (Hcm : unseal A key (stream_nonce nonce n) b = None -> stream_decrypt A key nonce b n = RErr DecryptFailed).
    { intros Hu. unfold stream_decrypt. rewrite Hu. destruct (n =? counter_max); reflexivity. }
    inversion HS as [|? m c rs' cs' Hc HS']; subst.
    + (* no honest record left *)
      assert (Hu : unseal A key (stream_nonce nonce n) b = None).
      { destruct (unseal _ _ _ _); [|reflexivity]. specialize (H0 ltac:(discriminate)). discriminate H0. }
      rewrite (Hcm Hu). cbn [apply_opt untouched].
      rewrite (IH (n + 1) [] []); [reflexivity|constructor|constructor|lia|apply Hno'; intros i x Hx; discriminate Hx].
    + apply Forall_cons in HFa as [[Hk Hz] HFa]. unfold aes_size in Hz. rewrite N.mod_small in Hc by lia.
      destruct (HA key (stream_nonce nonce n) (encode_kv m) ltac:(lia)) as (x & Hs & Hlx & Hux). rewrite Hc in Hs. injection Hs as <-.
      cbn [untouched]. destruct (decide (b = c)) as [->|Hbc].
      * assert (Hd : stream_decrypt A key nonce c n = ROk (encode_kv m)).
        { unfold stream_decrypt. rewrite Hux. destruct (N.eqb_spec n counter_max) as [Hcx|]; [unfold counter_max in Hcx; lia|reflexivity]. }
        rewrite Hd, parse_encode by exact Hk. cbn [apply_opt fold_left].
        apply IH; [exact HS'|exact HFa|lia|apply Hno'; intros i x Hx; exact Hx].
      * assert (Hu : unseal A key (stream_nonce nonce n) b = None).
        { destruct (unseal _ _ _ b); [|reflexivity]. specialize (H0 ltac:(discriminate)). cbn in H0. congruence. }
        rewrite (Hcm Hu). cbn [apply_opt]. apply IH; [exact HS'|exact HFa|lia|apply Hno'; intros i x Hx; exact Hx].
Qed.

(** Modified, moved, duplicated, truncated or foreign records: the file of an
    encrypted store is replaced by any frames [bodies] (and any unused bytes).
    If the cipher resists, the directory opens and answers exactly from the
    records that are untouched and in their place. *)
Theorem C37_only_untouched_records_count E A keyof es w rs0 d f rs cs bodies unused nonce h p :
  ordinary E keyof es -> run E world0 es = Some (w, rs0) -> e_feat E = FEncrypted A ->
  file_at w d = Some f -> meta_at w d = Some nonce -> holds (dir_codec E keyof w d) f rs -> good_records E rs ->
  sealed A (kof E keyof d) nonce 0 rs cs ->
  Forall (fun b => len b + 4 < 2 ^ 32) bodies -> len (frames bodies) < 2 ^ 63 -> N.of_nat (length bodies) < 2 ^ 32 ->
  no_forgery A (kof E keyof d) nonce cs bodies ->
  In p (paths es) -> e_canon E p = d ->
  exists w', step E (tampered w d (be 8 (len (frames bodies)) ++ frames bodies ++ unused)) (ENew h p (keyof d)) = Some (w', ROk None) /\
    forall k t, step E w' (EGet h k t) = Some (w', answer (untouched rs cs bodies) k t).
Proof.
  intros HO Hr HF Hf Hm Hh HG HS HB Hl Hn Hno Hp Hcp.
  destruct (eo_plat _ (or_env _ _ _ HO)) as [H64 _ _ _]. pose proof (eo_feat _ (or_env _ _ _ HO)) as HA. rewrite HF in HA. cbn in HA.
  assert (HC : dir_codec E keyof w d = feature_codec (FEncrypted A) (kof E keyof d) nonce).
  { unfold dir_codec, kof. rewrite HF, Hm. reflexivity. }
  destruct (frames_read (e_plat E) (FEncrypted A) (kof E keyof d) nonce bodies unused H64) as (cnt & Hread); [|exact Hl|].
  { eapply Forall_impl; [exact HB|]. cbn. intros b Hb. lia. }
  assert (Hne : be 8 (len (frames bodies)) ++ frames bodies ++ unused <> []).
  { intros H. apply (f_equal (length (A:=byte))) in H. rewrite app_length, be_length in H. cbn in H. lia. }
  pose proof (reopen_tampered E keyof es w rs0 d f _ h p HO Hr Hf Hne Hp Hcp) as G. rewrite HC, Hread in G.
  destruct G as (w' & A1 & A2). exists w'. split; [exact A1|]. intros k t. rewrite A2. f_equal. f_equal.
  rewrite (says_untouched A _ _ bodies HA 0 rs cs); [apply get_answer_replay|exact HS| |lia|].
  - destruct HG as [HG _]. rewrite HF in HG. exact HG.
  - intros i b Hb Hu. apply (Hno i b Hb). rewrite N.add_0_l in Hu. exact Hu.
Qed.

(** Another key or another nonce: if the cipher rejects the stored
    ciphertexts under them, the directory opens without a crash and is empty. *)
Theorem C37_foreign_key_or_nonce E A keyof es w rs0 d f n h p key k nonce :
  ordinary E keyof es -> run E world0 es = Some (w, rs0) -> e_feat E = FEncrypted A ->
  file_at w d = Some f -> In p (paths es) -> e_canon E p = d ->
  parse_key key = Some k -> nonce = fst (init_nonce n (e_rng E (w_rng w))) ->
  exists rs cs nonce0, meta_at w d = Some nonce0 /\ holds (dir_codec E keyof w d) f rs /\ sealed A (kof E keyof d) nonce0 0 rs cs /\
  exists w', step E (tampered_meta w d f n) (ENew h p key) = Some (w', ROk None) /\ meta_at w' d = Some nonce /\
    ((forall i c, cs !! i = Some c -> unseal A k (stream_nonce nonce (N.of_nat i)) c = None) ->
     forall k t, step E w' (EGet h k t) = Some (w', RErr KeyNotFound)).
Proof.
  intros HO Hr HF Hf Hp Hcp Hk Hnn.
  destruct (eo_plat _ (or_env _ _ _ HO)) as [H64 _ _ _]. pose proof (eo_feat _ (or_env _ _ _ HO)) as HA. rewrite HF in HA. cbn in HA.
  destruct (reach_records E keyof es w rs0 d f HO Hr Hf) as (rs & Hh & HG).
  destruct (tampered_dir E keyof es w rs0 d f HO Hr Hf) as (ino & nonce0 & _ & _ & HC & HM). rewrite HF in HM. destruct HM as [HM _].
  pose proof (file_small E keyof es w rs0 d f HO Hr Hf) as Hsm.
  pose proof Hh as (c & un & Hfe & Hc). rewrite HC, HF in Hc. cbn [feature_codec] in Hc.
  destruct HG as [HG HGn]. rewrite HF in HG, HGn. change 0 with (0 mod 2 ^ 32) in Hc.
  destruct (enc_sealed A (kof E keyof d) nonce0 rs HA 0 c HG Hc) as (cs & HS & Hcs & HFc).
  exists rs, cs, nonce0. split_and!; [exact HM|exact Hh|exact HS|].
  destruct (frames_read (e_plat E) (FEncrypted A) k nonce cs un H64) as (cnt & Hread).
  { eapply Forall_impl; [exact HFc|]. cbn. intros b Hb. lia. }
  { rewrite <- Hcs. rewrite Hfe, !len_app in Hsm. lia. }
  rewrite <- Hcs, <- Hfe in Hread. cbn [feature_codec] in Hread.
  assert (Hne : f <> []). { rewrite Hfe. intros H. apply (f_equal (length (A:=byte))) in H. rewrite app_length, be_length in H. cbn in H. lia. }
  pose proof (reopen_meta E A keyof es w rs0 d f f n h p key k nonce HO Hr HF Hf Hne Hp Hcp Hk Hnn) as G. rewrite Hread in G.
  destruct G as (w' & A1 & A0 & A2). exists w'. split; [exact A1|]. split; [exact A0|]. intros Hrej k' t. rewrite A2. f_equal. f_equal.
  assert (Hsay : says (FEncrypted A) k nonce 0 cs ∅ = ∅).
  { pose proof (sealed_length _ _ _ _ _ _ HS) as Hlen.
    assert (Gn : forall l n0 acc, n0 + N.of_nat (length l) < 2 ^ 32 -> (forall i c0, l !! i = Some c0 -> unseal A k (stream_nonce nonce (n0 + N.of_nat i)) c0 = None) ->
      says (FEncrypted A) k nonce n0 l acc = acc).
    { induction l as [|b l IH]; intros n0 acc Hn0 Hr0; [reflexivity|]. cbn [says body_entry]. cbn [length] in Hn0. rewrite N.mod_small by lia.
      pose proof (Hr0 0%nat b eq_refl) as H0. replace (n0 + N.of_nat 0) with n0 in H0 by lia. unfold stream_decrypt. rewrite H0.
      destruct (n0 =? counter_max); cbn [apply_opt]; (apply IH; [lia|]); intros i c0 Hi;
        replace (n0 + 1 + N.of_nat i) with (n0 + N.of_nat (S i)) by lia; apply (Hr0 (S i) c0 Hi). }
    apply Gn; [rewrite <- Hlen, N.add_0_l; clear -HGn; lia|]. intros i c0 Hi. rewrite N.add_0_l. apply Hrej, Hi. }
  unfold get_answer. rewrite Hsay, lookup_empty. reflexivity.
Qed.

(** The two records of [ex_two] and their ciphertexts. *)
Definition ex_m (k : bytes) (v : value) : kv := match buffer_new k v with ROk m => m | _ => KV [] 0 [] end.
Definition ex_k : bytes := default [] (parse_key ex_key).
Definition ex_rs : list kv := [ex_m k1 (VI32 5); ex_m k2 hello].
Definition ex_cs : list bytes :=
  [default [] (seal toy_aead ex_k (stream_nonce (ex_rng 0) 0) (encode_kv (ex_m k1 (VI32 5))));
   default [] (seal toy_aead ex_k (stream_nonce (ex_rng 0) 1) (encode_kv (ex_m k2 hello)))].

(** Swapping the two records makes both unreadable: the store is empty. *)
Example C37_example :
  exists w rs0 f, run (ex_env (FEncrypted toy_aead)) world0 ex_two = Some (w, rs0) /\ file_at w dir_d = Some f /\
    meta_at w dir_d = Some (ex_rng 0) /\ holds (dir_codec (ex_env (FEncrypted toy_aead)) ex_keyof w dir_d) f ex_rs /\
    good_records (ex_env (FEncrypted toy_aead)) ex_rs /\ sealed toy_aead (kof (ex_env (FEncrypted toy_aead)) ex_keyof dir_d) (ex_rng 0) 0 ex_rs ex_cs /\
    no_forgery toy_aead (kof (ex_env (FEncrypted toy_aead)) ex_keyof dir_d) (ex_rng 0) ex_cs (rev ex_cs) /\
    no_forgery toy_aead (kof (ex_env (FEncrypted toy_aead)) ex_keyof dir_d) (ex_rng 0) ex_cs (ex_cs ++ ex_cs) /\
    untouched ex_rs ex_cs (rev ex_cs) = [] /\ untouched ex_rs ex_cs (ex_cs ++ ex_cs) = ex_rs.
Proof.
  set (E := ex_env (FEncrypted toy_aead)).
  assert (T : match run E world0 ex_two with
    | Some (w, _) => match file_at w dir_d, meta_at w dir_d with
       | Some f, Some n => bool_decide (n = ex_rng 0) &&
          match enc_list (aes_codec toy_aead ex_k (ex_rng 0)) 0 ex_rs with
          | Some c => bool_decide (take (8 + length c) f = be 8 (len c) ++ c) | None => false end
       | _, _ => false end
    | None => false end = true) by (vm_compute; reflexivity).
  destruct (run E world0 ex_two) as [[w rs0]|] eqn:Hr; [|discriminate T].
  destruct (file_at w dir_d) as [f|] eqn:Hf; [|discriminate T]. destruct (meta_at w dir_d) as [n|] eqn:Hm; [|discriminate T].
  apply andb_true_iff in T as [T1 T2]. apply bool_decide_eq_true in T1. subst n.
  destruct (enc_list (aes_codec toy_aead ex_k (ex_rng 0)) 0 ex_rs) as [c|] eqn:Hc; [|discriminate T2]. apply bool_decide_eq_true in T2.
  exists w, rs0, f.
  assert (Hno : forall bodies, forallb (fun i => match bodies !! i with
    | Some b => match unseal toy_aead ex_k (stream_nonce (ex_rng 0) (N.of_nat i)) b with Some _ => bool_decide (ex_cs !! i = Some b) | None => true end
    | None => true end) (seq 0 (length bodies)) = true -> no_forgery toy_aead (kof E ex_keyof dir_d) (ex_rng 0) ex_cs bodies).
  { intros bodies H i b Hb Hu. rewrite forallb_forall in H. specialize (H i). rewrite Hb in H.
    change (kof E ex_keyof dir_d) with ex_k in Hu.
    destruct (unseal _ _ _ _); [|congruence]. specialize (H ltac:(apply in_seq; apply lookup_lt_Some in Hb; lia)).
    apply bool_decide_eq_true in H. exact H. }
  split_and!; auto.
  - exists c, (drop (8 + length c) f). split.
    + rewrite app_assoc, <- T2. symmetry. apply take_drop.
    + unfold dir_codec. rewrite Hm. exact Hc.
  - split; [repeat constructor; vm_compute; reflexivity|]. vm_compute. reflexivity.
  - repeat constructor; vm_compute; reflexivity.
Qed.
