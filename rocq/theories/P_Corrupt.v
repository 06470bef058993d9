(** C12, C13, C14, C49: opening a directory whose data file was damaged while
    no process had it open. *)
From Verif Require Import Bytes Utf8 Proto ProtoFacts Crc8 Value Codec Store StoreFacts Encrypt World Spec Hyps Refine WorldInv WorldStep Main Frames Reach Examples P_Store Slots Crash P_Kill.
From Coq Require Import ZifyBool ZifyNat ZifyN.
From Coq Require String. Import (notations) String.
Local Open Scope N_scope.

(** * What the theorems speak about *)

(** The process has ended (closed or killed) and then the data file of
    directory [d] was given the content [f]. *)
Definition tampered (w : world) (d f : bytes) : world :=
  match d_data (dir_of w d) with
  | Some ino => killed (set_inode w ino f)
  | None => killed w
  end.

(** [a] and [b] differ, but only within a burst of at most 8 consecutive bits
    (in particular: in one byte). *)
Definition burst (a b : bytes) : Prop :=
  a <> b /\ exists p m m' s, bits a = p ++ m ++ s /\ bits b = p ++ m' ++ s /\ length m = length m' /\ (length m <= 8)%nat.

(** [f'] is the file [f] with the payload and checksum [body] of the record
    that follows [before] bytes of content replaced by [body']; [hd] is the
    record's 4 length bytes. *)
Definition record_damaged (f f' : bytes) (before : N) (hd body body' : bytes) : Prop :=
  exists pre post, len pre = 8 + before /\ length hd = 4%nat /\
    f = pre ++ hd ++ body ++ post /\ f' = pre ++ hd ++ body' ++ post.

(** What a get answers if the records are [rs]. *)
Definition answer (rs : list kv) (k : bytes) (t : ty) : result :=
  match newest rs k with Some m => res_map Some (buffer_parse m t) | None => RErr KeyNotFound end.

(** * Lemmas *)

Lemma get_answer_replay rs k t : get_answer (replay rs) k t = answer rs k t.
Proof. unfold get_answer, answer. rewrite replay_newest. reflexivity. Qed.

Lemma bits_length a : length (bits a) = (8 * length a)%nat.
Proof.
  induction a as [|b a IH]; [reflexivity|]. unfold bits in *. cbn [map concat length]. rewrite app_length, IH.
  assert (length (bits8 b) = 8%nat) as -> by reflexivity. lia.
Qed.

Lemma burst_length a b : burst a b -> length a = length b.
Proof.
  intros (_ & p & m & m' & s & A & B & L & _). apply (f_equal (length (A:=bool))) in A, B.
  rewrite !app_length, bits_length in *. lia.
Qed.

(** Changing one byte is a burst. *)
Lemma burst_byte x y c c' : c <> c' -> burst (x ++ c :: y) (x ++ c' :: y).
Proof.
  intros H. split.
  - intros G. apply app_inv_head in G. injection G as G. contradiction.
  - exists (bits x), (bits8 c), (bits8 c'), (bits y). change (c :: y) with ([c] ++ y). change (c' :: y) with ([c'] ++ y).
    rewrite !bits_app. unfold bits at 2 5. cbn [map concat]. rewrite !app_nil_r. split_and!; reflexivity.
Qed.

Lemma bits_inj a : forall b, bits a = bits b -> a = b.
Proof.
  induction a as [|x a IH]; intros [|y b] H; try reflexivity.
  - apply (f_equal (length (A:=bool))) in H. rewrite !bits_length in H. cbn in H. lia.
  - apply (f_equal (length (A:=bool))) in H. rewrite !bits_length in H. cbn in H. lia.
  - change (x :: a) with ([x] ++ a) in *. change (y :: b) with ([y] ++ b) in *. rewrite !bits_app in H.
    apply app_inj_1 in H as [H1 H2]; [|reflexivity]. unfold bits in H1. cbn [map concat] in H1. rewrite !app_nil_r in H1.
    apply bits8_inj in H1. apply IH in H2. congruence.
Qed.

(** A burst in payload and checksum of a plain record is noticed. *)
Lemma burst_skipped m p key nonce body' :
  burst (encode_kv m ++ [n2b (crc8 (encode_kv m))]) body' -> body_entry FPlain key nonce p body' = None.
Proof.
  intros Hb. pose proof (burst_length _ _ Hb) as HL. destruct Hb as (Hne & q & a & a' & s & A & B & L & H8).
  rewrite app_length in HL. cbn [length] in HL.
  destruct body' as [|c body _] using rev_ind; [cbn in HL; lia|]. cbn [body_entry]. rewrite last_snoc, removelast_last.
  destruct (N.eqb_spec (crc8 body) (b2n c)) as [Hc|]; [|reflexivity]. exfalso. apply Hne. apply bits_inj. rewrite A, B.
  assert (a = a') as ->; [|reflexivity]. apply (crc_burst q a a' s 255); [reflexivity|exact L|exact H8|].
  rewrite <- A, <- B, <- !crc_run_bits. rewrite (proj1 (crc_check_iff body c)) by (symmetry; exact Hc).
  apply crc_check_iff. rewrite b2n_n2b. apply N.mod_small, crc8_lt.
Qed.

(** Every file on disk can be looked at after the process has ended. *)
Lemma tampered_dir E keyof es w rs0 d f :
  ordinary E keyof es -> run E world0 es = Some (w, rs0) -> file_at w d = Some f ->
  exists ino nonce, d_data (dir_of w d) = Some ino /\ inode w ino = f /\
    dir_codec E keyof w d = feature_codec (e_feat E) (kof E keyof d) nonce /\
    match e_feat E with FPlain => nonce = [] | FEncrypted _ => d_meta (dir_of w d) = Some nonce /\ length nonce = nonce_len end.
Proof.
  intros HO Hr Hf. destruct (reach E keyof es HO w rs0 Hr) as (sp & Hsp & W).
  destruct (kill_ok E keyof _ (PU_inj E keyof _ HO) w sp _ _ W) as (s' & Hh & W' & Hd).
  pose proof (fun Hn => dir_ok_clean _ _ _ _ _ _ (wi_dirs _ _ _ _ _ _ _ W' d Hn)) as G. change (dir_of (killed w) d) with (dir_of w d) in G.
  unfold file_at in Hf. destruct (d_data (dir_of w d)) as [ino|]; [|discriminate Hf]. cbn in Hf. injection Hf as <-.
  destruct G as (rs & nonce & M & _).
  { intros i x Hx. unfold killed in Hx. cbn in Hx. rewrite lookup_empty in Hx. discriminate Hx. }
  unfold meta_ok in M. change (dir_of (killed w) d) with (dir_of w d) in M.
  exists ino, (if is_encrypted (e_feat E) then nonce else []). split_and!; try reflexivity.
  - unfold dir_codec, kof, meta_at. destruct (e_feat E); [reflexivity|]. destruct M as [-> _]. reflexivity.
  - destruct (e_feat E); [reflexivity|exact M].
Qed.

Lemma reopen_tampered E keyof es w rs0 d f0 f h p :
  ordinary E keyof es -> run E world0 es = Some (w, rs0) -> file_at w d = Some f0 -> f <> [] ->
  In p (paths es) -> e_canon E p = d ->
  match read_all (e_plat E) (dir_codec E keyof w d) f with
  | IDone M _ => exists w', step E (tampered w d f) (ENew h p (keyof d)) = Some (w', ROk None) /\
      forall k t, step E w' (EGet h k t) = Some (w', get_answer M k t)
  | _ => exists w', step E (tampered w d f) (ENew h p (keyof d)) = Some (w', RPanic)
  end.
Proof.
  intros HO Hr Hf0 Hf Hp Hcp. destruct (tampered_dir E keyof es w rs0 d f0 HO Hr Hf0) as (ino & nonce & Hd & _ & HC & HM).
  destruct (PU_call E keyof es HO p Hp) as [Hdo Hkey]. rewrite Hcp in Hkey. rewrite HC. unfold kof.
  destruct (feature_key (e_feat E) (keyof d)) as [ky|] eqn:Hky; [|contradiction]. cbn [default from_option].
  unfold tampered. rewrite Hd. set (wc := killed (set_inode w ino f)).
  apply open_answers with (ino := ino).
  - reflexivity.
  - apply lookup_empty.
  - unfold lookup_reg, wc, killed. cbn [w_reg]. rewrite lookup_empty. reflexivity.
  - exact Hdo.
  - rewrite Hcp. exact Hd.
  - unfold wc, inode. cbn. rewrite lookup_insert. reflexivity.
  - exact Hf.
  - exact Hky.
  - rewrite Hcp. exact HM.
Qed.

(** The records of a file are known. *)
Definition good_records (E : env) (rs : list kv) : Prop :=
  Forall (fun m => kv_ok m = true /\ record_size (e_feat E) m < 2 ^ 32) rs /\
  match e_feat E with FPlain => True | FEncrypted _ => N.of_nat (length rs) < 2 ^ 32 - 1 end.

Lemma good_positions E rs : good_records E rs -> positions_ok (record_pos (e_feat E)) (N.of_nat (length rs)).
Proof.
  intros [_ H] i Hi. unfold record_pos. destruct (e_feat E); [exact Logic.I|]. rewrite N.mod_small by lia. unfold counter_max. lia.
Qed.

(** The records of every file in a reachable state. *)
Lemma reach_records E keyof es w rs0 d f :
  ordinary E keyof es -> run E world0 es = Some (w, rs0) -> file_at w d = Some f ->
  exists rs, holds (dir_codec E keyof w d) f rs /\ good_records E rs.
Proof.
  intros HO Hr Hf. destruct (reach_file E keyof es w rs0 d f HO Hr Hf) as (s & rs & <- & HW). pose proof HW as (I & HG & HL & _).
  destruct (eo_plat _ (or_env _ _ _ HO)) as [H64 Hpage Hmax Hhord].
  exists rs. split; [eapply Inv_holds, I|]. split.
  - eapply Forall_impl; [exact HG|]. intros m [[A _] B]. split; [exact A|lia].
  - pose proof (or_room _ _ _ HO) as [_ HR]. destruct (e_feat E); [exact Logic.I|]. cbn in *. lia.
Qed.

(** All readings of a file give the same map. *)
Lemma holds_read E keyof w d f rs :
  env_ok E -> holds (dir_codec E keyof w d) f rs -> good_records E rs -> len f < 2 ^ 63 ->
  read_all (e_plat E) (dir_codec E keyof w d) f = IDone (replay rs) (N.of_nat (length rs) mod 2 ^ 32).
Proof.
  intros HE (c & sl & -> & Hc) HG Hl. destruct (eo_plat _ HE) as [H64 Hpage Hmax Hhord]. rewrite !len_app, len_be in Hl.
  apply (read_all_shape _ _ _ _ H64 (feature_law _ _ _ (eo_feat _ HE)));
    [exact Hmax|apply HG|apply good_positions, HG|exact Hc|lia].
Qed.

Lemma file_small E keyof es w rs0 d f :
  ordinary E keyof es -> run E world0 es = Some (w, rs0) -> file_at w d = Some f -> len f < 2 ^ 63.
Proof.
  intros HO Hr Hf. destruct (reach_file E keyof es w rs0 d f HO Hr Hf) as (s & rs & <- & HW). pose proof HW as (I & _). apply (inv_size _ _ _ _ _ I).
Qed.

(** What was persisted when the process ended, also of closed stores. *)
Lemma persisted_dir E keyof es w rs0 d f rs :
  ordinary E keyof es -> run E world0 es = Some (w, rs0) -> file_at w d = Some f ->
  holds (dir_codec E keyof w d) f rs -> good_records E rs ->
  exists s', killed_to E es w s' /\ rel E (replay rs) (contents s' d).
Proof.
  intros HO Hr Hf Hh HG. destruct (reach E keyof es HO w rs0 Hr) as (sp & Hsp & W).
  destruct (kill_ok E keyof _ (PU_inj E keyof _ HO) w sp _ _ W) as (s' & Hh' & W' & Hd).
  exists s'. split.
  - split; [exact Hh'|]. intros d'. destruct (Hd d') as (k & Hk & HH).
    destruct (hist0_sound E keyof _ (PU_dir E keyof _ HO) (PU_key E keyof _ HO) (PU_inj E keyof _ HO) spec0 es d' k _ sp rs0 Hsp HH)
      as (es1 & es2 & s1 & rs1 & A & B & C & D).
    exists es1, es2, s1, rs1. split_and!; auto. rewrite D. exact Hk.
  - pose proof (fun Hn => dir_ok_clean _ _ _ _ _ _ (wi_dirs _ _ _ _ _ _ _ W' d Hn)) as G.
    change (dir_of (killed w) d) with (dir_of w d) in G. pose proof (file_small E keyof es w rs0 d f HO Hr Hf) as Hsm.
    unfold file_at in Hf. destruct (d_data (dir_of w d)) as [ino|] eqn:Hdd; [|discriminate Hf]. cbn in Hf. injection Hf as <-.
    destruct G as (rs2 & nonce & M & HW2 & R).
    { intros j z Hz. unfold killed in Hz. cbn in Hz. rewrite lookup_empty in Hz. discriminate Hz. }
    assert (replay rs = replay rs2) as ->; [|exact R].
    assert (HC : feature_codec (e_feat E) (kof E keyof d) nonce = dir_codec E keyof w d).
    { unfold dir_codec, meta_at. unfold meta_ok in M. change (dir_of (killed w) d) with (dir_of w d) in M. unfold kof.
      destruct (e_feat E); [reflexivity|]. destruct M as [-> _]. reflexivity. }
    rewrite HC in HW2. pose proof HW2 as (I2 & _). destruct (eo_plat _ (or_env _ _ _ HO)) as [H64 Hpage Hmax Hhord].
    pose proof (inv_read_all _ _ _ _ H64 (feature_law _ _ _ (eo_feat _ (or_env _ _ _ HO))) Hmax _ _ I2) as R2.
    rewrite (view_full _ (inv_ml _ _ _ _ _ I2)) in R2. cbn [closed_st s_file] in R2.
    change (inode (killed w) ino) with (inode w ino) in R2.
    pose proof (holds_read E keyof w d _ rs (or_env _ _ _ HO) Hh HG Hsm) as R1. unfold dir_codec in R1. rewrite R1 in R2. injection R2 as R2 _. exact R2.
Qed.

(** ** Files whose records keep their length bytes *)

(** The pieces [ds] are as long as the encodings of the records [rs]
    (numbered from [n]) and start with the same 4 length bytes. *)
Inductive like (C : codec) : N -> list kv -> list bytes -> Prop :=
| like_nil n : like C n [] []
| like_cons n m b d rs ds :
    enc C m (n mod 2 ^ 32) = ROk b -> length d = length b -> take 4 d = take 4 b -> like C (n + 1) rs ds ->
    like C n (m :: rs) (d :: ds).

(** What they decode to. *)
Fixpoint entries (F : feature) (key nonce : bytes) (n : N) (ds : list bytes) : list slot :=
  match ds with
  | [] => []
  | d :: r => (d, body_entry F key nonce (n mod 2 ^ 32) (drop 4 d)) :: entries F key nonce (n + 1) r
  end.

Lemma entries_bytes F key nonce ds : forall n, slot_bytes (entries F key nonce n ds) = concat ds.
Proof. induction ds as [|d r IH]; intros n; [reflexivity|]. unfold slot_bytes in *. cbn. rewrite IH. reflexivity. Qed.

Lemma like_slots F key nonce rs : feature_ok F -> forall n ds,
  Forall (fun m => kv_ok m = true /\ record_size F m < 2 ^ 32) rs ->
  (forall i, n <= i < n + N.of_nat (length rs) -> record_pos F (i mod 2 ^ 32)) ->
  like (feature_codec F key nonce) n rs ds -> slots (feature_codec F key nonce) n (entries F key nonce n ds).
Proof.
  intros HF. induction rs as [|m rs IH]; intros n ds HG Hp HL; inversion HL as [|? ? b d ? ds' Hb Hl Ht HL']; subst; cbn [entries]; [constructor|].
  inversion HG as [|? ? [Hk Hz] HG']; subst. cbn [length] in Hp.
  assert (Hpos : record_pos F (n mod 2 ^ 32)) by (apply Hp; lia).
  assert (Hlen : len d = len b) by (unfold len; lia).
  destruct (law_rt _ _ _ (feature_law F key nonce HF) m (n mod 2 ^ 32) [] Hk Hz Hpos) as (b' & A & B & _).
  pose proof (law_min _ _ _ (feature_law F key nonce HF) m). rewrite Hb in A. injection A as <-. constructor.
  - lia.
  - intros tail. rewrite Hlen. apply (frame_slot F key nonce m); assumption.
  - apply IH; [exact HG'| |exact HL']. intros i Hi. apply Hp. lia.
Qed.

Lemma like_len C pos_ok sz rs : codec_law C pos_ok sz -> forall n ds c, like C n rs ds -> enc_list C (n mod 2 ^ 32) rs = Some c -> len (concat ds) = len c.
Proof.
  intros Hlaw. induction rs as [|m rs IH]; intros n ds c HL Hc; inversion HL as [|? ? b d ? ds' Hb Hl Ht HL']; subst; cbn [enc_list] in Hc.
  - injection Hc as <-. reflexivity.
  - rewrite Hb, mod32_succ in Hc. destruct (enc_list C ((n + 1) mod 2 ^ 32) rs) as [c'|] eqn:Ec; [|discriminate Hc]. injection Hc as <-.
    cbn [concat]. rewrite !len_app, (IH _ _ _ HL' Ec). unfold len. lia.
Qed.

(** Reading a file whose records keep their length bytes. *)
Lemma like_read E keyof w d rs ds unused nonce :
  env_ok E -> dir_codec E keyof w d = feature_codec (e_feat E) (kof E keyof d) nonce ->
  good_records E rs -> like (dir_codec E keyof w d) 0 rs ds -> len (concat ds) < 2 ^ 63 ->
  exists cnt, read_all (e_plat E) (dir_codec E keyof w d) (be 8 (len (concat ds)) ++ concat ds ++ unused)
    = IDone (slot_map (entries (e_feat E) (kof E keyof d) nonce 0 ds) ∅) cnt.
Proof.
  intros HE HC HG HL Hl. destruct (eo_plat _ HE) as [H64 Hpage Hmax Hhord]. eexists.
  rewrite <- (entries_bytes (e_feat E) (kof E keyof d) nonce ds 0) at 1 2. rewrite HC in HL |- *. apply read_slots.
  - exact H64.
  - eapply like_slots; [apply (eo_feat _ HE)|apply HG| |exact HL]. intros i Hi. apply (good_positions E rs HG). lia.
  - rewrite entries_bytes. lia.
Qed.

Lemma enc_list_split C n a m b c :
  enc_list C (n mod 2 ^ 32) (a ++ m :: b) = Some c ->
  exists ca x cb, enc_list C (n mod 2 ^ 32) a = Some ca /\ enc C m ((n + N.of_nat (length a)) mod 2 ^ 32) = ROk x /\
    enc_list C ((n + N.of_nat (length a) + 1) mod 2 ^ 32) b = Some cb /\ c = ca ++ x ++ cb.
Proof.
  rewrite (enc_list_app C (fun _ => True) (fun _ => 0)). destruct (enc_list C (n mod 2 ^ 32) a) as [ca|]; [|discriminate]. cbn [enc_list].
  destruct (enc C m _) as [x| |]; try discriminate. rewrite mod32_succ.
  destruct (enc_list C ((n + N.of_nat (length a) + 1) mod 2 ^ 32) b) as [cb|]; [|discriminate]. intros [= <-].
  exists ca, x, cb. split_and!; reflexivity.
Qed.

(** Intact records in front of and behind a damaged one. *)
Lemma damaged_read E keyof w d f f' rs1 m rs2 hd body body' nonce :
  env_ok E -> dir_codec E keyof w d = feature_codec (e_feat E) (kof E keyof d) nonce ->
  holds (dir_codec E keyof w d) f (rs1 ++ m :: rs2) -> good_records E (rs1 ++ m :: rs2) -> len f < 2 ^ 63 ->
  enc (dir_codec E keyof w d) m (N.of_nat (length rs1) mod 2 ^ 32) = ROk (hd ++ body) ->
  record_damaged f f' (bytes_of (e_feat E) rs1) hd body body' -> length body' = length body ->
  f' <> [] /\
  exists cnt, read_all (e_plat E) (dir_codec E keyof w d) f' =
    IDone (fold_left apply_kv rs2 (apply_opt (replay rs1)
      (body_entry (e_feat E) (kof E keyof d) nonce (N.of_nat (length rs1) mod 2 ^ 32) body'))) cnt.
Proof.
  intros HE HC (c & un & Hf & Hc) HG Hsm He (pre & post & Hpre & Hhd & Hf1 & Hf') Hbl. subst f'.
  destruct (eo_plat _ HE) as [H64 Hpage Hmax Hhord].
  pose proof (feature_law (e_feat E) (kof E keyof d) nonce (eo_feat _ HE)) as Hlaw. rewrite <- HC in Hlaw.
  pose proof HG as [HF _]. pose proof (good_positions E _ HG) as HP.
  apply Forall_app in HF as [HF1 HF2]. apply Forall_cons in HF2 as [[Hmk Hmz] HF3].
  rewrite app_length in HP. cbn [length] in HP.
  change 0 with (0 mod 2 ^ 32) in Hc. apply enc_list_split in Hc as (ca & x & cb & Hca & Hx & Hcb & Ec); subst c. rewrite N.add_0_l in *.
  rewrite He in Hx. injection Hx as <-.
  assert (Hlca : len ca = bytes_of (e_feat E) rs1).
  { rewrite bytes_of_total. eapply enc_list_len; [exact H64|exact Hlaw|exact Hmax|exact HF1| |exact Hca]. eapply positions_mono; [|exact HP]. lia. }
  set (L := be 8 (len (ca ++ (hd ++ body) ++ cb))) in *.
  assert (Hpre' : pre = L ++ ca /\ post = cb ++ un).
  { rewrite Hf1 in Hf. rewrite <- !app_assoc in Hf. rewrite (app_assoc L) in Hf.
    apply app_inj_1 in Hf as [Hf2 Hf].
    - split; [exact Hf2|]. apply app_inv_head in Hf. apply app_inv_head in Hf. exact Hf.
    - rewrite app_length. unfold L. rewrite be_length. unfold len in *. lia. }
  destruct Hpre' as [-> ->].
  destruct (enc_slots _ _ _ rs1 Hlaw 0 ca HF1) as (sl1 & S1 & B1 & M1).
  { eapply positions_mono; [|exact HP]. lia. } { exact Hca. }
  destruct (enc_slots _ _ _ rs2 Hlaw (N.of_nat (length rs1) + 1) cb HF3) as (sl2 & S2 & B2 & M2).
  { eapply positions_mono; [|exact HP]. lia. } { exact Hcb. }
  set (o := body_entry (e_feat E) (kof E keyof d) nonce (N.of_nat (length rs1) mod 2 ^ 32) body').
  assert (Hl1 : length sl1 = length rs1) by (apply (f_equal (length (A:=option kv))) in M1; rewrite !map_length in M1; exact M1).
  assert (Hhb : length (hd ++ body') = length (hd ++ body)) by (rewrite !app_length; lia).
  assert (Hlen : len (hd ++ body') = len (hd ++ body)) by (unfold len; lia).
  assert (Hdrop : drop 4 (hd ++ body') = body') by (apply drop_app_alt; symmetry; exact Hhd).
  assert (Htake : take 4 (hd ++ body') = take 4 (hd ++ body)) by (rewrite !take_app_alt by (symmetry; exact Hhd); reflexivity).
  assert (Hsl : slots (dir_codec E keyof w d) 0 (sl1 ++ (hd ++ body', o) :: sl2)).
  { apply slots_app. split; [exact S1|]. rewrite Hl1, N.add_0_l. constructor.
    - rewrite len_app. unfold len. lia.
    - intros tail. rewrite Hlen. rewrite HC in He |- *.
      assert (Ho : o = body_entry (e_feat E) (kof E keyof d) nonce (N.of_nat (length rs1) mod 2 ^ 32) (drop 4 (hd ++ body'))) by (rewrite Hdrop; reflexivity).
      rewrite Ho. apply (frame_slot (e_feat E) (kof E keyof d) nonce m).
      + apply (eo_feat _ HE).
      + exact Hmk.
      + exact Hmz.
      + apply HP. lia.
      + exact He.
      + exact Hhb.
      + exact Htake.
    - exact S2. }
  assert (Hsb : slot_bytes (sl1 ++ (hd ++ body', o) :: sl2) = ca ++ (hd ++ body') ++ cb).
  { rewrite slot_bytes_app, B1. unfold slot_bytes in *. cbn [map concat fst]. rewrite B2. reflexivity. }
  split.
  - intros H. apply (f_equal (length (A:=byte))) in H. rewrite !app_length in H. unfold L in H. rewrite be_length in H. cbn in H. lia.
  - eexists.
    assert (HfE : (L ++ ca) ++ hd ++ body' ++ cb ++ un = be 8 (len (slot_bytes (sl1 ++ (hd ++ body', o) :: sl2))) ++ slot_bytes (sl1 ++ (hd ++ body', o) :: sl2) ++ un).
    { rewrite Hsb. unfold L. assert (len (ca ++ (hd ++ body') ++ cb) = len (ca ++ (hd ++ body) ++ cb)) as -> by (rewrite !(len_app ca), !(len_app _ cb); lia).
      rewrite <- !app_assoc. reflexivity. }
    rewrite HfE. rewrite read_slots; [|exact H64|exact Hsl|].
    + rewrite slot_map_app, (slot_map_some _ rs1 _ M1). unfold slot_map. cbn [map snd fold_left]. rewrite M2.
      f_equal. fold (replay rs1). generalize (apply_opt (replay rs1) o). clear. induction rs2 as [|r l IH]; intros a; [reflexivity|]. cbn. apply IH.
    + rewrite Hsb. apply (f_equal (fun l => len l)) in Hf. revert Hsm. rewrite Hf, !len_app. unfold L. rewrite len_be. rewrite !len_app in *. lia.
Qed.

(** * C12 and C13 *)

(** A burst of up to 8 bits (e.g. one byte) in the payload or checksum of one
    record: the directory opens and answers exactly as if that record had
    never been written. *)
Theorem C12_damaged_record_is_skipped E keyof es w rs0 d f f' rs1 m rs2 hd body body' h p :
  ordinary E keyof es -> run E world0 es = Some (w, rs0) -> e_feat E = FPlain ->
  file_at w d = Some f -> holds crc_codec f (rs1 ++ m :: rs2) -> good_records E (rs1 ++ m :: rs2) ->
  enc crc_codec m (N.of_nat (length rs1) mod 2 ^ 32) = ROk (hd ++ body) ->
  record_damaged f f' (bytes_of FPlain rs1) hd body body' -> burst body body' ->
  In p (paths es) -> e_canon E p = d ->
  exists w', step E (tampered w d f') (ENew h p (keyof d)) = Some (w', ROk None) /\
    forall k t, step E w' (EGet h k t) = Some (w', answer (rs1 ++ rs2) k t).
Proof.
  intros HO Hr HF Hf Hh HG He Hd Hb Hp Hcp.
  assert (HC : dir_codec E keyof w d = crc_codec) by (unfold dir_codec; rewrite HF; reflexivity).
  pose proof (file_small E keyof es w rs0 d f HO Hr Hf) as Hsm.
  assert (Hhd : length hd = 4%nat) by (destruct Hd as (? & ? & _ & G & _); exact G).
  assert (Hbody : body = encode_kv m ++ [n2b (crc8 (encode_kv m))]).
  { pose proof HG as [HGF _]. apply Forall_app in HGF as [_ HGF]. inversion HGF as [|? ? [_ Hz] _]; subst. rewrite HF in Hz. cbn in Hz.
    rewrite crc_enc_shape in He by exact Hz. assert (He' : be 4 (len (encode_kv m) + 1) ++ encode_kv m ++ [n2b (crc8 (encode_kv m))] = hd ++ body) by congruence.
    apply app_inj_1 in He' as [_ He']; [symmetry; exact He'|].
    rewrite be_length, Hhd. reflexivity. }
  destruct (damaged_read E keyof w d f f' rs1 m rs2 hd body body' [] (or_env _ _ _ HO)) as (Hne & cnt & Hread).
  - unfold dir_codec. rewrite HF. reflexivity.
  - rewrite HC. exact Hh.
  - exact HG.
  - exact Hsm.
  - rewrite HC. exact He.
  - rewrite HF. exact Hd.
  - symmetry. apply burst_length, Hb.
  - rewrite HF in Hread. rewrite (burst_skipped m) in Hread by (rewrite <- Hbody; exact Hb). cbn [apply_opt] in Hread.
    pose proof (reopen_tampered E keyof es w rs0 d f f' h p HO Hr Hf Hne Hp Hcp) as G. rewrite Hread in G.
    destruct G as (w' & A & B). exists w'. split; [exact A|]. intros k t. rewrite B. f_equal. f_equal.
    rewrite <- get_answer_replay. unfold replay. rewrite fold_left_app. reflexivity.
Qed.

Lemma newest_other rs1 m rs2 k : k <> kv_key m -> newest (rs1 ++ m :: rs2) k = newest (rs1 ++ rs2) k.
Proof.
  intros H. unfold newest. rewrite !filter_app_kv. rewrite (filter_cons_False _ m) by congruence. reflexivity.
Qed.

(** All other keys keep the values they had when the process ended: [s'] is
    the persisted state (after a clean close: the final one, see
    [killed_to]). *)
Theorem C13_other_keys_unaffected E keyof es w rs0 d f f' rs1 m rs2 hd body body' h p :
  ordinary E keyof es -> run E world0 es = Some (w, rs0) -> e_feat E = FPlain ->
  file_at w d = Some f -> holds crc_codec f (rs1 ++ m :: rs2) -> good_records E (rs1 ++ m :: rs2) ->
  enc crc_codec m (N.of_nat (length rs1) mod 2 ^ 32) = ROk (hd ++ body) ->
  record_damaged f f' (bytes_of FPlain rs1) hd body body' -> burst body body' ->
  In p (paths es) -> e_canon E p = d ->
  exists s' w', killed_to E es w s' /\ step E (tampered w d f') (ENew h p (keyof d)) = Some (w', ROk None) /\
    (forall k t, get_ok t -> k <> kv_key m -> step E w' (EGet h k t) = Some (w', spec_get (contents s' d) k t)) /\
    (forall t, step E w' (EGet h (kv_key m) t) = Some (w', answer (rs1 ++ rs2) (kv_key m) t)).
Proof.
  intros HO Hr HF Hf Hh HG He Hd Hb Hp Hcp.
  destruct (C12_damaged_record_is_skipped E keyof es w rs0 d f f' rs1 m rs2 hd body body' h p HO Hr HF Hf Hh HG He Hd Hb Hp Hcp) as (w' & A & B).
  destruct (persisted_dir E keyof es w rs0 d f (rs1 ++ m :: rs2) HO Hr Hf) as (s' & Hk & HR).
  { unfold dir_codec. rewrite HF. exact Hh. } { exact HG. }
  exists s', w'. split_and!; auto. intros k t Ht Hk'. rewrite B. unfold answer. rewrite <- (newest_other rs1 m rs2 k Hk'), <- replay_newest.
  rewrite (get_refines E _ _ k t HR Ht). reflexivity.
Qed.

(** * C49 *)

Lemma slice_some a b l x : slice a b l = Some x -> a <= b /\ b <= len l /\ len x = b - a.
Proof.
  unfold slice. destruct (_ && _) eqn:H; [|discriminate]. intros [= <-]. apply andb_true_iff in H as [H1 H2].
  apply N.leb_le in H1, H2. split_and!; [exact H1|exact H2|]. unfold len in *. rewrite take_length, drop_length. lia.
Qed.

(** The least length field of a record: a plain record has a checksum byte. *)
Definition min_item (F : feature) : N := match F with FPlain => 1 | FEncrypted _ => 0 end.

(** One decoding step of fewer than 2^32 bytes: a panic, or it consumes at
    least four bytes of what is there. *)
Theorem C49_step_progress F key nonce bs pos r :
  len bs < 2 ^ 32 -> dec (feature_codec F key nonce) bs pos = r ->
  r = RPanic \/ exists o l, r = ROk (o, l) /\ 4 <= l <= len bs.
Proof.
  intros Hl <-. destruct F as [|A]; cbn [feature_codec dec crc_codec aes_codec]; unfold crc_dec, aes_dec.
  - destruct (slice 0 4 bs) as [h4|] eqn:E4; [|left; reflexivity]. cbv zeta.
    destruct (slice 4 (4 + unbe h4 - 1) bs) as [body|] eqn:Eb; [|left; reflexivity].
    destruct (bs !! N.to_nat (4 + unbe h4 - 1)) as [c|] eqn:Ec; [|left; reflexivity]. right. do 2 eexists. split; [reflexivity|].
    apply lookup_lt_Some in Ec. apply slice_some in Eb as (H1 & H2 & _). unfold len in *. rewrite N.mod_small by lia. lia.
  - destruct (slice 0 4 bs) as [h4|] eqn:E4; [|left; reflexivity]. cbv zeta.
    destruct (slice 4 (4 + unbe h4) bs) as [body|] eqn:Eb; [|left; reflexivity]. right. do 2 eexists. split; [reflexivity|].
    apply slice_some in Eb as (H1 & H2 & _). rewrite N.mod_small by lia. lia.
Qed.

(** Reading a file: [n] decoding steps are enough when there are at most [4 n]
    bytes of content. *)
Theorem C49_reading_terminates_partial F key nonce f end_ n : forall start pos acc cnt,
  len f < 2 ^ 32 -> end_ - start <= 4 * N.of_nat n ->
  iter_map (feature_codec F key nonce) n f start end_ pos acc cnt <> IFuel.
Proof.
  induction n as [|n IH]; intros start pos acc cnt Hl Hn; cbn [iter_map].
  - destruct (N.leb_spec end_ start); [discriminate|lia].
  - destruct (N.leb_spec end_ start); [discriminate|].
    destruct (slice start end_ f) as [bs|] eqn:Es; [|discriminate]. apply slice_some in Es as (H1 & H2 & H3).
    destruct (C49_step_progress F key nonce bs pos _ ltac:(lia) eq_refl) as [->|(o & l & -> & Hlo)]; [discriminate|].
    apply IH; [exact Hl|lia].
Qed.

(** In particular the model's own step bound is never the reason to stop. *)
Theorem C49_opening_terminates_partial P F key nonce f : len f < 2 ^ 32 -> read_all P (feature_codec F key nonce) f <> IFuel.
Proof.
  intros Hl. unfold read_all. destruct (write_offset P f) as [e|] eqn:Hw; [|discriminate].
  destruct (N.le_gt_cases e (len f)) as [He|He].
  - apply C49_reading_terminates_partial; [exact Hl|]. unfold len in *. lia.
  - destruct f as [|b f]; cbn [length iter_map]; (destruct (N.leb_spec e len_offset); [discriminate|]).
    + discriminate Hw.
    + destruct (slice len_offset e (b :: f)) as [bs|] eqn:Es; [|discriminate]. apply slice_some in Es. lia.
Qed.

(** The wished-for property: whatever the file, some number of steps is enough. *)
Definition reading_always_terminates : Prop :=
  forall P F key nonce f e, write_offset P f = Some e ->
    exists n, iter_map (feature_codec F key nonce) n f len_offset e 0 ∅ 0 <> IFuel.

(** False for files of 4 GiB: a length field of 2^32 - 4 makes the u32 sum of
    the decoder wrap to 0, and the loop never advances. *)
Lemma stuck f e : forall n pos acc cnt,
  len f = 8 + 2 ^ 32 -> e = 8 + 2 ^ 32 -> slice 8 12 f = Some (be 4 (2 ^ 32 - 4)) ->
  iter_map crc_codec n f 8 e pos acc cnt = IFuel.
Proof.
  induction n as [|n IH]; intros pos acc cnt Hl He Hs; cbn [iter_map].
  - destruct (N.leb_spec e 8); [lia|reflexivity].
  - destruct (N.leb_spec e 8); [lia|].
    assert (Hd : slice 8 e f = Some (drop 8 f)).
    { unfold slice. destruct (8 <=? e) eqn:H1; [|lia]. destruct (e <=? len f) eqn:H2; [|lia]. cbn [andb]. f_equal.
      change (N.to_nat 8) with 8%nat. rewrite take_ge; [reflexivity|]. rewrite drop_length. unfold len in *. lia. }
    rewrite Hd. cbn [dec crc_codec]. unfold crc_dec.
    set (bs := drop 8 f). assert (Hbs : len bs = 2 ^ 32) by (unfold bs, len in *; rewrite drop_length; lia).
    assert (H4 : slice 0 4 bs = Some (be 4 (2 ^ 32 - 4))).
    { rewrite <- Hs. unfold slice. destruct (12 <=? len f) eqn:H1; [|lia]. destruct (4 <=? len bs) eqn:H2; [|lia]. cbn [andb].
      unfold bs. f_equal. }
    rewrite H4. cbv zeta. rewrite unbe_be_small by reflexivity.
    destruct (slice 4 (4 + (2 ^ 32 - 4) - 1) bs) as [body|] eqn:Eb; cycle 1.
    { exfalso. unfold slice in Eb. destruct (4 <=? 4 + (2 ^ 32 - 4) - 1) eqn:H1; [|lia].
      destruct (4 + (2 ^ 32 - 4) - 1 <=? len bs) eqn:H2; [discriminate Eb|lia]. }
    destruct (bs !! N.to_nat (4 + (2 ^ 32 - 4) - 1)) as [c|] eqn:Ec; cycle 1.
    { exfalso. apply lookup_ge_None in Ec. unfold len in Hbs. lia. }
    change ((4 + (2 ^ 32 - 4)) mod 2 ^ 32) with 0. rewrite N.add_0_r. apply IH; assumption.
Qed.

Theorem C49_termination_refuted : ~ reading_always_terminates.
Proof.
  intros H. set (f := be 8 (2 ^ 32) ++ be 4 (2 ^ 32 - 4) ++ zeros (2 ^ 32 - 4)).
  assert (Hl : len f = 8 + 2 ^ 32).
  { unfold f, zeros. rewrite !len_app, !len_be, len_replicate. lia. }
  assert (Hw : write_offset ex_plat f = Some (8 + 2 ^ 32)).
  { unfold write_offset, header, f. pose proof (slice_head (be 8 (2 ^ 32)) (be 4 (2 ^ 32 - 4) ++ zeros (2 ^ 32 - 4))) as G.
    rewrite len_be in G. change (N.of_nat 8) with 8 in G. unfold len_offset. rewrite G. reflexivity. }
  destruct (H ex_plat FPlain [] [] f _ Hw) as (n & Hn). apply Hn. unfold len_offset. apply stuck; [exact Hl|reflexivity|].
  unfold f. pose proof (slice_mid (be 8 (2 ^ 32)) (be 4 (2 ^ 32 - 4)) (zeros (2 ^ 32 - 4))) as G. rewrite !len_be in G. exact G.
Qed.

(** * C14 *)

(** The wished-for property: whatever bytes were put in the data file, the
    directory opens. *)
Definition open_never_crashes (E : env) : Prop :=
  forall keyof es w rs0 d f f' h p,
  ordinary E keyof es -> run E world0 es = Some (w, rs0) -> file_at w d = Some f -> In p (paths es) -> e_canon E p = d ->
  exists w', step E (tampered w d f') (ENew h p (keyof d)) = Some (w', ROk None).

(** A single byte is enough to make a directory unopenable for good: here the
    first byte of the content length. *)
Definition ex_two : list event := [ENew 0 dir_d ex_key; EPut 0 k1 (VI32 5); EPut 0 k2 hello; EIo 0; EIo 0; EDrop 0].

Lemma ex_two_ordinary F : F = FPlain \/ F = FEncrypted toy_aead -> ordinary (ex_env F) ex_keyof ex_two.
Proof.
  intros [->| ->]; apply ordinaryb_ok; try (apply ex_env_ok; exact Logic.I || exact toy_aead_correct); vm_compute; reflexivity.
Qed.

(** Replacing byte [i] of [f]. *)
Definition set_byte (i : nat) (c : byte) (f : bytes) : bytes := take i f ++ c :: drop (S i) f.

Theorem C14_open_never_crashes_refuted F : F = FPlain \/ F = FEncrypted toy_aead -> ~ open_never_crashes (ex_env F).
Proof.
  intros HF H. pose proof (ex_two_ordinary F HF) as HO.
  assert (T : match run (ex_env F) world0 ex_two with
    | Some (w, _) => match file_at w dir_d with
       | Some f => match step (ex_env F) (tampered w dir_d (set_byte 0 x01 f)) (ENew 9 dir_d ex_key) with Some (_, RPanic) => true | _ => false end
       | None => false end
    | None => false end = true) by (destruct HF as [->| ->]; vm_compute; reflexivity).
  destruct (run (ex_env F) world0 ex_two) as [[w rs]|] eqn:Hr; [|discriminate T].
  destruct (file_at w dir_d) as [f|] eqn:Hf; [|discriminate T].
  destruct (H ex_keyof ex_two w rs dir_d f (set_byte 0 x01 f) 9 dir_d HO Hr Hf) as (w' & Hst).
  { left. reflexivity. } { vm_compute. reflexivity. }
  change (ex_keyof dir_d) with ex_key in Hst. rewrite Hst in T. discriminate T.
Qed.

(** Exactly which files open.  The file has at least the 8 length bytes, the
    length is 0 (or so large that adding 8 wraps), or the content it announces
    is there and is a sequence of frames: 4 length bytes and that many bytes
    (at least one in the plain format). *)
Definition readable (F : feature) (f : bytes) (bodies : list bytes) : Prop :=
  8 <= len f /\ let n := unbe (take 8 f) in
  ((n = 0 \/ 2 ^ 64 - 8 <= n) /\ bodies = []) \/
  (n + 8 <= len f /\ take (N.to_nat n) (drop 8 f) = concat (map (fun b => be 4 (len b) ++ b) bodies) /\
   Forall (fun b => min_item F <= len b) bodies).

(** What the bodies say, numbered from [n], oldest first. *)
Fixpoint says (F : feature) (key nonce : bytes) (n : N) (bodies : list bytes) (acc : gmap bytes kv) : gmap bytes kv :=
  match bodies with
  | [] => acc
  | b :: r => says F key nonce (n + 1) r (apply_opt acc (body_entry F key nonce (n mod 2 ^ 32) b))
  end.

Lemma dec_frame F key nonce b tail p : min_item F <= len b -> len b + 4 < 2 ^ 32 ->
  dec (feature_codec F key nonce) (be 4 (len b) ++ b ++ tail) p = ROk (body_entry F key nonce p b, len b + 4).
Proof.
  intros Hm Hl. destruct F as [|A]; cbn [feature_codec].
  - cbn in Hm. destruct b as [|c b _] using rev_ind; [unfold len in Hm; cbn in Hm; lia|].
    rewrite len_app in *. change (len [c]) with 1 in *. rewrite <- app_assoc. cbn [app]. rewrite crc_dec_frame by lia.
    cbn [body_entry]. rewrite last_snoc, removelast_last. f_equal. f_equal. lia.
  - rewrite aes_dec_frame by lia. reflexivity.
Qed.

(** Anything else than a frame makes the decoder panic. *)
Lemma dec_no_frame F key nonce c p : len c < 2 ^ 32 ->
  (exists b rest, c = be 4 (len b) ++ b ++ rest /\ min_item F <= len b) \/ dec (feature_codec F key nonce) c p = RPanic.
Proof.
  intros Hl.
  destruct (slice 0 4 c) as [h4|] eqn:E4; cycle 1.
  { right. destruct F; cbn [feature_codec dec crc_codec aes_codec]; unfold crc_dec, aes_dec; rewrite E4; reflexivity. }
  pose proof (slice_some _ _ _ _ E4) as (_ & H4 & Hh).
  assert (Hh4 : h4 = take 4 c).
  { unfold slice in E4. destruct (_ && _); [|discriminate E4]. injection E4 as <-. rewrite drop_0. reflexivity. }
  assert (Hbe : be 4 (unbe h4) = h4). { assert (length h4 = 4%nat) as Hl4 by (unfold len in Hh; lia). rewrite <- Hl4 at 1. apply be_unbe. }
  destruct (N.le_gt_cases (4 + unbe h4) (len c)) as [Hle|Hgt].
  - set (b := take (N.to_nat (unbe h4)) (drop 4 c)).
    assert (Hb : len b = unbe h4) by (unfold b, len in *; rewrite take_length, drop_length; lia).
    assert (Hc : c = be 4 (len b) ++ b ++ drop (N.to_nat (unbe h4)) (drop 4 c)).
    { rewrite Hb, Hbe, Hh4 at 1. unfold b. rewrite take_drop, take_drop. reflexivity. }
    destruct (N.le_gt_cases (min_item F) (len b)) as [Hm|Hm]; [left; eauto|]. right.
    destruct F as [|A]; [|cbn in Hm; lia]. cbn [min_item] in Hm. cbn [feature_codec dec crc_codec]. unfold crc_dec. rewrite E4. cbv zeta.
    replace (unbe h4) with 0 by lia. reflexivity.
  - right. destruct F as [|A]; cbn [feature_codec dec crc_codec aes_codec]; unfold crc_dec, aes_dec; rewrite E4; cbv zeta.
    + destruct (slice 4 (4 + unbe h4 - 1) c) as [body|]; [|reflexivity].
      destruct (c !! N.to_nat (4 + unbe h4 - 1)) as [x|] eqn:Ex; [|reflexivity]. apply lookup_lt_Some in Ex. unfold len in *. lia.
    + destruct (slice 4 (4 + unbe h4) c) as [body|] eqn:Eb; [|reflexivity]. apply slice_some in Eb. lia.
Qed.

(** Skipping the front of a slice. *)
Lemma slice_tail a e f x y : slice a e f = Some (x ++ y) -> slice (a + len x) e f = Some y.
Proof.
  intros Hs. pose proof (slice_some _ _ _ _ Hs) as (H1 & H2 & H3). rewrite len_app in H3.
  unfold slice in Hs |- *. destruct (_ && _) eqn:Hc in Hs; [|discriminate Hs]. apply Some_inj in Hs.
  destruct (a + len x <=? e) eqn:C1; [|lia]. destruct (e <=? len f) eqn:C2; [|lia]. cbn [andb]. f_equal.
  replace (N.to_nat (a + len x)) with (N.to_nat a + N.to_nat (len x))%nat by lia.
  replace (N.to_nat (e - (a + len x))) with (N.to_nat (e - a) - N.to_nat (len x))%nat by lia.
  rewrite <- drop_drop, <- skipn_firstn_comm. rewrite Hs. apply drop_app_alt. unfold len. lia.
Qed.

(** Reading a sequence of frames, or something that is none. *)
Lemma iter_frames F key nonce bodies : forall f start end_ fuel n acc cnt,
  len f < 2 ^ 32 -> slice start end_ f = Some (concat (map (fun b => be 4 (len b) ++ b) bodies)) ->
  Forall (fun b => min_item F <= len b) bodies -> (length bodies <= fuel)%nat ->
  exists cnt', iter_map (feature_codec F key nonce) fuel f start end_ (n mod 2 ^ 32) acc cnt = IDone (says F key nonce n bodies acc) cnt'.
Proof.
  induction bodies as [|b r IH]; intros f start end_ fuel n acc cnt Hl Hs Hm Hf.
  - exists cnt. apply slice_some in Hs as (H1 & H2 & H3). cbn [map concat] in H3. rewrite len_nil in H3.
    destruct fuel; cbn [iter_map]; (destruct (N.leb_spec end_ start); [reflexivity|lia]).
  - destruct fuel as [|fuel]; [cbn in Hf; lia|]. apply Forall_cons in Hm as [Hb Hm]. cbn [map concat] in Hs.
    rewrite <- app_assoc in Hs. pose proof (slice_some _ _ _ _ Hs) as (H1 & H2 & H3). rewrite !len_app, len_be in H3.
    cbn [iter_map]. destruct (N.leb_spec end_ start); [lia|]. rewrite Hs, dec_frame by lia. rewrite mod32_succ. cbn [says].
    apply IH; [exact Hl| |exact Hm|cbn in Hf; lia].
    rewrite app_assoc in Hs. apply slice_tail in Hs. rewrite len_app, len_be in Hs. rewrite (N.add_comm (len b)). exact Hs.
Qed.

Lemma iter_no_frames F key nonce : forall fuel f start end_ c pos acc cnt,
  len f < 2 ^ 32 -> slice start end_ f = Some c -> (length c <= fuel)%nat ->
  (exists bodies, c = concat (map (fun b => be 4 (len b) ++ b) bodies) /\ Forall (fun b => min_item F <= len b) bodies) \/
  iter_map (feature_codec F key nonce) fuel f start end_ pos acc cnt = IPanic.
Proof.
  induction fuel as [|fuel IH]; intros f start end_ c pos acc cnt Hl Hs Hf.
  - left. exists []. split; [destruct c; [reflexivity|cbn in Hf; lia]|constructor].
  - pose proof (slice_some _ _ _ _ Hs) as (H1 & H2 & H3).
    destruct c as [|c0 c1]; [left; exists []; split; [reflexivity|constructor]|]. set (c := c0 :: c1) in *.
    assert (Hc0 : 0 < len c) by (unfold c; rewrite len_cons; lia).
    cbn [iter_map]. destruct (N.leb_spec end_ start); [lia|]. rewrite Hs.
    destruct (dec_no_frame F key nonce c pos ltac:(lia)) as [(b & rest & Hc & Hb)| ->]; [|right; reflexivity].
    assert (HLc : len c = 4 + len b + len rest) by (rewrite Hc, !len_app, len_be; lia).
    assert (Hdec : dec (feature_codec F key nonce) c pos = ROk (body_entry F key nonce pos b, len b + 4)).
    { rewrite Hc. apply dec_frame; [exact Hb|lia]. }
    rewrite Hdec.
    assert (Hs' : slice (start + (len b + 4)) end_ f = Some rest).
    { rewrite Hc, app_assoc in Hs. apply slice_tail in Hs. rewrite len_app, len_be in Hs. rewrite (N.add_comm (len b)). exact Hs. }
    destruct (IH f (start + (len b + 4)) end_ rest ((pos + 1) mod 2 ^ 32) (apply_opt acc (body_entry F key nonce pos b)) ((cnt + 1) mod 2 ^ 32) Hl Hs')
      as [(bodies & Hr & HFa)|Hp].
    { unfold len in *. lia. }
    + left. exists (b :: bodies). split; [rewrite Hc, Hr; cbn [map concat]; rewrite <- app_assoc; reflexivity|constructor; assumption].
    + right. exact Hp.
Qed.

Lemma frames_count F bodies : Forall (fun b => min_item F <= len b) bodies ->
  N.of_nat (length bodies) * 4 <= len (concat (map (fun b => be 4 (len b) ++ b) bodies)).
Proof.
  induction 1 as [|b r Hb Hr IH]; [cbn; lia|]. cbn [map concat length]. rewrite !len_app, len_be. lia.
Qed.

Lemma read_readable P F key nonce f : usz P = 8%nat -> len f < 2 ^ 32 ->
  (forall bodies, readable F f bodies -> exists cnt, read_all P (feature_codec F key nonce) f = IDone (says F key nonce 0 bodies ∅) cnt) /\
  ((forall bodies, ~ readable F f bodies) -> read_all P (feature_codec F key nonce) f = IPanic).
Proof.
  intros H64 Hl. set (n := unbe (take 8 f)).
  assert (Hn64 : n < 2 ^ 64).
  { eapply N.lt_le_trans; [apply unbe_lt|]. change (2 ^ 64) with (256 ^ N.of_nat 8). apply N.pow_le_mono_r; [discriminate|].
    rewrite take_length. lia. }
  assert (Hw : 8 <= len f -> write_offset P f = Some ((n + 8) mod 2 ^ 64)).
  { intros H8. unfold write_offset, header, slice, len_offset. destruct (8 <=? len f) eqn:C; [|lia]. cbn [andb].
    change (0 <=? 8) with true. cbn [andb]. change (N.to_nat (8 - 0)) with 8%nat. change (N.to_nat 0) with 0%nat. rewrite drop_0.
    rewrite take_length. replace (8 `min` length f)%nat with 8%nat by (unfold len in H8; lia). rewrite H64. cbn [Nat.eqb].
    unfold modulus. rewrite H64. change (256 ^ N.of_nat 8) with (2 ^ 64). reflexivity. }
  assert (Hsl : n + 8 <= len f -> slice 8 (n + 8) f = Some (take (N.to_nat n) (drop 8 f))).
  { intros Hle. unfold slice. destruct (8 <=? n + 8) eqn:C1; [|lia]. destruct (n + 8 <=? len f) eqn:C2; [|lia]. cbn [andb].
    replace (n + 8 - 8) with n by lia. reflexivity. }
  split.
  - intros bodies (H8 & [[Hn ->]|(Hle & Hc & HFa)]); unfold read_all; rewrite (Hw H8).
    + exists 0. cbn [says]. fold n in Hn. destruct (length f); cbn [iter_map]; unfold len_offset;
        (destruct (N.leb_spec ((n + 8) mod 2 ^ 64) 8) as [_|L]; [reflexivity|]);
        (destruct Hn as [Hn|Hn]; [rewrite Hn in L; vm_compute in L; discriminate L|]);
        exfalso; revert L; apply N.le_ngt; replace (n + 8) with (n + 8 - 2 ^ 64 + 1 * 2 ^ 64) by lia; rewrite N.mod_add by discriminate; rewrite N.mod_small by lia; lia.
    + fold n in Hle, Hc. rewrite N.mod_small by lia. unfold len_offset. change 0 with (0 mod 2 ^ 32) at 1.
      apply iter_frames; [exact Hl|rewrite Hsl by exact Hle; rewrite Hc; reflexivity|exact HFa|].
      pose proof (frames_count F bodies HFa) as G. rewrite <- Hc in G. rewrite len_take in G. unfold len in *. rewrite ?drop_length in G. lia.
  - intros Hno. unfold read_all. destruct (N.le_gt_cases 8 (len f)) as [H8|H8]; cycle 1.
    { unfold write_offset, header, slice, len_offset. destruct (8 <=? len f) eqn:C; [lia|]. reflexivity. }
    rewrite (Hw H8). unfold len_offset.
    assert (Hn : 0 < n /\ n < 2 ^ 64 - 8).
    { split; [destruct (N.eq_dec n 0) as [Hz|]; [|lia]|destruct (N.lt_ge_cases n (2 ^ 64 - 8)) as [|Hz]; [assumption|]];
        destruct (Hno []); split; [exact H8| |exact H8|]; left; fold n; auto. }
    rewrite N.mod_small by lia.
    destruct (N.le_gt_cases (n + 8) (len f)) as [Hle|Hgt].
    + destruct (iter_no_frames F key nonce (length f) f 8 (n + 8) _ 0 ∅ 0 Hl (Hsl Hle)) as [(bodies & Hc & HFa)|Hp]; [|..|exact Hp].
      * rewrite take_length, drop_length. lia.
      * destruct (Hno bodies). split; [exact H8|]. right. fold n. auto.
    + destruct f as [|b f]; [unfold len in H8; cbn in H8; lia|]. cbn [length iter_map].
      destruct (N.leb_spec (n + 8) 8); [lia|]. unfold slice. destruct (n + 8 <=? len (b :: f)) eqn:C; [lia|]. rewrite andb_false_r. reflexivity.
Qed.

(** What holds: exactly the readable files open, and then every get is
    answered from the frames whose checksum (or tag) is right; on every other
    file opening panics. *)
Theorem C14_which_files_open_partial E keyof es w rs0 d f f' h p nonce :
  ordinary E keyof es -> run E world0 es = Some (w, rs0) -> file_at w d = Some f -> In p (paths es) -> e_canon E p = d ->
  f' <> [] -> len f' < 2 ^ 32 ->
  match e_feat E with FPlain => True | FEncrypted _ => meta_at w d = Some nonce end ->
  (forall bodies, readable (e_feat E) f' bodies ->
     exists w', step E (tampered w d f') (ENew h p (keyof d)) = Some (w', ROk None) /\
       forall k t, step E w' (EGet h k t) = Some (w', get_answer (says (e_feat E) (kof E keyof d) nonce 0 bodies ∅) k t)) /\
  ((forall bodies, ~ readable (e_feat E) f' bodies) ->
     exists w', step E (tampered w d f') (ENew h p (keyof d)) = Some (w', RPanic)).
Proof.
  intros HO Hr Hf Hp Hcp Hne Hl Hn. destruct (eo_plat _ (or_env _ _ _ HO)) as [H64 _ _ _].
  pose proof (reopen_tampered E keyof es w rs0 d f f' h p HO Hr Hf Hne Hp Hcp) as G.
  assert (HC : dir_codec E keyof w d = feature_codec (e_feat E) (kof E keyof d) nonce).
  { unfold dir_codec, kof. destruct (e_feat E); [reflexivity|]. rewrite Hn. reflexivity. }
  rewrite HC in G. destruct (read_readable (e_plat E) (e_feat E) (kof E keyof d) nonce f' H64 Hl) as [A B]. split.
  - intros bodies Hb. destruct (A bodies Hb) as (cnt & Hread). rewrite Hread in G. exact G.
  - intros Hb. rewrite (B Hb) in G. exact G.
Qed.

(** Damage of any extent that leaves the content length and the length bytes
    of the records alone (any number of records, and the unused space) never
    prevents opening. *)
Theorem C14_damaged_bodies_open_partial E keyof es w rs0 d f rs ds unused h p :
  ordinary E keyof es -> run E world0 es = Some (w, rs0) -> file_at w d = Some f -> In p (paths es) -> e_canon E p = d ->
  holds (dir_codec E keyof w d) f rs -> good_records E rs ->
  like (dir_codec E keyof w d) 0 rs ds -> len (concat ds) < 2 ^ 63 ->
  exists w', step E (tampered w d (be 8 (len (concat ds)) ++ concat ds ++ unused)) (ENew h p (keyof d)) = Some (w', ROk None).
Proof.
  intros HO Hr Hf Hp Hcp Hh HG HL Hl. destruct (tampered_dir E keyof es w rs0 d f HO Hr Hf) as (ino & nonce & _ & _ & HC & _).
  destruct (like_read E keyof w d rs ds unused nonce (or_env _ _ _ HO) HC HG HL Hl) as (cnt & Hread).
  assert (Hne : be 8 (len (concat ds)) ++ concat ds ++ unused <> []).
  { intros H. apply (f_equal (length (A:=byte))) in H. rewrite app_length, be_length in H. cbn in H. lia. }
  pose proof (reopen_tampered E keyof es w rs0 d f _ h p HO Hr Hf Hne Hp Hcp) as G. rewrite Hread in G.
  destruct G as (w' & A & _). eauto.
Qed.

(** * A case that meets the hypotheses *)

(** A store with two records, closed; then the last byte of the value of the
    first record ("5") is changed: only that record disappears. *)
Definition ex_r1 : kv := KV k1 0 (be 4 5).
Definition ex_r2 : kv := KV k2 1 (str "hello"%string).
Definition ex_body (m : kv) : bytes := encode_kv m ++ [n2b (crc8 (encode_kv m))].
Definition ex_rec (m : kv) : bytes := be 4 (len (ex_body m)) ++ ex_body m.
Definition ex_file2 : bytes := be 8 (len (ex_rec ex_r1 ++ ex_rec ex_r2)) ++ (ex_rec ex_r1 ++ ex_rec ex_r2) ++ zeros (64 - 8 - len (ex_rec ex_r1 ++ ex_rec ex_r2)).
Definition ex_bad : bytes := set_byte 9 x07 (ex_body ex_r1).

Example C12_example : exists w rs0 f',
  ordinary (ex_env FPlain) ex_keyof ex_two /\ run (ex_env FPlain) world0 ex_two = Some (w, rs0) /\
  file_at w dir_d = Some ex_file2 /\ holds crc_codec ex_file2 ([] ++ ex_r1 :: [ex_r2]) /\ good_records (ex_env FPlain) ([] ++ ex_r1 :: [ex_r2]) /\
  enc crc_codec ex_r1 0 = ROk (be 4 (len (ex_body ex_r1)) ++ ex_body ex_r1) /\
  record_damaged ex_file2 f' (bytes_of FPlain []) (be 4 (len (ex_body ex_r1))) (ex_body ex_r1) ex_bad /\ burst (ex_body ex_r1) ex_bad /\
  match step (ex_env FPlain) (tampered w dir_d f') (ENew 9 dir_d ex_key) with
  | Some (w', ROk None) => option_map snd (step (ex_env FPlain) w' (EGet 9 k1 TI32)) = Some (RErr KeyNotFound) /\
                          option_map snd (step (ex_env FPlain) w' (EGet 9 k2 TStr)) = Some (ROk (Some hello))
  | _ => False
  end.
Proof.
  set (f' := be 8 (len (ex_rec ex_r1 ++ ex_rec ex_r2)) ++ be 4 (len (ex_body ex_r1)) ++ ex_bad ++ ex_rec ex_r2 ++ zeros (64 - 8 - len (ex_rec ex_r1 ++ ex_rec ex_r2))).
  assert (T : match run (ex_env FPlain) world0 ex_two with
    | Some (w, _) => match file_at w dir_d with Some f => bool_decide (f = ex_file2) | None => false end &&
       match step (ex_env FPlain) (tampered w dir_d f') (ENew 9 dir_d ex_key) with
       | Some (w', ROk None) => match step (ex_env FPlain) w' (EGet 9 k1 TI32) with Some (_, RErr KeyNotFound) => true | _ => false end &&
                               match step (ex_env FPlain) w' (EGet 9 k2 TStr) with Some (_, ROk (Some (VStr x))) => bool_decide (x = str "hello"%string) | _ => false end
       | _ => false end
    | None => false end = true) by (vm_compute; reflexivity).
  destruct (run (ex_env FPlain) world0 ex_two) as [[w rs]|] eqn:Hr; [|discriminate T].
  apply andb_true_iff in T as [T1 T2]. destruct (file_at w dir_d) as [f|] eqn:Hf; [|discriminate T1]. apply bool_decide_eq_true in T1. subst f.
  exists w, rs, f'. split_and!.
  - apply ex_two_ordinary. auto.
  - reflexivity.
  - exact Hf.
  - exists (ex_rec ex_r1 ++ ex_rec ex_r2), (zeros (64 - 8 - len (ex_rec ex_r1 ++ ex_rec ex_r2))). split; [reflexivity|vm_compute; reflexivity].
  - split; [repeat constructor; vm_compute; reflexivity|exact Logic.I].
  - vm_compute. reflexivity.
  - exists (be 8 (len (ex_rec ex_r1 ++ ex_rec ex_r2))), (ex_rec ex_r2 ++ zeros (64 - 8 - len (ex_rec ex_r1 ++ ex_rec ex_r2))).
    split_and!; vm_compute; reflexivity.
  - change (ex_body ex_r1) with (take 9 (ex_body ex_r1) ++ x05 :: drop 10 (ex_body ex_r1)) at 1. apply burst_byte. discriminate.
  - destruct (step (ex_env FPlain) (tampered w dir_d f') (ENew 9 dir_d ex_key)) as [[w' [[|]| |]]|]; try discriminate T2.
    apply andb_true_iff in T2 as [T3 T4].
    destruct (step (ex_env FPlain) w' (EGet 9 k1 TI32)) as [[? [| [] |]]|]; try discriminate T3.
    destruct (step (ex_env FPlain) w' (EGet 9 k2 TStr)) as [[? [[[]|]| |]]|]; try discriminate T4.
    apply bool_decide_eq_true in T4. rewrite T4. split; reflexivity.
Qed.

(** A readable file that was never written by the library (one record with a
    wrong checksum and an empty store), and an unreadable one. *)
Example C14_example :
  readable FPlain (be 8 6 ++ be 4 2 ++ [x01; x02] ++ zeros 10) [[x01; x02]] /\
  readable FPlain (zeros 64) [] /\ forall bodies, ~ readable FPlain (be 8 4 ++ zeros 56) bodies.
Proof.
  split_and!.
  - split; [vm_compute; discriminate|]. right. split_and!; [vm_compute; discriminate|vm_compute; reflexivity|].
    repeat constructor; vm_compute; discriminate.
  - split; [vm_compute; discriminate|]. left. split; [left; vm_compute; reflexivity|reflexivity].
  - intros bodies (_ & [[[H|H] _]|(_ & H & HF)]); [vm_compute in H; discriminate H|vm_compute in H; apply H; reflexivity|].
    assert (HH : take (N.to_nat (unbe (take 8 (be 8 4 ++ zeros 56)))) (drop 8 (be 8 4 ++ zeros 56)) = zeros 4) by (vm_compute; reflexivity).
    rewrite HH in H. destruct bodies as [|b r]; [vm_compute in H; discriminate H|]. cbn [map concat] in H. apply Forall_cons in HF as [Hb _]. cbn in Hb.
    apply (f_equal (fun l => len l)) in H. rewrite !len_app, len_be in H. change (len (zeros 4)) with 4 in H. lia.
Qed.

Example C49_example : len (be 8 4 ++ zeros 56) < 2 ^ 32 /\
  read_all ex_plat crc_codec (be 8 4 ++ zeros 56) = IPanic /\
  iter_map crc_codec 1 (be 8 6 ++ be 4 2 ++ [x01; x02] ++ zeros 10) 8 14 0 ∅ 0 = IDone ∅ 1.
Proof. split_and!; vm_compute; reflexivity. Qed.
