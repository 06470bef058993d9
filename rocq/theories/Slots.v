(** Reading files whose records need not all be intact.

    A slot is a piece of the content that the decoder consumes in one step:
    an intact record, or a damaged one that is skipped ([None]).  Used for
    torn appends (P_Kill.v), damaged files (P_Corrupt.v) and foreign or
    modified encrypted records (P_Enc.v). *)
From Verif Require Import Bytes Utf8 Proto ProtoFacts Crc8 Value Codec Store StoreFacts Encrypt World Spec Hyps Refine.
From Coq Require Import ZifyBool ZifyNat ZifyN.
Local Open Scope N_scope.

Definition slot := (bytes * option kv)%type.

(** The bytes of the slots, back to back. *)
Definition slot_bytes (sl : list slot) : bytes := concat (map fst sl).

(** What they say, oldest first. *)
Definition slot_map (sl : list slot) (acc : gmap bytes kv) : gmap bytes kv := fold_left apply_opt (map snd sl) acc.

Section Slots.
Context (C : codec).

(** Each slot, read under its number and whatever follows it, decodes to its
    entry and is consumed whole. *)
Inductive slots : N -> list slot -> Prop :=
| slots_nil n : slots n []
| slots_cons n b o r :
    0 < len b -> (forall tail, dec C (b ++ tail) (n mod 2 ^ 32) = ROk (o, len b)) -> slots (n + 1) r -> slots n ((b, o) :: r).

Lemma slot_bytes_app a b : slot_bytes (a ++ b) = slot_bytes a ++ slot_bytes b.
Proof. unfold slot_bytes. rewrite map_app, concat_app. reflexivity. Qed.

Lemma slot_map_app a b acc : slot_map (a ++ b) acc = slot_map b (slot_map a acc).
Proof. unfold slot_map. rewrite map_app, fold_left_app. reflexivity. Qed.

Lemma slots_app a : forall n b, slots n (a ++ b) <-> slots n a /\ slots (n + N.of_nat (length a)) b.
Proof.
  induction a as [|[x o] a IH]; intros n b; cbn [app length].
  - replace (n + N.of_nat 0) with n by lia. split; [intros H; split; [constructor|exact H]|intros [_ H]; exact H].
  - split.
    + intros H. inversion H as [|? ? ? ? H1 H2 H3]; subst. apply IH in H3 as [H3 H4]. split; [constructor; assumption|].
      replace (n + N.of_nat (S (length a))) with (n + 1 + N.of_nat (length a)) by lia. exact H4.
    + intros [H H4]. inversion H as [|? ? ? ? H1 H2 H3]; subst. constructor; [exact H1|exact H2|]. apply IH. split; [exact H3|].
      replace (n + 1 + N.of_nat (length a)) with (n + N.of_nat (S (length a))) by lia. exact H4.
Qed.

Lemma slots_length n sl : slots n sl -> N.of_nat (length sl) <= len (slot_bytes sl).
Proof.
  induction 1 as [n|n b o r Hb Hd Hr IH]; [cbn; lia|]. unfold slot_bytes in *. cbn [map concat length fst].
  rewrite len_app. lia.
Qed.

Lemma iter_slots sl : forall n pre slack acc cnt fuel,
  slots n sl -> (length (slot_bytes sl) <= fuel)%nat ->
  iter_map C fuel (pre ++ slot_bytes sl ++ slack) (len pre) (len pre + len (slot_bytes sl)) (n mod 2 ^ 32) acc (cnt mod 2 ^ 32)
  = IDone (slot_map sl acc) ((cnt + N.of_nat (length sl)) mod 2 ^ 32).
Proof.
  induction sl as [|[b o] r IH]; intros n pre slack acc cnt fuel Hs Hf.
  - destruct fuel; cbn [iter_map slot_bytes map concat]; (destruct (N.leb_spec (len pre + len []) (len pre)) as [_|L]; [|rewrite len_nil in L; lia]);
      cbn; rewrite N.add_0_r; reflexivity.
  - inversion Hs as [|? ? ? ? Hb Hd Hr]; subst. change (slot_bytes ((b, o) :: r)) with (b ++ slot_bytes r) in *.
    destruct fuel as [|fuel]; [unfold len in Hb; rewrite app_length in Hf; lia|].
    cbn [iter_map]. destruct (N.leb_spec (len pre + len (b ++ slot_bytes r)) (len pre)) as [L|_]; [rewrite len_app in L; lia|].
    rewrite slice_mid, Hd.
    pose proof (IH (n + 1) (pre ++ b) slack (apply_opt acc o) (cnt + 1) fuel Hr) as G.
    rewrite !mod32_succ.
    replace (pre ++ (b ++ slot_bytes r) ++ slack) with ((pre ++ b) ++ slot_bytes r ++ slack) by (rewrite <- !app_assoc; reflexivity).
    replace (len pre + len b) with (len (pre ++ b)) by (rewrite len_app; lia).
    replace (len pre + len (b ++ slot_bytes r)) with (len (pre ++ b) + len (slot_bytes r)) by (rewrite !len_app; lia).
    rewrite G.
    + f_equal. f_equal. cbn [length]. lia.
    + rewrite app_length in Hf. unfold len in Hb. lia.
Qed.

(** Reading a file that consists of slots. *)
Lemma read_slots P sl slack : usz P = 8%nat -> slots 0 sl -> len (slot_bytes sl) + 8 < 2 ^ 64 ->
  read_all P C (be 8 (len (slot_bytes sl)) ++ slot_bytes sl ++ slack)
  = IDone (slot_map sl ∅) (N.of_nat (length sl) mod 2 ^ 32).
Proof.
  intros H64 Hs Hl. unfold read_all. set (c := slot_bytes sl) in *.
  assert (E : write_offset P (be 8 (len c) ++ c ++ slack) = Some (len c + 8)).
  { unfold write_offset, header. pose proof (slice_head (be 8 (len c)) (c ++ slack)) as E. rewrite len_be in E.
    change (N.of_nat 8) with 8 in E. unfold len_offset. rewrite E, be_length, H64. cbn [Nat.eqb].
    rewrite unbe_be_small by (change (256 ^ N.of_nat 8) with (2 ^ 64); lia).
    unfold modulus. rewrite H64. change (256 ^ N.of_nat 8) with (2 ^ 64). rewrite N.mod_small by lia. reflexivity. }
  rewrite E. pose proof (iter_slots sl 0 (be 8 (len c)) slack ∅ 0 (length (be 8 (len c) ++ c ++ slack)) Hs) as G.
  rewrite len_be in G. change (N.of_nat 8) with 8 in G. unfold len_offset. fold c in G.
  change (0 mod 2 ^ 32) with 0 in G. rewrite (N.add_comm (len c) 8). rewrite G; [reflexivity|]. rewrite !app_length. lia.
Qed.

(** Reading slots and then whatever follows them in the content. *)
Lemma iter_slots_then sl : forall n pre r slack acc cnt fuel,
  slots n sl ->
  iter_map C (length sl + fuel) (pre ++ slot_bytes sl ++ r ++ slack) (len pre) (len pre + len (slot_bytes sl) + len r) (n mod 2 ^ 32) acc (cnt mod 2 ^ 32)
  = iter_map C fuel (pre ++ slot_bytes sl ++ r ++ slack) (len pre + len (slot_bytes sl)) (len pre + len (slot_bytes sl) + len r)
      ((n + N.of_nat (length sl)) mod 2 ^ 32) (slot_map sl acc) ((cnt + N.of_nat (length sl)) mod 2 ^ 32).
Proof.
  induction sl as [|[b o] rest IH]; intros n pre r slack acc cnt fuel Hs.
  - cbn [length slot_bytes map concat slot_map fold_left Nat.add]. rewrite len_nil, !N.add_0_r. reflexivity.
  - inversion Hs as [|? ? ? ? Hb Hd Hr]; subst. change (slot_bytes ((b, o) :: rest)) with (b ++ slot_bytes rest) in *.
    cbn [length Nat.add iter_map].
    destruct (N.leb_spec (len pre + len (b ++ slot_bytes rest) + len r) (len pre)) as [L|_]; [rewrite len_app in L; lia|].
    pose proof (slice_mid pre (b ++ slot_bytes rest ++ r) slack) as Sl.
    replace (len pre + len (b ++ slot_bytes rest ++ r)) with (len pre + len (b ++ slot_bytes rest) + len r) in Sl by (rewrite !len_app; lia).
    replace (pre ++ (b ++ slot_bytes rest ++ r) ++ slack) with (pre ++ (b ++ slot_bytes rest) ++ r ++ slack) in Sl by (rewrite <- !app_assoc; reflexivity).
    rewrite Sl, Hd, !mod32_succ.
    replace (pre ++ (b ++ slot_bytes rest) ++ r ++ slack) with ((pre ++ b) ++ slot_bytes rest ++ r ++ slack) by (rewrite <- !app_assoc; reflexivity).
    replace (len pre + len b) with (len (pre ++ b)) by (rewrite len_app; lia).
    replace (len pre + len (b ++ slot_bytes rest)) with (len (pre ++ b) + len (slot_bytes rest)) by (rewrite !len_app; lia).
    rewrite (IH (n + 1)) by exact Hr. f_equal; f_equal; lia.
Qed.

Lemma read_slots_then P sl r slack : usz P = 8%nat -> slots 0 sl -> len (slot_bytes sl) + len r + 8 < 2 ^ 64 ->
  exists fuel, (length r <= fuel)%nat /\
  read_all P C (be 8 (len (slot_bytes sl ++ r)) ++ slot_bytes sl ++ r ++ slack)
  = iter_map C fuel (be 8 (len (slot_bytes sl ++ r)) ++ slot_bytes sl ++ r ++ slack) (8 + len (slot_bytes sl)) (8 + len (slot_bytes sl) + len r)
      (N.of_nat (length sl) mod 2 ^ 32) (slot_map sl ∅) (N.of_nat (length sl) mod 2 ^ 32).
Proof.
  intros H64 Hs Hl. unfold read_all. set (c := slot_bytes sl) in *. set (L := len (c ++ r)) in *.
  assert (HL : L = len c + len r) by (unfold L; apply len_app).
  assert (E : write_offset P (be 8 L ++ c ++ r ++ slack) = Some (L + 8)).
  { unfold write_offset, header. pose proof (slice_head (be 8 L) (c ++ r ++ slack)) as E. rewrite len_be in E.
    change (N.of_nat 8) with 8 in E. unfold len_offset. rewrite E, be_length, H64. cbn [Nat.eqb].
    rewrite unbe_be_small by (change (256 ^ N.of_nat 8) with (2 ^ 64); lia).
    unfold modulus. rewrite H64. change (256 ^ N.of_nat 8) with (2 ^ 64). rewrite N.mod_small by lia. reflexivity. }
  rewrite E. set (v := be 8 L ++ c ++ r ++ slack).
  assert (Hn : (length sl <= length c)%nat) by (pose proof (slots_length _ _ Hs) as G; fold c in G; unfold len in G; lia).
  exists (length v - length sl)%nat. split.
  - unfold v. rewrite !app_length, be_length. lia.
  - pose proof (iter_slots_then sl 0 (be 8 L) r slack ∅ 0 (length v - length sl)%nat Hs) as G. fold c in G. fold v in G.
    rewrite len_be in G. change (N.of_nat 8) with 8 in G. unfold len_offset. change (0 mod 2 ^ 32) with 0 in G.
    rewrite !N.add_0_l in G. rewrite <- G.
    replace (length sl + (length v - length sl))%nat with (length v) by (unfold v; rewrite !app_length, be_length; lia).
    f_equal. lia.
Qed.

(** If the first thing after the slots cannot be decoded, the reader panics. *)
Lemma read_slots_panic P sl r slack : usz P = 8%nat -> slots 0 sl -> len (slot_bytes sl) + len r + 8 < 2 ^ 64 -> r <> [] ->
  dec C r (N.of_nat (length sl) mod 2 ^ 32) = RPanic ->
  read_all P C (be 8 (len (slot_bytes sl ++ r)) ++ slot_bytes sl ++ r ++ slack) = IPanic.
Proof.
  intros H64 Hs Hl Hr Hd. destruct (read_slots_then P sl r slack H64 Hs Hl) as (fuel & Hfu & ->).
  set (L := len (slot_bytes sl ++ r)). assert (Hr' : 0 < len r) by (destruct r; [congruence|rewrite len_cons; lia]).
  destruct fuel as [|fuel]; [unfold len in Hr'; lia|]. cbn [iter_map].
  destruct (N.leb_spec (8 + len (slot_bytes sl) + len r) (8 + len (slot_bytes sl))); [lia|].
  pose proof (slice_mid (be 8 L ++ slot_bytes sl) r slack) as Sl. rewrite len_app, len_be in Sl. change (N.of_nat 8) with 8 in Sl.
  rewrite <- !app_assoc in Sl. rewrite Sl, Hd. reflexivity.
Qed.

(** Encoded records are slots. *)
Lemma enc_slots pos_ok sz rs : codec_law C pos_ok sz -> forall n c,
  Forall (rec_ok sz) rs -> positions_ok pos_ok (n + N.of_nat (length rs)) -> enc_list C (n mod 2 ^ 32) rs = Some c ->
  exists sl, slots n sl /\ slot_bytes sl = c /\ map snd sl = map Some rs.
Proof.
  intros Hlaw. induction rs as [|m r IH]; intros n c HF Hp E; cbn [enc_list] in E.
  - injection E as <-. exists []. split; [constructor|split; reflexivity].
  - inversion HF as [|? ? [Hk Hz] HF']; subst. cbn [length] in Hp.
    destruct (enc C m (n mod 2 ^ 32)) as [b| |] eqn:Eb; try discriminate. rewrite mod32_succ in E.
    destruct (enc_list C ((n + 1) mod 2 ^ 32) r) as [c'|] eqn:Ec; [|discriminate]. injection E as <-.
    destruct (IH (n + 1) c' HF') as (sl & H1 & H2 & H3); [intros i Hi; apply Hp; lia|exact Ec|].
    assert (Hb : len b = sz m /\ forall tail, dec C (b ++ tail) (n mod 2 ^ 32) = ROk (Some m, len b)).
    { split.
      - destruct (law_rt _ _ _ Hlaw m (n mod 2 ^ 32) [] Hk Hz) as (b' & A & B & _); [apply Hp; lia|congruence].
      - intros tail. destruct (law_rt _ _ _ Hlaw m (n mod 2 ^ 32) tail Hk Hz) as (b' & A & B & D); [apply Hp; lia|]. congruence. }
    destruct Hb as [Hb Hd]. exists ((b, Some m) :: sl). split; [constructor; [|exact Hd|exact H1]|split].
    + pose proof (law_min _ _ _ Hlaw m). lia.
    + unfold slot_bytes in *. cbn. rewrite H2. reflexivity.
    + cbn. rewrite H3. reflexivity.
Qed.

Lemma slot_map_some sl rs acc : map snd sl = map Some rs -> slot_map sl acc = fold_left apply_kv rs acc.
Proof.
  unfold slot_map. intros ->. revert acc. induction rs as [|m r IH]; intros acc; [reflexivity|]. cbn. apply IH.
Qed.
End Slots.

(** ** Damage that leaves the length of a record alone *)

(** What the decoder makes of a record body (after the 4 length bytes). *)
Definition body_entry (F : feature) (key nonce : bytes) (p : N) (body : bytes) : option kv :=
  match F with
  | FPlain => match last body with
              | Some c => if crc8 (removelast body) =? b2n c then parse_kv (removelast body) else None
              | None => None
              end
  | FEncrypted A => match stream_decrypt A key nonce body p with ROk b => parse_kv b | _ => None end
  end.

Lemma take4_split (d pre body : bytes) : length pre = 4%nat -> take 4 d = take 4 (pre ++ body) -> length d = length (pre ++ body) ->
  exists body', d = pre ++ body' /\ length body' = length body.
Proof.
  intros Hp Ht Hl. exists (drop 4 d). rewrite (take_app_alt pre body 4) in Ht by (symmetry; exact Hp). split.
  - rewrite <- Ht at 1. symmetry. apply take_drop.
  - rewrite drop_length, Hl, app_length. lia.
Qed.

(** A record whose length bytes are intact is one slot, whatever its body. *)
Lemma frame_slot F key nonce m p b d :
  feature_ok F -> kv_ok m = true -> record_size F m < 2 ^ 32 -> record_pos F p -> enc (feature_codec F key nonce) m p = ROk b ->
  length d = length b -> take 4 d = take 4 b ->
  forall tail, dec (feature_codec F key nonce) (d ++ tail) p = ROk (body_entry F key nonce p (drop 4 d), len b).
Proof.
  intros HF Hok Hsz Hp He Hl Ht tail. destruct F as [|A]; cbn [feature_codec record_size] in *.
  - rewrite crc_enc_shape in He by exact Hsz. injection He as <-.
    destruct (take4_split d (be 4 (len (encode_kv m) + 1)) (encode_kv m ++ [n2b (crc8 (encode_kv m))])) as (body' & -> & Hb);
      [apply be_length|exact Ht|exact Hl|].
    rewrite app_length in Hb. cbn [length] in Hb.
    destruct body' as [|c body _] using rev_ind; [cbn in Hb; lia|]. rewrite app_length in Hb. cbn [length] in Hb.
    assert (Hlen : len body = len (encode_kv m)) by (unfold len; lia).
    rewrite <- !app_assoc. cbn [app]. rewrite <- Hlen. unfold crc_size in Hsz. rewrite <- Hlen in Hsz. rewrite crc_dec_frame by exact Hsz.
    rewrite (drop_app_alt (be 4 (len body + 1))) by (rewrite be_length; reflexivity). cbn [body_entry]. rewrite last_snoc.
    rewrite removelast_last. f_equal. f_equal. rewrite !len_cons, !len_app. unfold len in *. cbn [length]. lia.
  - unfold aes_size in Hsz. destruct (HF key (stream_nonce nonce p) (encode_kv m) ltac:(lia)) as (c & Hs & Hlc & _).
    cbn [enc aes_codec] in He. unfold aes_enc, stream_encrypt in He.
    assert (Hne : (p =? counter_max) = false) by (apply N.eqb_neq; unfold record_pos in Hp; lia). rewrite Hne, Hs in He.
    rewrite N.mod_small in He by lia. injection He as <-.
    destruct (take4_split d (be 4 (len c)) c) as (body' & -> & Hb); [apply be_length|exact Ht|exact Hl|].
    assert (Hlen : len body' = len c) by (unfold len; lia).
    rewrite <- !app_assoc. rewrite <- Hlen. rewrite aes_dec_frame by lia.
    rewrite (drop_app_alt (be 4 (len body'))) by (rewrite be_length; reflexivity). cbn [body_entry].
    f_equal. f_equal. unfold len in *. cbn [length be app]. lia.
Qed.
