From Verif Require Import Bytes Utf8 Proto.
From Coq Require Import ZifyBool ZifyNat ZifyN.
Ltac Zify.zify_post_hook ::= Z.div_mod_to_equations.
Local Open Scope N_scope.

Lemma read_varint_aux_enc fuel n r :
  (0 < fuel)%nat -> n < 128 ^ N.of_nat fuel -> read_varint_aux fuel (varint_aux fuel n ++ r) = Some (n, r).
Proof.
  revert n. induction fuel as [|f IH]; intros n H0 Hn; [lia|].
  cbn [varint_aux].
  destruct (N.ltb_spec n 128) as [H|H].
  - cbn [app read_varint_aux]. rewrite b2n_n2b, N.mod_small by lia.
    destruct (N.ltb_spec n 128); [reflexivity|lia].
  - cbn [app read_varint_aux]. rewrite b2n_n2b, (N.mod_small (n mod 128 + 128)) by lia.
    destruct (N.ltb_spec (n mod 128 + 128) 128); [lia|].
    rewrite IH.
    + f_equal. f_equal. lia.
    + destruct f; [|lia]. cbn in Hn. lia.
    + rewrite Nat2N.inj_succ, N.pow_succ_r' in Hn. apply N.div_lt_upper_bound; lia.
Qed.

Lemma read_varint_enc n r : n < 2 ^ 64 -> read_varint (varint n ++ r) = Some (n, r).
Proof.
  intros Hn. apply read_varint_aux_enc; [lia|]. eapply N.lt_le_trans; [exact Hn|]. vm_compute. discriminate.
Qed.

Lemma read_varint_tag t r : t < 128 -> read_varint (n2b t :: r) = Some (t, r).
Proof.
  intros Ht. unfold read_varint. cbn [read_varint_aux].
  rewrite b2n_n2b, N.mod_small by lia. destruct (N.ltb_spec t 128); [reflexivity|lia].
Qed.

Lemma read_delimited_enc s r : len s < 2 ^ 32 -> read_delimited (varint (len s) ++ s ++ r) = Some (s, r).
Proof.
  intros Hs. unfold read_delimited.
  rewrite read_varint_enc by (eapply N.lt_trans; [exact Hs|reflexivity]).
  cbv zeta. rewrite N.mod_small by exact Hs. rewrite len_app.
  destruct (N.leb_spec (len s) (len s + len r)); [|lia].
  rewrite to_nat_len, take_app_alt, drop_app_alt by reflexivity. reflexivity.
Qed.

Lemma varint_nonempty n : varint n <> [].
Proof. unfold varint. cbn [varint_aux]. destruct (n <? 128); discriminate. Qed.

(** ** Consumption: every field consumes at least one byte *)
Lemma read_varint_aux_shorter fuel l v r : read_varint_aux fuel l = Some (v, r) -> (length r < length l)%nat.
Proof.
  revert l v r. induction fuel as [|f IH]; intros l v r H; [discriminate|].
  destruct l as [|b l]; [discriminate|]. cbn [read_varint_aux] in H.
  destruct (b2n b <? 128).
  - injection H as <- <-. cbn. lia.
  - destruct (read_varint_aux f l) as [[v' r']|] eqn:E; [|discriminate].
    injection H as <- <-. apply IH in E. cbn. lia.
Qed.

Lemma read_delimited_shorter l s r : read_delimited l = Some (s, r) -> (length r < length l)%nat.
Proof.
  unfold read_delimited, read_varint. destruct (read_varint_aux 10 l) as [[n r']|] eqn:E; [|discriminate].
  apply read_varint_aux_shorter in E. cbv zeta.
  destruct (n mod 2 ^ 32 <=? len r'); [|discriminate].
  intros [= <- <-]. rewrite drop_length. lia.
Qed.

Lemma parse_field_shorter l acc acc' r : parse_field l acc = Some (acc', r) -> (length r < length l)%nat.
Proof.
  unfold parse_field, read_varint. destruct (read_varint_aux 10 l) as [[t r0]|] eqn:E; [|discriminate].
  apply read_varint_aux_shorter in E. cbv zeta. generalize (t mod 2 ^ 32) as tag. intros tag.
  destruct (tag =? 10).
  { destruct (read_delimited r0) as [[s r']|] eqn:D; [|discriminate].
    destruct (utf8_valid s); [|discriminate]. intros [= <- <-]. apply read_delimited_shorter in D. lia. }
  destruct (tag =? 16).
  { destruct (read_varint_aux 10 r0) as [[v r']|] eqn:D; [|discriminate].
    intros [= <- <-]. apply read_varint_aux_shorter in D. lia. }
  destruct (tag =? 26).
  { destruct (read_delimited r0) as [[s r']|] eqn:D; [|discriminate].
    intros [= <- <-]. apply read_delimited_shorter in D. lia. }
  destruct (skip_unknown tag r0) as [r'|] eqn:S; [|discriminate].
  intros [= <- <-]. revert S. unfold skip_unknown, read_varint.
  destruct (tag / 8 =? 0); [discriminate|].
  destruct (tag mod 8) as [|[[p|p|]|[p|p|]|]].
  - destruct (read_varint_aux 10 r0) as [[v r1]|] eqn:D; [|discriminate].
    intros [= <-]. apply read_varint_aux_shorter in D. lia.
  - discriminate.
  - destruct p; try discriminate. destruct (4 <=? len r0); [|discriminate].
    intros [= <-]. rewrite drop_length. lia.
  - discriminate.
  - discriminate.
  - discriminate.
  - destruct (read_delimited r0) as [[s r1]|] eqn:D; [|discriminate].
    intros [= <-]. apply read_delimited_shorter in D. lia.
  - destruct (8 <=? len r0); [|discriminate]. intros [= <-]. rewrite drop_length. lia.
Qed.

(** The parse loop never runs out of fuel. *)
Lemma parse_aux_fuel f f' l acc :
  (length l <= f)%nat -> (length l <= f')%nat -> parse_aux f l acc = parse_aux f' l acc.
Proof.
  revert f' l acc. induction f as [|f IH]; intros f' l acc H H'.
  { destruct l; [|cbn in H; lia]. destruct f'; reflexivity. }
  destruct l as [|b l]; [destruct f'; reflexivity|].
  destruct f' as [|f']; [cbn in H'; lia|].
  cbn [parse_aux]. destruct (parse_field (b :: l) acc) as [[acc' r]|] eqn:E; [|reflexivity].
  apply parse_field_shorter in E. cbn [length] in *. apply IH; lia.
Qed.

Lemma parse_aux_step l acc acc' r f :
  (length l <= f)%nat -> l <> [] -> parse_field l acc = Some (acc', r) ->
  parse_aux f l acc = parse_aux f r acc'.
Proof.
  intros Hf Hne E. pose proof (parse_field_shorter _ _ _ _ E) as Hs.
  destruct l as [|b l]; [congruence|]. destruct f as [|f]; [cbn in Hf; lia|].
  transitivity (parse_aux f r acc').
  - cbn [parse_aux]. rewrite E. reflexivity.
  - apply parse_aux_fuel; cbn [length] in *; lia.
Qed.

(** What the API can store: a Rust [&str] key (valid UTF-8), an i32 type
    token, and field lengths below 4 GiB. *)
Definition kv_ok (m : kv) : bool :=
  utf8_valid (kv_key m) && in_signed 4 (kv_type m) && (len (kv_key m) <? 2 ^ 32) && (len (kv_value m) <? 2 ^ 32).

Lemma kv_ok_spec m :
  kv_ok m = true <->
  utf8_valid (kv_key m) = true /\ in_signed 4 (kv_type m) = true /\ len (kv_key m) < 2 ^ 32 /\ len (kv_value m) < 2 ^ 32.
Proof.
  unfold kv_ok. rewrite !andb_true_iff, !N.ltb_lt. tauto.
Qed.

Lemma z2u8_mod z : in_signed 4 z = true -> z2u 8 z mod 2 ^ 32 = z2u 4 z.
Proof.
  intros Hz. unfold z2u. apply N2Z.inj. rewrite N2Z.inj_mod, !Z2N.id by (apply Z.mod_pos_bound; reflexivity).
  change (8 * Z.of_nat 8)%Z with 64%Z. change (8 * Z.of_nat 4)%Z with 32%Z.
  change (Z.of_N (2 ^ 32)) with (2 ^ 32)%Z.
  rewrite <- Znumtheory.Zmod_div_mod; [reflexivity|reflexivity|reflexivity|].
  exists (2 ^ 32)%Z. reflexivity.
Qed.

Lemma parse_encode m : kv_ok m = true -> parse_kv (encode_kv m) = Some m.
Proof.
  intros H. apply kv_ok_spec in H as (Hu & Ht & Hk & Hv).
  unfold parse_kv. set (L := length (encode_kv m)).
  assert (HL : (length (encode_kv m) <= L)%nat) by reflexivity. clearbody L.
  unfold encode_kv in *. destruct m as [k t v]. cbn [kv_key kv_type kv_value] in *.
  set (A := match k with [] => [] | _ => n2b 10 :: varint (len k) ++ k end) in *.
  set (B := if Z.eqb t 0 then [] else n2b 16 :: varint (z2u 8 t)) in *.
  set (C := match v with [] => [] | _ => n2b 26 :: varint (len v) ++ v end) in *.
  rewrite !app_length in HL.
  assert (S1 : parse_aux L (A ++ B ++ C) (KV [] 0 []) = parse_aux L (B ++ C) (KV k 0 [])).
  { unfold A in *. clear A. destruct k as [|b k]; [reflexivity|].
    apply parse_aux_step; [rewrite !app_length; lia|discriminate|].
    unfold parse_field. cbn [app]. rewrite read_varint_tag by lia. cbv zeta.
    rewrite (N.mod_small 10) by lia. change (10 =? 10) with true. cbv iota.
    rewrite <- app_assoc, read_delimited_enc by exact Hk. rewrite Hu. reflexivity. }
  assert (S2 : parse_aux L (B ++ C) (KV k 0 []) = parse_aux L C (KV k t [])).
  { unfold B in *. clear B. destruct (Z.eqb_spec t 0) as [->|Hnz]; [reflexivity|].
    apply parse_aux_step; [rewrite !app_length; lia|discriminate|].
    unfold parse_field. cbn [app]. rewrite read_varint_tag by lia. cbv zeta.
    rewrite (N.mod_small 16) by lia. change (16 =? 10) with false. change (16 =? 16) with true. cbv iota.
    rewrite read_varint_enc by apply (z2u_lt 8).
    rewrite z2u8_mod, u2z_z2u by (lia || exact Ht). reflexivity. }
  assert (S3 : parse_aux L C (KV k t []) = Some (KV k t v)).
  { unfold C in *. clear C. destruct v as [|b v]; [destruct L; reflexivity|].
    rewrite (parse_aux_step _ _ (KV k t (b :: v)) []); [destruct L; reflexivity|lia|discriminate|].
    unfold parse_field. rewrite read_varint_tag by lia. cbv zeta.
    rewrite (N.mod_small 26) by lia. change (26 =? 10) with false. change (26 =? 16) with false.
    change (26 =? 26) with true. cbv iota.
    rewrite <- (app_nil_r (b :: v)) at 2. rewrite read_delimited_enc by exact Hv. reflexivity. }
  rewrite S1, S2, S3. reflexivity.
Qed.

(** The size of the encoding covers key and value. *)
Lemma encode_kv_len m : len (kv_key m) + len (kv_value m) <= len (encode_kv m).
Proof.
  unfold encode_kv. rewrite !len_app.
  assert (H1 : forall (t : byte) (x : bytes), len x <= len (match x with [] => [] | _ => t :: varint (len x) ++ x end)).
  { intros t x. destruct x as [|c x]; [lia|]. rewrite (len_cons t), len_app. lia. }
  pose proof (H1 (n2b 10) (kv_key m)). pose proof (H1 (n2b 26) (kv_value m)). lia.
Qed.
