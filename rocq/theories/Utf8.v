(** UTF-8, as Rust's [str]/[String] require it.

    Models the acceptance condition of [String::from_utf8]
    (used at src/core/buffer.rs:282-284 and inside protobuf's [read_string] for
    the key) and the encoding of Unicode scalar values that every Rust
    [&str]/[String] consists of. *)
From Verif Require Import Bytes.
Local Open Scope N_scope.

Definition in_rng (lo hi : N) (b : byte) : bool := (lo <=? b2n b) && (b2n b <=? hi).

(** Well-formed UTF-8 byte sequences (Unicode table 3-7; the table
    [core::str::from_utf8] implements).  Models the check behind
    src/core/buffer.rs:282-284. *)
Fixpoint utf8_valid (l : bytes) : bool :=
  match l with
  | [] => true
  | b0 :: r0 =>
      if in_rng 0x00 0x7F b0 then utf8_valid r0
      else match r0 with
      | [] => false
      | b1 :: r1 =>
          if in_rng 0xC2 0xDF b0 then in_rng 0x80 0xBF b1 && utf8_valid r1
          else match r1 with
          | [] => false
          | b2 :: r2 =>
              if in_rng 0xE0 0xE0 b0 then in_rng 0xA0 0xBF b1 && in_rng 0x80 0xBF b2 && utf8_valid r2
              else if in_rng 0xE1 0xEC b0 || in_rng 0xEE 0xEF b0
                   then in_rng 0x80 0xBF b1 && in_rng 0x80 0xBF b2 && utf8_valid r2
              else if in_rng 0xED 0xED b0 then in_rng 0x80 0x9F b1 && in_rng 0x80 0xBF b2 && utf8_valid r2
              else match r2 with
              | [] => false
              | b3 :: r3 =>
                  if in_rng 0xF0 0xF0 b0
                  then in_rng 0x90 0xBF b1 && in_rng 0x80 0xBF b2 && in_rng 0x80 0xBF b3 && utf8_valid r3
                  else if in_rng 0xF1 0xF3 b0
                  then in_rng 0x80 0xBF b1 && in_rng 0x80 0xBF b2 && in_rng 0x80 0xBF b3 && utf8_valid r3
                  else if in_rng 0xF4 0xF4 b0
                  then in_rng 0x80 0x8F b1 && in_rng 0x80 0xBF b2 && in_rng 0x80 0xBF b3 && utf8_valid r3
                  else false
              end
          end
      end
  end.

(** * Independent specification: sequences of Unicode scalar values *)

(** A Unicode scalar value (Rust [char]). *)
Definition is_scalar (c : N) : bool := (c <? 0xD800) || ((0xE000 <=? c) && (c <=? 0x10FFFF)).

(** UTF-8 encoding of one scalar value (RFC 3629). *)
Definition utf8_enc1 (c : N) : bytes :=
  if c <? 0x80 then [n2b c]
  else if c <? 0x800 then [n2b (0xC0 + c / 64); n2b (0x80 + c mod 64)]
  else if c <? 0x10000 then [n2b (0xE0 + c / 4096); n2b (0x80 + c / 64 mod 64); n2b (0x80 + c mod 64)]
  else [n2b (0xF0 + c / 262144); n2b (0x80 + c / 4096 mod 64); n2b (0x80 + c / 64 mod 64); n2b (0x80 + c mod 64)].

Definition utf8_encode (cs : list N) : bytes := concat (map utf8_enc1 cs).

(** * Facts *)

Lemma in_rng_spec lo hi b : in_rng lo hi b = true <-> lo <= b2n b <= hi.
Proof. unfold in_rng. rewrite andb_true_iff, N.leb_le, N.leb_le. reflexivity. Qed.

Lemma in_rng_n2b lo hi n : n < 256 -> in_rng lo hi (n2b n) = (lo <=? n) && (n <=? hi).
Proof. intros H. unfold in_rng. rewrite b2n_n2b, N.mod_small by exact H. reflexivity. Qed.

Ltac rng :=
  repeat match goal with
  | |- context [(?a <=? ?b)%N] => destruct (N.leb_spec a b); try lia; cbn [andb orb]
  end.

Lemma utf8_valid_enc1 c r : is_scalar c = true -> utf8_valid (utf8_enc1 c ++ r) = utf8_valid r.
Proof.
  intros Hs. unfold is_scalar in Hs. unfold utf8_enc1.
  assert (Hc : c < 0xD800 \/ 0xE000 <= c <= 0x10FFFF).
  { apply orb_true_iff in Hs as [Hs|Hs]; [left; apply N.ltb_lt in Hs; exact Hs|].
    apply andb_true_iff in Hs as [H1 H2]. apply N.leb_le in H1, H2. right. lia. }
  clear Hs.
  destruct (N.ltb_spec c 0x80) as [H|H].
  { cbn [app utf8_valid]. rewrite in_rng_n2b by lia. rng. reflexivity. }
  destruct (N.ltb_spec c 0x800) as [H1|H1].
  { cbn [app utf8_valid].
    assert (Hq : 0xC2 <= 0xC0 + c / 64 <= 0xDF) by lia.
    assert (Hm : 0x80 <= 0x80 + c mod 64 <= 0xBF) by lia.
    rewrite !in_rng_n2b by lia. rng. reflexivity. }
  destruct (N.ltb_spec c 0x10000) as [H2|H2].
  { cbn [app utf8_valid].
    assert (Hq : 0xE0 <= 0xE0 + c / 4096 <= 0xEF) by lia.
    assert (Hm : 0x80 <= 0x80 + c mod 64 <= 0xBF) by lia.
    assert (Hm1 : 0x80 <= 0x80 + c / 64 mod 64 <= 0xBF) by lia.
    assert (HE0 : 0xE0 + c / 4096 = 0xE0 -> 0xA0 <= 0x80 + c / 64 mod 64) by lia.
    assert (HED : 0xE0 + c / 4096 = 0xED -> 0x80 + c / 64 mod 64 <= 0x9F) by lia.
    rewrite !in_rng_n2b by lia.
    set (a := 0xE0 + c / 4096) in *. set (b := 0x80 + c / 64 mod 64) in *.
    set (d := 0x80 + c mod 64) in *. clearbody a b d.
    rng; reflexivity. }
  cbn [app utf8_valid].
  assert (Hq : 0xF0 <= 0xF0 + c / 262144 <= 0xF4) by lia.
  assert (Hm : 0x80 <= 0x80 + c mod 64 <= 0xBF) by lia.
  assert (Hm1 : 0x80 <= 0x80 + c / 64 mod 64 <= 0xBF) by lia.
  assert (Hm2 : 0x80 <= 0x80 + c / 4096 mod 64 <= 0xBF) by lia.
  assert (HF0 : 0xF0 + c / 262144 = 0xF0 -> 0x90 <= 0x80 + c / 4096 mod 64) by lia.
  assert (HF4 : 0xF0 + c / 262144 = 0xF4 -> 0x80 + c / 4096 mod 64 <= 0x8F) by lia.
  rewrite !in_rng_n2b by lia.
  set (a := 0xF0 + c / 262144) in *. set (b := 0x80 + c / 4096 mod 64) in *.
  set (d := 0x80 + c mod 64) in *. set (e := 0x80 + c / 64 mod 64) in *. clearbody a b d e.
  rng; reflexivity.
Qed.

Lemma utf8_valid_encode cs : forallb is_scalar cs = true -> utf8_valid (utf8_encode cs) = true.
Proof.
  induction cs as [|c cs IH]; cbn; [reflexivity|].
  intros H. apply andb_true_iff in H as [Hc Hcs].
  rewrite utf8_valid_enc1 by exact Hc. apply IH, Hcs.
Qed.

Lemma n2b_eq n b : n = b2n b -> n2b n = b.
Proof. intros ->. apply n2b_b2n. Qed.

(** Decoding step: a well-formed sequence starts with the encoding of a scalar. *)
Lemma utf8_valid_inv l :
  utf8_valid l = true -> l <> [] ->
  exists c r, is_scalar c = true /\ l = utf8_enc1 c ++ r /\ utf8_valid r = true /\ (length r < length l)%nat.
Proof.
  intros Hv Hne. destruct l as [|b0 r0]; [congruence|]. clear Hne.
  cbn [utf8_valid] in Hv.
  destruct (in_rng 0x00 0x7F b0) eqn:E0.
  { apply in_rng_spec in E0. exists (b2n b0), r0.
    unfold is_scalar, utf8_enc1.
    destruct (N.ltb_spec (b2n b0) 0xD800); [|lia].
    destruct (N.ltb_spec (b2n b0) 0x80); [|lia].
    rewrite n2b_b2n. cbn. repeat split; auto with lia. }
  assert (N0 : 0x80 <= b2n b0).
  { unfold in_rng in E0. apply andb_false_iff in E0 as [E0|E0]; apply N.leb_gt in E0; lia. }
  destruct r0 as [|b1 r1]; [discriminate|].
  destruct (in_rng 0xC2 0xDF b0) eqn:E1.
  { apply in_rng_spec in E1. apply andb_true_iff in Hv as [H1 Hv]. apply in_rng_spec in H1.
    exists ((b2n b0 - 0xC0) * 64 + (b2n b1 - 0x80)), r1.
    set (c := (b2n b0 - 0xC0) * 64 + (b2n b1 - 0x80)).
    assert (Hc : 0x80 <= c < 0x800) by (unfold c; lia).
    unfold is_scalar, utf8_enc1.
    destruct (N.ltb_spec c 0xD800); [|lia].
    destruct (N.ltb_spec c 0x80); [lia|]. destruct (N.ltb_spec c 0x800); [|lia].
    rewrite (n2b_eq _ b0), (n2b_eq _ b1) by (unfold c; lia).
    cbn. repeat split; auto with lia. }
  destruct r1 as [|b2 r2]; [discriminate|].
  pose proof (b2n_lt b0) as L0.
  assert (T3 : forall lo hi, 0xE0 <= b2n b0 <= 0xEF -> in_rng lo hi b1 && in_rng 0x80 0xBF b2 && utf8_valid r2 = true ->
     (0x80 <= lo) -> (hi <= 0xBF) -> (b2n b0 = 0xE0 -> 0xA0 <= lo) -> (b2n b0 = 0xED -> hi <= 0x9F) ->
     exists c r, is_scalar c = true /\ b0 :: b1 :: b2 :: r2 = utf8_enc1 c ++ r /\ utf8_valid r = true /\
       (length r < length (b0 :: b1 :: b2 :: r2))%nat).
  { intros lo hi R Hb Hlo Hhi HE0 HED.
    apply andb_true_iff in Hb as [Hb Hr]. apply andb_true_iff in Hb as [Hb1 Hb2].
    apply in_rng_spec in Hb1, Hb2.
    exists ((b2n b0 - 0xE0) * 4096 + (b2n b1 - 0x80) * 64 + (b2n b2 - 0x80)), r2.
    set (c := (b2n b0 - 0xE0) * 4096 + (b2n b1 - 0x80) * 64 + (b2n b2 - 0x80)).
    assert (Hc : 0x800 <= c < 0x10000) by (unfold c; lia).
    assert (Hs : c < 0xD800 \/ 0xE000 <= c) by (unfold c; lia).
    unfold is_scalar, utf8_enc1.
    destruct (N.ltb_spec c 0x80); [lia|]. destruct (N.ltb_spec c 0x800); [lia|].
    destruct (N.ltb_spec c 0x10000); [|lia].
    assert (Q0 : c / 4096 = b2n b0 - 0xE0) by (unfold c; lia).
    assert (Q1 : c / 64 = (b2n b0 - 0xE0) * 64 + (b2n b1 - 0x80)) by (unfold c; lia).
    rewrite Q0, Q1.
    rewrite (n2b_eq _ b0), (n2b_eq _ b1), (n2b_eq _ b2) by (unfold c; lia).
    split; [|repeat split; auto; cbn; lia].
    destruct (N.ltb_spec c 0xD800); [reflexivity|].
    destruct (N.leb_spec 0xE000 c); [|lia]. destruct (N.leb_spec c 0x10FFFF); [reflexivity|lia]. }
  destruct (in_rng 0xE0 0xE0 b0) eqn:E2.
  { apply in_rng_spec in E2. apply (T3 0xA0 0xBF); try lia; exact Hv. }
  destruct (in_rng 0xE1 0xEC b0 || in_rng 0xEE 0xEF b0) eqn:E3.
  { apply orb_true_iff in E3. rewrite !in_rng_spec in E3.
    apply (T3 0x80 0xBF); try lia; exact Hv. }
  destruct (in_rng 0xED 0xED b0) eqn:E4.
  { apply in_rng_spec in E4. apply (T3 0x80 0x9F); try lia; exact Hv. }
  destruct r2 as [|b3 r3]; [discriminate|].
  assert (T4 : forall lo hi, 0xF0 <= b2n b0 <= 0xF4 ->
     in_rng lo hi b1 && in_rng 0x80 0xBF b2 && in_rng 0x80 0xBF b3 && utf8_valid r3 = true ->
     (0x80 <= lo) -> (hi <= 0xBF) -> (b2n b0 = 0xF0 -> 0x90 <= lo) -> (b2n b0 = 0xF4 -> hi <= 0x8F) ->
     exists c r, is_scalar c = true /\ b0 :: b1 :: b2 :: b3 :: r3 = utf8_enc1 c ++ r /\ utf8_valid r = true /\
       (length r < length (b0 :: b1 :: b2 :: b3 :: r3))%nat).
  { intros lo hi R Hb Hlo Hhi HF0 HF4.
    apply andb_true_iff in Hb as [Hb Hr]. apply andb_true_iff in Hb as [Hb Hb3].
    apply andb_true_iff in Hb as [Hb1 Hb2].
    apply in_rng_spec in Hb1, Hb2, Hb3.
    exists ((b2n b0 - 0xF0) * 262144 + (b2n b1 - 0x80) * 4096 + (b2n b2 - 0x80) * 64 + (b2n b3 - 0x80)), r3.
    set (c := (b2n b0 - 0xF0) * 262144 + (b2n b1 - 0x80) * 4096 + (b2n b2 - 0x80) * 64 + (b2n b3 - 0x80)).
    assert (Hc : 0x10000 <= c <= 0x10FFFF) by (unfold c; lia).
    unfold is_scalar, utf8_enc1.
    destruct (N.ltb_spec c 0x80); [lia|]. destruct (N.ltb_spec c 0x800); [lia|].
    destruct (N.ltb_spec c 0x10000); [lia|].
    assert (Q0 : c / 262144 = b2n b0 - 0xF0) by (unfold c; lia).
    assert (Q1 : c / 4096 = (b2n b0 - 0xF0) * 64 + (b2n b1 - 0x80)) by (unfold c; lia).
    assert (Q2 : c / 64 = (b2n b0 - 0xF0) * 4096 + (b2n b1 - 0x80) * 64 + (b2n b2 - 0x80)) by (unfold c; lia).
    rewrite Q0, Q1, Q2.
    rewrite (n2b_eq _ b0), (n2b_eq _ b1), (n2b_eq _ b2), (n2b_eq _ b3) by (unfold c; lia).
    split; [|repeat split; auto; cbn; lia].
    destruct (N.ltb_spec c 0xD800); [reflexivity|].
    destruct (N.leb_spec 0xE000 c); [|lia]. destruct (N.leb_spec c 0x10FFFF); [reflexivity|lia]. }
  destruct (in_rng 0xF0 0xF0 b0) eqn:E5.
  { apply in_rng_spec in E5. apply (T4 0x90 0xBF); try lia; exact Hv. }
  destruct (in_rng 0xF1 0xF3 b0) eqn:E6.
  { apply in_rng_spec in E6. apply (T4 0x80 0xBF); try lia; exact Hv. }
  destruct (in_rng 0xF4 0xF4 b0) eqn:E7; [|discriminate].
  apply in_rng_spec in E7. apply (T4 0x80 0x8F); try lia; exact Hv.
Qed.

Lemma utf8_valid_decode l :
  utf8_valid l = true -> exists cs, forallb is_scalar cs = true /\ utf8_encode cs = l.
Proof.
  remember (length l) as n eqn:Hn. revert l Hn.
  induction n as [n IH] using lt_wf_ind. intros l Hn Hv.
  destruct l as [|b l']; [exists []; split; reflexivity|].
  destruct (utf8_valid_inv (b :: l') Hv ltac:(discriminate)) as (c & r & Hs & He & Hr & Hlt).
  destruct (IH (length r) ltac:(lia) r eq_refl Hr) as (cs & Hcs & Hec).
  exists (c :: cs). split; [cbn; rewrite Hs, Hcs; reflexivity|].
  unfold utf8_encode in *. cbn. rewrite Hec, He. reflexivity.
Qed.

Lemma utf8_valid_iff l :
  utf8_valid l = true <-> exists cs, forallb is_scalar cs = true /\ utf8_encode cs = l.
Proof.
  split; [apply utf8_valid_decode|]. intros (cs & H & <-). apply utf8_valid_encode, H.
Qed.

(** ASCII strings written as Coq strings, for examples. *)
From Coq Require Import Strings.String Strings.Ascii.
Definition str (s : String.string) : bytes := String.list_byte_of_string s.
