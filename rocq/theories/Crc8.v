(** The checksum of a record: CRC-8/AUTOSAR.

    Models [const CRC8: Crc<u8> = Crc::<u8>::new(&CRC_8_AUTOSAR)]
    (src/core/crc.rs:9) as computed by the [crc] crate (table driven, MSB
    first): poly 0x2F, init 0xFF, no reflection, xorout 0xFF. *)
From Verif Require Import Bytes.
Local Open Scope N_scope.

(** One shift of the CRC register (the table of the crate is built from it). *)
Definition crc_shift (i : N) : N :=
  if N.testbit i 7 then N.lxor (N.land (N.shiftl i 1) 255) 0x2F else N.land (N.shiftl i 1) 255.

(** The crate's 256 entry table. *)
Definition crc_table (i : N) : N := Nat.iter 8 crc_shift i.

(** [Crc::<u8>::update] for one byte: [table[crc ^ byte]]. *)
Definition crc_byte (s : N) (b : byte) : N := crc_table (N.lxor s (b2n b)).

Definition crc_run (s : N) (l : bytes) : N := fold_left crc_byte l s.

(** [CRC8.checksum(bytes)] (src/core/crc.rs:16,32). *)
Definition crc8 (l : bytes) : N := N.lxor (crc_run 255 l) 255.

(** The check value of the CRC catalogue. *)
Example crc8_check :
  crc8 (map n2b [0x31;0x32;0x33;0x34;0x35;0x36;0x37;0x38;0x39]) = 0xDF.
Proof. reflexivity. Qed.

(** * Facts *)

(** The bits of a byte string, most significant first. *)
Definition bits8 (b : byte) : list bool :=
  map (fun i => N.testbit (b2n b) i) [7;6;5;4;3;2;1;0].
Definition bits (l : bytes) : list bool := concat (map bits8 l).

(** Feeding a single bit. *)
Definition crc_bit (s : N) (c : bool) : N :=
  if xorb (N.testbit s 7) c then N.lxor (N.land (N.shiftl s 1) 255) 0x2F else N.land (N.shiftl s 1) 255.

Definition crc_bits (s : N) (l : list bool) : N := fold_left crc_bit l s.

Definition all_n (k : nat) : list N := map N.of_nat (seq 0 k).

Lemma all_n_in k n : n < N.of_nat k -> In n (all_n k).
Proof.
  intros H. unfold all_n. apply in_map_iff. exists (N.to_nat n). split; [lia|].
  apply in_seq. lia.
Qed.

Lemma forall_n (k : nat) (f : N -> bool) :
  forallb f (all_n k) = true -> forall n, n < N.of_nat k -> f n = true.
Proof. intros H n Hn. rewrite forallb_forall in H. apply H, all_n_in, Hn. Qed.

Lemma land255_lt a : N.land a 255 < 256.
Proof.
  change 255 with (N.ones 8). rewrite N.land_ones. apply N.mod_lt. discriminate.
Qed.

Lemma lt256_land a : a < 256 <-> N.land a 255 = a.
Proof.
  split; intros H.
  - change 255 with (N.ones 8). rewrite N.land_ones. apply N.mod_small, H.
  - rewrite <- H. apply land255_lt.
Qed.

Lemma lxor_lt256 a b : a < 256 -> b < 256 -> N.lxor a b < 256.
Proof.
  intros Ha Hb. apply lt256_land in Ha. apply lt256_land in Hb. apply lt256_land.
  rewrite <- Ha, <- Hb at 2. apply N.bits_inj. intros k.
  rewrite !N.land_spec, !N.lxor_spec, !N.land_spec.
  destruct (N.testbit a k), (N.testbit b k), (N.testbit 255 k); reflexivity.
Qed.

Lemma crc_bit_lt s c : crc_bit s c < 256.
Proof.
  unfold crc_bit. destruct (xorb _ _); [apply lxor_lt256; [|reflexivity]|]; apply land255_lt.
Qed.

Lemma crc_bits_lt l : forall s, s < 256 -> crc_bits s l < 256.
Proof. induction l as [|c l IH]; intros s Hs; [exact Hs|]. apply IH, crc_bit_lt. Qed.

(** Linearity over xor. *)
Lemma crc_bit_alt s c :
  crc_bit s c = N.lxor (N.land (N.shiftl s 1) 255) (if xorb (N.testbit s 7) c then 0x2F else 0).
Proof. unfold crc_bit. destruct (xorb _ _); [reflexivity|]. rewrite N.lxor_0_r. reflexivity. Qed.

Lemma crc_bit_lin s t c d :
  crc_bit (N.lxor s t) (xorb c d) = N.lxor (crc_bit s c) (crc_bit t d).
Proof.
  rewrite !crc_bit_alt, N.lxor_spec.
  assert (E : N.land (N.shiftl (N.lxor s t) 1) 255 = N.lxor (N.land (N.shiftl s 1) 255) (N.land (N.shiftl t 1) 255)).
  { rewrite N.shiftl_lxor. apply N.bits_inj. intros k. rewrite ?N.land_spec, ?N.lxor_spec, ?N.land_spec.
    destruct (N.testbit (N.shiftl s 1) k), (N.testbit (N.shiftl t 1) k), (N.testbit 255 k); reflexivity. }
  rewrite E. set (x := N.land (N.shiftl s 1) 255). set (y := N.land (N.shiftl t 1) 255).
  destruct (N.testbit s 7), (N.testbit t 7), c, d; cbn [xorb]; rewrite ?N.lxor_0_r;
    apply N.bits_inj; intros k; rewrite ?N.lxor_spec;
    destruct (N.testbit x k), (N.testbit y k), (N.testbit 0x2F k); reflexivity.
Qed.

Fixpoint xors (l m : list bool) : list bool :=
  match l, m with a :: l', b :: m' => xorb a b :: xors l' m' | _, _ => [] end.

Lemma crc_bits_lin l : forall m s t, length l = length m ->
  crc_bits (N.lxor s t) (xors l m) = N.lxor (crc_bits s l) (crc_bits t m).
Proof.
  induction l as [|a l IH]; intros [|b m] s t HL; try discriminate; [reflexivity|].
  injection HL as HL. cbn [xors]. unfold crc_bits in *. cbn [fold_left].
  rewrite crc_bit_lin. apply IH, HL.
Qed.

Lemma crc_shift_bit s : crc_shift s = crc_bit s false.
Proof. unfold crc_shift, crc_bit. rewrite xorb_false_r. reflexivity. Qed.

Lemma crc_table_bits s : crc_table s = crc_bits s [false;false;false;false;false;false;false;false].
Proof. unfold crc_table, crc_bits. cbn [Nat.iter nat_rect fold_left]. rewrite !crc_shift_bit. reflexivity. Qed.

Lemma crc_byte_bits s b : crc_byte s b = crc_bits s (bits8 b).
Proof.
  unfold crc_byte.
  assert (G : forallb (fun n => crc_table n =? crc_bits 0 (bits8 (n2b n))) (all_n 256) = true)
    by (vm_compute; reflexivity).
  pose proof (forall_n 256 _ G (b2n b) (b2n_lt b)) as G1. cbv beta in G1.
  rewrite n2b_b2n in G1. apply N.eqb_eq in G1.
  transitivity (N.lxor (crc_table s) (crc_table (b2n b))).
  - rewrite !crc_table_bits. rewrite <- crc_bits_lin by reflexivity. reflexivity.
  - rewrite G1, crc_table_bits, <- crc_bits_lin by reflexivity. rewrite N.lxor_0_r.
    unfold bits8. cbn [map xors]. rewrite !xorb_false_l. reflexivity.
Qed.

Lemma crc_run_bits l : forall s, crc_run s l = crc_bits s (bits l).
Proof.
  induction l as [|b l IH]; intros s; [reflexivity|].
  unfold crc_run, bits. cbn [fold_left map concat]. unfold crc_bits. rewrite fold_left_app.
  change (fold_left crc_bit (bits8 b) s) with (crc_bits s (bits8 b)).
  rewrite crc_byte_bits. apply IH.
Qed.

Lemma crc_run_lt l s : s < 256 -> crc_run s l < 256.
Proof. intros Hs. rewrite crc_run_bits. apply crc_bits_lt, Hs. Qed.

Lemma crc8_lt l : crc8 l < 256.
Proof. apply lxor_lt256; [apply crc_run_lt|]; reflexivity. Qed.

(** A single bit step is injective in the register: here is its inverse. *)
Definition crc_unbit (t : N) (c : bool) : N :=
  let fb := N.testbit t 0 in
  N.lor (N.shiftr (if fb then N.lxor t 0x2F else t) 1) (if xorb fb c then 128 else 0).

Lemma crc_unbit_bit s c : s < 256 -> crc_unbit (crc_bit s c) c = s.
Proof.
  intros Hs.
  assert (G : forallb (fun s => (crc_unbit (crc_bit s true) true =? s) && (crc_unbit (crc_bit s false) false =? s)) (all_n 256) = true)
    by (vm_compute; reflexivity).
  pose proof (forall_n 256 _ G s Hs) as G1. cbv beta in G1.
  apply andb_true_iff in G1 as [A B]. apply N.eqb_eq in A. apply N.eqb_eq in B. destruct c; assumption.
Qed.

Lemma crc_bit_inj s t c : s < 256 -> t < 256 -> crc_bit s c = crc_bit t c -> s = t.
Proof.
  intros Hs Ht E. rewrite <- (crc_unbit_bit s c Hs), <- (crc_unbit_bit t c Ht), E. reflexivity.
Qed.

Lemma crc_bits_inj l : forall s t, s < 256 -> t < 256 -> crc_bits s l = crc_bits t l -> s = t.
Proof.
  induction l as [|c l IH]; intros s t Hs Ht E; [exact E|].
  apply (crc_bit_inj s t c Hs Ht), IH; [apply crc_bit_lt|apply crc_bit_lt|exact E].
Qed.

(** Appending the checksum drives the register to a constant: a string
    [p ++ [c]] passes the check exactly when the register ends there. *)
Lemma crc_check_iff p c : b2n c = crc8 p <-> crc_run 255 (p ++ [c]) = crc_table 255.
Proof.
  unfold crc8, crc_run. rewrite fold_left_app. cbn [fold_left]. fold (crc_run 255 p).
  pose proof (crc_run_lt p 255 eq_refl) as Hs. set (s := crc_run 255 p) in *. clearbody s.
  unfold crc_byte. pose proof (b2n_lt c) as Hc. split; intros E.
  - rewrite E, <- N.lxor_assoc, N.lxor_nilpotent, N.lxor_0_l. reflexivity.
  - rewrite !crc_table_bits in E. apply crc_bits_inj in E; [|apply lxor_lt256; assumption|reflexivity].
    rewrite <- E, <- N.lxor_assoc, N.lxor_nilpotent, N.lxor_0_l. reflexivity.
Qed.

Lemma xors_zero l : forall m, length l = length m -> forallb negb (xors l m) = true -> l = m.
Proof.
  induction l as [|a l IH]; intros [|b m] HL H; try discriminate; [reflexivity|].
  injection HL as HL. cbn in H. apply andb_true_iff in H as [H1 H2].
  rewrite (IH m HL H2). destruct a, b; cbn in H1; congruence.
Qed.

Lemma xors_length l : forall m, length l = length m -> length (xors l m) = length l.
Proof. induction l as [|a l IH]; intros [|b m] HL; try discriminate; [reflexivity|]. cbn. f_equal. apply IH. injection HL as HL. exact HL. Qed.

(** All bit strings of length [n]. *)
Fixpoint all_bits (n : nat) : list (list bool) :=
  match n with
  | O => [[]]
  | S n' => concat (map (fun l => [true :: l; false :: l]) (all_bits n'))
  end.

Lemma all_bits_in l : In l (all_bits (length l)).
Proof.
  induction l as [|a l IH]; cbn; [auto|].
  apply in_concat. exists [true :: l; false :: l]. split.
  - apply in_map_iff. exists l. auto.
  - destruct a; cbn; auto.
Qed.

(** A nonzero difference of at most 8 bits never cancels. *)
Lemma crc_window d : (length d <= 8)%nat -> crc_bits 0 d = 0 -> forallb negb d = true.
Proof.
  intros HL.
  assert (G : forallb (fun n => forallb (fun d => implb (crc_bits 0 d =? 0) (forallb negb d)) (all_bits n)) (seq 0 9) = true)
    by (vm_compute; reflexivity).
  rewrite forallb_forall in G. specialize (G (length d)). cbv beta in G.
  rewrite forallb_forall in G by (apply in_seq; lia).
  specialize (G ltac:(apply in_seq; lia)).
  specialize (G d (all_bits_in d)).
  intros E. apply N.eqb_eq in E. rewrite E in G. exact G.
Qed.

(** Two strings that differ in a burst of at most 8 bits end in different
    registers. *)
Lemma crc_burst p m m' s r :
  r < 256 -> length m = length m' -> (length m <= 8)%nat ->
  crc_bits r (p ++ m ++ s) = crc_bits r (p ++ m' ++ s) -> m = m'.
Proof.
  intros Hr HL H8 E. unfold crc_bits in E. rewrite !fold_left_app in E.
  pose proof (crc_bits_lt p r Hr) as Hq. unfold crc_bits in Hq.
  set (q := fold_left crc_bit p r) in *. clearbody q.
  pose proof (crc_bits_lt m q Hq) as H1. pose proof (crc_bits_lt m' q Hq) as H2.
  apply crc_bits_inj in E; [|exact H1|exact H2].
  assert (Z : crc_bits 0 (xors m m') = 0).
  { rewrite <- (N.lxor_nilpotent q) at 1. rewrite crc_bits_lin by assumption.
    unfold crc_bits. rewrite E. apply N.lxor_nilpotent. }
  apply xors_zero; [exact HL|]. apply crc_window; [rewrite xors_length; assumption|exact Z].
Qed.

Lemma bits_app a b : bits (a ++ b) = bits a ++ bits b.
Proof. unfold bits. rewrite map_app, concat_app. reflexivity. Qed.

Lemma bits8_inj a b : bits8 a = bits8 b -> a = b.
Proof.
  intros E.
  assert (G : forall b, b2n b = fold_left (fun acc (c : bool) => 2 * acc + (if c then 1 else 0)) (bits8 b) 0).
  { intros c. assert (K : forallb (fun n => n =? fold_left (fun acc (c : bool) => 2 * acc + (if c then 1 else 0)) (bits8 (n2b n)) 0) (all_n 256) = true)
      by (vm_compute; reflexivity).
    pose proof (forall_n 256 _ K (b2n c) (b2n_lt c)) as K1. cbv beta in K1. rewrite n2b_b2n in K1. apply N.eqb_eq, K1. }
  apply b2n_inj. rewrite (G a), (G b), E. reflexivity.
Qed.
