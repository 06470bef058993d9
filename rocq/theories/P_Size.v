(** The standing assumptions without the model's own functions.

    Most theorems speak of an [ordinary] trace (Hyps.v), whose calls satisfy
    [put_ok], [get_ok] and [call_ok]; these mention the encoding of the model
    ([buffer_new], [record_size], [type_token], [feature_key]).  Here the same
    assumptions are spelled out with numbers and types only, and it is proved
    that they imply the ones of Hyps.v: [C10_explicit_is_ordinary].  The
    explicit forms of C02, C05 and C10 follow. *)
From Verif Require Import Bytes Utf8 Proto ProtoFacts Value Codec Store StoreFacts Encrypt World Spec Hyps Refine WorldInv WorldStep Main Frames Reach Examples P_Map.
From Coq Require Import ZifyBool ZifyNat ZifyN.
From Coq Require String. Import (notations) String.
Local Open Scope N_scope.

(** * The specification *)

(** The number of bytes a value takes: one for a boolean, four or eight for a
    number and for every element of an array, the length of texts and byte
    strings. *)
Definition payload (v : value) : N :=
  match v with
  | VBool _ => 1
  | VI32 _ | VF32 _ => 4
  | VI64 _ | VF64 _ => 8
  | VStr s | VBytes s | VUser _ s => N.of_nat (length s)
  | VI32s l => 4 * N.of_nat (length l)
  | VI64s l => 8 * N.of_nat (length l)
  | VF32s l => 4 * N.of_nat (length l)
  | VF64s l => 8 * N.of_nat (length l)
  end.

(** Numbers 0 to 100 are reserved for the library's own types. *)
Definition free_type (t : ty) : Prop :=
  match t with TUser tok => (tok < 0 \/ 100 < tok)%Z | _ => True end.

(** Key and value take at most a page minus 35 bytes. *)
Definition small (P : plat) (key : bytes) (v : value) : Prop :=
  N.of_nat (length key) + payload v + 35 <= page P.

(** 32 hexadecimal digits. *)
Definition is_hex (b : byte) : Prop :=
  (48 <= b2n b <= 57) \/ (97 <= b2n b <= 102) \/ (65 <= b2n b <= 70).
Definition hex_key (key : bytes) : Prop := length key = 32%nat /\ Forall is_hex key.

Definition explicit_call (E : env) (keyof : bytes -> bytes) (e : event) : Prop :=
  match e with
  | ENew _ path key => e_dir_ok E path = true /\ key = keyof (e_canon E path) /\ hex_key key
  | EPut _ key v => utf8_valid key = true /\ value_ok v = true /\ free_type (type_of v) /\ small (e_plat E) key v
  | EGet _ _ t => free_type t
  | EDelete _ _ | EClear _ | EDrop _ | EIo _ => True
  | _ => False
  end.

(** * Sizes *)

Lemma varint_aux_len fuel : forall n k, n < 128 ^ N.of_nat k -> (1 <= k)%nat -> (k <= fuel)%nat -> len (varint_aux fuel n) <= N.of_nat k.
Proof.
  induction fuel as [|f IH]; intros n k Hn H1 Hk; [lia|]. cbn [varint_aux].
  destruct (N.ltb_spec n 128) as [H|H]; [unfold len; cbn [length]; lia|].
  destruct k as [|k]; [lia|]. destruct k as [|k].
  { change (128 ^ N.of_nat 1) with 128 in Hn. lia. }
  assert (Hd : n / 128 < 128 ^ N.of_nat (S k)).
  { apply N.div_lt_upper_bound; [lia|]. rewrite <- N.pow_succ_r' . 
    replace (N.succ (N.of_nat (S k))) with (N.of_nat (S (S k))) by lia. exact Hn. }
  pose proof (IH (n / 128) (S k) Hd ltac:(lia) ltac:(lia)) as Hl.
  unfold len in *. cbn [length]. lia.
Qed.

Lemma varint_len5 n : n < 2 ^ 32 -> len (varint n) <= 5.
Proof. intros H. apply (varint_aux_len 10 n 5); [|lia|lia]. change (128 ^ N.of_nat 5) with (2 ^ 35). lia. Qed.

Lemma varint_aux_len_fuel fuel : forall n, len (varint_aux fuel n) <= N.of_nat fuel.
Proof.
  induction fuel as [|f IH]; intros n; cbn [varint_aux]; [unfold len; cbn; lia|].
  destruct (n <? 128); unfold len in *; cbn [length]; [lia|]. specialize (IH (n / 128)). lia.
Qed.

Lemma encode_kv_len_upper m :
  len (kv_key m) < 2 ^ 32 -> len (kv_value m) < 2 ^ 32 ->
  len (encode_kv m) <= len (kv_key m) + len (kv_value m) + 23.
Proof.
  intros Hk Hv. pose proof (varint_len5 _ Hk) as H1. pose proof (varint_len5 _ Hv) as H2.
  pose proof (varint_aux_len_fuel 10 (z2u 8 (kv_type m))) as H3. fold (varint (z2u 8 (kv_type m))) in H3.
  unfold encode_kv. rewrite !len_app.
  assert (A : len (match kv_key m with [] => [] | _ => n2b 10 :: varint (len (kv_key m)) ++ kv_key m end) <= 6 + len (kv_key m)).
  { destruct (kv_key m) as [|b r] eqn:Ek; [unfold len; cbn; lia|]. rewrite <- Ek in *.
    rewrite len_cons, len_app. lia. }
  assert (B : len (if Z.eqb (kv_type m) 0 then [] else n2b 16 :: varint (z2u 8 (kv_type m))) <= 11).
  { destruct (Z.eqb _ _); [unfold len; cbn; lia|]. rewrite len_cons. lia. }
  assert (C : len (match kv_value m with [] => [] | _ => n2b 26 :: varint (len (kv_value m)) ++ kv_value m end) <= 6 + len (kv_value m)).
  { destruct (kv_value m) as [|b r] eqn:Ek; [unfold len; cbn; lia|]. rewrite <- Ek in *.
    rewrite len_cons, len_app. lia. }
  lia.
Qed.

Lemma concat_be_len {A} (w : nat) (f : A -> N) l : len (concat (map (fun z => be w (f z)) l)) = N.of_nat w * N.of_nat (length l).
Proof.
  induction l as [|a r IH]; cbn [map concat length]; [unfold len; cbn; lia|].
  rewrite len_app, IH, len_be. lia.
Qed.

Lemma payload_len v : len (to_bytes v) = payload v.
Proof.
  destruct v; cbn [to_bytes payload]; try reflexivity; try (rewrite len_be; reflexivity).
  - rewrite concat_be_len. reflexivity.
  - rewrite concat_be_len. reflexivity.
  - rewrite (concat_be_len 4 (fun z => z)). reflexivity.
  - rewrite (concat_be_len 8 (fun z => z)). reflexivity.
Qed.

Lemma free_type_token t : free_type t <-> get_ok t.
Proof.
  unfold get_ok. destruct t; cbn [free_type type_token];
    try (split; intros _; [eexists; reflexivity|exact I]).
  unfold type_token_new, reserved. split.
  - intros H. exists tok. destruct (Z.leb_spec 0 tok), (Z.leb_spec tok 100); cbn [andb]; try reflexivity; lia.
  - intros [k Hk]. destruct (Z.leb_spec 0 tok), (Z.leb_spec tok 100); cbn [andb] in Hk; try discriminate; lia.
Qed.

(** C10: what may be put, in numbers: a key and value of together at most a
    page minus 35 bytes always fit... *)
Theorem C10_explicit_put E key v :
  env_ok E -> utf8_valid key = true -> value_ok v = true -> free_type (type_of v) -> small (e_plat E) key v ->
  put_ok E key v.
Proof.
  intros HE Hu Hv Ht Hs. split; [exact Hu|]. split; [exact Hv|].
  apply free_type_token in Ht. destruct Ht as [tok Ht]. exists (KV key tok (to_bytes v)).
  unfold buffer_new. rewrite Ht. split; [reflexivity|].
  pose proof (po_page _ (eo_plat _ HE)) as Hp. unfold small in Hs. fold (len key) in Hs. rewrite <- payload_len in Hs.
  pose proof (encode_kv_len_upper (KV key tok (to_bytes v))) as Hl. cbn [kv_key kv_value] in Hl.
  unfold record_size. destruct (e_feat E); unfold crc_size, aes_size; lia.
Qed.

(** ... and what fits leaves at least five bytes of a page. *)
Theorem C10_explicit_put_converse E key v :
  put_ok E key v ->
  utf8_valid key = true /\ value_ok v = true /\ free_type (type_of v) /\
  N.of_nat (length key) + payload v + 5 <= page (e_plat E).
Proof.
  intros (Hu & Hv & m & Hb & Hs). split; [exact Hu|]. split; [exact Hv|].
  unfold buffer_new in Hb. destruct (type_token (type_of v)) as [t| |] eqn:Et; [|discriminate|discriminate].
  injection Hb as <-. split; [apply free_type_token; eexists; exact Et|].
  pose proof (encode_kv_len (KV key t (to_bytes v))) as Hl. cbn [kv_key kv_value] in Hl.
  rewrite payload_len in Hl. fold (len key).
  unfold record_size in Hs. destruct (e_feat E); unfold crc_size, aes_size in Hs; lia.
Qed.

(** 32 hexadecimal digits are a key of either build. *)
Lemma hex_digit_ok b : is_hex b -> exists n, hex_digit b = Some n.
Proof.
  unfold is_hex, hex_digit. cbv zeta. intros H.
  destruct ((48 <=? b2n b) && (b2n b <=? 57)) eqn:E1; [eauto|].
  destruct ((97 <=? b2n b) && (b2n b <=? 102)) eqn:E2; [eauto|].
  destruct ((65 <=? b2n b) && (b2n b <=? 70)) eqn:E3; [eauto|]. lia.
Qed.

Lemma hex_decode_ok n : forall l, length l = (2 * n)%nat -> Forall is_hex l -> exists k, hex_decode l = Some k /\ length k = n.
Proof.
  induction n as [|n IH]; intros l Hl HF.
  - destruct l; [|discriminate]. exists []. split; reflexivity.
  - destruct l as [|a [|b r]]; try (cbn in Hl; lia).
    inversion HF as [|? ? Ha HF']; subst. inversion HF' as [|? ? Hb HF'']; subst.
    destruct (hex_digit_ok a Ha) as [x Hx]. destruct (hex_digit_ok b Hb) as [y Hy].
    destruct (IH r) as (k & Hk & Hkl); [cbn in Hl; lia|exact HF''|].
    exists (n2b (16 * x + y) :: k). cbn [hex_decode]. rewrite Hx, Hy, Hk. split; [reflexivity|cbn; lia].
Qed.

Lemma hex_key_ok F key : hex_key key -> feature_key F key <> None.
Proof.
  intros [Hl HF]. destruct F; cbn [feature_key]; [discriminate|].
  destruct (hex_decode_ok 16 key Hl HF) as (k & Hk & Hkl). unfold parse_key. rewrite Hk, Hkl. discriminate.
Qed.

(** * Explicit traces are ordinary *)

Record explicit (E : env) (keyof : bytes -> bytes) (es : list event) : Prop := {
  ex_env_sane : env_ok E;
  ex_calls : Forall (explicit_call E keyof) es;
  ex_paths : one_spelling E es;
  ex_room : room E (writes es)
}.

Theorem C10_explicit_is_ordinary E keyof es : explicit E keyof es -> ordinary E keyof es.
Proof.
  intros [HE HC HP HR]. split; [exact HE| |exact HP|exact HR].
  eapply Forall_impl; [exact HC|]. intros e He. destruct e; cbn [explicit_call call_ok] in *; try exact He; try tauto.
  - destruct He as (A & B & C). split_and!; [exact A|exact B|apply hex_key_ok, C].
  - destruct He as (A & B & C & D). apply C10_explicit_put; assumption.
  - apply free_type_token, He.
Qed.

(** C02 for histories described without any function of the model. *)
Theorem C02_explicit_histories E keyof es :
  explicit E keyof es ->
  option_map snd (run E world0 es) = option_map snd (spec_run (e_canon E) spec0 es).
Proof. intros H. apply (C02_store_is_a_finite_map E keyof), C10_explicit_is_ordinary, H. Qed.

(** * A concrete case: pages of 4 KiB, two directories, eight kinds of values *)

Definition ex_page_env (F : feature) : env :=
  Env (Plat 8 4096 (2 ^ 62) (hord ex_plat)) F ex_dir_ok (fun p => p) ex_rng.
Definition ex_page_trace : list event :=
  [ENew 0 dir_d ex_key; EPut 0 k1 (VI32 5); EPut 0 k2 (VStr (repeat x41 4000)); EIo 0; EPut 0 k2 (VF64s [1; 2; 3]);
   ENew 1 dir_e ex_key; EPut 1 [] (VBytes []); EIo 1; EGet 0 k2 TF64s; EDelete 0 k1; EGet 0 k1 TI32; EIo 0; EIo 0;
   EPut 1 k1 (VUser (-7) [x01]); EGet 1 k1 (TUser (-7)); EDrop 0; EClear 1; ENew 2 dir_d ex_key; EGet 2 k2 TF64s; EGet 2 k2 TF32s].

Lemma ex_page_explicit F : feature_ok F -> explicit (ex_page_env F) ex_keyof ex_page_trace.
Proof.
  intros HF. split.
  - split; [|exact HF|].
    + destruct ex_plat_ok as [A B C D]. split; [reflexivity|split; [discriminate|reflexivity]|reflexivity|exact D].
    + intros i. apply be_length.
  - assert (HK : hex_key ex_key).
    { split; [reflexivity|]. unfold ex_key. repeat (constructor; [unfold is_hex; vm_compute; intuition discriminate|]). constructor. }
    unfold ex_page_trace. repeat (apply List.Forall_cons; [cbn [explicit_call]; first [exact I | split_and!; [reflexivity|reflexivity|exact HK] | split_and!; [reflexivity|reflexivity|cbn; first [exact I|lia]|vm_compute; discriminate] | cbn; first [exact I|lia]]|]). constructor.
  - intros p p' _ _ H. exact H.
  - split; [vm_compute; discriminate|]. cbn [ex_page_env e_feat]. destruct F; [exact I|reflexivity].
Qed.

Theorem C02_explicit_histories_example F :
  feature_ok F ->
  explicit (ex_page_env F) ex_keyof ex_page_trace /\
  option_map snd (run (ex_page_env F) world0 ex_page_trace) =
  Some [ROk None; ROk None; ROk None; ROk None; ROk None; ROk None; ROk None; ROk None; ROk (Some (VF64s [1; 2; 3])); ROk None;
        RErr KeyNotFound; ROk None; ROk None; ROk None; ROk (Some (VUser (-7) [x01])); ROk None; ROk None; ROk None;
        ROk (Some (VF64s [1; 2; 3])); RErr TypeMissMatch].
Proof.
  intros HF. split; [apply ex_page_explicit, HF|].
  rewrite (C02_explicit_histories _ ex_keyof) by (apply ex_page_explicit, HF). vm_compute. reflexivity.
Qed.
