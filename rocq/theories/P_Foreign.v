(** C71: reading values the library did not write.  Files can hold records
    with a correct checksum whose value does not fit their type: written by
    another program, or damaged in a way the 8-bit checksum does not see. *)
From Verif Require Import Bytes Utf8 Proto ProtoFacts Crc8 Value Codec Store StoreFacts Encrypt World Spec Hyps Refine WorldInv WorldStep Main Frames Reach Examples P_Map P_Store Slots Damaged Crash P_Corrupt.
From Coq Require Import ZifyBool ZifyNat ZifyN.
From Coq Require String. Import (notations) String.
Local Open Scope N_scope.

(** A type whose token may be used. *)
Definition usable (t : ty) : Prop := match t with TUser tok => (tok < 0 \/ 100 < tok)%Z | _ => True end.

(** The stored record has type [t] and too few bytes for it. *)
Definition too_short (t : ty) (m : kv) : Prop :=
  match t with
  | TI32 => kv_type m = 0%Z /\ len (kv_value m) < 4
  | TF32 => kv_type m = 4%Z /\ len (kv_value m) < 4
  | TI64 => kv_type m = 3%Z /\ len (kv_value m) < 8
  | TF64 => kv_type m = 5%Z /\ len (kv_value m) < 8
  | TBool => kv_type m = 2%Z /\ kv_value m = []
  | _ => False
  end.

Lemma number_panics w b : number w b = RPanic <-> len b < N.of_nat w.
Proof.
  unfold number, slice. cbn [N.leb]. destruct (N.of_nat w <=? len b) eqn:C; rewrite ?andb_true_r, ?andb_false_r.
  - destruct (0 <=? N.of_nat w) eqn:D; [|lia]. cbn [andb]. split; [discriminate|lia].
  - split; [lia|reflexivity].
Qed.

Lemma res_map_panic {A B} (f : A -> B) (r : res err A) : res_map f r = RPanic <-> r = RPanic.
Proof. destruct r; split; cbn; congruence. Qed.

Lemma numbers_fine {B} (f : list N -> B) w b : res_map f (numbers w b) <> RPanic.
Proof. unfold numbers. destruct (_ =? 0); discriminate. Qed.

Lemma parse_panics m t : usable t -> (buffer_parse m t = RPanic <-> too_short t m).
Proof.
  intros U. unfold buffer_parse. destruct t as [| | | | | | | | | | |tok]; cbn [type_token];
    try (unfold type_token_new, reserved; cbn in U; replace (0 <=? tok)%Z with (0 <=? tok)%Z by reflexivity;
         destruct ((0 <=? tok)%Z && (tok <=? 100)%Z) eqn:R; [exfalso; lia|]);
    (destruct (is_deleting m) eqn:D; [split; [discriminate|]; unfold is_deleting, deleted_token in D; cbn [too_short]; intros S; first [contradiction S|exfalso; lia]|]);
    (destruct (Z.eqb _ (kv_type m)) eqn:T; [|split; [discriminate|]; cbn [too_short]; intros S; first [contradiction S|exfalso; lia]]);
    apply Z.eqb_eq in T; cbn [from_bytes too_short].
  all: try (rewrite res_map_panic, number_panics; cbn; split; [intros; split; [symmetry; exact T|assumption]|tauto]).
  all: try (split; [intros S; destruct (numbers_fine _ _ _ S)|contradiction]).
  all: try (split; [discriminate|contradiction]).
  - destruct (utf8_valid _); split; discriminate || contradiction.
  - destruct (kv_value m); split; try discriminate; auto. intros [_ S]. discriminate S.
Qed.

(** The wished-for property: whatever bytes the data file holds, once it has
    been opened a get returns a value or an error. *)
Definition get_never_crashes (E : env) : Prop :=
  forall keyof es w rs0 d f f' h p w1 k t w2 r,
  ordinary E keyof es -> run E world0 es = Some (w, rs0) -> file_at w d = Some f -> In p (paths es) -> e_canon E p = d ->
  step E (tampered w d f') (ENew h p (keyof d)) = Some (w1, ROk None) -> usable t ->
  step E w1 (EGet h k t) = Some (w2, r) -> r <> RPanic.

(** It is false: a record that says "32-bit integer" and holds two bytes. *)
Definition ex_short : kv := KV k1 0 [x01; x02].
Definition ex_short_file : bytes := be 8 (len (ex_rec ex_short)) ++ ex_rec ex_short ++ zeros (64 - 8 - len (ex_rec ex_short)).

Theorem C71_get_never_crashes_refuted : ~ get_never_crashes (ex_env FPlain).
Proof.
  intros H. pose proof (ex_two_ordinary FPlain (or_introl eq_refl)) as HO.
  assert (T : match run (ex_env FPlain) world0 ex_two with
    | Some (w, _) => match file_at w dir_d with
       | Some f => match step (ex_env FPlain) (tampered w dir_d ex_short_file) (ENew 9 dir_d ex_key) with
          | Some (w1, ROk None) => match step (ex_env FPlain) w1 (EGet 9 k1 TI32) with Some (_, RPanic) => true | _ => false end
          | _ => false end
       | None => false end
    | None => false end = true) by (vm_compute; reflexivity).
  destruct (run (ex_env FPlain) world0 ex_two) as [[w rs]|] eqn:Hr; [|discriminate T].
  destruct (file_at w dir_d) as [f|] eqn:Hf; [|discriminate T].
  destruct (step (ex_env FPlain) (tampered w dir_d ex_short_file) (ENew 9 dir_d ex_key)) as [[w1 [[|]| |]]|] eqn:H1; try discriminate T.
  destruct (step (ex_env FPlain) w1 (EGet 9 k1 TI32)) as [[w2 [| |]]|] eqn:H2; try discriminate T.
  refine (H ex_keyof ex_two w rs dir_d f ex_short_file 9 dir_d w1 k1 TI32 w2 RPanic HO Hr Hf _ _ H1 Logic.I H2 eq_refl).
  - left. reflexivity.
  - vm_compute. reflexivity.
Qed.

(** What holds.  In any state a store can be in, reading a string, a byte
    array, an array of numbers or a user type never panics; *)
Theorem C71_these_types_never_crash_partial E w h hd x k t w' r :
  w_handles w !! h = Some hd -> w_insts w !! h_inst hd = Some x ->
  match t with TI32 | TI64 | TF32 | TF64 | TBool => False | _ => usable t end ->
  step E w (EGet h k t) = Some (w', r) -> r <> RPanic.
Proof.
  intros Hh Hx Ht. cbn [step]. unfold with_handle. rewrite Hh. destruct (h_unreg hd); [discriminate|]. unfold on_inst. rewrite Hx. intros [= _ <-].
  unfold inst_get. destruct (i_poison x); [discriminate|]. destruct (i_valid x); [|discriminate]. destruct (i_map x !! k) as [m|]; [|discriminate].
  intros Hp. apply res_map_panic in Hp. apply parse_panics in Hp; [destruct t; contradiction|destruct t; try contradiction; try exact Logic.I; exact Ht].
Qed.

(** a number or a boolean panics exactly when the newest record of that key
    that passes its checksum (or tag) has that type and too few bytes; and no
    get, panicking or not, changes anything. *)
Theorem C71_exactly_short_values_crash_partial E keyof es w rs0 d f f' h p nonce bodies k t :
  ordinary E keyof es -> run E world0 es = Some (w, rs0) -> file_at w d = Some f -> In p (paths es) -> e_canon E p = d ->
  f' <> [] -> len f' < 2 ^ 32 ->
  match e_feat E with FPlain => True | FEncrypted _ => meta_at w d = Some nonce end ->
  readable (e_feat E) f' bodies -> usable t ->
  exists w1 r, step E (tampered w d f') (ENew h p (keyof d)) = Some (w1, ROk None) /\ step E w1 (EGet h k t) = Some (w1, r) /\
    (r = RPanic <-> exists m, says (e_feat E) (kof E keyof d) nonce 0 bodies ∅ !! k = Some m /\ too_short t m).
Proof.
  intros HO Hr Hf Hp Hc Hne Hl Hn Hb Ht.
  destruct (C14_which_files_open_partial E keyof es w rs0 d f f' h p nonce HO Hr Hf Hp Hc Hne Hl Hn) as [A _].
  destruct (A bodies Hb) as (w1 & H1 & H2). exists w1, (get_answer (says (e_feat E) (kof E keyof d) nonce 0 bodies ∅) k t). split; [exact H1|]. split; [apply H2|].
  unfold get_answer. destruct (says _ _ _ _ _ _ !! k) as [m|]; [|split; [discriminate|intros (m & X & _); discriminate X]].
  split.
  - intros X. apply res_map_panic, parse_panics in X; [eauto|exact Ht].
  - intros (m' & [= <-] & X). apply res_map_panic, parse_panics; assumption.
Qed.

(** The refuting file is an instance: one readable body, and its record is too
    short for a 32-bit integer. *)
Example C71_example :
  readable FPlain ex_short_file [ex_body ex_short] /\ usable TI32 /\
  match says FPlain [] [] 0 [ex_body ex_short] ∅ !! k1 with Some m => too_short TI32 m | None => False end.
Proof.
  split_and!; [|exact Logic.I|vm_compute; split; reflexivity].
  split; [vm_compute; discriminate|]. right. split_and!; [vm_compute; discriminate|vm_compute; reflexivity|].
  repeat constructor; vm_compute; discriminate.
Qed.
