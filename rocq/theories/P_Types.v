(** C31 and C46: type tokens and strings. *)
From Verif Require Import Bytes Utf8 Proto ProtoFacts Value Codec Store StoreFacts Encrypt World Spec Hyps Refine WorldInv WorldStep Main Frames Reach Examples P_Map.
From Coq Require Import ZifyBool ZifyNat ZifyN.
Local Open Scope N_scope.

(** ** C31 *)

(** The built-in types. *)
Definition built_in : list ty := [TI32; TStr; TBool; TI64; TF32; TF64; TBytes; TI32s; TI64s; TF32s; TF64s].

(** Built-in types have pairwise distinct tokens in 0..=100, none of them the
    deletion marker. *)
Theorem C31_built_in_tokens t t' :
  In t built_in -> In t' built_in ->
  exists k k', type_token t = ROk k /\ type_token t' = ROk k' /\ (0 <= k <= 100)%Z /\ k <> deleted_token /\ (k = k' -> t = t').
Proof.
  intros H H'. cbn in H, H'.
  assert (G : forall u, In u built_in -> exists k, type_token u = ROk k /\ (0 <= k <= 10)%Z).
  { intros u Hu. cbn in Hu. repeat destruct Hu as [<-|Hu]; try contradiction; cbn; eexists; split; try reflexivity; lia. }
  destruct (G t H) as (k & E1 & L1), (G t' H') as (k' & E2 & L2). exists k, k'. split_and!; auto; try lia.
  - unfold deleted_token. lia.
  - intros <-. eapply type_token_inj; eassumption.
Qed.

(** A put of a user-defined type with a token in 0..=100 never succeeds: it
    panics (or meets a lock poisoned before), nothing is stored, queued or
    written, in any state of the library whatever. *)
Theorem C31_reserved_put_never_succeeds E w h key tok s w' r :
  (0 <= tok <= 100)%Z -> step E w (EPut h key (VUser tok s)) = Some (w', r) ->
  (r = RPanic \/ r = RErr LockError) /\
  w_dirs w' = w_dirs w /\ w_inodes w' = w_inodes w /\
  (forall i x', w_insts w' !! i = Some x' -> exists x, w_insts w !! i = Some x /\ i_map x' = i_map x /\ i_queue x' = i_queue x).
Proof.
  intros Ht. cbn [step]. unfold with_handle. destruct (w_handles w !! h) as [hd|]; [|discriminate].
  destruct (h_unreg hd); [discriminate|]. unfold on_inst.
  destruct (w_insts w !! h_inst hd) as [x|] eqn:Hx; cycle 1.
  { intros [= <- <-]. split_and!; auto. eauto. }
  unfold inst_put, buffer_new. cbn [type_of type_token]. unfold type_token_new, reserved.
  destruct (Z.leb_spec 0 tok); [|lia]. destruct (Z.leb_spec tok 100); [|lia]. cbn [andb res_map].
  assert (G : forall y i x', i_map y = i_map x -> i_queue y = i_queue x ->
    <[h_inst hd := y]> (w_insts w) !! i = Some x' ->
    exists x0, w_insts w !! i = Some x0 /\ i_map x' = i_map x0 /\ i_queue x' = i_queue x0).
  { intros y i x' M Q. destruct (decide (i = h_inst hd)) as [->|Hne].
    - rewrite lookup_insert. intros [= <-]. eauto.
    - rewrite lookup_insert_ne by congruence. eauto. }
  destruct (i_poison x) eqn:Hp; intros [= <- <-]; (split_and!; [auto|reflexivity|reflexivity|]); cbn [set_inst set_insts w_insts];
    intros i x'; (apply G; reflexivity).
Qed.

(** Asking for such a type never yields a value either. *)
Theorem C31_reserved_get_never_succeeds E w h key tok w' r v :
  (0 <= tok <= 100)%Z -> step E w (EGet h key (TUser tok)) = Some (w', r) -> r <> ROk v.
Proof.
  intros Ht. cbn [step]. unfold with_handle. destruct (w_handles w !! h) as [hd|]; [|discriminate].
  destruct (h_unreg hd); [discriminate|]. unfold on_inst.
  destruct (w_insts w !! h_inst hd) as [x|] eqn:Hx; [|congruence].
  unfold inst_get, buffer_parse. cbn [type_token]. unfold type_token_new, reserved.
  destruct (Z.leb_spec 0 tok); [|lia]. destruct (Z.leb_spec tok 100); [|lia]. cbn [andb].
  destruct (i_poison x); [congruence|]. destruct (i_valid x); [|congruence].
  destruct (i_map x !! key); cbn; congruence.
Qed.

(** Every other i32 is accepted: what is put under it comes back under it and
    under no other type. *)
Theorem C31_other_tokens_work E keyof es h key tok s t w rs :
  (- 2 ^ 31 <= tok < 2 ^ 31)%Z -> ~ (0 <= tok <= 100)%Z ->
  utf8_valid key = true -> record_size (e_feat E) (KV key tok s) <= page (e_plat E) ->
  get_ok t -> room E (writes es + 1) -> ordinary E keyof es ->
  run E world0 (es ++ [EPut h key (VUser tok s); EGet h key t]) = Some (w, rs) ->
  last rs = Some (if decide (t = TUser tok) then ROk (Some (VUser tok s)) else RErr TypeMissMatch).
Proof.
  intros Hr Hn Hk Hsz Ht Hroom [A B C D] Hrun.
  assert (HO : ordinary E keyof (es ++ [EPut h key (VUser tok s); EGet h key t])).
  { split; [exact A| | |].
    - apply Forall_app. split; [exact B|]. apply Forall_cons. split; [|apply Forall_cons; split; [exact Ht|constructor]]. split; [exact Hk|]. split.
      + cbn. unfold in_signed. change (2 ^ (8 * Z.of_nat 4 - 1))%Z with (2 ^ 31)%Z. clear -Hr. lia.
      + exists (KV key tok s). split; [|exact Hsz]. unfold buffer_new. cbn [type_of type_token to_bytes].
        unfold type_token_new, reserved. destruct (Z.leb_spec 0 tok), (Z.leb_spec tok 100); cbn; try reflexivity. lia.
    - intros p p' Hp Hp'. rewrite paths_app in Hp, Hp'. cbn in Hp, Hp'. rewrite app_nil_r in Hp, Hp'. apply C; assumption.
    - replace (writes (es ++ [EPut h key (VUser tok s); EGet h key t])) with (writes es + 1); [exact Hroom|].
      rewrite writes_app. reflexivity. }
  destruct (decide (t = TUser tok)) as [->|Hne].
  - exact (C01_put_get_round_trip E keyof es h key (VUser tok s) w rs HO Hrun).
  - exact (C03_wrong_type E keyof es h key (VUser tok s) t w rs HO Hne Hrun).
Qed.

(** The token is what is stored: the record of a put carries exactly the
    user's number, and decoding the record gives it back. *)
Theorem C31_token_is_preserved key tok s :
  (- 2 ^ 31 <= tok < 2 ^ 31)%Z -> ~ (0 <= tok <= 100)%Z -> utf8_valid key = true -> len key < 2 ^ 32 -> len s < 2 ^ 32 ->
  buffer_new key (VUser tok s) = ROk (KV key tok s) /\ parse_kv (encode_kv (KV key tok s)) = Some (KV key tok s).
Proof.
  intros Hr Hn Hk L1 L2. split.
  - unfold buffer_new. cbn [type_of type_token to_bytes]. unfold type_token_new, reserved.
    destruct (Z.leb_spec 0 tok), (Z.leb_spec tok 100); cbn; try reflexivity. lia.
  - apply parse_encode, kv_ok_spec. split_and!; try assumption. cbn [kv_type]. unfold in_signed.
    change (2 ^ (8 * Z.of_nat 4 - 1))%Z with (2 ^ 31)%Z. clear -Hr. lia.
Qed.

Definition user_trace : list event := [ENew 0 dir_d ex_key; EPut 0 k1 (VI32 1)].

Example C31_example :
  ordinary (ex_env FPlain) ex_keyof user_trace /\ room (ex_env FPlain) (writes user_trace + 1) /\
  results (ex_env FPlain) (user_trace ++ [EPut 0 k2 (VUser (-7) [x01; x02]); EGet 0 k2 (TUser (-7))])
  = Some [ROk None; ROk None; ROk None; ROk (Some (VUser (-7) [x01; x02]))] /\
  results (ex_env FPlain) (user_trace ++ [EPut 0 k2 (VUser 101 []); EGet 0 k2 TI32])
  = Some [ROk None; ROk None; ROk None; RErr TypeMissMatch] /\
  results (ex_env FPlain) (user_trace ++ [EPut 0 k2 (VUser 100 []); EGet 0 k1 TI32])
  = Some [ROk None; ROk None; RPanic; RErr LockError] /\
  results (ex_env FPlain) (user_trace ++ [EGet 0 k1 (TUser 0)]) = Some [ROk None; ROk None; RPanic].
Proof.
  split; [apply ordinaryb_ok; [apply ex_env_ok; exact Logic.I|vm_compute; reflexivity]|].
  split; [apply roomb_ok; vm_compute; reflexivity|]. split_and!; vm_compute; reflexivity.
Qed.

(** ** C46 *)

(** Every sequence of Unicode scalar values (0..=0x10FFFF without the
    surrogates) is stored and returned unchanged. *)
Theorem C46_unicode_round_trip E keyof es h key cs w rs :
  Forall (fun c => c <= 0x10FFFF /\ ~ (0xD800 <= c <= 0xDFFF)) cs ->
  utf8_valid key = true -> record_size (e_feat E) (KV key 1 (utf8_encode cs)) <= page (e_plat E) ->
  room E (writes es + 1) -> ordinary E keyof es ->
  run E world0 (es ++ [EPut h key (VStr (utf8_encode cs)); EGet h key TStr]) = Some (w, rs) ->
  last rs = Some (ROk (Some (VStr (utf8_encode cs)))).
Proof.
  intros Hcs Hk Hsz Hroom [A B C D] Hrun.
  refine (C01_put_get_round_trip E keyof es h key (VStr (utf8_encode cs)) w rs _ Hrun).
  split; [exact A| | |].
  - apply Forall_app. split; [exact B|].
    apply Forall_cons. split; [|apply Forall_cons; split; [exists 1%Z; reflexivity|constructor]]. split_and!.
    + exact Hk.
    + cbn. apply utf8_valid_encode. rewrite forallb_forall. intros c Hc. rewrite List.Forall_forall in Hcs.
      specialize (Hcs c Hc). unfold is_scalar. clear -Hcs. lia.
    + exists (KV key 1 (utf8_encode cs)). split; [reflexivity|exact Hsz].
  - intros p p' Hp Hp'. rewrite paths_app in Hp, Hp'. cbn in Hp, Hp'. rewrite app_nil_r in Hp, Hp'. apply C; assumption.
  - rewrite writes_app. exact Hroom.
Qed.

(** Distinct sequences have distinct encodings, so "unchanged" is about the
    characters, not only about the bytes. *)
Lemma n2b_inj a b : a < 256 -> b < 256 -> n2b a = n2b b -> a = b.
Proof. intros A B H. apply (f_equal b2n) in H. rewrite !b2n_n2b, !N.mod_small in H by assumption. exact H. Qed.

Ltac Zify.zify_post_hook ::= idtac.
Lemma enc1_inj c c' r r' : c <= 0x10FFFF -> c' <= 0x10FFFF -> utf8_enc1 c ++ r = utf8_enc1 c' ++ r' -> c = c' /\ r = r'.
Proof.
  intros L L' H.
  assert (B : forall x, 0x80 + x mod 64 < 256) by (intros x; pose proof (N.mod_lt x 64); lia).
  assert (D : forall x y, x / 64 = y / 64 -> 0x80 + x mod 64 = 0x80 + y mod 64 -> x = y).
  { intros x y H1 H2. rewrite (N.div_mod x 64), (N.div_mod y 64) by lia. lia. }
  assert (Q : forall x, x / 4096 = x / 64 / 64) by (intros x; rewrite N.div_div by lia; reflexivity).
  assert (Q' : forall x, x / 262144 = x / 64 / 64 / 64) by (intros x; rewrite !N.div_div by lia; reflexivity).
  assert (U : forall x, x <= 0x10FFFF -> x / 262144 <= 4) by (intros x Hx; apply (N.div_le_mono x 0x10FFFF 262144) in Hx; [exact Hx|lia]).
  assert (U1 : forall x, x < 0x800 -> x / 64 <= 31).
  { intros x Hx. assert (Hx' : x <= 0x7FF) by lia. apply (N.div_le_mono x 0x7FF 64) in Hx'; [exact Hx'|lia]. }
  assert (U2 : forall x, x < 0x10000 -> x / 4096 <= 15).
  { intros x Hx. assert (Hx' : x <= 0xFFFF) by lia. apply (N.div_le_mono x 0xFFFF 4096) in Hx'; [exact Hx'|lia]. }
  pose proof (U c L). pose proof (U c' L'). pose proof (U1 c). pose proof (U1 c'). pose proof (U2 c). pose proof (U2 c').
  unfold utf8_enc1 in H.
  destruct (N.ltb_spec c 0x80), (N.ltb_spec c' 0x80);
  destruct (N.ltb_spec c 0x800), (N.ltb_spec c' 0x800); try lia;
  destruct (N.ltb_spec c 0x10000), (N.ltb_spec c' 0x10000); try lia;
  cbn [app] in H; injection H; intros;
  repeat match goal with G : n2b _ = n2b _ |- _ => apply n2b_inj in G; [|(apply B || lia)..] end; try lia;
  (split; [|assumption]); rewrite ?Q' in *; rewrite ?Q in *; try assumption.
  - apply D; [|assumption]. eapply N.add_cancel_l; eassumption.
  - apply D; [|assumption]. apply D; [|assumption]. eapply N.add_cancel_l; eassumption.
  - apply D; [|assumption]. apply D; [|assumption]. apply D; [|assumption]. eapply N.add_cancel_l; eassumption.
Qed.

Theorem C46_encoding_is_injective cs cs' :
  Forall (fun c => c <= 0x10FFFF) cs -> Forall (fun c => c <= 0x10FFFF) cs' -> utf8_encode cs = utf8_encode cs' -> cs = cs'.
Proof.
  intros H. revert cs'. induction H as [|c cs Hc Hcs IH]; intros [|c' cs'] H' He; [reflexivity| | |].
  - exfalso. cbn in He. unfold utf8_enc1 in He. destruct (c' <? 0x80), (c' <? 0x800), (c' <? 0x10000); discriminate He.
  - exfalso. cbn in He. unfold utf8_enc1 in He. destruct (c <? 0x80), (c <? 0x800), (c <? 0x10000); discriminate He.
  - apply Forall_cons in H' as [Hc' Hcs']. unfold utf8_encode in *. cbn in He.
    apply enc1_inj in He as [-> He]; [|assumption..]. f_equal. apply IH; assumption.
Qed.

(** Whatever the state of the library, a string that get returns is well-formed. *)
Theorem C46_get_string_is_unicode E w h key w' r v :
  step E w (EGet h key TStr) = Some (w', r) -> r = ROk v ->
  exists cs, v = Some (VStr (utf8_encode cs)) /\ Forall (fun c => c <= 0x10FFFF /\ ~ (0xD800 <= c <= 0xDFFF)) cs.
Proof.
  cbn [step]. unfold with_handle. destruct (w_handles w !! h) as [hd|]; [|discriminate].
  destruct (h_unreg hd); [discriminate|]. unfold on_inst.
  destruct (w_insts w !! h_inst hd) as [x|] eqn:Hx; [|congruence].
  unfold inst_get, buffer_parse. cbn [type_token].
  destruct (i_poison x); [congruence|]. destruct (i_valid x); [|congruence].
  destruct (i_map x !! key) as [m|]; [|congruence]. destruct (is_deleting m); [cbn; congruence|].
  destruct (Z.eqb 1 (kv_type m)); [|cbn; congruence]. cbn [from_bytes].
  destruct (utf8_valid (kv_value m)) eqn:Hv; [|cbn; congruence]. cbn [res_map].
  intros [= _ <-] [= <-]. apply utf8_valid_iff in Hv as (cs & Hs & <-). exists cs. split; [reflexivity|].
  apply List.Forall_forall. intros c Hc. rewrite forallb_forall in Hs. specialize (Hs c Hc). unfold is_scalar in Hs. clear -Hs. lia.
Qed.

(** A stored byte string that is no encoding of Unicode scalar values is
    reported as DataInvalid.  Such an entry cannot come from a put of a
    string; it can be in the file. *)
Theorem C46_malformed_is_DataInvalid E w h hd x key m w' r :
  w_handles w !! h = Some hd -> h_unreg hd = false -> w_insts w !! h_inst hd = Some x ->
  i_poison x = false -> i_valid x = true -> i_map x !! key = Some m -> kv_type m = 1%Z ->
  (forall cs, Forall (fun c => c <= 0x10FFFF /\ ~ (0xD800 <= c <= 0xDFFF)) cs -> kv_value m <> utf8_encode cs) ->
  step E w (EGet h key TStr) = Some (w', r) -> r = RErr DataInvalid.
Proof.
  intros Hh Hu Hx Hp Hv Hm Ht Hbad. cbn [step]. unfold with_handle. rewrite Hh, Hu. unfold on_inst. rewrite Hx.
  unfold inst_get. rewrite Hp, Hv, Hm. unfold buffer_parse, is_deleting. rewrite Ht. cbn [type_token from_bytes].
  change (1 =? deleted_token)%Z with false. cbv iota. rewrite Z.eqb_refl.
  destruct (utf8_valid (kv_value m)) eqn:Hval.
  - apply utf8_valid_iff in Hval as (cs & Hs & Hcs). destruct (Hbad cs); [|symmetry; exact Hcs].
    apply List.Forall_forall. intros c Hc. rewrite forallb_forall in Hs. specialize (Hs c Hc). unfold is_scalar in Hs. clear -Hs. lia.
  - cbn. congruence.
Qed.

(** A string with characters of one to four bytes. *)
Definition ex_text : list N := [0x48; 0xE9; 0x20AC; 0x1F600; 0].

Example C46_example :
  Forall (fun c => c <= 0x10FFFF /\ ~ (0xD800 <= c <= 0xDFFF)) ex_text /\
  length (utf8_encode ex_text) = 11%nat /\
  ordinary (ex_env FPlain) ex_keyof user_trace /\ room (ex_env FPlain) (writes user_trace + 1) /\
  record_size FPlain (KV k2 1 (utf8_encode ex_text)) <= page ex_plat /\
  results (ex_env FPlain) (user_trace ++ [EPut 0 k2 (VStr (utf8_encode ex_text)); EGet 0 k2 TStr])
  = Some [ROk None; ROk None; ROk None; ROk (Some (VStr (utf8_encode ex_text)))].
Proof.
  split; [repeat constructor; lia|]. split; [reflexivity|].
  split; [apply ordinaryb_ok; [apply ex_env_ok; exact Logic.I|vm_compute; reflexivity]|].
  split; [apply roomb_ok; vm_compute; reflexivity|]. split; [vm_compute; discriminate|]. vm_compute; reflexivity.
Qed.

(** A lone surrogate, written into the file by somebody else as the value of
    a string entry, is such a malformed entry: no sequence of scalar values
    has these bytes. *)
Example C46_malformed_example : forall cs,
  Forall (fun c => c <= 0x10FFFF /\ ~ (0xD800 <= c <= 0xDFFF)) cs -> [n2b 0xED; n2b 0xA0; n2b 0x80] <> utf8_encode cs.
Proof.
  intros cs Hcs H. assert (V : utf8_valid (utf8_encode cs) = true).
  { apply utf8_valid_encode. rewrite forallb_forall. intros c Hc. rewrite List.Forall_forall in Hcs.
    specialize (Hcs c Hc). unfold is_scalar. clear -Hcs. lia. }
  rewrite <- H in V. discriminate V.
Qed.
