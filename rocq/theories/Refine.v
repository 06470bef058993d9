(** The library refines the specification (Spec.v): invariant and proof. *)
From Verif Require Import Bytes Utf8 Proto ProtoFacts Value Codec Store StoreFacts Encrypt World Spec Hyps.
From Coq Require Import ZifyBool ZifyNat ZifyN.
Ltac Zify.zify_post_hook ::= Z.div_mod_to_equations.
Local Open Scope N_scope.

(** Admissible record numbers. *)
Definition record_pos (F : feature) (p : N) : Prop :=
  match F with FPlain => True | FEncrypted _ => p < counter_max end.

Lemma feature_law F key nonce : feature_ok F -> codec_law (feature_codec F key nonce) (record_pos F) (record_size F).
Proof.
  destruct F as [|A]; intros H; cbn [feature_codec].
  - apply crc_law.
  - apply aes_law, H.
Qed.

Lemma record_size_fields F m : len (kv_key m) + len (kv_value m) + 5 <= record_size F m.
Proof.
  pose proof (encode_kv_len m). destruct F; cbn [record_size]; unfold crc_size, aes_size; lia.
Qed.

(** ** One directory's file *)
Section Refine.
Context (E : env) (HE : env_ok E).

Notation P := (e_plat E).
Notation F := (e_feat E).
Notation sz := (record_size F).
Notation pos_ok := (record_pos F).

(** An entry made by a put or a delete. *)
Definition made (m : kv) : Prop :=
  m = deleted_buffer (kv_key m) \/ exists v, value_ok v = true /\ buffer_new (kv_key m) v = ROk m.

(** What the library writes: a well-formed entry that fits in a page. *)
Definition good (m : kv) : Prop := (kv_ok m = true /\ made m) /\ sz m <= page P.

Lemma good_rec m : good m -> rec_ok sz m.
Proof. intros [[H1 _] H2]. split; [exact H1|]. pose proof (po_page _ (eo_plat _ HE)). lia. Qed.

Lemma good_recs l : Forall good l -> Forall (rec_ok sz) l.
Proof. intros H. eapply Forall_impl; [exact H|]. exact good_rec. Qed.

Lemma good_sizes l : Forall good l -> Forall (fun m => sz m <= page P) l.
Proof. intros H. eapply Forall_impl; [exact H|]. intros m [_ Hm]. exact Hm. Qed.

Notation Inv' C := (Inv C pos_ok sz).

(** The writer state [s] has consumed at most [c] writes; its file holds [rs]. *)
Definition WOk (C : codec) (s : st) (rs : list kv) (c : N) : Prop :=
  Inv' C s rs /\ Forall good rs /\ N.of_nat (length rs) <= c /\
  len (s_file s) <= page P * (1 + c * (1 + page P)) /\ (page P | len (s_file s)).

Lemma WOk_mono C s rs c c' : c <= c' -> WOk C s rs c -> WOk C s rs c'.
Proof. intros H (A & B & D & G & K). split_and!; auto; nia. Qed.

(** Only the file, the map's length and the position matter. *)
Lemma WOk_ext C s s' rs c :
  s_file s' = s_file s -> s_ml s' = s_ml s -> s_pos s' = s_pos s -> WOk C s rs c -> WOk C s' rs c.
Proof.
  intros F1 F2 F3 ([A1 A2 A3 A4 A5 A6] & B & D & G & K). split_and!; auto; try (rewrite F1; assumption).
  split; rewrite ?F1, ?F2, ?F3; assumption.
Qed.

Lemma WOk_nonempty C s rs c : codec_law C pos_ok sz -> WOk C s rs c -> 8 <= len (s_file s).
Proof. intros HC (I & _). destruct (inv_file _ _ _ _ _ I) as (x & y & _ & ->). rewrite shape_len. lia. Qed.

Lemma room_positions n : room E n -> positions_ok pos_ok n.
Proof.
  intros [_ H] i Hi. unfold record_pos. destruct F; [exact Logic.I|].
  rewrite N.mod_small by lia. unfold counter_max. lia.
Qed.

Lemma room_mono n n' : n <= n' -> room E n' -> room E n.
Proof.
  intros H [H1 H2]. split.
  - etransitivity; [|exact H1]. apply N.mul_le_mono_l. apply N.add_le_mono_l. apply N.mul_le_mono_r, H.
  - destruct F; [exact Logic.I|lia].
Qed.

(** One background write in a good state. *)
Lemma write_WOk C s rs c m dup :
  codec_law C pos_ok sz -> WOk C s rs c -> good m -> room E (c + 1) ->
  exists s' rs', write P C s m dup = (s', true) /\ WOk C s' rs' (c + 1) /\
    replay rs' = apply_kv (replay rs) m /\ write_kind P C sz s rs m dup s' rs'.
Proof.
  intros HC (I & HG & HL & HS & HD) Hm Hroom.
  destruct (eo_plat _ HE) as [H64 Hpage Hmax Hhord].
  assert (Hq : sz m / 5 <= page P). { destruct Hm as [_ Hm]. apply N.div_le_upper_bound; lia. }
  assert (Hb : len (s_file s) + page P * (1 + sz m / 5) <= maxfile P).
  { destruct Hroom as [Hr _]. etransitivity; [|exact Hr]. nia. }
  destruct (write_inv P C pos_ok sz H64 HC Hmax s rs m dup I (good_rec m Hm) (proj2 Hm) (good_sizes rs HG) Hhord)
    as (s' & rs' & Ew & I' & HF' & Hrep & Hlen & Hk).
  { eapply positions_mono; [|apply room_positions, Hroom]. lia. }
  { exact Hb. }
  exists s', rs'. split; [exact Ew|]. split; [|split; [exact Hrep|exact Hk]].
  split_and!; [exact I'| | | |].
  - assert (HG' : Forall good (rs ++ [m])) by (apply Forall_app; split; [exact HG|constructor; [exact Hm|constructor]]).
    destruct Hk as [_ -> _ _ _|_ _ -> _ _ _|_ _ Hk _ _ _]; [exact HG'|exact HG'|].
    rewrite Hk, <- replay_snoc. apply live_Forall, HG'.
  - lia.
  - assert (Hgrow : len (s_file s') <= len (s_file s) + page P * (1 + sz m / 5)).
    { destruct Hk as [? ? HL' _ _|? ? ? HL' _ _|? ? ? HL' HG' _]; rewrite HL'.
      - lia.
      - rewrite N.mul_add_distr_l. lia.
      - apply N.add_le_mono_l, N.mul_le_mono_l, HG'. }
    clear - Hq Hgrow HS. generalize dependent (sz m / 5). intros q Hq Hg.
    assert (page P * (1 + q) <= page P * (1 + page P)) by (apply N.mul_le_mono_l; lia).
    replace (page P * (1 + (c + 1) * (1 + page P))) with (page P * (1 + c * (1 + page P)) + page P * (1 + page P)) by lia.
    lia.
  - destruct Hk as [? ? HL' _ _|? ? ? HL' _ _|? ? ? HL' HG' _]; rewrite HL'; [exact HD| |].
    + apply N.divide_add_r; [exact HD|apply N.divide_refl].
    + apply N.divide_add_r; [exact HD|apply N.divide_mul_l, N.divide_refl].
Qed.

(** A fresh page is an empty store. *)
Lemma WOk_fresh C : WOk C (St (zeros (page P)) (len (zeros (page P))) 0 false 0 []) [] 0.
Proof.
  destruct (eo_plat _ HE) as [H64 Hpage Hmax Hhord].
  assert (Hl : len (zeros (page P)) = page P) by (unfold zeros; rewrite len_replicate; lia).
  split_and!; [split| | | |]; cbn [s_file s_ml s_pos length].
  - constructor.
  - intros i Hi. cbn in Hi. lia.
  - exists [], (zeros (page P - 8)). split; [reflexivity|]. apply zeros_shape; first [assumption|lia].
  - reflexivity.
  - reflexivity.
  - rewrite Hl. lia.
  - constructor.
  - lia.
  - rewrite Hl. lia.
  - rewrite Hl. apply N.divide_refl.
Qed.

(** ** Stored maps and the specification *)

(** [M] (the library's map) represents [S] (the specification's). *)
Definition rel (M : gmap bytes kv) (S : smap) : Prop :=
  forall k, match S !! k with
            | None => M !! k = None
            | Some v => exists m, M !! k = Some m /\ buffer_new k v = ROk m /\ value_ok v = true /\ good m
            end.

Lemma rel_empty : rel ∅ ∅.
Proof. intros k. rewrite !lookup_empty. reflexivity. Qed.

Lemma rel_insert M S k v m :
  rel M S -> buffer_new k v = ROk m -> value_ok v = true -> good m -> rel (<[k := m]> M) (<[k := v]> S).
Proof.
  intros HR Hb Hv Hm k'. destruct (decide (k = k')) as [<-|Hne].
  - rewrite (lookup_insert S). exists m. rewrite lookup_insert. auto.
  - specialize (HR k'). rewrite (lookup_insert_ne S), (lookup_insert_ne M) by exact Hne. exact HR.
Qed.

Lemma rel_delete M S k : rel M S -> rel (delete k M) (delete k S).
Proof.
  intros HR k'. destruct (decide (k = k')) as [<-|Hne].
  - rewrite (lookup_delete S), (lookup_delete M). reflexivity.
  - specialize (HR k'). rewrite (lookup_delete_ne S), (lookup_delete_ne M) by exact Hne. exact HR.
Qed.

Lemma buffer_new_key k v m : buffer_new k v = ROk m -> kv_key m = k.
Proof. unfold buffer_new. destruct (type_token (type_of v)); [|discriminate|discriminate]. intros [= <-]. reflexivity. Qed.

Lemma buffer_new_alive k v m : buffer_new k v = ROk m -> is_deleting m = false.
Proof.
  unfold buffer_new. destruct (type_token (type_of v)) as [t| |] eqn:Et; [|discriminate|discriminate].
  intros [= <-]. unfold is_deleting. cbn [kv_type]. apply Z.eqb_neq. eapply type_token_not_deleted, Et.
Qed.

Lemma buffer_new_apply k v m M : buffer_new k v = ROk m -> apply_kv M m = <[k := m]> M.
Proof.
  intros H. unfold apply_kv. rewrite (buffer_new_alive k v m H), (buffer_new_key k v m H). reflexivity.
Qed.

Lemma deleted_apply k M : apply_kv M (deleted_buffer k) = delete k M.
Proof. reflexivity. Qed.

(** A put that is allowed produces a good entry. *)
Lemma put_ok_good k v m : put_ok E k v -> buffer_new k v = ROk m -> good m.
Proof.
  intros (Hu & Hv & m' & Hb & Hs) Hb'. rewrite Hb in Hb'. injection Hb' as ->.
  split; [split|exact Hs]; [|right; exists v; split; [exact Hv|rewrite (buffer_new_key _ _ _ Hb); exact Hb]].
  apply kv_ok_spec. pose proof (record_size_fields F m) as Hf.
  pose proof (po_page _ (eo_plat _ HE)) as Hp.
  unfold buffer_new in Hb. destruct (type_token (type_of v)) as [t| |] eqn:Et; [|discriminate|discriminate].
  injection Hb as <-. cbn [kv_key kv_type kv_value] in *. split_and!; [exact Hu| |lia|lia].
  destruct v; cbn [type_of type_token] in Et; try (injection Et as <-; reflexivity).
  unfold type_token_new in Et. destruct (reserved tok); [discriminate|]. injection Et as <-. exact Hv.
Qed.

(** The tombstone of a stored key is no longer than the stored record. *)
Lemma varint_len_pos n : 1 <= len (varint n).
Proof. unfold varint. cbn [varint_aux]. destruct (n <? 128); rewrite len_cons; lia. Qed.

Lemma tombstone_good k v m : buffer_new k v = ROk m -> value_ok v = true -> good m -> good (deleted_buffer k).
Proof.
  intros Hb Hv [[Hk _] Hs]. pose proof (buffer_new_key _ _ _ Hb) as Hkey.
  apply kv_ok_spec in Hk as (Hu & Ht & Hl1 & Hl2). rewrite Hkey in *. split.
  - split; [|left; reflexivity]. apply kv_ok_spec. cbn [deleted_buffer kv_key kv_type kv_value]. split_and!; [exact Hu|reflexivity|exact Hl1|reflexivity].
  - etransitivity; [|exact Hs].
    assert (H : len (encode_kv (deleted_buffer k)) <= len (encode_kv m)).
    { unfold encode_kv, deleted_buffer. cbn [kv_key kv_type kv_value]. rewrite Hkey.
      rewrite app_nil_r. rewrite !len_app. apply N.add_le_mono_l.
      change (Z.eqb deleted_token 0) with false. cbv iota.
      change (len (n2b 16 :: varint (z2u 8 deleted_token))) with 2.
      unfold buffer_new in Hb. destruct (type_token (type_of v)) as [t| |] eqn:Et; [|discriminate|discriminate].
      injection Hb as <-. cbn [kv_key kv_type kv_value].
      destruct (Z.eqb_spec t 0) as [->|Hnz].
      - assert (Hty : type_of v = TI32).
        { apply (type_token_inj _ _ 0%Z Et). reflexivity. }
        destruct v; try discriminate Hty. cbn [to_bytes]. cbn [be].
        rewrite len_nil, N.add_0_l. set (x := n2b 26). rewrite len_cons, len_app.
        rewrite len_cons. lia.
      - rewrite len_cons. pose proof (varint_len_pos (z2u 8 t)). lia. }
    destruct F; cbn [record_size]; unfold crc_size, aes_size; lia.
Qed.

(** A get of the library answers as the specification. *)
Lemma get_refines M S k t : rel M S -> get_ok t ->
  match M !! k with Some m => res_map Some (buffer_parse m t) | None => RErr KeyNotFound end = spec_get S k t.
Proof.
  intros HR [tok Ht]. specialize (HR k). unfold spec_get. destruct (S !! k) as [v|].
  - destruct HR as (m & -> & Hb & Hv & _). unfold buffer_parse. rewrite Ht.
    rewrite (buffer_new_alive _ _ _ Hb).
    unfold buffer_new in Hb. destruct (type_token (type_of v)) as [tv| |] eqn:Et; [|discriminate|discriminate].
    injection Hb as <-. cbn [kv_type kv_value]. destruct (decide (type_of v = t)) as [<-|Hne].
    + rewrite Ht in Et. injection Et as ->. rewrite Z.eqb_refl, from_to_bytes by exact Hv. reflexivity.
    + destruct (Z.eqb_spec tok tv) as [->|]; [|reflexivity].
      destruct Hne. eapply type_token_inj; eassumption.
  - rewrite HR. reflexivity.
Qed.

End Refine.
