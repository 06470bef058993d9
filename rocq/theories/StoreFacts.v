(** Facts about the writer: the representation invariant and what one
    background write does to it. *)
From Verif Require Import Bytes Utf8 Proto ProtoFacts Value Codec Store.
From Coq Require Import ZifyBool ZifyNat ZifyN.
Ltac Zify.zify_post_hook ::= Z.div_mod_to_equations.
Local Open Scope N_scope.

Section Facts.
Context (P : plat) (C : codec) (pos_ok : N -> Prop) (sz : kv -> N).

(** Records back to back, numbered from [p]. *)
Fixpoint enc_list (p : N) (rs : list kv) : option bytes :=
  match rs with
  | [] => Some []
  | m :: r =>
      match enc C m p, enc_list ((p + 1) mod 2 ^ 32) r with
      | ROk b, Some c => Some (b ++ c)
      | _, _ => None
      end
  end.

Definition total (rs : list kv) : N := fold_right (fun m n => sz m + n) 0 rs.

Definition replay (rs : list kv) : gmap bytes kv := fold_left apply_kv rs ∅.

Definition rec_ok (m : kv) : Prop := kv_ok m = true /\ sz m < 2 ^ 32.

(** All positions up to (excluding) [n] are admissible for the codec. *)
Definition positions_ok (n : N) : Prop := forall i, i < n -> pos_ok (i mod 2 ^ 32).

Lemma positions_mono n n' : n <= n' -> positions_ok n' -> positions_ok n.
Proof. intros H H' i Hi. apply H'. lia. Qed.

Lemma mod32_succ n : (n mod 2 ^ 32 + 1) mod 2 ^ 32 = (n + 1) mod 2 ^ 32.
Proof. rewrite N.add_mod_idemp_l by discriminate. reflexivity. Qed.

Lemma enc_list_app rs rs' : forall n,
  enc_list (n mod 2 ^ 32) (rs ++ rs') =
  match enc_list (n mod 2 ^ 32) rs, enc_list ((n + N.of_nat (length rs)) mod 2 ^ 32) rs' with
  | Some c, Some c' => Some (c ++ c')
  | _, _ => None
  end.
Proof.
  induction rs as [|m r IH]; intros n; cbn [app enc_list length].
  - rewrite N.add_0_r. destruct (enc_list _ rs'); reflexivity.
  - rewrite mod32_succ, IH.
    replace (n + 1 + N.of_nat (length r)) with (n + N.of_nat (S (length r))) by lia.
    destruct (enc C m (n mod 2 ^ 32)) as [b| |]; [|reflexivity|reflexivity].
    destruct (enc_list ((n + 1) mod 2 ^ 32) r) as [c|]; [|reflexivity].
    destruct (enc_list _ rs') as [c'|]; [|reflexivity]. rewrite app_assoc. reflexivity.
Qed.

Lemma total_app a b : total (a ++ b) = total a + total b.
Proof.
  induction a as [|m a IH]; [reflexivity|].
  unfold total in *. cbn [app fold_right]. rewrite IH. lia.
Qed.

Lemma total_perm a b : Permutation a b -> total a = total b.
Proof.
  induction 1 as [|x l l' _ IH|x y l|l l' l'' _ IH1 _ IH2]; unfold total in *; cbn [fold_right].
  - reflexivity.
  - rewrite IH. reflexivity.
  - lia.
  - congruence.
Qed.

Definition shape (c slack : bytes) : bytes := be 8 (len c) ++ c ++ slack.

Lemma shape_len c slack : len (shape c slack) = 8 + len c + len slack.
Proof. unfold shape. rewrite !len_app, len_be. lia. Qed.

Lemma view_full s : s_ml s = len (s_file s) -> view s = s_file s.
Proof. intros H. unfold view. rewrite H, take_ge by (unfold len; lia). reflexivity. Qed.

Lemma apply_store_mid p m s d a : a = len p -> len d = len m ->
  apply_eff (FStore a d) (p ++ m ++ s) = p ++ d ++ s.
Proof.
  intros -> Hd. pose proof (splice_mid p m s d Hd) as E. unfold splice in E.
  destruct (len p + len d <=? len (p ++ m ++ s)); [|discriminate]. injection E as E. exact E.
Qed.

(** The representation invariant: the file consists of the header, the
    encodings of [rs] and unused bytes; the map covers the whole file; the
    next position is the number of records. *)
Record Inv (s : st) (rs : list kv) : Prop := {
  inv_ok : Forall rec_ok rs;
  inv_pos_ok : positions_ok (N.of_nat (length rs));
  inv_file : exists c slack, enc_list 0 rs = Some c /\ s_file s = shape c slack;
  inv_ml : s_ml s = len (s_file s);
  inv_pos : s_pos s = N.of_nat (length rs) mod 2 ^ 32;
  inv_size : len (s_file s) < 2 ^ 63
}.

(** The space used and its bound. *)
Definition used (rs : list kv) : N := 8 + total rs.

Lemma inv_trim_irrel s rs b : Inv s rs -> Inv (with_trim s b) rs.
Proof. intros [A B D E F G]. split; assumption. Qed.

Lemma inv_seed_irrel s rs i : Inv s rs -> Inv (with_seed s i) rs.
Proof. intros [A B D E F G]. split; assumption. Qed.

Definition live (M : gmap bytes kv) : list kv := map snd (map_to_list M).

(** Entries are stored under their own key and are no tombstones. *)
Definition keyed (M : gmap bytes kv) : Prop :=
  forall k m, M !! k = Some m -> kv_key m = k /\ is_deleting m = false.

Lemma keyed_apply M m : keyed M -> keyed (apply_kv M m).
Proof.
  intros HM k x. unfold apply_kv. destruct (is_deleting m) eqn:D.
  - rewrite lookup_delete_Some. intros [_ H]. apply HM, H.
  - rewrite lookup_insert_Some. intros [[<- <-]|[_ H]]; [auto|apply HM, H].
Qed.

Lemma keyed_replay rs : keyed (replay rs).
Proof.
  unfold replay. assert (G : forall M, keyed M -> keyed (fold_left apply_kv rs M)).
  { induction rs as [|m r IH]; intros M HM; [exact HM|]. apply IH, keyed_apply, HM. }
  apply G. intros k m. rewrite lookup_empty. discriminate.
Qed.

Lemma replay_snoc rs m : replay (rs ++ [m]) = apply_kv (replay rs) m.
Proof. unfold replay. rewrite fold_left_app. reflexivity. Qed.

Lemma live_empty : live ∅ = [].
Proof. unfold live. rewrite map_to_list_empty. reflexivity. Qed.

Lemma live_insert (M : gmap bytes kv) k m : Permutation (live (<[k:=m]> M)) (m :: live (delete k M)).
Proof.
  unfold live. rewrite <- insert_delete_insert.
  rewrite (map_to_list_insert (delete k M) k m (lookup_delete M k)). reflexivity.
Qed.

Lemma live_delete (M : gmap bytes kv) k x : M !! k = Some x -> Permutation (live M) (x :: live (delete k M)).
Proof. intros H. rewrite <- (live_insert M k x), insert_id by exact H. reflexivity. Qed.

Lemma live_apply_total M m : total (live (apply_kv M m)) <= total (live M) + sz m /\
  (length (live (apply_kv M m)) <= length (live M) + 1)%nat.
Proof.
  assert (D : total (live (delete (kv_key m) M)) <= total (live M) /\
              (length (live (delete (kv_key m) M)) <= length (live M))%nat).
  { destruct (M !! kv_key m) as [x|] eqn:E.
    - pose proof (live_delete M _ x E) as Pm. rewrite (total_perm _ _ Pm), Pm. unfold total. cbn. lia.
    - rewrite delete_notin by exact E. lia. }
  unfold apply_kv. destruct (is_deleting m); [lia|].
  pose proof (live_insert M (kv_key m) m) as Pm. rewrite (total_perm _ _ Pm), Pm.
  unfold total in *. cbn [fold_right length]. lia.
Qed.

Lemma live_replay_total rs : total (live (replay rs)) <= total rs /\ (length (live (replay rs)) <= length rs)%nat.
Proof.
  induction rs as [|m r IH] using rev_ind; [change (replay []) with (∅ : gmap bytes kv); rewrite live_empty; cbn; lia|].
  rewrite replay_snoc, total_app, app_length. pose proof (live_apply_total (replay r) m).
  unfold total in *. cbn [fold_right length]. lia.
Qed.

Lemma live_Forall (Q : kv -> Prop) rs : Forall Q rs -> Forall Q (live (replay rs)).
Proof.
  induction rs as [|m r IH] using rev_ind; intros H; [change (replay []) with (∅ : gmap bytes kv); rewrite live_empty; constructor|].
  apply Forall_app in H as [H1 H2]. inversion H2 as [|? ? Hm _]; subst. specialize (IH H1).
  rewrite replay_snoc.
  assert (D : Forall Q (live (delete (kv_key m) (replay r)))).
  { destruct (replay r !! kv_key m) as [x|] eqn:E.
    - rewrite (live_delete _ _ x E) in IH. inversion IH; assumption.
    - rewrite delete_notin by exact E. exact IH. }
  unfold apply_kv. destruct (is_deleting m); [exact D|]. rewrite live_insert. constructor; assumption.
Qed.

(** Replaying entries with distinct keys, in any order. *)
Lemma fold_apply_fresh l : forall acc k,
  k ∉ map kv_key l -> fold_left apply_kv l acc !! k = acc !! k.
Proof.
  induction l as [|m l IH]; intros acc k H; [reflexivity|].
  cbn [map fold_left] in *. apply not_elem_of_cons in H as [H1 H2]. rewrite IH by exact H2.
  unfold apply_kv. destruct (is_deleting m); [apply lookup_delete_ne|apply lookup_insert_ne]; congruence.
Qed.

Lemma fold_apply_in l : forall acc m,
  NoDup (map kv_key l) -> m ∈ l -> is_deleting m = false -> fold_left apply_kv l acc !! kv_key m = Some m.
Proof.
  induction l as [|x l IH]; intros acc m Hnd Hin Hd; [inversion Hin|].
  cbn [map fold_left] in *. apply NoDup_cons in Hnd as [Hn Hnd].
  apply elem_of_cons in Hin as [->|Hin].
  - rewrite fold_apply_fresh by exact Hn. unfold apply_kv. rewrite Hd. apply lookup_insert.
  - apply IH; assumption.
Qed.

Lemma live_keys M : keyed M -> map kv_key (live M) = (map_to_list M).*1.
Proof.
  intros HM. unfold live. rewrite map_map. apply map_ext_in. intros [k m] H. cbn.
  apply elem_of_list_In, elem_of_map_to_list in H. apply HM in H as [H _]. exact H.
Qed.

Lemma replay_live M l : keyed M -> Permutation l (live M) -> replay l = M.
Proof.
  intros HM HP.
  assert (Hnd : NoDup (map kv_key l)).
  { rewrite HP, live_keys by exact HM. apply NoDup_fst_map_to_list. }
  apply map_eq. intros k. destruct (M !! k) as [m|] eqn:E.
  - destruct (HM k m E) as [<- Hd]. apply fold_apply_in; [exact Hnd| |exact Hd].
    rewrite HP. unfold live. apply elem_of_list_fmap. exists (kv_key m, m). split; [reflexivity|].
    apply elem_of_map_to_list, E.
  - unfold replay. rewrite fold_apply_fresh; [apply lookup_empty|].
    rewrite HP, live_keys by exact HM. rewrite elem_of_list_fmap. intros ([k' m] & -> & Hin).
    apply elem_of_map_to_list in Hin. cbn in E. congruence.
Qed.

Context (H64 : usz P = 8%nat) (Hlaw : codec_law C pos_ok sz) (Hmaxf : maxfile P < 2 ^ 63).

Lemma modulus_64 : modulus P = 2 ^ 64.
Proof. unfold modulus. rewrite H64. reflexivity. Qed.

(** ** The encoding of a list of records *)

Lemma enc_list_exists rs : forall n,
  Forall rec_ok rs -> positions_ok (n + N.of_nat (length rs)) ->
  exists c, enc_list (n mod 2 ^ 32) rs = Some c /\ len c = total rs.
Proof.
  induction rs as [|m r IH]; intros n HF Hp; cbn [enc_list total fold_right].
  - exists []. auto.
  - inversion HF as [|? ? [Hok Hsz] HF']; subst.
    destruct (law_rt _ _ _ Hlaw m (n mod 2 ^ 32) [] Hok Hsz) as (b & Eb & Lb & _).
    { apply Hp. cbn. lia. }
    destruct (IH (n + 1) HF') as (c & Ec & Lc).
    { eapply positions_mono; [|exact Hp]. cbn. lia. }
    rewrite Eb, mod32_succ, Ec. exists (b ++ c). split; [reflexivity|]. rewrite len_app, Lb, Lc. reflexivity.
Qed.

Lemma enc_list_len rs : forall n c,
  Forall rec_ok rs -> positions_ok (n + N.of_nat (length rs)) ->
  enc_list (n mod 2 ^ 32) rs = Some c -> len c = total rs.
Proof.
  intros n c HF Hp E. destruct (enc_list_exists rs n HF Hp) as (c' & E' & L). congruence.
Qed.

Lemma total_min rs : 5 * N.of_nat (length rs) <= total rs.
Proof.
  induction rs as [|m r IH]; [cbn; lia|].
  pose proof (law_min _ _ _ Hlaw m). unfold total in *. cbn [length fold_right]. lia.
Qed.

(** ** Reading back *)

Lemma iter_map_ok rs : forall pre slack c n acc cnt fuel,
  Forall rec_ok rs -> positions_ok (n + N.of_nat (length rs)) ->
  enc_list (n mod 2 ^ 32) rs = Some c -> (length c <= fuel)%nat ->
  iter_map C fuel (pre ++ c ++ slack) (len pre) (len pre + len c) (n mod 2 ^ 32) acc (cnt mod 2 ^ 32)
  = IDone (fold_left apply_kv rs acc) ((cnt + N.of_nat (length rs)) mod 2 ^ 32).
Proof.
  induction rs as [|m r IH]; intros pre slack c n acc cnt fuel HF Hp E Hf.
  - cbn [enc_list] in E. injection E as <-. cbn [len length fold_left].
    rewrite !N.add_0_r. destruct fuel; cbn [iter_map]; rewrite N.leb_refl; reflexivity.
  - cbn [enc_list] in E. inversion HF as [|? ? [Hok Hsz] HF']; subst.
    destruct (enc C m (n mod 2 ^ 32)) as [b| |] eqn:Eb; [|discriminate|discriminate].
    destruct (enc_list _ r) as [c'|] eqn:Ec; [|discriminate]. injection E as <-.
    destruct (law_rt _ _ _ Hlaw m (n mod 2 ^ 32) c' Hok Hsz) as (b' & Eb' & Lb & Hd).
    { apply Hp. cbn. lia. }
    rewrite Eb in Eb'. injection Eb' as <-.
    pose proof (law_min _ _ _ Hlaw m) as Hmin.
    rewrite app_length in Hf. assert (Hb5 : (5 <= length b)%nat) by (unfold len in Lb; lia).
    destruct fuel as [|f]; [lia|]. cbn [iter_map].
    destruct (N.leb_spec (len pre + len (b ++ c')) (len pre)) as [Hle|_].
    { rewrite len_app in Hle. lia. }
    pose proof (slice_mid pre (b ++ c') slack) as Es. rewrite Es, Hd.
    cbn [apply_opt]. rewrite !mod32_succ.
    rewrite mod32_succ in Ec.
    replace (pre ++ (b ++ c') ++ slack) with ((pre ++ b) ++ c' ++ slack) by (rewrite <- !app_assoc; reflexivity).
    replace (len pre + sz m) with (len (pre ++ b)) by (rewrite len_app; lia).
    replace (len pre + len (b ++ c')) with (len (pre ++ b) + len c') by (rewrite !len_app; lia).
    rewrite (IH (pre ++ b) slack c' (n + 1)); [|exact HF'| |exact Ec|lia].
    + cbn [fold_left length]. f_equal. f_equal. lia.
    + eapply positions_mono; [|exact Hp]. cbn. lia.
Qed.

(** ** The shape of a well-formed file *)

Lemma header_shape c slack : len c < 2 ^ 64 -> header P (shape c slack) = Some (len c).
Proof.
  intros H. unfold header, shape, len_offset.
  pose proof (slice_head (be 8 (len c)) (c ++ slack)) as E. rewrite len_be in E.
  change (N.of_nat 8) with 8 in E. rewrite E, be_length, H64. cbn [Nat.eqb].
  rewrite unbe_be_small by exact H. reflexivity.
Qed.

Lemma write_offset_shape c slack : len c + 8 < 2 ^ 64 -> write_offset P (shape c slack) = Some (len c + 8).
Proof.
  intros H. unfold write_offset. rewrite header_shape by lia.
  rewrite modulus_64, N.mod_small by (unfold len_offset; lia). reflexivity.
Qed.

Lemma read_all_shape rs c slack :
  Forall rec_ok rs -> positions_ok (N.of_nat (length rs)) -> enc_list 0 rs = Some c -> len c + 8 < 2 ^ 64 ->
  read_all P C (shape c slack) = IDone (replay rs) (N.of_nat (length rs) mod 2 ^ 32).
Proof.
  intros HF Hp E Hl. unfold read_all. rewrite write_offset_shape by exact Hl.
  pose proof (iter_map_ok rs (be 8 (len c)) slack c 0 ∅ 0 (length (shape c slack)) HF Hp E) as G.
  rewrite len_be in G. change (N.of_nat 8) with 8 in G. change (0 mod 2 ^ 32) with 0 in G.
  unfold len_offset. rewrite (N.add_comm (len c) 8). apply G.
  unfold shape. rewrite !app_length. lia.
Qed.

(** Storing the header and appending data on a well-formed file. *)
Lemma store_len_shape s n c slack :
  s_ml s = len (s_file s) -> s_file s = shape c slack ->
  exists s', store_len P s n = (s', true) /\ s_file s' = be 8 n ++ c ++ slack /\
    s_ml s' = s_ml s /\ s_pos s' = s_pos s /\ s_trim s' = s_trim s /\ s_seed s' = s_seed s /\
    s_eff s' = s_eff s ++ [FStore 0 (be 8 n)].
Proof.
  intros Hml Hf. unfold store_len. rewrite H64, Nat.eqb_refl.
  destruct (N.leb_spec len_offset (s_ml s)) as [_|Hlt].
  2:{ rewrite Hml, Hf, shape_len in Hlt. unfold len_offset in Hlt. lia. }
  cbn [andb]. eexists. split; [reflexivity|]. cbn [do_eff s_file s_ml s_pos s_trim s_seed s_eff].
  split; [|repeat split; reflexivity].
  cbn [apply_eff]. rewrite Hf. unfold shape. rewrite len_be.
  change (N.to_nat 0) with 0%nat. rewrite take_0. cbn [app]. f_equal.
Qed.

Lemma append_shape s d c slack :
  s_ml s = len (s_file s) -> s_file s = shape c slack -> len d <= len slack -> len (s_file s) < 2 ^ 63 ->
  exists s', append P s d = (s', true) /\
    s_file s' = shape (c ++ d) (drop (length d) slack) /\
    s_ml s' = s_ml s /\ s_pos s' = s_pos s /\ s_trim s' = s_trim s /\ s_seed s' = s_seed s /\
    s_eff s' = s_eff s ++ [FStore 0 (be 8 (len (c ++ d))); FStore (8 + len c) d].
Proof.
  intros Hml Hf Hd Hb. unfold append. rewrite (view_full s Hml), Hf.
  rewrite Hf, shape_len in Hb.
  rewrite write_offset_shape by lia. cbv zeta.
  rewrite modulus_64. unfold len_offset.
  assert (Em : (len c + 8 + 2 ^ 64 - 8) mod 2 ^ 64 = len c).
  { replace (len c + 8 + 2 ^ 64 - 8) with (len c + 1 * 2 ^ 64) by lia.
    rewrite N.mod_add, N.mod_small by lia. reflexivity. }
  rewrite Em, (N.mod_small (len d + len c)) by lia.
  destruct (store_len_shape s (len d + len c) c slack Hml Hf) as (s1 & E1 & F1 & ML & PO & TR & SE & EF).
  rewrite E1. rewrite ML, Hml, Hf, shape_len.
  destruct (N.leb_spec (len c + 8 + len d) (8 + len c + len slack)); [|lia].
  eexists. split; [reflexivity|]. cbn [do_eff s_file s_ml s_pos s_trim s_seed s_eff].
  rewrite ML, PO, TR, SE, EF, F1, Hml, Hf, shape_len. repeat split; try reflexivity.
  - unfold shape. rewrite len_app, (N.add_comm (len d)).
    rewrite <- (take_drop (length d) slack) at 1.
    replace (be 8 (len c + len d) ++ c ++ take (length d) slack ++ drop (length d) slack)
      with ((be 8 (len c + len d) ++ c) ++ take (length d) slack ++ drop (length d) slack)
      by (rewrite <- app_assoc; reflexivity).
    rewrite apply_store_mid; [rewrite <- !app_assoc; reflexivity| |].
    + rewrite len_app, len_be. lia.
    + rewrite len_take. unfold len in *. lia.
  - rewrite <- app_assoc. cbn [app]. rewrite len_app. do 2 f_equal.
    + do 2 f_equal. lia.
    + f_equal. f_equal. lia.
Qed.


Lemma inv_content s rs : Inv s rs ->
  exists c slack, enc_list 0 rs = Some c /\ s_file s = shape c slack /\ len c = total rs.
Proof.
  intros I. destruct (inv_file _ _ I) as (c & sl & E & F). exists c, sl. split; [exact E|]. split; [exact F|].
  apply (enc_list_len rs 0); [apply (inv_ok _ _ I)|apply (inv_pos_ok _ _ I)|exact E].
Qed.

Lemma inv_used s rs : Inv s rs -> used rs <= len (s_file s).
Proof.
  intros I. destruct (inv_content _ _ I) as (c & sl & E & F & L). rewrite F, shape_len. unfold used. lia.
Qed.

Lemma inv_write_offset s rs : Inv s rs -> write_offset P (view s) = Some (used rs).
Proof.
  intros I. rewrite (view_full s (inv_ml _ _ I)). destruct (inv_content _ _ I) as (c & sl & E & F & L).
  pose proof (inv_size _ _ I) as Hs. rewrite F in *. rewrite shape_len in Hs.
  rewrite write_offset_shape by lia. unfold used. f_equal. lia.
Qed.

Lemma inv_read_all s rs : Inv s rs -> read_all P C (view s) = IDone (replay rs) (N.of_nat (length rs) mod 2 ^ 32).
Proof.
  intros I. rewrite (view_full s (inv_ml _ _ I)). destruct (inv_content _ _ I) as (c & sl & E & F & L).
  pose proof (inv_size _ _ I) as Hs. rewrite F in *. rewrite shape_len in Hs.
  apply read_all_shape; [apply (inv_ok _ _ I)|apply (inv_pos_ok _ _ I)|exact E|lia].
Qed.

(** Encoding one record at the writer's position. *)
Lemma inv_encode s rs m : Inv s rs -> rec_ok m -> positions_ok (N.of_nat (length rs) + 1) ->
  exists b, enc C m (s_pos s) = ROk b /\ len b = sz m.
Proof.
  intros I [Hok Hsz] Hp. rewrite (inv_pos _ _ I).
  destruct (law_rt _ _ _ Hlaw m (N.of_nat (length rs) mod 2 ^ 32) [] Hok Hsz) as (b & E & L & _); [|eauto].
  apply Hp. lia.
Qed.

(** Appending one record that fits. *)
Lemma append_incr_inv s rs m b :
  Inv s rs -> rec_ok m -> positions_ok (N.of_nat (length rs) + 1) ->
  enc C m (s_pos s) = ROk b -> used rs + sz m <= len (s_file s) ->
  exists s', append_incr P s b = (s', true) /\ Inv s' (rs ++ [m]) /\
    s_ml s' = s_ml s /\ len (s_file s') = len (s_file s) /\ s_trim s' = s_trim s /\ s_seed s' = s_seed s /\
    (exists c sl, s_file s = shape c sl /\ s_file s' = shape (c ++ b) (drop (length b) sl) /\ len c = total rs /\
       s_eff s' = s_eff s ++ [FStore 0 (be 8 (len (c ++ b))); FStore (8 + len c) b]).
Proof.
  intros I Hm Hp Eb Hfit. destruct (inv_content _ _ I) as (c & sl & E & F & L).
  destruct (inv_encode s rs m I Hm Hp) as (b' & Eb' & Lb). rewrite Eb in Eb'. injection Eb' as <-.
  pose proof (inv_ml _ _ I) as Hml. pose proof (inv_size _ _ I) as Hsz.
  assert (Hsl : len b <= len sl). { unfold used in Hfit. rewrite F, shape_len in Hfit. lia. }
  destruct (append_shape s b c sl Hml F Hsl Hsz) as (s1 & Ea & Fa & ML & PO & TR & SE & EF).
  unfold append_incr. rewrite Ea. eexists. split; [reflexivity|].
  assert (Hlen : len (s_file s1) = len (s_file s)).
  { rewrite Fa, F, !shape_len, len_app, len_drop. fold (len b). lia. }
  split; [split|].
  - apply Forall_app. split; [apply (inv_ok _ _ I)|constructor; [exact Hm|constructor]].
  - rewrite app_length. cbn [length]. eapply positions_mono; [|exact Hp]. lia.
  - exists (c ++ b), (drop (length b) sl). split; [|exact Fa].
    pose proof (enc_list_app rs [m] 0) as EA. rewrite N.mod_0_l in EA by discriminate. rewrite EA, E.
    rewrite N.add_0_l. cbn [enc_list]. rewrite <- (inv_pos _ _ I), Eb, app_nil_r. reflexivity.
  - cbn [incr_pos with_pos s_ml s_file]. rewrite ML, Hml. symmetry. exact Hlen.
  - cbn [incr_pos with_pos s_pos]. rewrite PO, (inv_pos _ _ I), mod32_succ, app_length. cbn [length]. f_equal. lia.
  - cbn [incr_pos with_pos s_file]. rewrite Hlen. exact Hsz.
  - cbn [incr_pos with_pos s_ml s_file s_trim s_seed s_eff].
    split; [exact ML|]. split; [exact Hlen|]. split; [exact TR|]. split; [exact SE|].
    exists c, sl. auto.
Qed.

(** Growing the file by a page. *)
Lemma expand_inv s rs :
  Inv s rs -> len (s_file s) + page P <= maxfile P ->
  exists s', expand P s = (s', true) /\ Inv s' rs /\ s_file s' = s_file s ++ zeros (page P) /\
    len (s_file s') = len (s_file s) + page P /\ s_ml s' = len (s_file s) + page P /\
    s_pos s' = s_pos s /\ s_trim s' = s_trim s /\ s_seed s' = s_seed s /\
    s_eff s' = s_eff s ++ [FExtend (page P)].
Proof.
  intros I Hb. unfold expand. destruct (N.leb_spec (len (s_file s) + page P) (maxfile P)); [|lia].
  eexists. split; [reflexivity|]. cbn [do_eff s_file s_ml s_pos s_trim s_seed s_eff apply_eff].
  assert (Hl : len (s_file s ++ zeros (page P)) = len (s_file s) + page P).
  { rewrite len_app. unfold zeros. rewrite len_replicate. lia. }
  split; [split|]; cbn [s_file s_ml s_pos].
  - apply (inv_ok _ _ I).
  - apply (inv_pos_ok _ _ I).
  - destruct (inv_file _ _ I) as (c & sl & E & F). exists c, (sl ++ zeros (page P)). split; [exact E|].
    rewrite F. unfold shape. rewrite <- !app_assoc. reflexivity.
  - reflexivity.
  - apply (inv_pos _ _ I).
  - rewrite Hl. lia.
  - repeat split; try reflexivity; exact Hl.
Qed.

(** ** The rewrite loop of a trim *)

(** How many pages the loop adds for the records [l] when [u] bytes are used
    already. *)
Fixpoint grow (max u : N) (l : list kv) : N :=
  match l with
  | [] => 0
  | m :: r => (if max <? u + sz m then 1 else 0) + grow max (u + sz m) r
  end.

Lemma grow_bound max l : forall u,
  grow max u l <= (if u + total l <=? max then 0 else 1 + (u + total l - max - 1) / 5).
Proof.
  assert (G : forall l u, max < u -> grow max u l <= N.of_nat (length l)).
  { induction l0 as [|m r IH]; intros u Hu; cbn [grow length]; [lia|].
    pose proof (law_min _ _ _ Hlaw m). specialize (IH (u + sz m) ltac:(lia)).
    destruct (max <? u + sz m); lia. }
  induction l as [|m r IH]; intros u; cbn [grow total fold_right].
  - destruct (_ <=? _); lia.
  - fold (total r). pose proof (law_min _ _ _ Hlaw m) as Hm. pose proof (total_min r) as Hr.
    destruct (N.ltb_spec max (u + sz m)) as [Hlt|Hge].
    + pose proof (G r (u + sz m) Hlt) as Hg.
      destruct (N.leb_spec (u + (sz m + total r)) max); [lia|].
      assert (N.of_nat (length r) <= (u + (sz m + total r) - max - 1) / 5).
      { apply N.div_le_lower_bound; lia. }
      lia.
    + specialize (IH (u + sz m)). rewrite <- N.add_assoc in IH. lia.
Qed.

Lemma rewrite_inv l : forall s rs max,
  Inv s rs -> Forall rec_ok l -> Forall (fun m => sz m <= page P) l ->
  positions_ok (N.of_nat (length rs + length l)) ->
  max <= len (s_file s) ->
  len (s_file s) + page P * grow max (used rs) l <= maxfile P ->
  exists s', rewrite P C max l s = (s', true) /\ Inv s' (rs ++ l) /\
    len (s_file s') = len (s_file s) + page P * grow max (used rs) l /\
    s_trim s' = s_trim s /\ s_seed s' = s_seed s.
Proof.
  induction l as [|m l IH]; intros s rs max I HF HP Hp Hmax Hb.
  - exists s. rewrite app_nil_r. cbn [rewrite grow]. rewrite N.mul_0_r, N.add_0_r. auto.
  - inversion HF as [|? ? Hm HF']; subst. inversion HP as [|? ? Hmp HP']; subst.
    assert (Hp1 : positions_ok (N.of_nat (length rs) + 1)).
    { eapply positions_mono; [|exact Hp]. cbn [length]. lia. }
    destruct (inv_encode s rs m I Hm Hp1) as (b & Eb & Lb).
    cbn [rewrite grow] in *. rewrite Eb, (inv_write_offset s rs I).
    pose proof (inv_size _ _ I) as Hs. pose proof (inv_used _ _ I) as Hu. destruct Hm as [Hok Hsz].
    rewrite modulus_64, (N.mod_small (used rs + len b)) by lia.
    rewrite Lb.
    assert (Hstep : exists s1, (if max <? used rs + sz m then expand P s else (s, true)) = (s1, true) /\ Inv s1 rs /\
      len (s_file s1) = len (s_file s) + page P * (if max <? used rs + sz m then 1 else 0) /\
      used rs + sz m <= len (s_file s1) /\ s_pos s1 = s_pos s /\ s_trim s1 = s_trim s /\ s_seed s1 = s_seed s).
    { destruct (N.ltb_spec max (used rs + sz m)) as [Hlt|Hge].
      - destruct (expand_inv s rs I) as (s1 & E1 & I1 & _ & L1 & ML1 & PO1 & TR1 & SE1 & _); [lia|].
        exists s1. rewrite E1, L1. split_and!; auto; lia.
      - exists s. split_and!; auto; lia. }
    destruct Hstep as (s1 & E1 & I1 & L1 & Hfit & PO1 & TR1 & SE1). rewrite E1.
    destruct (append_incr_inv s1 rs m b I1 (conj Hok Hsz) Hp1) as (s2 & E2 & I2 & ML2 & L2 & TR2 & SE2 & _).
    { rewrite PO1. exact Eb. } { exact Hfit. }
    rewrite E2.
    assert (Hused : used (rs ++ [m]) = used rs + sz m).
    { unfold used. rewrite total_app. cbn [total fold_right]. lia. }
    destruct (IH s2 (rs ++ [m]) max I2 HF' HP') as (s3 & E3 & I3 & L3 & TR3 & SE3).
    + eapply positions_mono; [|exact Hp]. rewrite app_length. cbn [length]. lia.
    + lia.
    + rewrite Hused. lia.
    + exists s3. rewrite E3. split; [reflexivity|]. rewrite <- app_assoc in I3. split; [exact I3|].
      rewrite L3, L2, L1, Hused. repeat split; try congruence. lia.
Qed.

(** ** The live entries of a map *)

(** ** One background write *)

Lemma trim_inv s rs m :
  Inv s rs -> rec_ok m -> sz m <= page P -> Forall (fun x => sz x <= page P) rs -> hord_ok P ->
  positions_ok (N.of_nat (length rs) + 1) ->
  len (s_file s) < used rs + sz m ->
  len (s_file s) + page P * (1 + sz m / 5) <= maxfile P ->
  exists s' rs', trim P C s m = (s', true) /\ Inv s' rs' /\ Permutation rs' (live (apply_kv (replay rs) m)) /\
    len (s_file s') = len (s_file s) + page P * grow (len (s_file s)) 8 rs' /\
    grow (len (s_file s)) 8 rs' <= 1 + sz m / 5 /\ s_trim s' = false.
Proof.
  intros I Hm Hmp HFp Hh Hp Hfull Hb. unfold trim. rewrite (inv_read_all s rs I).
  set (M := apply_kv (replay rs) m).
  assert (HM : M = replay (rs ++ [m])) by (symmetry; apply replay_snoc).
  destruct (inv_content _ _ I) as (c & sl & E & F & L).
  pose proof (inv_ml _ _ I) as Hml. pose proof (inv_size _ _ I) as Hs.
  unfold reset.
  destruct (store_len_shape s 0 c sl Hml F) as (s1 & E1 & F1 & ML1 & PO1 & TR1 & SE1 & EF1).
  rewrite E1.
  set (order := hord P (s_seed s1) M).
  assert (Hord : Permutation order (live M)) by apply Hh.
  assert (Htot : total order <= total rs + sz m /\ (length order <= length rs + 1)%nat).
  { rewrite (total_perm _ _ Hord), Hord, HM. pose proof (live_replay_total (rs ++ [m])) as G.
    rewrite total_app, app_length in G. unfold total in *. cbn [fold_right length] in G. lia. }
  assert (Hoks : Forall rec_ok order).
  { rewrite Hord, HM. apply live_Forall, Forall_app. split; [apply (inv_ok _ _ I)|constructor; [exact Hm|constructor]]. }
  assert (Hops : Forall (fun x => sz x <= page P) order).
  { rewrite Hord, HM. apply live_Forall, Forall_app. split; [exact HFp|constructor; [exact Hmp|constructor]]. }
  assert (Hl1 : len (s_file s1) = len (s_file s)).
  { rewrite F1, F, shape_len, !len_app, len_be. lia. }
  set (s2 := with_pos (with_seed s1 (s_seed s1 + 1)) 0).
  assert (I2 : Inv s2 []).
  { split; cbn [s2 with_pos with_seed s_file s_ml s_pos].
    - constructor.
    - intros i Hi. cbn in Hi. lia.
    - exists [], (c ++ sl). split; [reflexivity|]. rewrite F1. reflexivity.
    - rewrite ML1, Hml, Hl1. reflexivity.
    - reflexivity.
    - rewrite Hl1. exact Hs. }
  assert (Hg : grow (s_ml s) (used []) order <= 1 + sz m / 5).
  { change (used []) with 8. etransitivity; [apply grow_bound|].
    pose proof (inv_used _ _ I) as Hu. unfold used in *. rewrite Hml.
    destruct (N.leb_spec (8 + total order) (len (s_file s))); [lia|].
    assert ((8 + total order - len (s_file s) - 1) / 5 <= sz m / 5) by (apply N.div_le_mono; lia). lia. }
  destruct (rewrite_inv order s2 [] (s_ml s) I2 Hoks Hops) as (s3 & E3 & I3 & L3 & TR3 & SE3).
  - cbn [length]. eapply positions_mono; [|exact Hp]. lia.
  - cbn [s2 with_pos with_seed s_file]. rewrite Hl1, Hml. lia.
  - cbn [s2 with_pos with_seed s_file]. rewrite Hl1. nia.
  - fold M. fold order. fold s2. rewrite E3. exists (with_trim s3 false), order.
    split; [reflexivity|]. cbn [app] in I3. split; [apply inv_trim_irrel, I3|].
    split; [exact Hord|]. change (used []) with 8 in *. rewrite Hml in *.
    split; [|split; [exact Hg|reflexivity]].
    cbn [with_trim s_file]. rewrite L3. cbn [s2 with_pos with_seed s_file]. rewrite Hl1. reflexivity.
Qed.

(** The three ways a write can go. *)
Inductive write_kind (s : st) (rs : list kv) (m : kv) (dup : bool) (s' : st) (rs' : list kv) : Prop :=
| WFit :
    used rs + sz m <= len (s_file s) -> rs' = rs ++ [m] ->
    len (s_file s') = len (s_file s) -> s_trim s' = (dup || s_trim s)%bool ->
    (exists c sl b, s_file s = shape c sl /\ enc C m (s_pos s) = ROk b /\ s_file s' = shape (c ++ b) (drop (length b) sl) /\
      len c = total rs /\
      s_eff s' = s_eff s ++ [FStore 0 (be 8 (len (c ++ b))); FStore (8 + len c) b]) ->
    write_kind s rs m dup s' rs'
| WGrow :
    len (s_file s) < used rs + sz m -> (dup || s_trim s)%bool = false -> rs' = rs ++ [m] ->
    len (s_file s') = len (s_file s) + page P -> s_trim s' = false ->
    (exists c sl b, s_file s = shape c sl /\ enc C m (s_pos s) = ROk b /\
      s_file s' = shape (c ++ b) (drop (length b) (sl ++ zeros (page P))) /\ len c = total rs /\
      s_eff s' = s_eff s ++ [FExtend (page P); FStore 0 (be 8 (len (c ++ b))); FStore (8 + len c) b]) ->
    write_kind s rs m dup s' rs'
| WTrim :
    len (s_file s) < used rs + sz m -> (dup || s_trim s)%bool = true ->
    Permutation rs' (live (apply_kv (replay rs) m)) ->
    len (s_file s') = len (s_file s) + page P * grow (len (s_file s)) 8 rs' ->
    grow (len (s_file s)) 8 rs' <= 1 + sz m / 5 -> s_trim s' = false ->
    write_kind s rs m dup s' rs'.

Lemma write_inv s rs m dup :
  Inv s rs -> rec_ok m -> sz m <= page P -> Forall (fun x => sz x <= page P) rs -> hord_ok P ->
  positions_ok (N.of_nat (length rs) + 1) ->
  len (s_file s) + page P * (1 + sz m / 5) <= maxfile P ->
  exists s' rs', write P C s m dup = (s', true) /\ Inv s' rs' /\ Forall (fun x => sz x <= page P) rs' /\
    replay rs' = apply_kv (replay rs) m /\ (length rs' <= length rs + 1)%nat /\
    write_kind s rs m dup s' rs'.
Proof.
  intros I Hm Hmp HFp Hh Hp Hb. unfold write.
  destruct (inv_encode s rs m I Hm Hp) as (b & Eb & Lb). rewrite Eb.
  rewrite (inv_write_offset s rs I). cbv zeta.
  pose proof (inv_size _ _ I) as Hs. pose proof (inv_used _ _ I) as Hu. pose proof (inv_ml _ _ I) as Hml.
  rewrite modulus_64, N.mod_small by (destruct Hm; lia).
  set (s1 := if dup then with_trim s true else s).
  assert (Hs1 : Inv s1 rs /\ s_file s1 = s_file s /\ s_ml s1 = s_ml s /\ s_pos s1 = s_pos s /\
                s_trim s1 = (dup || s_trim s)%bool /\ s_eff s1 = s_eff s).
  { unfold s1. destruct dup; split_and!; try reflexivity; [apply inv_trim_irrel|]; exact I. }
  destruct Hs1 as (I1 & F1 & ML1 & PO1 & TR1 & EF1). clearbody s1.
  assert (HFp' : Forall (fun x => sz x <= page P) (rs ++ [m])).
  { apply Forall_app. split; [exact HFp|]. constructor; [exact Hmp|constructor]. }
  rewrite ML1, Hml.
  destruct (N.leb_spec (len b + used rs) (len (s_file s))) as [Hfit|Hfull].
  - destruct (append_incr_inv s1 rs m b I1 Hm Hp) as (s2 & E2 & I2 & ML2 & L2 & TR2 & SE2 & c & sl & Fc & Fc' & Lc & EF2).
    { rewrite PO1. exact Eb. } { rewrite F1. lia. }
    exists s2, (rs ++ [m]). split_and!; try assumption.
    + apply replay_snoc.
    + rewrite app_length. cbn. lia.
    + apply WFit; [lia|reflexivity|congruence|congruence|].
      exists c, sl, b. rewrite <- F1, <- EF1. auto.
  - rewrite TR1. destruct (dup || s_trim s)%bool eqn:Ht.
    + destruct (trim_inv s1 rs m I1 Hm Hmp HFp Hh Hp) as (s2 & rs2 & E2 & I2 & P2 & L2 & G2 & T2).
      { rewrite F1. lia. } { rewrite F1. exact Hb. }
      rewrite F1 in *.
      exists s2, rs2. split_and!; try assumption.
      * rewrite P2. rewrite <- replay_snoc. apply live_Forall, HFp'.
      * apply replay_live; [apply keyed_apply, keyed_replay|exact P2].
      * rewrite P2, <- replay_snoc. pose proof (live_replay_total (rs ++ [m])) as [_ G].
        rewrite app_length in G. cbn [length] in G. exact G.
      * apply WTrim; auto. lia.
    + destruct (expand_inv s1 rs I1) as (s2 & E2 & I2 & F2 & L2 & ML2 & PO2 & TR2 & SE2 & EF2).
      { rewrite F1. rewrite N.mul_add_distr_l, N.mul_1_r in Hb. generalize dependent (sz m / 5). intros q Hq. lia. }
      rewrite E2.
      destruct (append_incr_inv s2 rs m b I2 Hm Hp) as (s3 & E3 & I3 & ML3 & L3 & TR3 & SE3 & c & sl & Fc & Fc' & Lc & EF3).
      { rewrite PO2, PO1. exact Eb. } { rewrite L2, F1. lia. }
      exists s3, (rs ++ [m]). split_and!; try assumption.
      * apply replay_snoc.
      * rewrite app_length. cbn. lia.
      * apply WGrow; [lia|exact Ht|reflexivity|congruence|congruence|].
        destruct (inv_content _ _ I1) as (c0 & sl0 & E0 & F0 & L0).
        destruct (inv_content _ _ I2) as (c1 & sl1 & E1' & F1' & L1'). rewrite E0 in E1'. injection E1' as <-.
        assert (Hc : c = c0).
        { rewrite Fc in F1'. unfold shape in F1'. rewrite Lc, L0 in F1'. apply app_inv_head in F1'.
          apply app_inj_1 in F1' as [H _]; [exact H|]. unfold len in *. lia. }
        subst c0.
        assert (Hsl : sl = sl0 ++ zeros (page P)).
        { rewrite Fc, F0 in F2. unfold shape in F2. rewrite <- !app_assoc in F2.
          apply app_inv_head in F2. apply app_inv_head in F2. exact F2. }
        subst sl. exists c, sl0, b. rewrite <- F1, <- EF1. split_and!; auto.
        rewrite EF3, EF2, <- app_assoc. reflexivity.
Qed.

(** ** Opening a well-formed file *)

Lemma open_shape f rs c slack seed :
  f = shape c slack -> enc_list 0 rs = Some c -> Forall rec_ok rs -> positions_ok (N.of_nat (length rs)) ->
  len f < 2 ^ 63 ->
  exists s, open_file P C seed f = Some (s, replay rs) /\ Inv s rs /\ s_file s = f /\ s_ml s = len f /\
    s_pos s = N.of_nat (length rs) mod 2 ^ 32 /\ s_trim s = false /\ s_seed s = seed /\ s_eff s = [].
Proof.
  intros Hf E HF Hp Hl. unfold open_file. rewrite (take_ge f) by (unfold len; lia).
  assert (Hc : len c + 8 < 2 ^ 64). { rewrite Hf, shape_len in Hl. lia. }
  pose proof (read_all_shape rs c slack HF Hp E Hc) as Er. rewrite <- Hf in Er. rewrite Er.
  eexists. split; [reflexivity|]. split; [|repeat split; reflexivity].
  split; cbn [s_file s_ml s_pos]; auto. exists c, slack. auto.
Qed.

Lemma open_inv s rs seed :
  Inv s rs ->
  exists s', open_file P C seed (s_file s) = Some (s', replay rs) /\ Inv s' rs /\ s_file s' = s_file s /\
    s_ml s' = s_ml s /\ s_pos s' = s_pos s /\ s_trim s' = false /\ s_seed s' = seed /\ s_eff s' = [].
Proof.
  intros I. destruct (inv_file _ _ I) as (c & sl & E & F).
  destruct (open_shape (s_file s) rs c sl seed F E (inv_ok _ _ I) (inv_pos_ok _ _ I) (inv_size _ _ I))
    as (s' & H1 & H2 & H3 & H4 & H5 & H6 & H7 & H8).
  exists s'. rewrite (inv_ml _ _ I), (inv_pos _ _ I). split_and!; assumption.
Qed.

(** A fresh page is an empty store. *)
Lemma zeros_shape : 8 <= page P -> zeros (page P) = shape [] (zeros (page P - 8)).
Proof.
  intros H. unfold shape, zeros. cbn [len length app]. change (be 8 (len [])) with (replicate 8 x00).
  rewrite <- replicate_add. f_equal. lia.
Qed.

End Facts.
