(** The invariant of WorldInv.v for files that are not exactly what the
    library wrote: some records no longer decode (they are skipped), or a kill
    left a file half-created.  Everything proved in WorldInv.v, WorldStep.v and
    Main.v about ordinary calls then holds for such files too. *)
From Verif Require Import Bytes Utf8 Proto ProtoFacts Crc8 Value Codec Store StoreFacts Encrypt World Spec Hyps Refine WorldInv WorldStep Main Slots.
From Coq Require Import ZifyBool ZifyNat ZifyN.
Local Open Scope N_scope.

(** The entries of the slots that decode. *)
Definition slot_recs (sl : list slot) : list kv := omap snd sl.

Lemma slot_recs_app a b : slot_recs (a ++ b) = slot_recs a ++ slot_recs b.
Proof. apply omap_app. Qed.

Lemma slot_map_recs sl : forall acc, slot_map sl acc = fold_left apply_kv (slot_recs sl) acc.
Proof.
  unfold slot_map, slot_recs. induction sl as [|[b o] sl IH]; intros acc; [reflexivity|]. cbn [map fold_left omap list_omap].
  rewrite IH. destruct o; reflexivity.
Qed.

Lemma slot_replay sl : slot_map sl ∅ = replay (slot_recs sl).
Proof. apply slot_map_recs. Qed.

Lemma slot_recs_length sl : (length (slot_recs sl) <= length sl)%nat.
Proof. unfold slot_recs. induction sl as [|[b [m|]] sl IH]; cbn in *; lia. Qed.

Section Damaged.
Context (E : env).

Notation P := (e_plat E).
Notation F := (e_feat E).
Notation sz := (record_size F).
Notation pos_ok := (record_pos F).

(** A slot of a damaged file: if it decodes, then to an entry that fits in a
    page and is no longer than the slot. *)
Definition slot_good (b : slot) : Prop :=
  match b.2 with Some m => good E m /\ sz m <= len b.1 | None => True end.

(** The file is the header, slots, and unused bytes. *)
Record InvS (C : codec) (s : st) (sl : list slot) : Prop := {
  is_slots : slots C 0 sl;
  is_good : Forall slot_good sl;
  is_file : exists slack, s_file s = shape (slot_bytes sl) slack;
  is_ml : s_ml s = len (s_file s);
  is_pos : s_pos s = N.of_nat (length sl) mod 2 ^ 32;
  is_size : len (s_file s) < 2 ^ 63
}.

Definition dOk (C : codec) (s : st) (rs : list kv) (c : N) : Prop :=
  exists sl, rs = slot_recs sl /\ InvS C s sl /\ N.of_nat (length sl) <= c /\
    len (s_file s) <= page P * (1 + c * (1 + page P)).

Definition damaged : rep E := Rep E true dOk.

Lemma dOk_mono C s rs c c' : c <= c' -> dOk C s rs c -> dOk C s rs c'.
Proof. intros H (sl & A & B & D & G). exists sl. split_and!; auto; nia. Qed.

Lemma dOk_ext C s s' rs c :
  s_file s' = s_file s -> s_ml s' = s_ml s -> s_pos s' = s_pos s -> dOk C s rs c -> dOk C s' rs c.
Proof.
  intros F1 F2 F3 (sl & A & [B1 B2 B3 B4 B5 B6] & D & G). exists sl. split_and!; auto; [|rewrite F1; exact G].
  split; rewrite ?F1, ?F2, ?F3; assumption.
Qed.

Lemma slots_total sl : Forall slot_good sl -> total sz (slot_recs sl) <= len (slot_bytes sl).
Proof.
  induction 1 as [|[b o] sl H _ IH]; [cbn; lia|]. unfold slot_good in H. cbn [fst snd] in H.
  change (slot_bytes ((b, o) :: sl)) with (b ++ slot_bytes sl). rewrite len_app. unfold slot_recs in *. cbn [omap list_omap snd].
  destruct o as [m|]; unfold total in *; cbn [fold_right]; lia.
Qed.

Lemma slots_recs_good sl : Forall slot_good sl -> Forall (good E) (slot_recs sl).
Proof.
  induction 1 as [|[b o] sl H _ IH]; [constructor|]. unfold slot_good in H. cbn [fst snd] in H. unfold slot_recs. cbn [omap list_omap snd].
  destruct o; [constructor; [apply H|exact IH]|exact IH].
Qed.

(** Records written by the library are good slots. *)
Lemma enc_slots_good (HE : env_ok E) C rs : codec_law C pos_ok sz -> forall n c,
  Forall (good E) rs -> positions_ok pos_ok (n + N.of_nat (length rs)) -> enc_list C (n mod 2 ^ 32) rs = Some c ->
  exists sl, slots C n sl /\ slot_bytes sl = c /\ map snd sl = map Some rs /\ Forall slot_good sl.
Proof.
  intros Hlaw. induction rs as [|m r IH]; intros n c HF Hp Ec; cbn [enc_list] in Ec.
  - injection Ec as <-. exists []. split; [constructor|split; [reflexivity|split; [reflexivity|constructor]]].
  - inversion HF as [|? ? Hg HF']; subst. destruct (good_rec E HE m Hg) as [Hk Hz]. cbn [length] in Hp.
    destruct (enc C m (n mod 2 ^ 32)) as [b| |] eqn:Eb; try discriminate. rewrite mod32_succ in Ec.
    destruct (enc_list C ((n + 1) mod 2 ^ 32) r) as [c'|] eqn:Ec'; [|discriminate]. injection Ec as <-.
    destruct (IH (n + 1) c' HF') as (sl & H1 & H2 & H3 & H4); [intros i Hi; apply Hp; lia|exact Ec'|].
    assert (Hb : len b = sz m /\ forall tail, dec C (b ++ tail) (n mod 2 ^ 32) = ROk (Some m, len b)).
    { split.
      - destruct (law_rt _ _ _ Hlaw m (n mod 2 ^ 32) [] Hk Hz) as (b' & A & B & _); [apply Hp; lia|congruence].
      - intros tail. destruct (law_rt _ _ _ Hlaw m (n mod 2 ^ 32) tail Hk Hz) as (b' & A & B & D); [apply Hp; lia|]. congruence. }
    destruct Hb as [Hb Hd]. exists ((b, Some m) :: sl). split; [constructor; [|exact Hd|exact H1]|split; [|split]].
    + pose proof (law_min _ _ _ Hlaw m). lia.
    + unfold slot_bytes in *. cbn. rewrite H2. reflexivity.
    + cbn. rewrite H3. reflexivity.
    + constructor; [|exact H4]. split; [exact Hg|]. cbn [fst]. lia.
Qed.

Lemma map_some_recs sl rs : map snd sl = map Some rs -> slot_recs sl = rs.
Proof.
  unfold slot_recs. revert rs. induction sl as [|[b o] sl IH]; intros [|m rs]; cbn; try discriminate; [reflexivity|].
  intros [= -> H]. rewrite (IH rs H). reflexivity.
Qed.

(** What the library writes is a special case. *)
Lemma WOk_dOk (HE : env_ok E) C s rs c : codec_law C pos_ok sz -> WOk E C s rs c -> dOk C s rs c.
Proof.
  intros Hlaw (I & HG & HL & HS & HD). destruct (inv_file _ _ _ _ _ I) as (cc & slack & Ec & Ef).
  destruct (enc_slots_good HE C rs Hlaw 0 cc HG (inv_pos_ok _ _ _ _ _ I) Ec) as (sl & H1 & H2 & H3 & H4).
  pose proof (map_some_recs sl rs H3) as Hr.
  assert (Hl : length sl = length rs) by (pose proof (f_equal length H3) as Hl; rewrite !map_length in Hl; exact Hl).
  exists sl. split; [auto|]. split; [split; [exact H1|exact H4| | | |]|split; [|exact HS]].
  - exists slack. rewrite H2. exact Ef.
  - apply (inv_ml _ _ _ _ _ I).
  - etransitivity; [apply (inv_pos _ _ _ _ _ I)|]. do 2 f_equal. exact (eq_sym Hl).
  - apply (inv_size _ _ _ _ _ I).
  - clear - Hl HL. lia.
Qed.

Section Write.
Context (HE : env_ok E) (C : codec) (Hlaw : codec_law C pos_ok sz).

Lemma slots_encode s sl m : InvS C s sl -> good E m -> positions_ok pos_ok (N.of_nat (length sl) + 1) ->
  exists b, enc C m (s_pos s) = ROk b /\ len b = sz m /\
    forall tail, dec C (b ++ tail) (N.of_nat (length sl) mod 2 ^ 32) = ROk (Some m, len b).
Proof.
  intros I Hg Hp. destruct (good_rec E HE m Hg) as [Hk Hz]. rewrite (is_pos _ _ _ I).
  destruct (law_rt _ _ _ Hlaw m (N.of_nat (length sl) mod 2 ^ 32) [] Hk Hz) as (b & A & B & _); [apply Hp; lia|].
  exists b. split_and!; auto. intros tail.
  destruct (law_rt _ _ _ Hlaw m (N.of_nat (length sl) mod 2 ^ 32) tail Hk Hz) as (b' & A' & B' & D); [apply Hp; lia|]. congruence.
Qed.

Lemma slots_append s sl m b :
  InvS C s sl -> good E m -> positions_ok pos_ok (N.of_nat (length sl) + 1) -> enc C m (s_pos s) = ROk b ->
  8 + len (slot_bytes sl) + len b <= len (s_file s) ->
  exists s', append_incr P s b = (s', true) /\ InvS C s' (sl ++ [(b, Some m)]) /\ len (s_file s') = len (s_file s).
Proof.
  intros I Hg Hp Eb Hfit. destruct (eo_plat _ HE) as [H64 Hpage Hmax Hhord].
  destruct (slots_encode s sl m I Hg Hp) as (b' & Eb' & Lb & Hd). rewrite Eb in Eb'. injection Eb' as <-.
  destruct (is_file _ _ _ I) as (slack & Fs). pose proof (is_ml _ _ _ I) as Hml. pose proof (is_size _ _ _ I) as Hs.
  assert (Hsl : len b <= len slack). { rewrite Fs, shape_len in Hfit. lia. }
  destruct (append_shape P H64 Hmax s b (slot_bytes sl) slack Hml Fs Hsl Hs) as (s1 & Ea & Fa & ML & PO & TR & SE & EF).
  unfold append_incr. rewrite Ea. eexists. split; [reflexivity|].
  assert (Hlen : len (s_file s1) = len (s_file s)).
  { rewrite Fa, Fs, !shape_len, len_app, len_drop. fold (len b). lia. }
  split; [|exact Hlen].
  pose proof (law_min _ _ _ Hlaw m) as Hmin.
  split; cbn [incr_pos with_pos s_ml s_file s_pos].
  - apply slots_app. split; [apply (is_slots _ _ _ I)|]. constructor; [lia| |constructor].
    rewrite N.add_0_l. exact Hd.
  - apply Forall_app. split; [apply (is_good _ _ _ I)|]. constructor; [|constructor]. split; [exact Hg|]. cbn [fst]. lia.
  - exists (drop (length b) slack). rewrite Fa, slot_bytes_app. do 2 f_equal. unfold slot_bytes. cbn. symmetry. apply app_nil_r.
  - rewrite ML, Hml. symmetry. exact Hlen.
  - rewrite PO, (is_pos _ _ _ I), mod32_succ, app_length. cbn [length]. f_equal. lia.
  - rewrite Hlen. exact Hs.
Qed.

Lemma slots_expand s sl :
  InvS C s sl -> len (s_file s) + page P <= maxfile P ->
  exists s', expand P s = (s', true) /\ InvS C s' sl /\ len (s_file s') = len (s_file s) + page P /\ s_pos s' = s_pos s.
Proof.
  intros I Hb. destruct (eo_plat _ HE) as [H64 Hpage Hmax Hhord].
  unfold expand. destruct (N.leb_spec (len (s_file s) + page P) (maxfile P)); [|lia].
  eexists. split; [reflexivity|]. cbn [do_eff s_file s_ml s_pos s_trim s_seed s_eff apply_eff].
  assert (Hl : len (s_file s ++ zeros (page P)) = len (s_file s) + page P).
  { rewrite len_app. unfold zeros. rewrite len_replicate. lia. }
  split; [split|]; cbn [s_file s_ml s_pos]; try apply I.
  - destruct (is_file _ _ _ I) as (slack & ->). exists (slack ++ zeros (page P)). unfold shape. rewrite <- !app_assoc. reflexivity.
  - reflexivity.
  - rewrite Hl. lia.
  - split; [exact Hl|reflexivity].
Qed.

Lemma slots_read s sl : InvS C s sl ->
  read_all P C (view s) = IDone (replay (slot_recs sl)) (N.of_nat (length sl) mod 2 ^ 32) /\
  write_offset P (view s) = Some (8 + len (slot_bytes sl)).
Proof.
  intros I. destruct (eo_plat _ HE) as [H64 Hpage Hmax Hhord]. destruct (is_file _ _ _ I) as (slack & Fs).
  pose proof (is_size _ _ _ I) as Hs. rewrite Fs, shape_len in Hs. rewrite (view_full s (is_ml _ _ _ I)), Fs. split.
  - unfold shape. rewrite <- slot_replay. apply read_slots; [exact H64|apply (is_slots _ _ _ I)|lia].
  - rewrite (write_offset_shape P H64 Hmax) by lia. f_equal. lia.
Qed.

Lemma slots_trim s sl m :
  InvS C s sl -> good E m -> positions_ok pos_ok (N.of_nat (length sl) + 1) ->
  len (s_file s) < 8 + len (slot_bytes sl) + sz m ->
  len (s_file s) + page P * (1 + sz m / 5) <= maxfile P ->
  exists s' sl', trim P C s m = (s', true) /\ InvS C s' sl' /\ (length sl' <= length sl + 1)%nat /\
    replay (slot_recs sl') = apply_kv (replay (slot_recs sl)) m /\
    len (s_file s') <= len (s_file s) + page P * (1 + sz m / 5).
Proof.
  intros I Hg Hp Hfull Hb. destruct (eo_plat _ HE) as [H64 Hpage Hmax Hhord].
  unfold trim. rewrite (proj1 (slots_read s sl I)).
  set (rs := slot_recs sl). set (M := apply_kv (replay rs) m).
  assert (HM : M = replay (rs ++ [m])) by (symmetry; apply replay_snoc).
  destruct (is_file _ _ _ I) as (slack & Fs).
  pose proof (is_ml _ _ _ I) as Hml. pose proof (is_size _ _ _ I) as Hs.
  unfold reset.
  destruct (store_len_shape P H64 Hmax s 0 (slot_bytes sl) slack Hml Fs) as (s1 & E1 & F1 & ML1 & PO1 & TR1 & SE1 & EF1).
  rewrite E1.
  set (order := hord P (s_seed s1) M).
  assert (Hord : Permutation order (live M)) by apply Hhord.
  pose proof (slots_total sl (is_good _ _ _ I)) as Hst. fold rs in Hst.
  pose proof (slot_recs_length sl) as Hsn. fold rs in Hsn.
  assert (Hgs : Forall (good E) (rs ++ [m])).
  { apply Forall_app. split; [apply slots_recs_good, (is_good _ _ _ I)|constructor; [exact Hg|constructor]]. }
  assert (Htot : total sz order <= total sz rs + sz m /\ (length order <= length rs + 1)%nat).
  { rewrite (total_perm _ _ _ Hord), Hord, HM. pose proof (live_replay_total sz (rs ++ [m])) as G.
    rewrite total_app, app_length in G. unfold total in *. cbn [fold_right length] in G. lia. }
  assert (Hgo : Forall (good E) order).
  { rewrite Hord, HM. apply live_Forall, Hgs. }
  assert (Hl1 : len (s_file s1) = len (s_file s)).
  { rewrite F1, Fs, shape_len, !len_app, len_be. lia. }
  set (s2 := with_pos (with_seed s1 (s_seed s1 + 1)) 0).
  assert (I2 : Inv C pos_ok sz s2 []).
  { split; cbn [s2 with_pos with_seed s_file s_ml s_pos].
    - constructor.
    - intros i Hi. cbn in Hi. lia.
    - exists [], (slot_bytes sl ++ slack). split; [reflexivity|]. rewrite F1. reflexivity.
    - rewrite ML1, Hml, Hl1. reflexivity.
    - reflexivity.
    - rewrite Hl1. exact Hs. }
  assert (Hgr : grow sz (s_ml s) (used sz []) order <= 1 + sz m / 5).
  { change (used sz []) with 8. etransitivity; [apply (grow_bound P C pos_ok sz H64 Hlaw Hmax)|].
    assert (Hu : 8 + len (slot_bytes sl) <= len (s_file s)) by (rewrite Fs, shape_len; lia).
    rewrite Hml. destruct (N.leb_spec (8 + total sz order) (len (s_file s))); [lia|].
    assert ((8 + total sz order - len (s_file s) - 1) / 5 <= sz m / 5) by (apply N.div_le_mono; lia). lia. }
  destruct (rewrite_inv P C pos_ok sz H64 Hlaw Hmax order s2 [] (s_ml s) I2 (good_recs E HE _ Hgo) (good_sizes E _ Hgo)) as (s3 & E3 & I3 & L3 & TR3 & SE3).
  - cbn [length]. eapply positions_mono; [|exact Hp]. lia.
  - cbn [s2 with_pos with_seed s_file]. rewrite Hl1, Hml. lia.
  - cbn [s2 with_pos with_seed s_file]. rewrite Hl1. nia.
  - fold M. fold order. fold s2. rewrite E3. cbn [app] in I3.
    destruct (inv_file _ _ _ _ _ I3) as (cc & slack3 & Ec & Ef).
    destruct (enc_slots_good HE C order Hlaw 0 cc Hgo (inv_pos_ok _ _ _ _ _ I3) Ec) as (sl3 & H1 & H2 & H3 & H4).
    assert (Hl : length sl3 = length order) by (pose proof (f_equal length H3) as Hl; rewrite !map_length in Hl; exact Hl).
    exists (with_trim s3 false), sl3. split; [reflexivity|]. split; [split|split; [|split]]; cbn [with_trim s_file s_ml s_pos].
    + exact H1.
    + exact H4.
    + exists slack3. rewrite H2. exact Ef.
    + apply (inv_ml _ _ _ _ _ I3).
    + etransitivity; [apply (inv_pos _ _ _ _ _ I3)|]. do 2 f_equal. exact (eq_sym Hl).
    + apply (inv_size _ _ _ _ _ I3).
    + lia.
    + rewrite (map_some_recs sl3 order H3). fold M. apply replay_live; [|exact Hord]. rewrite HM. apply keyed_replay.
    + rewrite L3. cbn [s2 with_pos with_seed s_file]. rewrite Hl1. nia.
Qed.

Lemma dOk_write s rs c m dup : dOk C s rs c -> good E m -> room E (c + 1) ->
  exists s' rs', write P C s m dup = (s', true) /\ dOk C s' rs' (c + 1) /\ replay rs' = apply_kv (replay rs) m.
Proof.
  intros (sl & -> & I & HL & HS) Hg Hroom. destruct (eo_plat _ HE) as [H64 Hpage Hmax Hhord].
  assert (Hq : sz m / 5 <= page P). { destruct Hg as [_ Hm]. apply N.div_le_upper_bound; lia. }
  assert (Hb : len (s_file s) + page P * (1 + sz m / 5) <= maxfile P).
  { destruct Hroom as [Hr _]. etransitivity; [|exact Hr]. nia. }
  assert (Hp : positions_ok pos_ok (N.of_nat (length sl) + 1)).
  { eapply positions_mono; [|apply room_positions, Hroom]. lia. }
  assert (Hgrow : forall L, L <= len (s_file s) + page P * (1 + sz m / 5) -> L <= page P * (1 + (c + 1) * (1 + page P))).
  { clear - Hq HS. generalize dependent (sz m / 5). intros q Hq L HL'.
    assert (page P * (1 + q) <= page P * (1 + page P)) by (apply N.mul_le_mono_l; lia).
    replace (page P * (1 + (c + 1) * (1 + page P))) with (page P * (1 + c * (1 + page P)) + page P * (1 + page P)) by lia. lia. }
  destruct (slots_encode s sl m I Hg Hp) as (b & Eb & Lb & Hd).
  unfold write. rewrite Eb, (proj2 (slots_read s sl I)). cbv zeta.
  pose proof (is_size _ _ _ I) as Hs. pose proof (is_ml _ _ _ I) as Hml.
  assert (Hu : 8 + len (slot_bytes sl) <= len (s_file s)).
  { destruct (is_file _ _ _ I) as (slack & ->). rewrite shape_len. lia. }
  pose proof (good_rec E HE m Hg) as [_ Hz].
  rewrite (modulus_64 P H64), N.mod_small by lia.
  set (s1 := if dup then with_trim s true else s).
  assert (Hs1 : InvS C s1 sl /\ s_file s1 = s_file s /\ s_ml s1 = s_ml s /\ s_pos s1 = s_pos s).
  { unfold s1. destruct dup; split_and!; try reflexivity; [|exact I]. destruct I. split; assumption. }
  destruct Hs1 as (I1 & F1 & ML1 & PO1). clearbody s1. rewrite ML1, Hml.
  destruct (N.leb_spec (len b + (8 + len (slot_bytes sl))) (len (s_file s))) as [Hfit|Hfull].
  - destruct (slots_append s1 sl m b I1 Hg Hp) as (s2 & E2 & I2 & L2).
    { rewrite PO1. exact Eb. } { rewrite F1. lia. }
    exists s2, (slot_recs (sl ++ [(b, Some m)])). split; [exact E2|]. split.
    + eexists. split; [reflexivity|]. split; [exact I2|]. split; [rewrite app_length; cbn; lia|]. apply Hgrow. rewrite L2, F1. lia.
    + rewrite slot_recs_app. cbn. apply replay_snoc.
  - destruct (s_trim s1).
    + destruct (slots_trim s1 sl m I1 Hg Hp) as (s2 & sl2 & E2 & I2 & N2 & R2 & L2).
      { rewrite F1. lia. } { rewrite F1. exact Hb. }
      exists s2, (slot_recs sl2). split; [exact E2|]. split; [|exact R2].
      exists sl2. split; [reflexivity|]. split; [exact I2|]. split; [lia|]. apply Hgrow. rewrite <- F1. exact L2.
    + destruct (slots_expand s1 sl I1) as (s2 & E2 & I2 & L2 & PO2).
      { rewrite F1. rewrite N.mul_add_distr_l, N.mul_1_r in Hb. generalize dependent (sz m / 5). intros q Hq. lia. }
      rewrite E2.
      destruct (slots_append s2 sl m b I2 Hg Hp) as (s3 & E3 & I3 & L3).
      { rewrite PO2, PO1. exact Eb. } { rewrite L2, F1. destruct Hg. lia. }
      exists s3, (slot_recs (sl ++ [(b, Some m)])). split; [exact E3|]. split.
      * eexists. split; [reflexivity|]. split; [exact I3|]. split; [rewrite app_length; cbn; lia|]. apply Hgrow.
        rewrite L3, L2, F1. rewrite N.mul_add_distr_l, N.mul_1_r. generalize (page P * (sz m / 5)). intros q. lia.
      * rewrite slot_recs_app. cbn. apply replay_snoc.
Qed.
End Write.

Lemma damaged_law : rep_law E damaged.
Proof.
  split; cbn [damaged r_ok].
  - apply dOk_mono.
  - apply dOk_ext.
  - intros C s rs c _ (sl & _ & I & _). destruct (is_file _ _ _ I) as (slack & ->). rewrite shape_len. lia.
  - intros C s rs c m dup HE Hlaw. apply (dOk_write HE C Hlaw).
  - intros C HE. destruct (eo_plat _ HE) as [H64 Hpage Hmax Hhord].
    assert (Hl : len (zeros (page P)) = page P) by (unfold zeros; rewrite len_replicate; lia).
    exists (St (zeros (page P)) (len (zeros (page P))) 0 false 0 []). split; [reflexivity|]. exists []. split; [reflexivity|].
    split_and!; [split| |]; cbn [s_file s_ml s_pos length slot_bytes map concat].
    + constructor.
    + constructor.
    + exists (zeros (page P - 8)). apply zeros_shape; [exact H64|exact Hmax|lia].
    + reflexivity.
    + reflexivity.
    + rewrite Hl. lia.
    + lia.
    + rewrite Hl. lia.
  - intros C s rs c seed HE Hlaw (sl & -> & I & _).
    destruct (slots_read HE C s sl I) as [Hr _]. rewrite (view_full s (is_ml _ _ _ I)) in Hr.
    unfold open_file. rewrite take_ge by (unfold len; lia). rewrite Hr. eexists. split; [reflexivity|]. cbn [s_file s_ml s_pos].
    rewrite (is_ml _ _ _ I), (is_pos _ _ _ I). auto.
Qed.
End Damaged.
