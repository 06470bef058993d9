(** C23, C24, C15: kills inside a compaction, kills right after a call, kills
    while a store is being created. *)
From Verif Require Import Bytes Utf8 Proto ProtoFacts Crc8 Value Codec Store StoreFacts Encrypt World Spec Hyps Refine WorldInv WorldStep Main Frames Reach Examples P_Store Slots Crash P_Kill.
From Coq Require Import ZifyBool ZifyNat ZifyN.
From Coq Require String. Import (notations) String.
Local Open Scope N_scope.

(** * C23 *)

(** The first [j] of the file changes [effs] do not end with a store of the
    content length. *)
Definition boundary (effs : list eff) (j : nat) : Prop :=
  match j with O => True | S j' => forall d, nth_error effs j' <> Some (FStore 0 d) end.

(** A growth is never made between the store of a length and its record. *)
Definition spaced (effs : list eff) : Prop := forall j n, nth_error effs j = Some (FExtend n) -> boundary effs j.

Lemma spaced_app ex ap effs h a b : (ex = [] \/ exists n, ex = [FExtend n]) -> ap = [FStore 0 h; FStore a b] -> a <> 0 -> spaced effs -> spaced (ex ++ ap ++ effs).
Proof.
  intros Hex -> Ha Hs.
  assert (G : spaced ([FStore 0 h; FStore a b] ++ effs)).
  { intros [|[|[|j]]] n Hj; cbn in Hj; try discriminate; cbn.
    - intros d [= ? _]. contradiction.
    - apply (Hs (S j) n Hj). }
  destruct Hex as [->|[n' ->]]; [exact G|]. intros [|[|j]] n Hj; cbn in Hj; try discriminate; [exact Logic.I|].
  exact (G (S j) n Hj).
Qed.

Section Loop.
Context (P : plat) (C : codec) (pos_ok : N -> Prop) (sz : kv -> N).
Context (H64 : usz P = 8%nat) (Hlaw : codec_law C pos_ok sz) (Hmaxf : maxfile P < 2 ^ 63).
Notation Inv := (Inv C pos_ok sz).
Notation rec_ok := (rec_ok sz).
Notation used := (used sz).
Notation grow := (grow sz).
Notation positions_ok := (positions_ok pos_ok).

Lemma boundary_app_r a b j : (length a < j)%nat -> boundary (a ++ b) j -> boundary b (j - length a).
Proof.
  intros Hj H. destruct j as [|j]; [lia|]. cbn [boundary] in H. destruct (S j - length a)%nat as [|k] eqn:Ek; [exact Logic.I|].
  cbn. intros d Hd. apply (H d). rewrite nth_error_app2 by lia. replace (j - length a)%nat with k by lia. exact Hd.
Qed.

Lemma apply_effs_app a b f : apply_effs (a ++ b) f = apply_effs b (apply_effs a f).
Proof. apply fold_left_app. Qed.

Lemma apply_firstn_app a b j f : (length a <= j)%nat -> apply_effs (firstn j (a ++ b)) f = apply_effs (firstn (j - length a) b) (apply_effs a f).
Proof. intros H. rewrite firstn_app, firstn_all2 by exact H. apply apply_effs_app. Qed.

Lemma rewrite_prefixes l : forall s rs max,
  Inv s rs -> Forall rec_ok l -> Forall (fun m => sz m <= page P) l ->
  positions_ok (N.of_nat (length rs + length l)) ->
  max <= len (s_file s) ->
  len (s_file s) + page P * grow max (used rs) l <= maxfile P ->
  exists s' effs, rewrite P C max l s = (s', true) /\ s_eff s' = s_eff s ++ effs /\ spaced effs /\
    (forall j, (j <= length effs)%nat -> boundary effs j -> exists l1 l2 sj, l = l1 ++ l2 /\ Inv sj (rs ++ l1) /\
       s_file sj = apply_effs (firstn j effs) (s_file s) /\ (j = length effs -> l2 = [])).
Proof.
  induction l as [|m l IH]; intros s rs max I HF HP Hp Hmax Hb.
  - exists s, []. cbn [rewrite]. rewrite app_nil_r. split; [reflexivity|]. split; [reflexivity|].
    split. { intros j n Hj. destruct j; discriminate Hj. }
    intros j Hj _. assert (j = 0)%nat as -> by (cbn in Hj; lia).
    exists [], [], s. rewrite (app_nil_r rs). auto.
  - inversion HF as [|? ? Hm HF']; subst. inversion HP as [|? ? Hmp HP']; subst.
    assert (Hp1 : positions_ok (N.of_nat (length rs) + 1)).
    { eapply positions_mono; [|exact Hp]. cbn [length]. lia. }
    destruct (inv_encode _ _ _ _ H64 Hlaw Hmaxf s rs m I Hm Hp1) as (b & Eb & Lb).
    cbn [rewrite StoreFacts.grow] in *. rewrite Eb, (inv_write_offset _ _ _ _ H64 Hlaw Hmaxf s rs I).
    pose proof (inv_size _ _ _ _ _ I) as Hs. pose proof (inv_used _ _ _ _ H64 Hlaw Hmaxf _ _ I) as Hu. pose proof Hm as [Hok Hsz].
    rewrite (modulus_64 _ H64), (N.mod_small (used rs + len b)) by lia.
    rewrite Lb.
    assert (Hstep : exists s1 ex, (if max <? used rs + sz m then expand P s else (s, true)) = (s1, true) /\ Inv s1 rs /\
      len (s_file s1) = len (s_file s) + page P * (if max <? used rs + sz m then 1 else 0) /\
      used rs + sz m <= len (s_file s1) /\ s_pos s1 = s_pos s /\ s_eff s1 = s_eff s ++ ex /\ s_file s1 = apply_effs ex (s_file s) /\
      (ex = [] \/ ex = [FExtend (page P)])).
    { destruct (N.ltb_spec max (used rs + sz m)) as [Hlt|Hge].
      - destruct (expand_inv P _ _ _ H64 Hmaxf s rs I) as (s1 & E1 & I1 & F1 & L1 & ML1 & PO1 & TR1 & SE1 & EF1); [lia|].
        exists s1, [FExtend (page P)]. rewrite E1, L1. split_and!; auto; lia.
      - exists s, []. rewrite app_nil_r. split_and!; auto; lia. }
    destruct Hstep as (s1 & ex & E1 & I1 & L1 & Hfit & PO1 & EF1 & F1 & Hex). rewrite E1.
    destruct (append_incr_inv _ _ _ _ H64 Hlaw Hmaxf s1 rs m b I1 (conj Hok Hsz) Hp1) as (s2 & E2 & I2 & ML2 & L2 & TR2 & SE2 & c & sl & Fc & Fc' & Lc & EF2).
    { rewrite PO1. exact Eb. } { exact Hfit. }
    rewrite E2. set (ap := [FStore 0 (be 8 (len (c ++ b))); FStore (8 + len c) b]) in *.
    assert (Hf2 : s_file s2 = apply_effs ap (s_file s1)).
    { destruct (append_incr_log _ _ _ _ _ E2) as (effs & A & B & _). rewrite EF2 in A. apply app_inv_head in A. subst effs. exact B. }
    assert (Hused : used (rs ++ [m]) = used rs + sz m).
    { unfold StoreFacts.used. rewrite total_app. cbn [total fold_right]. lia. }
    destruct (IH s2 (rs ++ [m]) max I2 HF' HP') as (s3 & effs & E3 & EF3 & Hsp & Hpre).
    + eapply positions_mono; [|exact Hp]. rewrite app_length. cbn [length]. lia.
    + lia.
    + rewrite Hused. lia.
    + exists s3, (ex ++ ap ++ effs). rewrite E3. split; [reflexivity|]. split; [rewrite EF3, EF2, EF1, <- !app_assoc; reflexivity|].
      split. { apply (spaced_app ex ap effs (be 8 (len (c ++ b))) (8 + len c) b); [destruct Hex; eauto|reflexivity|lia|exact Hsp]. }
      intros j Hj Hbd. destruct (decide (j <= length ex)%nat) as [Hle|Hgt].
      { exists [], (m :: l). rewrite (app_nil_r rs). destruct (decide (j = length ex)) as [->|Hne].
        - exists s1. split_and!; auto.
          + rewrite firstn_app, Nat.sub_diag, firstn_all, app_nil_r. exact F1.
          + rewrite !app_length. cbn. lia.
        - exists s. assert (j = 0)%nat as -> by (destruct Hex as [->| ->]; cbn in *; lia). split_and!; auto.
          rewrite !app_length. cbn. lia. }
      apply boundary_app_r in Hbd; [|lia]. rewrite apply_firstn_app by lia. rewrite <- F1.
      rewrite !app_length in Hj. set (j' := (j - length ex)%nat) in *.
      assert (Hj1 : (j' <> 1)%nat).
      { intros Hj1. rewrite Hj1 in Hbd. cbn in Hbd. apply (Hbd (be 8 (len (c ++ b)))). reflexivity. }
      assert (Hj2 : (2 <= j')%nat) by lia.
      rewrite apply_firstn_app by exact Hj2. rewrite <- Hf2. change (length ap) with 2%nat in *.
      destruct (Hpre (j' - 2)%nat) as (l1 & l2 & sj & -> & Ij & Fj & Hlast).
      * lia.
      * destruct (decide (j' = 2)%nat) as [->|]; [exact Logic.I|]. apply (boundary_app_r ap effs j'); [cbn; lia|exact Hbd].
      * exists (m :: l1), l2, sj. rewrite <- app_assoc in Ij. split_and!; auto. intros Hjj. apply Hlast.
        rewrite !app_length in Hjj. cbn in Hjj. lia.
Qed.

(** The file after every boundary of a compaction: the length was set to 0,
    then the records of [order] were appended one by one. *)
Lemma trim_prefixes s rs m :
  Inv s rs -> rec_ok m -> sz m <= page P -> Forall (fun x => sz x <= page P) rs -> hord_ok P ->
  positions_ok (N.of_nat (length rs) + 1) ->
  len (s_file s) < used rs + sz m ->
  len (s_file s) + page P * (1 + sz m / 5) <= maxfile P ->
  exists s' order effs, trim P C s m = (s', true) /\ Permutation order (live (apply_kv (replay rs) m)) /\
    s_eff s' = s_eff s ++ FStore 0 (be 8 0) :: effs /\ spaced effs /\
    (forall j, (j <= length effs)%nat -> boundary effs j -> exists l1 l2 sj, order = l1 ++ l2 /\ Inv sj l1 /\
       s_file sj = apply_effs (firstn (S j) (FStore 0 (be 8 0) :: effs)) (s_file s) /\ (j = length effs -> l2 = [])).
Proof.
  intros I Hm Hmp HFp Hh Hp Hfull Hb. unfold trim. rewrite (inv_read_all _ _ _ _ H64 Hlaw Hmaxf s rs I).
  set (M := apply_kv (replay rs) m).
  assert (HM : M = replay (rs ++ [m])) by (symmetry; apply replay_snoc).
  destruct (inv_content _ _ _ _ H64 Hlaw Hmaxf _ _ I) as (c & sl & E & F & L).
  pose proof (inv_ml _ _ _ _ _ I) as Hml. pose proof (inv_size _ _ _ _ _ I) as Hs.
  unfold reset.
  assert (E1 : store_len P s 0 = (do_eff (FStore 0 (be 8 0)) s, true)).
  { unfold store_len. rewrite H64, Hml, F, shape_len. unfold len_offset. cbn [Nat.eqb andb].
    destruct (N.leb_spec 8 (8 + len c + len sl)); [reflexivity|lia]. }
  rewrite E1. set (s1 := do_eff (FStore 0 (be 8 0)) s).
  assert (F1 : s_file s1 = be 8 0 ++ c ++ sl).
  { cbn [s1 do_eff s_file]. rewrite F. unfold shape. change (be 8 (len c) ++ c ++ sl) with ([] ++ be 8 (len c) ++ (c ++ sl)).
    rewrite apply_store_mid; [reflexivity|reflexivity|]. rewrite !len_be. reflexivity. }
  assert (ML1 : s_ml s1 = s_ml s) by reflexivity.
  set (order := hord P (s_seed s1) M).
  assert (Hord : Permutation order (live M)) by apply Hh.
  assert (Htot : total sz order <= total sz rs + sz m /\ (length order <= length rs + 1)%nat).
  { rewrite (total_perm sz _ _ Hord), Hord, HM. pose proof (live_replay_total sz (rs ++ [m])) as G.
    rewrite total_app, app_length in G. unfold total in *. cbn [fold_right length] in G. lia. }
  assert (Hoks : Forall rec_ok order).
  { rewrite Hord, HM. apply live_Forall, Forall_app. split; [apply (inv_ok _ _ _ _ _ I)|constructor; [exact Hm|constructor]]. }
  assert (Hops : Forall (fun x => sz x <= page P) order).
  { rewrite Hord, HM. apply live_Forall, Forall_app. split; [exact HFp|constructor; [exact Hmp|constructor]]. }
  assert (Hl1 : len (s_file s1) = len (s_file s)).
  { rewrite F1, F, shape_len, !len_app, len_be. lia. }
  set (s2 := with_pos (with_seed s1 (s_seed s1 + 1)) 0).
  assert (I2 : Inv s2 []).
  { split.
    - constructor.
    - intros i Hi. cbn in Hi. lia.
    - exists [], (c ++ sl). split; [reflexivity|]. exact F1.
    - transitivity (s_ml s); [reflexivity|]. rewrite Hml. symmetry. exact Hl1.
    - reflexivity.
    - change (s_file s2) with (s_file s1). rewrite Hl1. exact Hs. }
  assert (Hg : grow (s_ml s) (used []) order <= 1 + sz m / 5).
  { change (used []) with 8. etransitivity; [apply (grow_bound P C pos_ok sz H64 Hlaw Hmaxf)|].
    pose proof (inv_used _ _ _ _ H64 Hlaw Hmaxf _ _ I) as Hu. unfold StoreFacts.used in *. rewrite Hml.
    destruct (N.leb_spec (8 + total sz order) (len (s_file s))); [lia|].
    assert ((8 + total sz order - len (s_file s) - 1) / 5 <= sz m / 5) by (apply N.div_le_mono; lia). lia. }
  destruct (rewrite_prefixes order s2 [] (s_ml s) I2 Hoks Hops) as (s3 & effs & E3 & EF3 & Hsp & Hpre).
  - cbn [length]. eapply positions_mono; [|exact Hp]. lia.
  - change (s_file s2) with (s_file s1). rewrite Hl1, Hml. lia.
  - change (s_file s2) with (s_file s1). rewrite Hl1. nia.
  - fold M. fold order. fold s2. rewrite E3. exists (with_trim s3 false), order, effs.
    split; [reflexivity|]. split; [exact Hord|]. split.
    + cbn [with_trim s_eff]. rewrite EF3. cbn [s2 s1 with_pos with_seed do_eff s_eff]. rewrite <- app_assoc. reflexivity.
    + split; [exact Hsp|]. intros j Hj Hbd. destruct (Hpre j Hj Hbd) as (l1 & l2 & sj & A & B & D & G). exists l1, l2, sj. split_and!; auto.
Qed.
End Loop.

(** The job at the head of the queue compacts. *)
Lemma compaction_job E keyof es w rs0 i x m dup q :
  ordinary E keyof es -> run E world0 es = Some (w, rs0) -> w_insts w !! i = Some x -> i_queue x = JWrite m dup :: q ->
  compacts E w i ->
  exists s1 rs1 order effs c0,
    write (e_plat E) (i_codec E x) (i_st w x) m dup = (s1, true) /\ WOk E (i_codec E x) s1 rs1 (c0 + 1) /\
    keyed (replay rs1) /\ Permutation order (live (replay rs1)) /\
    job_effects E w i = FStore 0 (be 8 0) :: effs /\ spaced effs /\
    (forall j, (j <= length effs)%nat -> boundary effs j -> exists l1 l2 sj, order = l1 ++ l2 /\
       Inv (i_codec E x) (record_pos (e_feat E)) (record_size (e_feat E)) sj l1 /\
       s_file sj = apply_effs (firstn (S j) (job_effects E w i)) (inode w (i_ino x)) /\ (j = length effs -> l2 = [])).
Proof.
  intros HO Hr Hx Hq Hc.
  destruct (reach_job E keyof es w rs0 i x m dup q HO Hr Hx Hq) as (s1 & rs & rs1 & c0 & Ew & Heff & HW & Hm & Hroom & HW1 & Hrep & Hk).
  destruct (eo_plat _ (or_env _ _ _ HO)) as [H64 Hpage Hmax Hhord]. pose proof (law_of E (or_env _ _ _ HO) _ x eq_refl) as Hlaw.
  pose proof HW as (I & HG & HL & HS & HD). exists s1, rs1.
  assert (Hpos1 : positions_ok (record_pos (e_feat E)) (N.of_nat (length rs) + 1)).
  { eapply positions_mono; [|apply (room_positions E), Hroom]. lia. }
  destruct (inv_encode _ _ _ _ H64 Hlaw Hmax _ _ _ I (good_rec E (or_env _ _ _ HO) m Hm) Hpos1) as (b & Eb & Lb).
  cbn [i_st s_pos] in Eb.
  pose proof (law_min _ _ _ Hlaw m) as Hmin. pose proof (inv_size _ _ _ _ _ I) as Hz. destruct Hc as (rest & Hc).
  destruct Hk as [Hfit -> Hlen Htrim (c & sl & b0 & F1 & F2 & F3 & F4 & F5)|Hover Htr -> Hlen Htrim (c & sl & b0 & F1 & F2 & F3 & F4 & F5)|Hover Htr Hperm Hlen Hg Htrim].
  - exfalso. rewrite Heff, F5 in Hc. cbn [i_st s_eff app] in Hc.
    pose proof (f_equal (fun l => match l with FStore _ d :: _ => d | _ => [] end) Hc) as Hh. cbv beta iota in Hh.
    cbn [i_st s_pos] in F2. rewrite Eb in F2. injection F2 as <-.
    assert (Hz0 : len (c ++ b) = 0).
    { apply (f_equal unbe) in Hh. rewrite !unbe_be_small in Hh; [exact Hh|reflexivity|].
      rewrite len_app. unfold used in Hfit. cbn [i_st s_file] in *. lia. }
    rewrite len_app in Hz0. lia.
  - exfalso. rewrite Heff, F5 in Hc. cbn [i_st s_eff app] in Hc. discriminate Hc.
  - assert (Hb : len (inode w (i_ino x)) + page (e_plat E) * (1 + record_size (e_feat E) m / 5) <= maxfile (e_plat E)).
    { destruct Hm as [_ Hm]. cbn [i_st s_file] in HS. destruct Hroom as [Hr1 _]. etransitivity; [|exact Hr1].
      assert (record_size (e_feat E) m / 5 <= page (e_plat E)).
      { transitivity (record_size (e_feat E) m); [|exact Hm]. apply N.div_le_upper_bound; lia. }
      nia. }
    set (s0 := if dup then with_trim (i_st w x) true else i_st w x).
    assert (I0 : Inv (i_codec E x) (record_pos (e_feat E)) (record_size (e_feat E)) s0 rs).
    { unfold s0. destruct dup; [apply inv_trim_irrel|]; exact I. }
    assert (Hf0 : s_file s0 = inode w (i_ino x)) by (unfold s0; destruct dup; reflexivity).
    destruct (trim_prefixes (e_plat E) (i_codec E x) _ _ H64 Hlaw Hmax s0 rs m I0 (good_rec E (or_env _ _ _ HO) m Hm)) as (s' & order & effs & Et & Ho & Hef & Hsp & Hpre).
    { apply Hm. }
    { apply (good_sizes E). exact HG. }
    { exact Hhord. } { exact Hpos1. } { rewrite Hf0. exact Hover. } { rewrite Hf0. exact Hb. }
    assert (s' = s1) as ->.
    { unfold write in Ew. change (s_pos (i_st w x)) with (i_pos x) in Ew. rewrite Eb, (inv_write_offset _ _ _ _ H64 Hlaw Hmax _ _ I) in Ew. cbv zeta in Ew. fold s0 in Ew.
      assert (Htr' : s_trim s0 = true).
      { unfold s0. destruct dup; [reflexivity|exact Htr]. }
      assert (Hml : s_ml s0 = len (inode w (i_ino x))) by (rewrite <- Hf0; apply (inv_ml _ _ _ _ _ I0)).
      rewrite Htr', Hml in Ew. cbn [i_st s_file] in Hover, Hz.
      pose proof (inv_used _ _ _ _ H64 Hlaw Hmax _ _ I) as Hu. cbn [i_st s_file] in Hu. destruct Hm as [_ Hm].
      rewrite (modulus_64 _ H64), N.mod_small in Ew by lia.
      destruct (N.leb_spec (len b + used (record_size (e_feat E)) rs) (len (inode w (i_ino x)))) as [?|_]; [lia|].
      rewrite Et in Ew. injection Ew as <-. reflexivity. }
    assert (He0 : s_eff s0 = []) by (unfold s0; destruct dup; reflexivity). rewrite He0 in Hef. cbn [app] in Hef.
    exists order, effs, c0. split_and!; auto.
    + apply keyed_replay.
    + rewrite Hrep. exact Ho.
    + rewrite Heff. exact Hef.
    + rewrite Heff, Hef, <- Hf0. exact Hpre.
Qed.

(** The wished-for property: whatever an interrupted compaction leaves behind,
    the directory can be opened and every key persisted before, except the
    one being written, is there. *)
Definition compaction_kill_safe (E : env) : Prop :=
  forall keyof es w rs0 i x m dup q f' h p,
  ordinary E keyof es -> run E world0 es = Some (w, rs0) -> w_insts w !! i = Some x -> i_queue x = JWrite m dup :: q ->
  compacts E w i -> In p (paths es) -> e_canon E p = i_dir x ->
  crash_image (job_effects E w i) (inode w (i_ino x)) f' ->
  exists s' w', killed_to E es w s' /\ step E (crashed w i f') (ENew h p (keyof (i_dir x))) = Some (w', ROk None) /\
    forall k t, get_ok t -> k <> kv_key m -> step E w' (EGet h k t) = Some (w', spec_get (contents s' (i_dir x)) k t).

Lemma after_job E keyof es w rs0 i x s1 rs1 c m dup q :
  ordinary E keyof es -> run E world0 es = Some (w, rs0) -> w_insts w !! i = Some x -> i_queue x = JWrite m dup :: q ->
  write (e_plat E) (i_codec E x) (i_st w x) m dup = (s1, true) -> WOk E (i_codec E x) s1 rs1 c ->
  exists s', killed_to E (es ++ [EIo i]) (run_job E w i) s' /\ rel E (replay rs1) (contents s' (i_dir x)).
Proof.
  intros HO Hr Hx Hq Ew HW.
  destruct (reach_inst E keyof es w rs0 i x HO Hr Hx) as (Hrun & _).
  assert (HO1 : ordinary E keyof (es ++ [EIo i])).
  { destruct HO as [A B D G]. split; auto.
    - apply Forall_app. split; [exact B|]. constructor; [exact Logic.I|constructor].
    - intros p p'. rewrite paths_app. cbn [paths flat_map]. rewrite app_nil_r. apply D.
    - rewrite writes_app. change (writes [EIo i]) with 0. rewrite N.add_0_r. exact G. }
  assert (Hr1 : run E world0 (es ++ [EIo i]) = Some (run_job E w i, rs0 ++ [ROk None])).
  { rewrite run_app, Hr. reflexivity. }
  set (x1 := i_after x q IoRun s1).
  assert (Hj : run_job E w i = set_seed (set_inode (set_inst w i x1) (i_ino x) (s_file s1)) (s_seed s1)).
  { unfold run_job. rewrite Hx, Hrun, Hq, Ew. reflexivity. }
  destruct (persisted E keyof (es ++ [EIo i]) (run_job E w i) _ i x1 rs1 c HO1 Hr1) as (s' & A & B).
  - rewrite Hj. cbn. apply lookup_insert.
  - eapply WOk_ext; [..|exact HW].
    + rewrite Hj. cbn [i_st s_file x1 i_after i_ino]. unfold inode. cbn. rewrite lookup_insert. reflexivity.
    + reflexivity.
    + reflexivity.
  - exists s'. auto.
Qed.

(** The part [S] of [T] that the first records of a compaction hold. *)
Lemma rel_prefix (E : env) (M : gmap bytes kv) (T : gmap bytes value) l1 l2 :
  keyed M -> Permutation (l1 ++ l2) (live M) -> rel E M T ->
  exists S : gmap bytes value, S ⊆ T /\ rel E (replay l1) S /\ (l1 = [] -> S = ∅) /\ (l2 = [] -> S = T).
Proof.
  intros HM HP HR. unfold rel, smap in HR.
  assert (Hnd : NoDup (map kv_key (l1 ++ l2))).
  { rewrite HP, live_keys by exact HM. apply NoDup_fst_map_to_list. }
  assert (Hsub : forall k m, replay l1 !! k = Some m -> M !! k = Some m).
  { intros k m Hk. destruct (keyed_replay l1 k m Hk) as [Hkey Hd].
    rewrite <- (replay_live M (l1 ++ l2) HM HP). unfold replay. rewrite fold_left_app.
    rewrite map_app, NoDup_app in Hnd. destruct Hnd as (_ & Hdis & _).
    rewrite fold_apply_fresh; [exact Hk|]. apply Hdis.
    destruct (decide (k ∈ map kv_key l1)) as [|Hno]; [assumption|].
    unfold replay in Hk. rewrite fold_apply_fresh, lookup_empty in Hk by exact Hno. discriminate Hk. }
  set (S := filter (fun kv : bytes * value => is_Some (replay l1 !! kv.1)) T). exists S. split_and!.
  - apply map_filter_subseteq.
  - unfold rel, smap. intros k. destruct (S !! k) as [v|] eqn:Hf.
    + unfold S in Hf. apply map_filter_lookup_Some in Hf as [Hv Hm]. cbn in Hm. unfold is_Some in Hm. destruct Hm as [m Hm]. exists m. split; [exact Hm|].
      specialize (HR k). rewrite Hv in HR. destruct HR as (m' & A & B). rewrite (Hsub k m Hm) in A. injection A as <-. exact B.
    + destruct (replay l1 !! k) as [m|] eqn:Hk; [|reflexivity]. exfalso.
      specialize (HR k). destruct (T !! k) as [v|] eqn:Hv; [|rewrite (Hsub k m Hk) in HR; discriminate HR].
      unfold S in Hf. apply map_filter_lookup_None in Hf as [Hf|Hf]; [congruence|]. apply (Hf v Hv). cbn. rewrite Hk. eauto.
  - intros ->. apply map_eq. intros k. rewrite lookup_empty. apply map_filter_lookup_None. right. intros v _. cbn.
    unfold replay. cbn [fold_left]. rewrite lookup_empty. intros [? Hc]. discriminate Hc.
  - intros ->. rewrite app_nil_r in HP. unfold S. rewrite (replay_live M l1 HM HP).
    apply map_eq. intros k. destruct (T !! k) as [v|] eqn:Hv.
    + apply map_filter_lookup_Some. split; [exact Hv|]. cbn. specialize (HR k). rewrite Hv in HR. destruct HR as (m & -> & _). eauto.
    + apply map_filter_lookup_None. left. exact Hv.
Qed.

(** What holds.  A kill between two file changes of a compaction, not right
    after a content length (other than the initial reset) was stored, leaves
    a directory that can be opened and holds a part [S] of the new state
    [s'] (the persisted state after the interrupted write): no wrong and no
    old values.  [S] is empty after the first change and everything after
    the last one.  Missing: that [S] is everything persisted (it is not), and
    kills at the other points. *)
Theorem C23_kill_in_compaction_partial E keyof es w rs0 i x m dup q j h p :
  ordinary E keyof es -> run E world0 es = Some (w, rs0) -> w_insts w !! i = Some x -> i_queue x = JWrite m dup :: q ->
  compacts E w i -> In p (paths es) -> e_canon E p = i_dir x ->
  (1 <= j <= length (job_effects E w i))%nat ->
  (j = 1%nat \/ forall d, nth_error (job_effects E w i) (j - 1) <> Some (FStore 0 d)) ->
  exists s' w' S, killed_to E (es ++ [EIo i]) (run_job E w i) s' /\
    step E (crash_after E w i j) (ENew h p (keyof (i_dir x))) = Some (w', ROk None) /\ answers_as E w' h S /\
    S ⊆ contents s' (i_dir x) /\ (j = 1%nat -> S = ∅) /\
    (j = length (job_effects E w i) -> S = contents s' (i_dir x)).
Proof.
  intros HO Hr Hx Hq Hc Hp Hcp Hj Hbd.
  destruct (compaction_job E keyof es w rs0 i x m dup q HO Hr Hx Hq Hc) as (s1 & rs1 & order & effs & c0 & Ew & HW1 & HK & Ho & Heff & _ & Hpre).
  destruct (after_job E keyof es w rs0 i x s1 rs1 _ m dup q HO Hr Hx Hq Ew HW1) as (s' & Hkt & HR).
  destruct j as [|j]; [lia|]. rewrite Heff in Hj. cbn [length] in Hj.
  assert (Hb : boundary effs j).
  { destruct j as [|j]; [exact Logic.I|]. destruct Hbd as [Hbd|Hbd]; [discriminate Hbd|]. cbn [boundary]. intros d Hd.
    apply (Hbd d). rewrite Heff. cbn. exact Hd. }
  destruct (Hpre j ltac:(lia) Hb) as (l1 & l2 & sj & -> & Ij & Fj & Hall).
  destruct (rel_prefix E (replay rs1) (contents s' (i_dir x)) l1 l2 HK Ho HR) as (S & HS & HRS & HS1 & HS2).
  destruct (eo_plat _ (or_env _ _ _ HO)) as [H64 Hpage Hmax Hhord]. pose proof (law_of E (or_env _ _ _ HO) _ x eq_refl) as Hlaw.
  pose proof (inv_read_all _ _ _ _ H64 Hlaw Hmax _ _ Ij) as Hread. rewrite (view_full _ (inv_ml _ _ _ _ _ Ij)) in Hread.
  assert (Hne : s_file sj <> []).
  { destruct (inv_file _ _ _ _ _ Ij) as (c & sl & _ & Hf). rewrite Hf. intros G. apply (f_equal (length (A:=byte))) in G.
    unfold shape in G. rewrite app_length, be_length in G. cbn in G. lia. }
  pose proof (reopen_crashed E keyof es w rs0 i x (s_file sj) h p HO Hr Hx Hne Hp Hcp) as Hopen. rewrite Hread in Hopen.
  destruct Hopen as (w' & Hst & Hget). exists s', w', S. split_and!; auto.
  - unfold crash_after. rewrite Hx, <- Fj. exact Hst.
  - intros k t Ht. rewrite Hget. unfold get_answer. rewrite (get_refines E (replay l1) _ k t HRS Ht). reflexivity.
  - intros Hj1. apply HS1. assert (j = 0)%nat as -> by lia. cbn [firstn] in Fj.
    destruct l1 as [|r l1]; [reflexivity|exfalso].
    destruct (inv_content _ _ _ _ H64 Hlaw Hmax _ _ Ij) as (c & sl & Ec & Ef & Elc).
    rewrite Heff in Fj. unfold apply_effs in Fj. cbn [firstn fold_left] in Fj. rewrite Ef in Fj.
    destruct (reach_inst E keyof es w rs0 i x HO Hr Hx) as (_ & _ & _ & q' & rs2 & c2 & _ & _ & (I2 & _) & _).
    destruct (inv_content _ _ _ _ H64 Hlaw Hmax _ _ I2) as (c3 & sl3 & Ec3 & Ef3 & Elc3). cbn [i_st s_file] in Ef3.
    rewrite Ef3 in Fj. unfold shape in Fj. change (be 8 (len c3) ++ c3 ++ sl3) with ([] ++ be 8 (len c3) ++ (c3 ++ sl3)) in Fj.
    rewrite apply_store_mid in Fj; [|reflexivity|rewrite !len_be; reflexivity]. cbn [app] in Fj.
    apply app_inj_1 in Fj as [Fj _]; [|rewrite !be_length; reflexivity].
    pose proof (inv_size _ _ _ _ _ Ij) as Hz. rewrite Ef, shape_len in Hz.
    apply (f_equal unbe) in Fj. rewrite !unbe_be_small in Fj; [|reflexivity|lia].
    rewrite Elc in Fj. unfold total in Fj. cbn [fold_right] in Fj. pose proof (law_min _ _ _ Hlaw r). lia.
  - rewrite Heff. cbn [length]. intros Hj1. apply HS2, Hall. lia.
Qed.

(** So a kill right after the first file change of a compaction loses every
    key of the store. *)
Theorem C23_kill_after_reset_loses_everything E keyof es w rs0 i x m dup q h p :
  ordinary E keyof es -> run E world0 es = Some (w, rs0) -> w_insts w !! i = Some x -> i_queue x = JWrite m dup :: q ->
  compacts E w i -> In p (paths es) -> e_canon E p = i_dir x ->
  exists w', step E (crash_after E w i 1) (ENew h p (keyof (i_dir x))) = Some (w', ROk None) /\ answers_as E w' h ∅.
Proof.
  intros HO Hr Hx Hq Hc Hp Hcp.
  destruct (C23_kill_in_compaction_partial E keyof es w rs0 i x m dup q 1 h p HO Hr Hx Hq Hc Hp Hcp) as (s' & w' & S & _ & A & B & _ & D & _).
  - destruct Hc as (rest & ->). cbn. lia.
  - left. reflexivity.
  - exists w'. rewrite <- (D eq_refl). auto.
Qed.

Theorem C23_kill_in_compaction_refuted : ~ compaction_kill_safe (ex_env FPlain).
Proof.
  intros H. set (E := ex_env FPlain) in *.
  assert (T : match run E world0 ex_full with
    | Some (w, _) => match w_insts w !! 0 with
       | Some x => match i_queue x with
          | JWrite m dup :: q => bool_decide (i_dir x = dir_d) && bool_decide (kv_key m = k1) && Nat.eqb (length q) 0 &&
              forallb (fun jy => fst jy =? 0) (map_to_list (w_insts w)) &&
              match job_effects E w 0 with FStore 0 h :: _ => bool_decide (h = be 8 0) | _ => false end
          | _ => false end
       | None => false end
    | None => false end = true) by (vm_compute; reflexivity).
  destruct (run E world0 ex_full) as [[w rs0]|] eqn:Hr; [|discriminate T].
  destruct (w_insts w !! 0) as [x|] eqn:Hx; [|discriminate T].
  destruct (i_queue x) as [|[m dup|] q] eqn:Hq; try discriminate T.
  apply andb_true_iff in T as [T Te]. apply andb_true_iff in T as [T Ti]. apply andb_true_iff in T as [T Tq]. apply andb_true_iff in T as [Td Tk].
  apply bool_decide_eq_true in Td. apply bool_decide_eq_true in Tk. apply Nat.eqb_eq in Tq.
  assert (Hc : compacts E w 0).
  { unfold compacts. destruct (job_effects E w 0) as [|[[|a] h|] rest]; try discriminate Te. apply bool_decide_eq_true in Te. subst h. eauto. }
  assert (HO : ordinary E ex_keyof ex_full).
  { apply ordinaryb_ok; [apply ex_env_ok; exact Logic.I|vm_compute; reflexivity]. }
  assert (Hin : In dir_d (paths ex_full)) by (left; reflexivity).
  assert (Hcn : e_canon E dir_d = i_dir x) by (rewrite Td; vm_compute; reflexivity).
  destruct (C23_kill_after_reset_loses_everything E ex_keyof ex_full w rs0 0 x m dup q 1 dir_d HO Hr Hx Hq Hc Hin Hcn) as (wb & Hb1 & Hb2).
  unfold crash_after in Hb1. rewrite Hx in Hb1.
  assert (Hci : crash_image (job_effects E w 0) (inode w (i_ino x)) (apply_effs (firstn 1 (job_effects E w 0)) (inode w (i_ino x)))).
  { exists 1%nat. split; [|left; reflexivity]. destruct Hc as (rest & Hc). rewrite Hc. cbn [length]. lia. }
  destruct (H ex_keyof ex_full w rs0 0 x m dup q _ 1 dir_d HO Hr Hx Hq Hc Hin Hcn Hci) as (s' & wg & (_ & Hkt) & Hg1 & Hg2).
  rewrite Hb1 in Hg1. injection Hg1 as <-.
  assert (HT : get_ok TStr) by (eexists; reflexivity).
  specialize (Hb2 k2 TStr HT). rewrite (Hg2 k2 TStr HT) in Hb2 by (rewrite Tk; discriminate). injection Hb2 as Hb2.
  rewrite Td in Hb2. destruct (Hkt dir_d) as (es1 & es2 & s1 & rs1 & Hes & Hsp & Hco & Hj). rewrite Hco in Hb2.
  assert (Hm : mutations (e_canon E) s1 dir_d es2 = 1%nat).
  { destruct Hj as [(j & y & Hy & Dy & ->)|[Hno _]]; [|destruct (Hno 0 x Hx Td)].
    assert (j = 0) as ->.
    { rewrite forallb_forall in Ti. specialize (Ti (j, y)). cbn in Ti. apply N.eqb_eq, Ti. apply elem_of_list_In, elem_of_map_to_list, Hy. }
    rewrite Hx in Hy. injection Hy as <-. rewrite Hq. cbn. rewrite Tq. reflexivity. }
  assert (G : forallb (fun n => match spec_run (e_canon E) spec0 (firstn n ex_full) with
     | Some (s, _) => negb (Nat.eqb (mutations (e_canon E) s dir_d (skipn n ex_full)) 1) ||
         match spec_get (contents s dir_d) k2 TStr with ROk _ => true | _ => false end
     | None => true end) (seq 0 9) = true) by (vm_compute; reflexivity).
  assert (He1 : es1 = firstn (length es1) ex_full) by (rewrite Hes, firstn_app, Nat.sub_diag, firstn_all, app_nil_r; reflexivity).
  assert (He2 : es2 = skipn (length es1) ex_full) by (rewrite Hes, skipn_app, Nat.sub_diag, skipn_all; reflexivity).
  rewrite forallb_forall in G. specialize (G (length es1)). rewrite <- He1, <- He2, Hsp, Hm in G.
  rewrite Hb2 in G. assert (Hl : In (length es1) (seq 0 9)).
  { apply in_seq. split; [lia|]. change 9%nat with (S (length ex_full)). rewrite Hes, app_length. lia. }
  specialize (G Hl). vm_compute in G. discriminate G.
Qed.

(** Both builds and a compaction in reach of the theorems: the page is full
    and the running job has four more file changes after the reset. *)
Example C23_example :
  ordinary (ex_env FPlain) ex_keyof ex_full /\
  match run (ex_env FPlain) world0 ex_full with
  | Some (w, _) => match w_insts w !! 0 with
     | Some x => i_dir x = dir_d /\ compacts (ex_env FPlain) w 0 /\ length (job_effects (ex_env FPlain) w 0) = 5%nat /\
         (exists m dup q, i_queue x = JWrite m dup :: q) /\
         forall d, nth_error (job_effects (ex_env FPlain) w 0) 2 <> Some (FStore 0 d)
     | None => False end
  | None => False end.
Proof.
  split; [apply ordinaryb_ok; [apply ex_env_ok; exact Logic.I|vm_compute; reflexivity]|].
  assert (T : match run (ex_env FPlain) world0 ex_full with
    | Some (w, _) => match w_insts w !! 0 with
       | Some x => bool_decide (i_dir x = dir_d) && Nat.eqb (length (job_effects (ex_env FPlain) w 0)) 5 &&
              match job_effects (ex_env FPlain) w 0 with
              | FStore 0 h :: _ :: FStore (Npos _) _ :: _ => bool_decide (h = be 8 0) | _ => false end &&
              match i_queue x with JWrite _ _ :: _ => true | _ => false end
       | None => false end
    | None => false end = true) by (vm_compute; reflexivity).
  destruct (run (ex_env FPlain) world0 ex_full) as [[w rs0]|]; [|discriminate T].
  destruct (w_insts w !! 0) as [x|]; [|discriminate T].
  apply andb_true_iff in T as [T Tq]. apply andb_true_iff in T as [T Te]. apply andb_true_iff in T as [Td Tl].
  apply bool_decide_eq_true in Td. apply Nat.eqb_eq in Tl. unfold compacts.
  destruct (job_effects (ex_env FPlain) w 0) as [|[[|a] h|] [|e1 [|[[|a2] h2|] rest]]]; try discriminate Te.
  apply bool_decide_eq_true in Te. subst h. split_and!; auto.
  - eauto.
  - destruct (i_queue x) as [|[m dup|] q]; try discriminate Tq. eauto.
Qed.

(** * C24 *)

(** The wished-for property: the value of a put that returned Ok is there
    after a kill at any later moment. *)
Definition put_survives_kill (E : env) : Prop :=
  forall keyof es h hd key v w rs h',
  ordinary E keyof (es ++ [EPut h key v]) -> run E world0 (es ++ [EPut h key v]) = Some (w, rs ++ [ROk None]) ->
  w_handles w !! h = Some hd ->
  exists w1 w2, step E (killed w) (ENew h' (h_path hd) (h_key hd)) = Some (w1, ROk None) /\
    step E w1 (EGet h' key (type_of v)) = Some (w2, ROk (Some v)).

Theorem C24_put_survives_kill_refuted : ~ put_survives_kill (ex_env FPlain).
Proof.
  intros H. set (E := ex_env FPlain) in *.
  assert (T : match run E world0 ([ENew 0 dir_d ex_key] ++ [EPut 0 k1 (VI32 5)]) with
    | Some (w, rs) => match rs with [ROk None; ROk None] => true | _ => false end && match w_handles w !! 0 with
       | Some hd => bool_decide (h_path hd = dir_d) &&
          match step E (killed w) (ENew 1 (h_path hd) (h_key hd)) with
          | Some (w1, ROk None) => match step E w1 (EGet 1 k1 TI32) with
             | Some (_, RErr KeyNotFound) => true | _ => false end
          | _ => false end
       | None => false end
    | None => false end = true) by (vm_compute; reflexivity).
  destruct (run E world0 ([ENew 0 dir_d ex_key] ++ [EPut 0 k1 (VI32 5)])) as [[w rs]|] eqn:Hr; [|discriminate T].
  apply andb_true_iff in T as [T1 T]. destruct rs as [|[[|]| |] [|[[|]| |] [|]]]; try discriminate T1.
  destruct (w_handles w !! 0) as [hd|] eqn:Hh; [|discriminate T]. apply andb_true_iff in T as [_ T].
  destruct (H ex_keyof [ENew 0 dir_d ex_key] 0 hd k1 (VI32 5) w [ROk None] 1) as (w1 & w2 & A & B); auto.
  { apply ordinaryb_ok; [apply ex_env_ok; exact Logic.I|vm_compute; reflexivity]. }
  rewrite A in T. cbn [type_of] in B. rewrite B in T. discriminate T.
Qed.

Lemma no_mutations canon d es : forall s s' rs, spec_run canon s es = Some (s', rs) -> mutations canon s d es = 0%nat ->
  contents s' d = contents s d.
Proof.
  induction es as [|e es IH]; intros s s' rs Hrun Hm; cbn [spec_run mutations] in *; [injection Hrun as <- _; reflexivity|].
  destruct (spec_step canon s e) as [[s1 r]|] eqn:Es; [|discriminate].
  destruct (spec_run canon s1 es) as [[s2 rs2]|] eqn:E2; [|discriminate]. injection Hrun as <- _.
  destruct (mutates s d e) eqn:Em; [discriminate Hm|]. rewrite (IH s1 s2 rs2 E2) by lia.
  unfold mutates in Em. unfold spec_step in Es.
  destruct e as [h path key|h key v|h key|h key t|h key t|h key|h|h|h|h|i|]; try discriminate Es.
  - destruct (sp_handles s !! h); [discriminate Es|]. injection Es as <- _. reflexivity.
  - destruct (sp_handles s !! h) as [d'|]; [|discriminate Es]. injection Es as <- _.
    apply bool_decide_eq_false in Em. unfold set_contents, contents. cbn. rewrite lookup_insert_ne by congruence. reflexivity.
  - destruct (sp_handles s !! h); [|discriminate Es]. injection Es as <- _. reflexivity.
  - destruct (sp_handles s !! h) as [d'|] eqn:Eh; [|discriminate Es]. injection Es as <- _.
    apply bool_decide_eq_false in Em. unfold set_contents, contents in *. cbn. destruct (decide (d' = d)) as [->|Hne].
    + rewrite lookup_insert. cbn. apply delete_notin. destruct (default ∅ (sp_dirs s !! d) !! key) eqn:G; [|reflexivity].
      destruct Em. split; [reflexivity|]. eauto.
    + rewrite lookup_insert_ne by congruence. reflexivity.
  - destruct (sp_handles s !! h) as [d'|]; [|discriminate Es]. injection Es as <- _.
    apply bool_decide_eq_false in Em. unfold set_contents, contents. cbn. rewrite lookup_insert_ne by congruence. reflexivity.
  - destruct (sp_handles s !! h); [|discriminate Es]. injection Es as <- _. reflexivity.
  - injection Es as <- _. reflexivity.
Qed.

(** What holds: once the background writer of the directory has no job left,
    every call made so far survives a kill.  Missing: the time between the
    return of the put and the end of its background job. *)
Theorem C24_put_survives_kill_partial E keyof es es' d w rs :
  ordinary E keyof (es ++ es') -> run E world0 es = Some (w, rs) ->
  (forall i x, w_insts w !! i = Some x -> i_dir x = d -> i_queue x = []) ->
  exists sp s', spec_run (e_canon E) spec0 es = Some (sp, rs) /\ contents s' d = contents sp d /\ sp_handles s' = ∅ /\
  forall w' rs', run E w (EKill :: es') = Some (w', ROk None :: rs') -> exists s'', spec_run (e_canon E) s' es' = Some (s'', rs').
Proof.
  intros HO Hr Hq. destruct (reach_prefix E keyof _ HO es es' w rs eq_refl Hr) as (sp & Hsp & _).
  destruct (C21_exactly_the_completed_jobs_survive E keyof es es' w rs HO Hr) as (s' & (Hh & Hd) & Hans).
  exists sp, s'. split_and!; auto. destruct (Hd d) as (es1 & es2 & s1 & rs1 & -> & Hsp1 & Hc & Hj). rewrite Hc.
  rewrite spec_run_app, Hsp1 in Hsp. destruct (spec_run (e_canon E) s1 es2) as [[s2 rb]|] eqn:E2; [|discriminate Hsp].
  injection Hsp as <- _. symmetry. eapply no_mutations; [exact E2|].
  destruct Hj as [(i & x & Hx & Dx & ->)|[_ ->]]; [|reflexivity]. rewrite (Hq i x Hx Dx). reflexivity.
Qed.

Example C24_example :
  ordinary (ex_env FPlain) ex_keyof ([ENew 0 dir_d ex_key; EPut 0 k1 (VI32 5); EIo 0] ++ [ENew 1 dir_d ex_key; EGet 1 k1 TI32]) /\
  results (ex_env FPlain) ([ENew 0 dir_d ex_key; EPut 0 k1 (VI32 5); EIo 0] ++ EKill :: [ENew 1 dir_d ex_key; EGet 1 k1 TI32])
    = Some [ROk None; ROk None; ROk None; ROk None; ROk None; ROk (Some (VI32 5))].
Proof.
  split; [apply ordinaryb_ok; [apply ex_env_ok; exact Logic.I|vm_compute; reflexivity]|vm_compute; reflexivity].
Qed.

(** * C15 *)

(** What a kill inside the very first open of directory [d] leaves behind:
    the data file exists ([f]: still without a page, or with a page of
    zeros; config.rs:15-34), and the nonce file is as before, or was created
    and is incomplete ([meta]; encrypt.rs:60-66); the random generator may
    have been used. *)
Definition half_created (E : env) (w : world) (d f : bytes) (meta : option bytes) (rng : N) : world :=
  World (<[d := Dir (Some (w_next_ino w)) meta]> (w_dirs w)) (<[w_next_ino w := f]> (w_inodes w)) (w_next_ino w + 1)
        ∅ (w_next_inst w) ∅ ∅ false rng (w_seed w).

Definition partial_meta (E : env) (w : world) (d : bytes) (meta : option bytes) : Prop :=
  meta = d_meta (dir_of w d) \/ match meta with Some n => is_encrypted (e_feat E) = true /\ length n <> nonce_len | None => False end.

Lemma rng_WInv E keyof (U : bytes -> Prop) w sp H n rng :
  WInv E keyof U w sp H n ->
  WInv E keyof U (World (w_dirs w) (w_inodes w) (w_next_ino w) (w_insts w) (w_next_inst w) (w_handles w) (w_reg w) (w_poison w) rng (w_seed w)) sp H n.
Proof. intros [A1 A2 A3 A4 A5 A6 A7 A8]. split; try assumption.
  intros i x Hx. destruct (A5 i x Hx) as (B1 & B2 & B3). split; [exact B1|]. split; [|exact B3].
  eapply (inst_ok_frame E); [..|exact B2]; auto; reflexivity.
Qed.

(** The next open repairs it: the directory is empty and everything else is
    as after a kill between jobs ([killed_to]). *)
Theorem C15_half_created_store_is_repaired E keyof es es' w rs p h f meta rng :
  ordinary E keyof (es ++ ENew h p (keyof (e_canon E p)) :: es') -> run E world0 es = Some (w, rs) ->
  d_data (dir_of w (e_canon E p)) = None ->
  (f = [] \/ f = zeros (page (e_plat E))) -> d_meta (dir_of w (e_canon E p)) = None -> partial_meta E w (e_canon E p) meta ->
  exists s', killed_to E es w s' /\ contents s' (e_canon E p) = ∅ /\
  forall w' rs', run E (half_created E w (e_canon E p) f meta rng) (ENew h p (keyof (e_canon E p)) :: es') = Some (w', rs') ->
    exists s'', spec_run (e_canon E) s' (ENew h p (keyof (e_canon E p)) :: es') = Some (s'', rs').
Proof.
  intros HO Hr Hno Hf Hm0 Hmeta. set (d := e_canon E p) in *. set (e0 := ENew h p (keyof d)) in *.
  destruct (reach_prefix E keyof _ HO es (e0 :: es') w rs eq_refl Hr) as (sp & Hsp & W).
  set (w2 := World (w_dirs w) (w_inodes w) (w_next_ino w) (w_insts w) (w_next_inst w) (w_handles w) (w_reg w) (w_poison w) rng (w_seed w)).
  assert (W2 := rng_WInv _ _ _ _ _ _ _ rng W). fold w2 in W2.
  destruct (kill_ok E keyof _ (PU_inj E keyof _ HO) w2 sp _ _ W2) as (s' & Hh & W' & Hd).
  assert (Hempty : contents s' d = ∅).
  { pose proof (fun Hn => dir_ok_clean _ _ _ _ _ _ (wi_dirs _ _ _ _ _ _ _ W' d Hn)) as G.
    change (dir_of (killed w2) d) with (dir_of w d) in G. rewrite Hno in G. apply G.
    intros i x Hx. unfold killed in Hx. cbn in Hx. rewrite lookup_empty in Hx. discriminate Hx. }
  exists s'. split; [|split; [exact Hempty|]].
  - split; [exact Hh|]. intros d1. destruct (Hd d1) as (k & Hk & HH).
    destruct (hist0_sound E keyof _ (PU_dir E keyof _ HO) (PU_key E keyof _ HO) (PU_inj E keyof _ HO) spec0 es d1 k _ sp rs Hsp HH)
      as (es1 & es2 & s1 & rs1 & A & B & C & D).
    exists es1, es2, s1, rs1. split_and!; auto. rewrite D. exact Hk.
  - intros w' rs' Hrun.
    assert (Hsame : step E (half_created E w d f meta rng) e0 = step E (killed w2) e0).
    { unfold e0. cbn [step]. unfold half_created, killed. cbn [w_handles]. rewrite lookup_empty. f_equal.
      unfold do_new. cbn [w_poison]. unfold lookup_reg. cbn [w_reg]. rewrite lookup_empty.
      unfold open_impl. fold d. destruct (e_dir_ok E p) eqn:Hok.
      2:{ exfalso. pose proof (or_calls _ _ _ HO) as HF. apply Forall_app in HF as [_ HF]. inversion HF as [|? ? HF0 _]; subst.
          cbn in HF0. destruct HF0 as [HF0 _]. congruence. }
      unfold open_config at 1. cbn [w_dirs]. unfold dir_of at 1. cbn [w_dirs]. rewrite lookup_insert. cbn [default d_data id].
      unfold open_config. change (dir_of (World (w_dirs w2) (w_inodes w2) (w_next_ino w2) ∅ (w_next_inst w2) ∅ ∅ false (w_rng w2) (w_seed w2)) d)
        with (dir_of w d). rewrite Hno. cbn [w_dirs w_inodes w_next_ino w_insts w_next_inst w_handles w_reg w_poison w_rng w_seed w2].
      unfold inode at 1. cbn [w_inodes]. rewrite lookup_insert. cbn [default id].
      assert (Hcf : config_new (e_plat E) f = config_new (e_plat E) []).
      { unfold config_new. destruct Hf as [->| ->]; [reflexivity|]. destruct (N.eqb_spec (len (zeros (page (e_plat E)))) 0); reflexivity. }
      rewrite Hcf. unfold set_inode. cbn [w_dirs w_inodes w_next_ino w_insts w_next_inst w_handles w_reg w_poison w_rng w_seed]. rewrite insert_insert, Hm0.
      destruct (feature_key (e_feat E) (keyof d)) as [k|] eqn:Hk.
      2:{ exfalso. pose proof (or_calls _ _ _ HO) as HF. apply Forall_app in HF as [_ HF]. inversion HF as [|? ? HF0 _]; subst.
          cbn in HF0. destruct HF0 as (_ & _ & HF0). apply HF0. exact Hk. }
      unfold open_nonce. destruct (is_encrypted (e_feat E)) eqn:Henc.
      - cbn [w_dirs w_inodes w_next_ino w_insts w_next_inst w_handles w_reg w_poison w_rng w_seed]. unfold dir_of. cbn [w_dirs]. rewrite !lookup_insert.
        cbn [default id d_meta d_data].
        assert (Hn : init_nonce meta (e_rng E rng) = init_nonce None (e_rng E rng)).
        { destruct Hmeta as [->|Hmeta]; [rewrite Hm0; reflexivity|]. destruct meta as [n|]; [|reflexivity].
          unfold init_nonce. destruct Hmeta as [_ Hmeta]. apply Nat.eqb_neq in Hmeta. rewrite Hmeta. reflexivity. }
        rewrite Hn. cbn [init_nonce]. rewrite !insert_insert. reflexivity.
      - destruct Hmeta as [->|Hmeta]; [rewrite Hm0; reflexivity|]. destruct meta; [|contradiction]. destruct Hmeta as [Hmeta _]. congruence. }
    cbn [run] in Hrun. rewrite Hsame in Hrun. change (run E (killed w2) (e0 :: es') = Some (w', rs')) in Hrun.
    pose proof (or_calls _ _ _ HO) as HF. apply Forall_app in HF as [_ HF].
    pose proof (run_ok E (or_env _ _ _ HO) keyof _ (PU_dir E keyof _ HO) (PU_key E keyof _ HO) (PU_inj E keyof _ HO) (e0 :: es') (killed w2) s' (hist0 s')
      _ W' HF) as G.
    specialize (G (in_U_all (es ++ e0 :: es') es (e0 :: es') [] ltac:(rewrite app_nil_r; reflexivity))).
    rewrite <- writes_app in G. specialize (G (or_room _ _ _ HO)).
    rewrite Hrun in G. destruct (spec_run (e_canon E) s' (e0 :: es')) as [[s'' r]|]; [|contradiction]. destruct G as [-> _]. eauto.
Qed.

(** A kill while the file is being enlarged: what survives is the state after
    the jobs completed before. *)
Theorem C15_kill_during_growth E keyof es es' w rs i n rest :
  ordinary E keyof (es ++ es') -> room E (writes (es ++ es') + 1) -> run E world0 es = Some (w, rs) ->
  job_effects E w i = FExtend n :: rest ->
  exists s', killed_to E es w s' /\
  forall w' rs', run E (crash_after E w i 1) es' = Some (w', rs') -> exists s'', spec_run (e_canon E) s' es' = Some (s'', rs').
Proof. apply C21_kill_while_growing. Qed.

(** An open of the encrypted directory "e" that is killed after the nonce file
    was created empty, while "d" has a value. *)
Definition ex_half (f : bytes) (meta : option bytes) : option (list result) :=
  match run (ex_env (FEncrypted toy_aead)) world0 [ENew 0 dir_d ex_key; EPut 0 k1 (VI32 5); EIo 0] with
  | Some (w, _) => option_map snd (run (ex_env (FEncrypted toy_aead)) (half_created (ex_env (FEncrypted toy_aead)) w dir_e f meta (w_rng w + 1))
       [ENew 1 dir_e ex_key; EGet 1 k1 TI32; EPut 1 k1 (VI32 6); EGet 1 k1 TI32; ENew 2 dir_d ex_key; EGet 2 k1 TI32])
  | None => None
  end.

Example C15_example :
  ordinary (ex_env (FEncrypted toy_aead)) ex_keyof ([ENew 0 dir_d ex_key; EPut 0 k1 (VI32 5); EIo 0] ++
    [ENew 1 dir_e ex_key; EGet 1 k1 TI32; EPut 1 k1 (VI32 6); EGet 1 k1 TI32; ENew 2 dir_d ex_key; EGet 2 k1 TI32]) /\
  ex_half [] None = Some [ROk None; RErr KeyNotFound; ROk None; ROk (Some (VI32 6)); ROk None; ROk (Some (VI32 5))] /\
  ex_half (zeros 64) (Some [x01; x02]) = ex_half [] None.
Proof.
  split; [apply ordinaryb_ok; [apply ex_env_ok, toy_aead_correct|vm_compute; reflexivity]|].
  split; [vm_compute; reflexivity|vm_compute; reflexivity].
Qed.

(** * Cases meeting the hypotheses of C21 and C22 *)

Definition ex_kills : list event :=
  [ENew 0 dir_d ex_key; EPut 0 k1 (VI32 5); EIo 0; EPut 0 k2 hello; EKill; ENew 1 dir_d ex_key; EGet 1 k1 TI32; EGet 1 k2 TStr;
   EPut 1 k1 (VI32 6); EIo 1; EKill; ENew 2 dir_d ex_key; EGet 2 k1 TI32].

Example C21_example :
  ordinary_with_kills (ex_env FPlain) ex_keyof ex_kills /\
  results (ex_env FPlain) ex_kills = Some [ROk None; ROk None; ROk None; ROk None; ROk None; ROk None; ROk (Some (VI32 5));
    RErr KeyNotFound; ROk None; ROk None; ROk None; ROk None; ROk (Some (VI32 6))].
Proof.
  split; [|vm_compute; reflexivity]. split.
  - apply ex_env_ok. exact Logic.I.
  - apply List.Forall_forall. intros e He. cbn in He.
    repeat (destruct He as [<-|He]; [first [left; reflexivity|right; apply call_okb_ok; vm_compute; reflexivity]|]). contradiction.
  - apply one_spellingb_ok. vm_compute. reflexivity.
  - apply roomb_ok. vm_compute. reflexivity.
Qed.

(** The second record of [ex_put1] is torn after ten bytes. *)
Definition ex_torn (f : bytes) (effs : list eff) : bytes :=
  match effs with
  | [h; FStore a b] => apply_eff (FStore a (take 10 b ++ take (length b - 10) (drop (N.to_nat a + 10) f))) (apply_eff h f)
  | _ => f
  end.

Example C22_example :
  ordinary (ex_env FPlain) ex_keyof ex_put1 /\
  match run (ex_env FPlain) world0 ex_put1 with
  | Some (w, _) => match w_insts w !! 0 with
     | Some x => (exists m dup q, i_queue x = JWrite m dup :: q) /\ ~ compacts (ex_env FPlain) w 0 /\ i_dir x = dir_d /\
         exists a b, last (job_effects (ex_env FPlain) w 0) = Some (FStore a b) /\
         let f' := ex_torn (inode w (i_ino x)) (job_effects (ex_env FPlain) w 0) in
         crash_image (job_effects (ex_env FPlain) w 0) (inode w (i_ino x)) f' /\
         take 4 (drop (N.to_nat a) f') = take 4 b /\ take 8 f' <> take 8 (inode w (i_ino x)) /\
         dec (i_codec (ex_env FPlain) x) (drop (N.to_nat a) f') (i_pos x) = ROk (None, len b)
     | None => False end
  | None => False end.
Proof.
  split; [apply ordinaryb_ok; [apply ex_env_ok; exact Logic.I|vm_compute; reflexivity]|].
  assert (T : match run (ex_env FPlain) world0 ex_put1 with
    | Some (w, _) => match w_insts w !! 0 with
       | Some x => bool_decide (i_dir x = dir_d) && match i_queue x with JWrite _ _ :: _ => true | _ => false end &&
            match job_effects (ex_env FPlain) w 0 with
            | [FStore 0 h; FStore a b] => negb (bool_decide (h = be 8 0)) && (8 <=? a) && (10 <=? len b) && (a + len b <=? len (inode w (i_ino x))) &&
                (let f' := ex_torn (inode w (i_ino x)) [FStore 0 h; FStore a b] in
                 bool_decide (take 4 (drop (N.to_nat a) f') = take 4 b) && negb (bool_decide (take 8 f' = take 8 (inode w (i_ino x)))) &&
                 bool_decide (drop (N.to_nat a) (apply_eff (FStore 0 h) (inode w (i_ino x))) = drop (N.to_nat a) (inode w (i_ino x))) &&
                 match dec (i_codec (ex_env FPlain) x) (drop (N.to_nat a) f') (i_pos x) with ROk (None, l) => l =? len b | _ => false end)
            | _ => false end
       | None => false end
    | None => false end = true) by (vm_compute; reflexivity).
  destruct (run (ex_env FPlain) world0 ex_put1) as [[w rs0]|]; [|discriminate T].
  destruct (w_insts w !! 0) as [x|]; [|discriminate T].
  apply andb_true_iff in T as [T Te]. apply andb_true_iff in T as [Td Tq]. apply bool_decide_eq_true in Td.
  unfold compacts. destruct (job_effects (ex_env FPlain) w 0) as [|[[|a0] h|] [|[a b|] [|]]]; try discriminate Te.
  apply andb_true_iff in Te as [Te T2]. apply andb_true_iff in Te as [Te Tfit]. apply andb_true_iff in Te as [Te Tb]. apply andb_true_iff in Te as [Tn Ta].
  apply N.leb_le in Ta. apply N.leb_le in Tb. apply N.leb_le in Tfit.
  cbv zeta in T2. apply andb_true_iff in T2 as [T2 T6]. apply andb_true_iff in T2 as [T2 T5]. apply andb_true_iff in T2 as [T3 T4].
  apply bool_decide_eq_true in T3. apply bool_decide_eq_true in T5. apply negb_true_iff, bool_decide_eq_false in T4, Tn.
  split_and!.
  - destruct (i_queue x) as [|[m dup|] q]; try discriminate Tq. eauto.
  - intros (rest & Hrest). apply Tn. pose proof (f_equal (fun l => match l with FStore _ d :: _ => d | _ => [] end) Hrest) as G. exact G.
  - exact Td.
  - exists a, b. split; [reflexivity|]. cbv zeta. split_and!; auto.
    + exists 1%nat. split; [cbn; lia|]. right. exists (FStore a b). split; [reflexivity|]. cbn [ex_torn].
      apply (torn_store a b). { exact Ta. }
      cbn [firstn apply_effs fold_left]. unfold apply_effs. cbn [fold_left]. rewrite T5. set (f := inode w (i_ino x)) in *.
      assert (Hb : (10 <= length b)%nat) by (unfold len in Tb; lia).
      assert (Hl : (N.to_nat a + length b <= length f)%nat) by (unfold len in Tfit; lia).
      split.
      * rewrite app_length, !take_length, drop_length. lia.
      * intros j c Hj. destruct (decide (j < 10)%nat) as [Hlt|Hge].
        -- left. rewrite lookup_app_l in Hj by (rewrite take_length; lia). apply lookup_take_Some in Hj as [Hj _]. exact Hj.
        -- right. rewrite lookup_app_r in Hj by (rewrite take_length; lia). apply lookup_take_Some in Hj as [Hj _].
           rewrite lookup_drop in Hj |- *. rewrite take_length in Hj. rewrite <- Hj. f_equal. lia.
    + destruct (dec _ _ _) as [[[?|] l]| |]; try discriminate T6. apply N.eqb_eq in T6. subst l. reflexivity.
Qed.
