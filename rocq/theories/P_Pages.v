(** C88: stores that move between page sizes. *)
From Verif Require Import Bytes Utf8 Proto ProtoFacts Value Codec Store StoreFacts Encrypt World Spec Hyps Refine WorldInv WorldStep Main Frames Reach Examples P_Map P_Damaged.
From Coq Require Import ZifyBool ZifyNat ZifyN.
From Coq Require String. Import (notations) String.
Local Open Scope N_scope.

(** The same library on a system whose pages have [p] bytes: [page_size()]
    (mmkv.rs:18-34) asks the system, so the same build on the same
    directory sees another value after the system was changed to larger pages
    (Android 15) or the directory was copied to another machine. *)
Definition with_page (E : env) (p : N) : env :=
  Env (Plat (usz (e_plat E)) p (maxfile (e_plat E)) (hord (e_plat E))) (e_feat E) (e_dir_ok E) (e_canon E) (e_rng E).

(** Processes one after the other, each with its page size and its calls, on
    the same files.  A process that ends leaves the files and nothing else. *)
Fixpoint moves (E : env) (w : world) (l : list (N * list event)) : option (list (list (result))) :=
  match l with
  | [] => Some []
  | (p, es) :: r =>
      match run (with_page E p) w es with
      | Some (w', rs) => match moves E (killed w') r with Some rss => Some (rs :: rss) | None => None end
      | None => None
      end
  end.

(** What they should answer: the maps go on. *)
Fixpoint spec_moves (canon : bytes -> bytes) (sp : spec) (l : list (N * list event)) : option (list (list result)) :=
  match l with
  | [] => Some []
  | (p, es) :: r =>
      match spec_run canon sp es with
      | Some (sp', rs) => match spec_moves canon sp' r with Some rss => Some (rs :: rss) | None => None end
      | None => None
      end
  end.

(** Every process closes its stores before it ends, and whatever the maps then
    hold could be put by the next process: it fits in a page there. *)
Fixpoint moving (E : env) (sp : spec) (l : list (N * list event)) : Prop :=
  match l with
  | [] => True
  | (p, es) :: r =>
      (forall d k v, contents sp d !! k = Some v -> put_ok (with_page E p) k v) /\
      match spec_run (e_canon E) sp es with
      | Some (sp', _) => sp_handles sp' = ∅ /\ moving E sp' r
      | None => True
      end
  end.

(** How many writes on pages of [p'] bytes make a file as long as [n] writes on
    pages of [p] bytes can. *)
Definition budget (p n p' : N) : N := if p <=? p' then n else (n + 1) * ((p / p' + 1) * (p / p' + 1)).

(** There is room for the writes of all processes, [n] writes on pages of [p]
    bytes having been made. *)
Fixpoint enough (E : env) (p n : N) (l : list (N * list event)) : Prop :=
  match l with
  | [] => True
  | (p', es) :: r => room (with_page E p') (budget p n p' + writes es) /\ enough E p' (budget p n p' + writes es) r
  end.

(** Ordinary calls, each judged with the page size of its process, on files
    made by at most [n] writes on pages of [p] bytes. *)
Record ordinary_moves (E : env) (keyof : bytes -> bytes) (p n : N) (l : list (N * list event)) : Prop := {
  om_env : Forall (fun s => env_ok (with_page E s.1)) l;
  om_calls : Forall (fun s => Forall (call_ok (with_page E s.1) keyof) s.2) l;
  om_paths : one_spelling E (concat (map snd l));
  om_room : enough E p n l
}.

(** * The files *)

(** The invariant of a file whose records may be longer than a page: they were
    written with larger ones. *)
Section Moved.
Context (E : env).
Notation P := (e_plat E).
Notation F := (e_feat E).
Notation sz := (record_size F).
Notation pos_ok := (record_pos F).

Definition mOk (C : codec) (s : st) (rs : list kv) (c : N) : Prop :=
  Inv C pos_ok sz s rs /\ N.of_nat (length rs) <= c /\ len (s_file s) <= page P * (1 + c * (1 + page P)).

Definition moved : rep E := Rep E false mOk.

Section Write.
Context (HE : env_ok E) (C : codec) (HC : codec_law C pos_ok sz).

Lemma law_64 : usz P = 8%nat. Proof. apply (po_64 _ (eo_plat _ HE)). Qed.
Lemma law_max : maxfile P < 2 ^ 63. Proof. apply (po_max _ (eo_plat _ HE)). Qed.

(** The rewrite loop does not overrun if all records together need at most
    one page more than the old map has, whatever their single sizes. *)
Lemma rewrite_total l : forall s rs max,
  Inv C pos_ok sz s rs -> Forall (rec_ok sz) l -> positions_ok pos_ok (N.of_nat (length rs + length l)) ->
  max <= len (s_file s) -> used sz rs + total sz l <= max + page P ->
  len (s_file s) + page P * grow sz max (used sz rs) l <= maxfile P ->
  exists s', rewrite P C max l s = (s', true) /\ Inv C pos_ok sz s' (rs ++ l) /\
    len (s_file s') = len (s_file s) + page P * grow sz max (used sz rs) l.
Proof using HE HC.
  pose proof law_64 as H64. pose proof law_max as Hmx.
  induction l as [|m l IH]; intros s rs max I HF Hp Hmax Ht Hb.
  - exists s. rewrite app_nil_r. cbn [rewrite grow]. rewrite N.mul_0_r, N.add_0_r. auto.
  - inversion HF as [|? ? Hm HF']; subst.
    assert (Ht' : total sz (m :: l) = sz m + total sz l) by reflexivity. rewrite Ht' in Ht. clear Ht'.
    assert (Hp1 : positions_ok pos_ok (N.of_nat (length rs) + 1)).
    { eapply positions_mono; [|exact Hp]. cbn [length]. lia. }
    destruct (inv_encode P C pos_ok sz H64 HC Hmx s rs m I Hm Hp1) as (b & Eb & Lb).
    cbn [rewrite grow] in *. rewrite Eb, (inv_write_offset P C pos_ok sz H64 HC Hmx s rs I).
    pose proof (inv_size _ _ _ _ _ I) as Hs. pose proof (inv_used P C pos_ok sz H64 HC Hmx s rs I) as Hu. destruct Hm as [Hok Hsz].
    rewrite (modulus_64 P H64), (N.mod_small (used sz rs + len b)) by lia.
    rewrite Lb.
    assert (Hstep : exists s1, (if max <? used sz rs + sz m then expand P s else (s, true)) = (s1, true) /\ Inv C pos_ok sz s1 rs /\
      len (s_file s1) = len (s_file s) + page P * (if max <? used sz rs + sz m then 1 else 0) /\
      used sz rs + sz m <= len (s_file s1) /\ s_pos s1 = s_pos s).
    { destruct (N.ltb_spec max (used sz rs + sz m)) as [Hlt|Hge].
      - destruct (expand_inv P C pos_ok sz H64 Hmx s rs I) as (s1 & E1 & I1 & _ & L1 & ML1 & PO1 & TR1 & SE1 & _); [lia|].
        exists s1. rewrite E1, L1. split_and!; auto; lia.
      - exists s. split_and!; auto; lia. }
    destruct Hstep as (s1 & E1 & I1 & L1 & Hfit & PO1). rewrite E1.
    destruct (append_incr_inv P C pos_ok sz H64 HC Hmx s1 rs m b I1 (conj Hok Hsz) Hp1) as (s2 & E2 & I2 & ML2 & L2 & TR2 & SE2 & _).
    { rewrite PO1. exact Eb. } { exact Hfit. }
    rewrite E2.
    assert (Hused : used sz (rs ++ [m]) = used sz rs + sz m).
    { unfold used. rewrite total_app. cbn [total fold_right]. lia. }
    destruct (IH s2 (rs ++ [m]) max I2 HF') as (s3 & E3 & I3 & L3).
    + eapply positions_mono; [|exact Hp]. rewrite app_length. cbn [length]. lia.
    + lia.
    + rewrite Hused. lia.
    + rewrite Hused. lia.
    + exists s3. rewrite E3. split; [reflexivity|]. rewrite <- app_assoc in I3. split; [exact I3|].
      rewrite L3, L2, L1, Hused. lia.
Qed.

Lemma moved_trim s rs m :
  Inv C pos_ok sz s rs -> rec_ok sz m -> sz m <= page P -> positions_ok pos_ok (N.of_nat (length rs) + 1) ->
  len (s_file s) < used sz rs + sz m -> len (s_file s) + page P * (1 + sz m / 5) <= maxfile P ->
  exists s' rs', trim P C s m = (s', true) /\ Inv C pos_ok sz s' rs' /\ (length rs' <= length rs + 1)%nat /\
    replay rs' = apply_kv (replay rs) m /\ len (s_file s') <= len (s_file s) + page P * (1 + sz m / 5).
Proof using HE HC.
  intros I Hm Hmp Hp Hfull Hb. pose proof law_64 as H64. pose proof law_max as Hmx. pose proof (po_hord _ (eo_plat _ HE)) as Hh.
  unfold trim. rewrite (inv_read_all P C pos_ok sz H64 HC Hmx s rs I).
  set (M := apply_kv (replay rs) m).
  assert (HM : M = replay (rs ++ [m])) by (symmetry; apply replay_snoc).
  destruct (inv_content P C pos_ok sz H64 HC Hmx _ _ I) as (c & sl & E1' & F & L).
  pose proof (inv_ml _ _ _ _ _ I) as Hml. pose proof (inv_size _ _ _ _ _ I) as Hs. pose proof (inv_used P C pos_ok sz H64 HC Hmx s rs I) as Hu.
  unfold reset.
  destruct (store_len_shape P H64 Hmx s 0 c sl Hml F) as (s1 & E1 & F1 & ML1 & PO1 & TR1 & SE1 & EF1).
  rewrite E1.
  set (order := hord P (s_seed s1) M).
  assert (Hord : Permutation order (live M)) by apply Hh.
  assert (Htot : total sz order <= total sz rs + sz m /\ (length order <= length rs + 1)%nat).
  { rewrite (total_perm _ _ _ Hord), Hord, HM. pose proof (live_replay_total sz (rs ++ [m])) as G.
    rewrite total_app, app_length in G. unfold total in *. cbn [fold_right length] in G. lia. }
  assert (Hoks : Forall (rec_ok sz) order).
  { rewrite Hord, HM. apply live_Forall, Forall_app. split; [apply (inv_ok _ _ _ _ _ I)|constructor; [exact Hm|constructor]]. }
  assert (Hl1 : len (s_file s1) = len (s_file s)).
  { rewrite F1, F, shape_len, !len_app, len_be. lia. }
  set (s2 := with_pos (with_seed s1 (s_seed s1 + 1)) 0).
  assert (I2 : Inv C pos_ok sz s2 []).
  { split; cbn [s2 with_pos with_seed s_file s_ml s_pos].
    - constructor.
    - intros i Hi. cbn in Hi. lia.
    - exists [], (c ++ sl). split; [reflexivity|]. rewrite F1. reflexivity.
    - rewrite ML1, Hml, Hl1. reflexivity.
    - reflexivity.
    - rewrite Hl1. exact Hs. }
  assert (Hg : grow sz (s_ml s) (used sz []) order <= 1 + sz m / 5).
  { change (used sz []) with 8. etransitivity; [apply (grow_bound P C pos_ok sz H64 HC Hmx)|].
    unfold used in *. rewrite Hml.
    destruct (N.leb_spec (8 + total sz order) (len (s_file s))); [lia|].
    assert ((8 + total sz order - len (s_file s) - 1) / 5 <= sz m / 5) by (apply N.div_le_mono; lia). lia. }
  destruct (rewrite_total order s2 [] (s_ml s) I2 Hoks) as (s3 & E3 & I3 & L3).
  - cbn [length]. eapply positions_mono; [|exact Hp]. lia.
  - cbn [s2 with_pos with_seed s_file]. rewrite Hl1, Hml. lia.
  - change (used sz []) with 8. unfold used in *. rewrite Hml. lia.
  - cbn [s2 with_pos with_seed s_file]. rewrite Hl1. nia.
  - fold M. fold order. fold s2. rewrite E3. exists (with_trim s3 false), order.
    split; [reflexivity|]. cbn [app] in I3. split; [apply inv_trim_irrel, I3|]. split; [lia|]. split.
    + apply replay_live; [|exact Hord]. rewrite HM. apply keyed_replay.
    + cbn [with_trim s_file]. rewrite L3. cbn [s2 with_pos with_seed s_file]. rewrite Hl1. nia.
Qed.

Lemma moved_write s rs c m dup : mOk C s rs c -> good E m -> room E (c + 1) ->
  exists s' rs', write P C s m dup = (s', true) /\ mOk C s' rs' (c + 1) /\ replay rs' = apply_kv (replay rs) m.
Proof using HE HC.
  intros (I & HL & HS) Hg Hroom. pose proof law_64 as H64. pose proof law_max as Hmx.
  pose proof (good_rec E HE m Hg) as Hm. destruct Hg as [_ Hmp].
  assert (Hpg : 8 <= page P) by apply (po_page _ (eo_plat _ HE)).
  assert (Hq : sz m / 5 <= page P). { apply N.div_le_upper_bound; lia. }
  assert (Hb : len (s_file s) + page P * (1 + sz m / 5) <= maxfile P).
  { destruct Hroom as [Hr _]. etransitivity; [|exact Hr]. nia. }
  assert (Hp : positions_ok pos_ok (N.of_nat (length rs) + 1)).
  { eapply positions_mono; [|apply room_positions, Hroom]. lia. }
  assert (Hgrow : forall L, L <= len (s_file s) + page P * (1 + sz m / 5) -> L <= page P * (1 + (c + 1) * (1 + page P))).
  { clear - Hq HS. generalize dependent (sz m / 5). intros q Hq L HL'.
    assert (page P * (1 + q) <= page P * (1 + page P)) by (apply N.mul_le_mono_l; lia).
    replace (page P * (1 + (c + 1) * (1 + page P))) with (page P * (1 + c * (1 + page P)) + page P * (1 + page P)) by lia. lia. }
  unfold write. destruct (inv_encode P C pos_ok sz H64 HC Hmx s rs m I Hm Hp) as (b & Eb & Lb). rewrite Eb.
  rewrite (inv_write_offset P C pos_ok sz H64 HC Hmx s rs I). cbv zeta.
  pose proof (inv_size _ _ _ _ _ I) as Hs. pose proof (inv_used P C pos_ok sz H64 HC Hmx s rs I) as Hu. pose proof (inv_ml _ _ _ _ _ I) as Hml.
  rewrite (modulus_64 P H64), N.mod_small by (destruct Hm; lia).
  set (s1 := if dup then with_trim s true else s).
  assert (Hs1 : Inv C pos_ok sz s1 rs /\ s_file s1 = s_file s /\ s_ml s1 = s_ml s /\ s_pos s1 = s_pos s).
  { unfold s1. destruct dup; split_and!; try reflexivity; [apply inv_trim_irrel|]; exact I. }
  destruct Hs1 as (I1 & F1 & ML1 & PO1). clearbody s1. rewrite ML1, Hml.
  destruct (N.leb_spec (len b + used sz rs) (len (s_file s))) as [Hfit|Hfull].
  - destruct (append_incr_inv P C pos_ok sz H64 HC Hmx s1 rs m b I1 Hm Hp) as (s2 & E2 & I2 & ML2 & L2 & _).
    { rewrite PO1. exact Eb. } { rewrite F1. lia. }
    exists s2, (rs ++ [m]). split; [exact E2|]. split; [|apply replay_snoc]. split; [exact I2|]. split; [rewrite app_length; cbn; lia|].
    apply Hgrow. rewrite L2, F1. lia.
  - destruct (s_trim s1).
    + destruct (moved_trim s1 rs m I1 Hm Hmp Hp) as (s2 & rs2 & E2 & I2 & N2 & R2 & L2).
      { rewrite F1. lia. } { rewrite F1. exact Hb. }
      exists s2, rs2. split; [exact E2|]. split; [|exact R2]. split; [exact I2|]. split; [lia|]. apply Hgrow. rewrite <- F1. exact L2.
    + destruct (expand_inv P C pos_ok sz H64 Hmx s1 rs I1) as (s2 & E2 & I2 & F2 & L2 & ML2 & PO2 & TR2 & SE2 & EF2).
      { rewrite F1. rewrite N.mul_add_distr_l, N.mul_1_r in Hb. generalize dependent (sz m / 5). intros q Hq. lia. }
      rewrite E2.
      destruct (append_incr_inv P C pos_ok sz H64 HC Hmx s2 rs m b I2 Hm Hp) as (s3 & E3 & I3 & ML3 & L3 & _).
      { rewrite PO2, PO1. exact Eb. } { rewrite L2, F1. lia. }
      exists s3, (rs ++ [m]). split; [exact E3|]. split; [|apply replay_snoc]. split; [exact I3|]. split; [rewrite app_length; cbn; lia|].
      apply Hgrow. rewrite L3, L2, F1. rewrite N.mul_add_distr_l, N.mul_1_r. generalize (page P * (sz m / 5)). intros q. lia.
Qed.
End Write.

Lemma WOk_mOk C s rs c : WOk E C s rs c -> mOk C s rs c.
Proof. intros (I & _ & HL & HS & _). split; [exact I|]. split; [exact HL|exact HS]. Qed.

Lemma moved_law : rep_law E moved.
Proof.
  split; cbn [moved r_ok].
  - intros C s rs c c' H (A & B & D). split; [exact A|]. split; [lia|]. nia.
  - intros C s s' rs c F1 F2 F3 ([A1 A2 A3 A4 A5 A6] & B & D). split; [|split; [exact B|rewrite F1; exact D]].
    split; rewrite ?F1, ?F2, ?F3; assumption.
  - intros C s rs c _ (I & _). destruct (inv_file _ _ _ _ _ I) as (x & y & _ & ->). rewrite shape_len. lia.
  - intros C s rs c m dup HE HC. apply (moved_write HE C HC).
  - intros C HE. eexists (St _ _ _ false 0 []). split; [reflexivity|]. apply WOk_mOk, WOk_fresh, HE.
  - intros C s rs c seed HE HC (I & _). destruct (eo_plat _ HE) as [H64 Hpage Hmax Hhord].
    destruct (open_inv _ C _ _ H64 HC Hmax s rs seed I) as (s' & H1 & _ & H3 & H4 & H5 & _). eauto 6.
Qed.
End Moved.

(** * Moving *)

Lemma budget_ok p n p' : 8 <= p' ->
  n <= budget p n p' /\ p * (1 + n * (1 + p)) <= p' * (1 + budget p n p' * (1 + p')).
Proof.
  intros Hp'. unfold budget. destruct (N.leb_spec p p') as [Hle|Hgt].
  - split; [lia|]. apply N.mul_le_mono; [exact Hle|]. apply N.add_le_mono_l, N.mul_le_mono_l. lia.
  - set (k := p / p' + 1). assert (Hk : p <= p' * k).
    { unfold k. pose proof (N.div_mod p p' ltac:(lia)). pose proof (N.mod_lt p p' ltac:(lia)). lia. }
    assert (1 <= k) by (unfold k; lia). clearbody k. split.
    + assert (n + 1 <= (n + 1) * (k * k)); [|lia]. assert (1 <= k * k) by nia. nia.
    + assert (H1 : p * (1 + p) <= (p' * k) * (k * (1 + p'))).
      { apply N.mul_le_mono; [exact Hk|]. nia. }
      assert (H2 : p * (1 + n * (1 + p)) <= (n + 1) * (p * (1 + p))) by nia.
      etransitivity; [exact H2|]. etransitivity; [apply N.mul_le_mono_l, H1|].
      replace ((n + 1) * (p' * k * (k * (1 + p')))) with (p' * ((n + 1) * (k * k) * (1 + p'))) by lia.
      apply N.mul_le_mono_l. lia.
Qed.

Lemma moved_rel E p p' M S : (forall k v, S !! k = Some v -> put_ok (with_page E p') k v) ->
  rel (with_page E p) M S -> rel (with_page E p') M S.
Proof.
  intros Hf H k. specialize (H k). destruct (S !! k) as [v|] eqn:Hk; [|exact H].
  destruct H as (m & A & B & D & [G _]). exists m. split_and!; [exact A|exact B|exact D|]. split; [exact G|].
  destruct (Hf k v Hk) as (_ & _ & m' & B' & L). rewrite B in B'. injection B' as <-. exact L.
Qed.

Lemma moved_dir_ok E keyof p p' w S n d : 8 <= p' ->
  (forall k v, S !! k = Some v -> put_ok (with_page E p') k v) ->
  dir_ok (Rp := moved (with_page E p)) (with_page E p) keyof w S n d ->
  dir_ok (Rp := moved (with_page E p')) (with_page E p') keyof w S (budget p n p') d.
Proof.
  intros Hp' Hf H. unfold dir_ok in *. destruct (d_data (dir_of w d)) as [ino|]; [|exact H].
  destruct H as [(rs & nonce & s & M & Fs & (I & HL & HS) & R)|[H _]]; [|discriminate H].
  left. exists rs, nonce, s. split; [exact M|]. split; [exact Fs|]. split; [|eapply moved_rel; eassumption].
  destruct (budget_ok p n p' Hp') as [B1 B2]. split; [exact I|]. split; [lia|]. cbn [with_page e_plat page] in *. lia.
Qed.

Section Moves.
Context (E : env) (keyof : bytes -> bytes) (U : bytes -> Prop).
Context (HU_dir : forall p, U p -> e_dir_ok E p = true).
Context (HU_key : forall p, U p -> feature_key (e_feat E) (keyof (e_canon E p)) <> None).
Context (HU_inj : forall p p', U p -> U p' -> e_canon E p = e_canon E p' -> p = p').

Lemma moves_ok l : forall w sp p n,
  quiet w -> sp_handles sp = ∅ -> inodes_ok w ->
  (forall d, dir_ok (Rp := moved (with_page E p)) (with_page E p) keyof w (contents sp d) n d) ->
  Forall (fun s => env_ok (with_page E s.1)) l ->
  Forall (fun s => Forall (call_ok (with_page E s.1) keyof) s.2) l ->
  Forall (fun s => Forall (in_U U) s.2) l ->
  enough E p n l -> moving E sp l -> moves E w l = spec_moves (e_canon E) sp l.
Proof using HU_dir HU_key HU_inj.
  induction l as [|[p' es] l IH]; intros w sp p n Q Hs Hi Hd HEn HC HUs HR HM; [reflexivity|].
  inversion HEn as [|? ? HE1 HEn']; subst. inversion HC as [|? ? HC1 HC']; subst. inversion HUs as [|? ? HU1 HUs']; subst.
  cbn [fst snd] in *. destruct HR as [HR1 HR2]. destruct HM as [HM1 HM2]. cbn [moves spec_moves].
  assert (Hp' : 8 <= p') by apply (po_page _ (eo_plat _ HE1)).
  pose proof (quiet_WInv (with_page E p') (moved (with_page E p')) keyof U w sp (budget p n p') Q Hs Hi
    (fun d => moved_dir_ok E keyof p p' w _ n d Hp' (HM1 d) (Hd d))) as W.
  pose proof (run_ok (Rp := moved (with_page E p')) (RL := moved_law (with_page E p')) (with_page E p') HE1 keyof U HU_dir HU_key HU_inj
    es w sp _ _ W HC1 HU1 HR1) as G.
  change (e_canon (with_page E p')) with (e_canon E) in G.
  destruct (run (with_page E p') w es) as [[w' rs]|], (spec_run (e_canon E) sp es) as [[sp' rs']|]; try contradiction; [|reflexivity].
  destruct G as [-> W']. destruct HM2 as [Hs' HM2].
  assert (Hno : forall i x, w_insts w' !! i = Some x -> False).
  { intros i x Hx. destruct (wi_insts _ _ _ _ _ _ _ W' i x Hx) as (_ & _ & _ & h & hd & Hh & _).
    pose proof (wi_handles _ _ _ _ _ _ _ W' h) as G. rewrite Hh, Hs', lookup_empty in G. exact G. }
  rewrite (IH (killed w') sp' p' (budget p n p' + writes es)); [reflexivity|apply quiet_killed|exact Hs'| | |exact HEn'|exact HC'|exact HUs'|exact HR2|exact HM2].
  - split; [apply (wi_fresh _ _ _ _ _ _ _ W')|apply (wi_ino _ _ _ _ _ _ _ W')].
  - intros d. apply (wi_dirs _ _ _ _ _ _ _ W' d). intros i x Hx. destruct (Hno i x Hx).
Qed.
End Moves.

Lemma moves_quiet E keyof p n l w sp : ordinary_moves E keyof p n l -> moving E sp l ->
  quiet w -> sp_handles sp = ∅ -> inodes_ok w ->
  (forall d, dir_ok (Rp := moved (with_page E p)) (with_page E p) keyof w (contents sp d) n d) ->
  moves E w l = spec_moves (e_canon E) sp l.
Proof.
  intros [HE HC HP HR] HM Q Hs Hi Hd.
  assert (HU : forall p, PU (concat (map snd l)) p -> e_dir_ok E p = true /\ feature_key (e_feat E) (keyof (e_canon E p)) <> None).
  { intros p' Hp. apply in_flat_map in Hp as (e & He & Hp). apply List.in_concat in He as (es & Hes & He). apply in_map_iff in Hes as ([q es'] & <- & Hin).
    rewrite List.Forall_forall in HC. specialize (HC _ Hin). cbn [fst snd] in *. rewrite List.Forall_forall in HC. specialize (HC _ He).
    destruct e; cbn in Hp; try contradiction. destruct Hp as [<-|[]]. cbn in HC. destruct HC as (A & -> & B). auto. }
  apply (moves_ok E keyof (PU (concat (map snd l))) (fun p H => proj1 (HU p H)) (fun p H => proj2 (HU p H)) HP l w sp p n); auto.
  apply List.Forall_forall. intros [q es] Hin. apply List.Forall_forall. intros e He. destruct e; cbn; auto. unfold PU. apply in_flat_map.
  eexists. split; [apply List.in_concat; exists es; split; [apply in_map_iff; exists (q, es); auto|exact He]|]. left. reflexivity.
Qed.

(** * C88 *)

(** Whatever the page sizes, every process answers as if the maps had gone on:
    nothing is lost or changed by going to larger or to smaller pages, as long
    as what the stores hold would fit in a page of the new size. *)
Theorem C88_page_sizes_do_not_matter_partial E keyof l :
  ordinary_moves E keyof 8 0 l -> moving E spec0 l -> moves E world0 l = spec_moves (e_canon E) spec0 l.
Proof.
  intros HO HM. apply (moves_quiet E keyof 8 0 l world0 spec0 HO HM).
  - repeat split.
  - reflexivity.
  - split; unfold dir_of; cbn; intros d i; [|intros i' H]; rewrite lookup_empty in *; discriminate.
  - intros d. unfold dir_ok, dir_of. cbn. rewrite lookup_empty. reflexivity.
Qed.

(** The same when the first process is killed between two background jobs. *)
Theorem C88_a_kill_and_other_page_sizes_partial E keyof es w rs0 :
  ordinary E keyof es -> run E world0 es = Some (w, rs0) ->
  exists s', (sp_handles s' = ∅ /\ forall d, exists es1 es2 s1 rs1, es = es1 ++ es2 /\ spec_run (e_canon E) spec0 es1 = Some (s1, rs1) /\
      contents s' d = contents s1 d /\ jobs_left w d (mutations (e_canon E) s1 d es2)) /\
    forall l, ordinary_moves E keyof (page (e_plat E)) (writes es) l -> moving E s' l ->
      moves E (killed w) l = spec_moves (e_canon E) s' l.
Proof.
  intros HO Hr. destruct (kill_base E keyof es w rs0 HO Hr) as (s' & Hk & Hi & Hd). exists s'. split; [exact Hk|]. intros l Hl HM.
  apply (moves_quiet E keyof _ _ l (killed w) s' Hl HM (quiet_killed w) (proj1 Hk)); [exact Hi|].
  intros d. specialize (Hd d). apply dir_ok_clean in Hd. unfold dir_ok. destruct (d_data (dir_of (killed w) d)) as [ino|]; [|exact Hd].
  destruct Hd as (rs & nonce & M & HW & R). left. exists rs, nonce. eexists. split; [exact M|]. split; [|split; [|exact R]]; cycle 1.
  - cbn [r_ok moved]. apply WOk_mOk in HW. exact HW.
  - reflexivity.
Qed.

(** ** Small entries *)

(** Every process closes its stores before it ends. *)
Fixpoint closing (canon : bytes -> bytes) (sp : spec) (l : list (list event)) : Prop :=
  match l with
  | [] => True
  | es :: r => match spec_run canon sp es with Some (sp', _) => sp_handles sp' = ∅ /\ closing canon sp' r | None => True end
  end.

Section Puts.
Context (canon : bytes -> bytes) (Q : bytes -> value -> Prop).

Definition holds_only (sp : spec) : Prop := forall d k v, contents sp d !! k = Some v -> Q k v.
Definition puts_only (es : list event) : Prop := forall h k v, In (EPut h k v) es -> Q k v.

Lemma set_only sp d m : holds_only sp -> (forall k v, m !! k = Some v -> Q k v) -> holds_only (set_contents sp d m).
Proof.
  intros H Hm d' k v. unfold contents, set_contents. cbn [sp_dirs]. destruct (decide (d' = d)) as [->|Hd].
  - rewrite lookup_insert. apply Hm.
  - rewrite lookup_insert_ne by congruence. apply H.
Qed.

Lemma step_only sp e sp' r : holds_only sp -> puts_only [e] -> spec_step canon sp e = Some (sp', r) -> holds_only sp'.
Proof.
  intros H Hp Hst. destruct e; cbn [spec_step] in Hst; try discriminate;
    try (destruct (sp_handles sp !! h) as [d|] eqn:Hh; [|discriminate Hst]; injection Hst as <- _).
  - destruct (sp_handles sp !! h); [discriminate|]. injection Hst as <- _. exact H.
  - apply set_only; [exact H|]. intros k' v' Hk. apply lookup_insert_Some in Hk as [[<- <-]|[_ Hk]].
    + eapply Hp. left. reflexivity.
    + eapply H, Hk.
  - exact H.
  - apply set_only; [exact H|]. intros k' v' Hk. apply lookup_delete_Some in Hk as [_ Hk]. eapply H, Hk.
  - apply set_only; [exact H|]. intros k' v' Hk. destruct (lookup_empty_Some _ _ Hk).
  - exact H.
  - injection Hst as <- _. exact H.
Qed.

Lemma run_only es : forall sp sp' rs, holds_only sp -> puts_only es -> spec_run canon sp es = Some (sp', rs) -> holds_only sp'.
Proof.
  induction es as [|e es IH]; intros sp sp' rs H Hp Hr; cbn [spec_run] in Hr.
  - injection Hr as <- _. exact H.
  - destruct (spec_step canon sp e) as [[s1 x]|] eqn:Es; [|discriminate]. destruct (spec_run canon s1 es) as [[s2 xs]|] eqn:Er; [|discriminate].
    injection Hr as <- _. eapply IH; [|..|exact Er].
    + eapply step_only; [exact H| |exact Es]. intros h k v [He|[]]. eapply Hp. left. exact He.
    + intros h k v He. eapply Hp. right. exact He.
Qed.
End Puts.

Lemma small_moving E l (Q : bytes -> value -> Prop) : (forall s k v, In s l -> Q k v -> put_ok (with_page E s.1) k v) ->
  (forall s, In s l -> puts_only Q s.2) -> forall sp, holds_only Q sp -> closing (e_canon E) sp (map snd l) -> moving E sp l.
Proof.
  induction l as [|[p es] l IH]; intros HQ Hp sp H Hc; [exact Logic.I|]. cbn [moving map snd closing] in *. split.
  - intros d k v Hk. apply (HQ (p, es)); [left; reflexivity|]. eapply H, Hk.
  - pose proof (run_only (e_canon E) Q es sp) as G. destruct (spec_run (e_canon E) sp es) as [[sp' rs]|]; [|exact Logic.I].
    destruct Hc as [Hh Hc]. split; [exact Hh|]. apply IH; [| | |exact Hc].
    + intros s k v Hs. apply HQ. right. exact Hs.
    + intros s Hs. apply Hp. right. exact Hs.
    + apply (G sp' rs H); [|reflexivity]. exact (Hp (p, es) (or_introl eq_refl)).
Qed.

(** When every entry that is ever put fits in the smallest page that is ever
    used, no process notices that the pages change. *)
Theorem C88_small_entries_partial E keyof l :
  ordinary_moves E keyof 8 0 l -> closing (e_canon E) spec0 (map snd l) ->
  (forall s s' h k v, In s l -> In s' l -> In (EPut h k v) s.2 -> put_ok (with_page E s'.1) k v) ->
  moves E world0 l = spec_moves (e_canon E) spec0 l.
Proof.
  intros HO Hc Hp. apply (C88_page_sizes_do_not_matter_partial E keyof l HO).
  apply (small_moving E l (fun k v => forall s', In s' l -> put_ok (with_page E s'.1) k v)); [auto| | |exact Hc].
  - intros s Hs h k v Hput s' Hs'. exact (Hp s s' h k v Hs Hs' Hput).
  - intros d k v. unfold contents. cbn. rewrite lookup_empty. cbn. intros Hk. destruct (lookup_empty_Some _ _ Hk).
Qed.

(** ** Examples *)

Lemma with_page_ok E p : env_ok E -> 8 <= p < 2 ^ 32 -> env_ok (with_page E p).
Proof. intros [[A B D G] F R] Hp. split; [split; [exact A|exact Hp|exact D|exact G]|exact F|exact R]. Qed.

Fixpoint closingb (canon : bytes -> bytes) (sp : spec) (l : list (list event)) : bool :=
  match l with
  | [] => true
  | es :: r => match spec_run canon sp es with Some (sp', _) => bool_decide (sp_handles sp' = ∅) && closingb canon sp' r | None => true end
  end.

Lemma closingb_ok canon l : forall sp, closingb canon sp l = true -> closing canon sp l.
Proof.
  induction l as [|es l IH]; intros sp H; cbn [closing closingb] in *; [exact Logic.I|].
  destruct (spec_run canon sp es) as [[sp' rs]|]; [|exact Logic.I]. apply andb_true_iff in H as [A B]. apply bool_decide_eq_true in A. auto.
Qed.

Fixpoint enoughb (E : env) (p n : N) (l : list (N * list event)) : bool :=
  match l with
  | [] => true
  | (p', es) :: r => roomb (with_page E p') (budget p n p' + writes es) && enoughb E p' (budget p n p' + writes es) r
  end.

Lemma enoughb_ok E l : forall p n, enoughb E p n l = true -> enough E p n l.
Proof.
  induction l as [|[p' es] l IH]; intros p n H; cbn [enough enoughb] in *; [exact Logic.I|]. apply andb_true_iff in H as [A B].
  split; [apply roomb_ok, A|apply IH, B].
Qed.

Definition putsb (E : env) (l : list (N * list event)) : bool :=
  forallb (fun s => forallb (fun s' => forallb (fun e => match e with EPut h k v => put_okb (with_page E s'.1) k v | _ => true end) s.2) l) l.

Lemma putsb_ok E l : putsb E l = true ->
  forall s s' h k v, In s l -> In s' l -> In (EPut h k v) s.2 -> put_ok (with_page E s'.1) k v.
Proof.
  intros H s s' h k v Hs Hs' Hp. unfold putsb in H. rewrite forallb_forall in H. specialize (H s Hs). rewrite forallb_forall in H. specialize (H s' Hs').
  rewrite forallb_forall in H. specialize (H _ Hp). cbn in H. apply put_okb_ok, H.
Qed.

Definition ordinary_movesb (E : env) (keyof : bytes -> bytes) (p n : N) (l : list (N * list event)) : bool :=
  forallb (fun s => forallb (call_okb (with_page E s.1) keyof) s.2) l && one_spellingb E (concat (map snd l)) && enoughb E p n l.

Lemma ordinary_movesb_ok E keyof p n l : env_ok E -> forallb (fun s => (8 <=? s.1) && (s.1 <? 2 ^ 32)) l = true ->
  ordinary_movesb E keyof p n l = true -> ordinary_moves E keyof p n l.
Proof.
  intros HE Hp. unfold ordinary_movesb. rewrite !andb_true_iff. intros [[A B] C]. rewrite forallb_forall in A, Hp. split.
  - apply List.Forall_forall. intros s Hs. specialize (Hp s Hs). apply andb_true_iff in Hp as [H1 H2]. apply with_page_ok; [exact HE|lia].
  - apply List.Forall_forall. intros s Hs. apply calls_okb_ok, A, Hs.
  - apply one_spellingb_ok, B.
  - apply enoughb_ok, C.
Qed.

(** A store made on pages of 64 bytes goes to pages of 48 bytes, where it is
    rewritten, and to pages of 128 bytes. *)
Definition ex_moves : list (N * list event) :=
  [(64, [ENew 0 dir_d ex_key; EPut 0 k1 (VI32 5); EPut 0 k2 hello; EPut 0 k1 (VI32 7); EDrop 0]);
   (48, [ENew 0 dir_d ex_key; EGet 0 k1 TI32; EPut 0 k1 (VBool true); EPut 0 k1 (VI32 8); EPut 0 k1 (VI32 9); EDelete 0 k2; EPut 0 k2 (VI64 3); EDrop 0]);
   (128, [ENew 0 dir_d ex_key; EGet 0 k1 TI32; EGet 0 k2 TI64; EPut 0 k2 hello; EGet 0 k2 TStr; EDrop 0])].

Lemma C88_small_entries_example F : F = FPlain \/ F = FEncrypted toy_aead ->
  ordinary_moves (ex_env F) ex_keyof 8 0 ex_moves /\ closing (e_canon (ex_env F)) spec0 (map snd ex_moves) /\
  (forall s s' h k v, In s ex_moves -> In s' ex_moves -> In (EPut h k v) s.2 -> put_ok (with_page (ex_env F) s'.1) k v) /\
  moves (ex_env F) world0 ex_moves = Some
    [[ROk None; ROk None; ROk None; ROk None; ROk None];
     [ROk None; ROk (Some (VI32 7)); ROk None; ROk None; ROk None; ROk None; ROk None; ROk None];
     [ROk None; ROk (Some (VI32 9)); ROk (Some (VI64 3)); ROk None; ROk (Some hello); ROk None]].
Proof.
  intros HF. assert (HE : env_ok (ex_env F)) by (apply ex_env_ok; destruct HF as [->| ->]; [exact Logic.I|apply toy_aead_correct]).
  split; [|split; [|split]].
  - apply ordinary_movesb_ok; [exact HE|vm_compute; reflexivity|]. destruct HF as [->| ->]; vm_compute; reflexivity.
  - apply closingb_ok. destruct HF as [->| ->]; vm_compute; reflexivity.
  - apply putsb_ok. destruct HF as [->| ->]; vm_compute; reflexivity.
  - destruct HF as [->| ->]; vm_compute; reflexivity.
Qed.

(** What is missing: an entry that is longer than a page of the new size.  It
    is kept, also by a rewrite, and can be deleted. *)
Definition long : value := VStr (str "a value that does not fit in a page of forty-eight bytes"%string).
Definition ex_large_moves : list (N * list event) :=
  [(128, [ENew 0 dir_d ex_key; EPut 0 k1 (VI32 5); EPut 0 k2 long; EDrop 0]);
   (48, [ENew 0 dir_d ex_key; EGet 0 k2 TStr; EPut 0 k1 (VI32 6); EPut 0 k1 (VI32 7); EPut 0 k1 (VI32 8); EPut 0 k1 (VI32 9); EDrop 0]);
   (48, [ENew 0 dir_d ex_key; EGet 0 k1 TI32; EGet 0 k2 TStr; EDelete 0 k2; EGet 0 k2 TStr; EPut 0 k1 (VI32 9); EDrop 0; ENew 0 dir_d ex_key; EGet 0 k2 TStr; EDrop 0])].

Lemma C88_large_entry_example F : F = FPlain \/ F = FEncrypted toy_aead ->
  ~ put_ok (with_page (ex_env F) 48) k2 long /\
  moves (ex_env F) world0 ex_large_moves = spec_moves (e_canon (ex_env F)) spec0 ex_large_moves /\ moves (ex_env F) world0 ex_large_moves <> None.
Proof.
  intros HF. split; [|split].
  - intros (_ & _ & m & Hm & Hs). unfold buffer_new in Hm. cbn in Hm. injection Hm as <-. destruct HF as [->| ->]; vm_compute in Hs; apply Hs; reflexivity.
  - destruct HF as [->| ->]; vm_compute; reflexivity.
  - destruct HF as [->| ->]; vm_compute; discriminate.
Qed.
