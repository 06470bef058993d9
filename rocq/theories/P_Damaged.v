(** "And afterwards": a store whose file was damaged, torn by a kill, or left
    half-created by one does not only answer the first questions right; every
    further history of calls (with further kills) is answered as the
    specification says from the state found.  C12, C13, C15, C22, C37, C44,
    C57. *)
From Verif Require Import Bytes Utf8 Proto ProtoFacts Crc8 Value Codec Store StoreFacts Encrypt World Spec Hyps Refine WorldInv WorldStep Main Frames Reach Examples P_Store Slots Damaged Crash P_Kill P_Kill2 P_Corrupt P_Enc P_Enc2.
From Coq Require Import ZifyBool ZifyNat ZifyN.
From Coq Require String. Import (notations) String.
Local Open Scope N_scope.

(** * What the theorems speak about *)

(** From world [w], in which [n] writes may have been made, everything goes on
    as the specification says from state [s]: all histories of ordinary calls
    with any number of kills. *)
Definition goes_on (E : env) (keyof : bytes -> bytes) (n : N) (w : world) (s : spec) : Prop :=
  forall es w' rs, ordinary_with_kills E keyof es -> room E (n + writes es) -> run E w es = Some (w', rs) ->
  sessions (e_canon E) s es rs.

(** An operation on one store: a put ([Some v]) or a delete. *)
Definition op : Type := bytes * option value.

Definition do_op (S : smap) (o : op) : smap := match o.2 with Some v => <[o.1 := v]> S | None => delete o.1 S end.
Definition do_ops (l : list op) : smap := fold_left do_op l ∅.

(** The record that stores an operation. *)
Definition stored_as (o : op) (m : kv) : Prop :=
  match o.2 with Some v => value_ok v = true /\ buffer_new o.1 v = ROk m | None => m = deleted_buffer o.1 end.

(** The elements of [l] whose flag is set. *)
Fixpoint keep {A} (bs : list bool) (l : list A) : list A :=
  match bs, l with
  | b :: bs', x :: l' => if b then x :: keep bs' l' else keep bs' l'
  | _, _ => []
  end.

(** * Lemmas *)

Lemma made_stored m : made m -> exists o, stored_as o m.
Proof.
  intros [H|(v & Hv & H)].
  - exists (kv_key m, None). exact H.
  - exists (kv_key m, Some v). split; assumption.
Qed.

Lemma goods_stored E rs : Forall (good E) rs -> exists ops, Forall2 stored_as ops rs.
Proof.
  induction 1 as [|m rs [[_ Hm] _] _ (ops & IH)]; [exists []; constructor|].
  destruct (made_stored m Hm) as (o & Ho). exists (o :: ops). constructor; assumption.
Qed.

Lemma rel_do_ops E ops rs : Forall2 stored_as ops rs -> Forall (good E) rs -> forall M S, rel E M S ->
  rel E (fold_left apply_kv rs M) (fold_left do_op ops S).
Proof.
  induction 1 as [|o m ops rs Ho _ IH]; intros HG M S HR; [exact HR|]. cbn [fold_left].
  inversion HG as [|? ? Hg HG']; subst. apply (IH HG'). destruct o as [k [v|]]; unfold stored_as, do_op in *; cbn [fst snd] in *.
  - destruct Ho as [Hv Hb]. rewrite (buffer_new_apply k v m M Hb). apply rel_insert; assumption.
  - subst m. rewrite deleted_apply. apply rel_delete, HR.
Qed.

Lemma rel_ops E ops rs : Forall2 stored_as ops rs -> Forall (good E) rs -> rel E (replay rs) (do_ops ops).
Proof. intros H HG. apply (rel_do_ops E ops rs H HG), rel_empty. Qed.

Lemma buffer_new_inj k v v' m : value_ok v = true -> value_ok v' = true -> buffer_new k v = ROk m -> buffer_new k v' = ROk m -> v = v'.
Proof.
  intros Hv Hv' H H'. unfold buffer_new in *. destruct (type_token (type_of v)) as [t| |] eqn:Et; try discriminate.
  destruct (type_token (type_of v')) as [t'| |] eqn:Et'; try discriminate. injection H as <-. injection H' as <- Hb.
  pose proof (type_token_inj _ _ _ Et Et') as Ht. pose proof (from_to_bytes v Hv) as A. pose proof (from_to_bytes v' Hv') as B.
  rewrite Ht, <- Hb in A. rewrite A in B. congruence.
Qed.

Lemma rel_fun E M (S S' : smap) : rel E M S -> rel E M S' -> S = S'.
Proof.
  unfold smap in *. intros H H'. apply map_eq. intros k. specialize (H k). specialize (H' k).
  change smap with (gmap bytes value) in *.
  destruct (S !! k) as [v|], (S' !! k) as [v'|]; [..|reflexivity].
  - destruct H as (m & A & B & C & _), H' as (m' & A' & B' & C' & _). f_equal. eapply buffer_new_inj; [exact C|exact C'|exact B|]. congruence.
  - destruct H as (m & A & _). congruence.
  - destruct H' as (m & A & _). congruence.
Qed.

Lemma keep_Forall2 {A B} (R : A -> B -> Prop) bs : forall l l', Forall2 R l l' -> Forall2 R (keep bs l) (keep bs l').
Proof.
  induction bs as [|b bs IH]; intros l l' H; [constructor|]. destruct H as [|x y l l' Hx H]; [constructor|]. cbn.
  destruct b; [constructor; [exact Hx|]|]; apply IH, H.
Qed.

Lemma keep_Forall {A} (R : A -> Prop) bs : forall l, Forall R l -> Forall R (keep bs l).
Proof.
  induction bs as [|b bs IH]; intros l H; [constructor|]. destruct H as [|x l Hx H]; [constructor|]. cbn.
  destruct b; [constructor; [exact Hx|]|]; apply IH, H.
Qed.

(** ** Worlds without any process *)

Definition quiet (w : world) : Prop := w_insts w = ∅ /\ w_handles w = ∅ /\ w_reg w = ∅ /\ w_poison w = false.

Lemma quiet_killed w : quiet (killed w).
Proof. repeat split. Qed.

Definition inodes_ok (w : world) : Prop :=
  (forall d i, d_data (dir_of w d) = Some i -> i < w_next_ino w) /\
  (forall d d' i, d_data (dir_of w d) = Some i -> d_data (dir_of w d') = Some i -> d = d').

Lemma quiet_WInv E (Rp : rep E) keyof U w sp n :
  quiet w -> sp_handles sp = ∅ -> inodes_ok w -> (forall d, dir_ok E keyof w (contents sp d) n d) -> WInv E keyof U w sp (hist0 sp) n.
Proof.
  intros (Qi & Qh & Qr & Qp) Hs [Hf Hi] Hd. split.
  - exact Qp.
  - intros d. split; reflexivity.
  - intros h. rewrite Qh, Hs. unfold handle_ok. rewrite !lookup_empty. exact Logic.I.
  - intros p i. rewrite Qr, lookup_empty. discriminate.
  - intros i x. rewrite Qi, lookup_empty. discriminate.
  - intros d _. apply Hd.
  - exact Hf.
  - exact Hi.
Qed.

Lemma quiet_goes_on E (Rp : rep E) (RL : rep_law E Rp) keyof w sp n :
  quiet w -> sp_handles sp = ∅ -> inodes_ok w -> (forall d, dir_ok E keyof w (contents sp d) n d) -> goes_on E keyof n w sp.
Proof.
  intros Q Hs Hi Hd es w' rs [HE HC HP _] HR Hrun.
  assert (HU : forall p, PU es p -> e_dir_ok E p = true /\ feature_key (e_feat E) (keyof (e_canon E p)) <> None).
  { intros p Hp. apply in_flat_map in Hp as (e & He & Hp). destruct e; cbn in Hp; try contradiction.
    destruct Hp as [<-|[]]. rewrite List.Forall_forall in HC. destruct (HC _ He) as [?|G]; [discriminate|].
    cbn in G. destruct G as (A & -> & B). auto. }
  eapply (sessions_ok_len E HE keyof (PU es) (fun p H => proj1 (HU p H)) (fun p H => proj2 (HU p H)) HP (length es) es);
    [lia|apply (quiet_WInv E Rp keyof (PU es) w sp n Q Hs Hi Hd)|exact HC| |exact HR|exact Hrun].
  apply List.Forall_forall. intros e He. destruct e; cbn; auto. unfold PU. apply in_flat_map. eexists. split; [exact He|]. left. reflexivity.
Qed.

Lemma dir_ok_damaged E keyof w S n d : env_ok E -> dir_ok E keyof w S n d -> dir_ok (Rp := damaged E) E keyof w S n d.
Proof.
  intros HE H. apply dir_ok_clean in H. unfold dir_ok. destruct (d_data (dir_of w d)) as [ino|]; [|exact H].
  destruct H as (rs & nonce & M & HW & R). left. exists rs, nonce. eexists. split_and!; [exact M|..|exact R]; cycle 1.
  - cbn [r_ok damaged]. apply WOk_dOk; [exact HE|apply feature_law, (eo_feat _ HE)|exact HW].
  - reflexivity.
Qed.

(** What a kill leaves. *)
Lemma kill_base E keyof es w rs0 :
  ordinary E keyof es -> run E world0 es = Some (w, rs0) ->
  exists s', killed_to E es w s' /\ inodes_ok w /\ forall d, dir_ok E keyof (killed w) (contents s' d) (writes es) d.
Proof.
  intros HO Hr. destruct (reach E keyof es HO w rs0 Hr) as (sp & Hsp & W).
  destruct (kill_ok E keyof _ (PU_inj E keyof _ HO) w sp _ _ W) as (s' & Hh & W' & Hd). exists s'. split; [|split].
  - split; [exact Hh|]. intros d. destruct (Hd d) as (k & Hk & HH).
    destruct (hist0_sound E keyof _ (PU_dir E keyof _ HO) (PU_key E keyof _ HO) (PU_inj E keyof _ HO) spec0 es d k _ sp rs0 Hsp HH)
      as (es1 & es2 & s1 & rs1 & A & B & C & D).
    exists es1, es2, s1, rs1. split_and!; auto. rewrite D. exact Hk.
  - split; [apply (wi_fresh _ _ _ _ _ _ _ W)|apply (wi_ino _ _ _ _ _ _ _ W)].
  - intros d. apply (wi_dirs _ _ _ _ _ _ _ W' d). intros i x Hx. unfold killed in Hx. cbn in Hx. rewrite lookup_empty in Hx. discriminate Hx.
Qed.

(** [sp] is [s'] with contents [S] for directory [d]. *)
Definition found (s' : spec) (d : bytes) (S : smap) (sp : spec) : Prop :=
  sp_handles sp = ∅ /\ contents sp d = S /\ forall d', d' <> d -> contents sp d' = contents s' d'.

Lemma found_set s' d S : sp_handles s' = ∅ -> found s' d S (set_contents s' d S).
Proof.
  intros H. split_and!; [exact H| |].
  - unfold contents, set_contents. cbn [sp_dirs]. rewrite lookup_insert. reflexivity.
  - intros d' Hne. unfold contents, set_contents. cbn [sp_dirs]. rewrite lookup_insert_ne by congruence. reflexivity.
Qed.

Lemma found_self s' d : sp_handles s' = ∅ -> found s' d (contents s' d) s'.
Proof. intros H. split_and!; auto. Qed.

(** The files of one directory were replaced. *)
Lemma redir_found E keyof keyof' w w' d S s' m n :
  env_ok E -> inodes_ok w -> (forall d', dir_ok E keyof (killed w) (contents s' d') m d') -> m <= n ->
  quiet w' -> w_next_ino w <= w_next_ino w' ->
  (forall d', d' <> d -> keyof' d' = keyof d' /\ dir_of w' d' = dir_of w d' /\ forall j, d_data (dir_of w d') = Some j -> inode w' j = inode w j) ->
  (forall j, d_data (dir_of w' d) = Some j -> j < w_next_ino w' /\ forall d', d' <> d -> d_data (dir_of w d') <> Some j) ->
  dir_ok (Rp := damaged E) E keyof' w' S n d ->
  forall sp, found s' d S sp -> goes_on E keyof' n w' sp.
Proof.
  intros HE [Hf Hi] HD Hn HQ Hino Hoth Hd HS sp (Hsp & HspS & Hspo).
  apply (quiet_goes_on E (damaged E) (damaged_law E)); [exact HQ|exact Hsp| |].
  - split.
    + intros d' i Hdi. destruct (decide (d' = d)) as [->|Hne]; [apply (Hd i Hdi)|].
      destruct (Hoth d' Hne) as (_ & Hdd & _). rewrite Hdd in Hdi. pose proof (Hf d' i Hdi). lia.
    + intros d1 d2 i H1 H2. destruct (decide (d1 = d)) as [->|N1], (decide (d2 = d)) as [->|N2]; [reflexivity|..].
      * destruct (Hoth d2 N2) as (_ & Hdd & _). rewrite Hdd in H2. destruct (proj2 (Hd i H1) d2 N2 H2).
      * destruct (Hoth d1 N1) as (_ & Hdd & _). rewrite Hdd in H1. destruct (proj2 (Hd i H2) d1 N1 H1).
      * destruct (Hoth d1 N1) as (_ & Hdd & _). destruct (Hoth d2 N2) as (_ & Hdd2 & _). rewrite Hdd in H1. rewrite Hdd2 in H2. eapply Hi; eassumption.
  - intros d'. destruct (decide (d' = d)) as [->|Hne].
    + rewrite HspS. exact HS.
    + rewrite (Hspo d' Hne). destruct (Hoth d' Hne) as (Hk1 & Hdd & Hin). pose proof (dir_ok_damaged E keyof _ _ _ _ HE (HD d')) as G.
      assert (G' : dir_ok (Rp := damaged E) E keyof w' (contents s' d') n d').
      { eapply (dir_ok_frame E (Rp := damaged E) (RL := damaged_law E)); [..|exact G]; [exact Hdd|exact Hin|exact Hn]. }
      unfold dir_ok, kof in *. rewrite Hk1. exact G'.
Qed.

Lemma redir_goes_on E keyof keyof' es w rs0 w' d S n :
  ordinary E keyof es -> run E world0 es = Some (w, rs0) -> writes es <= n ->
  quiet w' -> w_next_ino w <= w_next_ino w' ->
  (forall d', d' <> d -> keyof' d' = keyof d' /\ dir_of w' d' = dir_of w d' /\ forall j, d_data (dir_of w d') = Some j -> inode w' j = inode w j) ->
  (forall j, d_data (dir_of w' d) = Some j -> j < w_next_ino w' /\ forall d', d' <> d -> d_data (dir_of w d') <> Some j) ->
  dir_ok (Rp := damaged E) E keyof' w' S n d ->
  exists s', killed_to E es w s' /\ (forall d', dir_ok E keyof (killed w) (contents s' d') (writes es) d') /\
    forall sp, found s' d S sp -> goes_on E keyof' n w' sp.
Proof.
  intros HO Hr Hn HQ Hino Hoth Hd HS. destruct (kill_base E keyof es w rs0 HO Hr) as (s' & Hk & Hi & HD).
  exists s'. split; [exact Hk|]. split; [exact HD|]. exact (redir_found E keyof keyof' w w' d S s' _ n (or_env _ _ _ HO) Hi HD Hn HQ Hino Hoth Hd HS).
Qed.

(** The file of [d] consists of slots: intact records and skipped ones. *)
Definition damaged_file (E : env) (C : codec) (f : bytes) (sl : list slot) (n : N) : Prop :=
  slots C 0 sl /\ Forall (slot_good E) sl /\ (exists unused, f = shape (slot_bytes sl) unused) /\
  N.of_nat (length sl) <= n /\ len f <= page (e_plat E) * (1 + n * (1 + page (e_plat E))) /\ len f < 2 ^ 63.

Lemma damaged_dOk E C f sl n : damaged_file E C f sl n ->
  dOk E C (St f (len f) (N.of_nat (length sl) mod 2 ^ 32) false 0 []) (slot_recs sl) n.
Proof.
  intros (A & B & C1 & D & F & G). exists sl. split; [reflexivity|]. split; [|split; [exact D|exact F]].
  split; cbn [s_file s_ml s_pos]; auto.
Qed.

Lemma tampered_goes_on E keyof es w rs0 d f0 f sl n S :
  ordinary E keyof es -> run E world0 es = Some (w, rs0) -> file_at w d = Some f0 -> writes es <= n ->
  damaged_file E (dir_codec E keyof w d) f sl n -> rel E (replay (slot_recs sl)) S ->
  exists s', killed_to E es w s' /\ (forall d', dir_ok E keyof (killed w) (contents s' d') (writes es) d') /\
    forall sp, found s' d S sp -> goes_on E keyof n (tampered w d f) sp.
Proof.
  intros HO Hr Hf0 Hn HD HR. destruct (tampered_dir E keyof es w rs0 d f0 HO Hr Hf0) as (ino & nonce & Hd & _ & HC & HM).
  destruct (kill_base E keyof es w rs0 HO Hr) as (_ & _ & [Hfr Hi] & _).
  apply (redir_goes_on E keyof keyof es w rs0 (tampered w d f) d S n HO Hr Hn).
  - unfold tampered. rewrite Hd. apply quiet_killed.
  - unfold tampered. rewrite Hd. cbn. lia.
  - intros d' Hne. split; [reflexivity|]. unfold tampered. rewrite Hd. split; [reflexivity|].
    intros j Hj. unfold inode. cbn. rewrite lookup_insert_ne; [reflexivity|]. intros <-. apply Hne. eapply Hi; eassumption.
  - intros j Hj. assert (d_data (dir_of (tampered w d f) d) = Some ino) as Hj' by (unfold tampered; rewrite Hd; exact Hd).
    rewrite Hj' in Hj. injection Hj as <-. split.
    + unfold tampered. rewrite Hd. cbn. eapply Hfr, Hd.
    + intros d' Hne Hj. apply Hne. eapply Hi; eassumption.
  - unfold dir_ok. assert (d_data (dir_of (tampered w d f) d) = Some ino) as -> by (unfold tampered; rewrite Hd; exact Hd).
    left. exists (slot_recs sl), nonce. eexists. split_and!; [| |cbn [r_ok damaged]; apply damaged_dOk; rewrite <- HC; exact HD|exact HR].
    + unfold meta_ok. assert (Hdm : d_meta (dir_of (tampered w d f) d) = d_meta (dir_of w d)) by (unfold tampered; rewrite Hd; reflexivity).
      rewrite Hdm. destruct (e_feat E); [exact Logic.I|exact HM].
    + cbn [s_file]. unfold tampered. rewrite Hd. unfold inode. cbn. rewrite lookup_insert. reflexivity.
Qed.

(** What was persisted, read off the records of the file. *)
Lemma dir_ok_records E keyof es w rs0 d f s' :
  ordinary E keyof es -> run E world0 es = Some (w, rs0) -> file_at w d = Some f ->
  (forall d', dir_ok E keyof (killed w) (contents s' d') (writes es) d') ->
  forall rs, holds (dir_codec E keyof w d) f rs -> good_records E rs ->
  Forall (good E) rs /\ N.of_nat (length rs) <= writes es /\ len f <= page (e_plat E) * (1 + writes es * (1 + page (e_plat E))) /\ rel E (replay rs) (contents s' d).
Proof.
  intros HO Hr Hf HD rs Hh HG. specialize (HD d). apply dir_ok_clean in HD. change (dir_of (killed w) d) with (dir_of w d) in HD.
  pose proof (file_small E keyof es w rs0 d f HO Hr Hf) as Hsm.
  destruct (tampered_dir E keyof es w rs0 d f HO Hr Hf) as (ino & nonce & Hd & Hino & HC & HM). rewrite Hd in HD.
  destruct HD as (rs2 & nonce2 & M & HW & R).
  assert (HC2 : feature_codec (e_feat E) (kof E keyof d) nonce2 = dir_codec E keyof w d).
  { rewrite HC. unfold meta_ok in M. change (dir_of (killed w) d) with (dir_of w d) in M. destruct (e_feat E); [reflexivity|].
    destruct M as [M _], HM as [HM _]. rewrite M in HM. injection HM as ->. reflexivity. }
  rewrite HC2 in HW. change (inode (killed w) ino) with (inode w ino) in HW. rewrite Hino in HW.
  pose proof HW as (I & HG2 & HL & HS & HD).
  assert (rs = rs2) as ->.
  { eapply (holds_unique E keyof w d f); [apply (or_env _ _ _ HO)|exact Hsm|exact HG| |exact Hh|].
    - destruct (eo_plat _ (or_env _ _ _ HO)) as [_ Hpage _ _].
      eapply Forall_impl; [exact HG2|]. intros y [[A _] B]. split; [exact A|lia].
    - apply (Inv_holds _ _ _ _ _ I). }
  split_and!; auto.
Qed.

(** * C12, C13: any number of damaged records, and afterwards *)

(** The pieces [ds] are the encodings of the records [rs] (numbered from
    [n]); where the flag in [bs] is not set, payload and checksum of the
    record were changed within a burst of at most 8 bits. *)
Inductive struck : N -> list kv -> list bytes -> list bool -> Prop :=
| struck_nil n : struck n [] [] []
| struck_kept n m b rs ds bs :
    enc crc_codec m (n mod 2 ^ 32) = ROk b -> struck (n + 1) rs ds bs -> struck n (m :: rs) (b :: ds) (true :: bs)
| struck_hit n m hd body body' rs ds bs :
    enc crc_codec m (n mod 2 ^ 32) = ROk (hd ++ body) -> length hd = 4%nat -> burst body body' -> struck (n + 1) rs ds bs ->
    struck n (m :: rs) ((hd ++ body') :: ds) (false :: bs).

Lemma struck_slots E : e_feat E = FPlain -> env_ok E -> forall n rs ds bs, struck n rs ds bs -> Forall (good E) rs ->
  exists sl, slots crc_codec n sl /\ slot_bytes sl = concat ds /\ slot_recs sl = keep bs rs /\ Forall (slot_good E) sl /\ length sl = length rs.
Proof.
  intros HF HE n rs ds bs HS. pose proof (feature_law FPlain [] [] Logic.I) as Hlaw. cbn [feature_codec] in Hlaw.
  induction HS as [n|n m b rs ds bs Hb HS IH|n m hd body body' rs ds bs Hb Hhd Hbu HS IH]; intros HG.
  - exists []. split_and!; constructor.
  - inversion HG as [|? ? Hg HG']; subst. destruct (IH HG') as (sl & A & B & C & D & L). pose proof (good_rec E HE m Hg) as [Hk Hz]. rewrite HF in Hz.
    exists ((b, Some m) :: sl).
    assert (Hlen : len b = record_size FPlain m).
    { destruct (law_rt _ _ _ Hlaw m (n mod 2 ^ 32) [] Hk Hz Logic.I) as (b' & A' & B' & _). congruence. }
    split_and!.
    + constructor; [|intros tail|exact A].
      * rewrite Hlen. pose proof (law_min _ _ _ Hlaw m). lia.
      * destruct (law_rt _ _ _ Hlaw m (n mod 2 ^ 32) tail Hk Hz Logic.I) as (b' & A' & _ & D'). rewrite Hb in A'. injection A' as <-. rewrite Hlen. exact D'.
    + unfold slot_bytes in *. cbn. rewrite B. reflexivity.
    + unfold slot_recs in *. cbn. rewrite C. reflexivity.
    + constructor; [|exact D]. split; [exact Hg|]. cbn [fst]. rewrite HF, Hlen. lia.
    + cbn. rewrite L. reflexivity.
  - inversion HG as [|? ? Hg HG']; subst. destruct (IH HG') as (sl & A & B & C & D & L). pose proof (good_rec E HE m Hg) as [Hk Hz]. rewrite HF in Hz.
    exists ((hd ++ body', None) :: sl).
    assert (Hbody : body = encode_kv m ++ [n2b (crc8 (encode_kv m))]).
    { cbn in Hz. rewrite crc_enc_shape in Hb by exact Hz. assert (He' : be 4 (len (encode_kv m) + 1) ++ encode_kv m ++ [n2b (crc8 (encode_kv m))] = hd ++ body) by congruence.
      apply app_inj_1 in He' as [_ He']; [symmetry; exact He'|]. rewrite be_length, Hhd. reflexivity. }
    assert (Hl : length (hd ++ body') = length (hd ++ body)) by (rewrite !app_length, (burst_length _ _ Hbu); reflexivity).
    split_and!.
    + constructor; [|intros tail|exact A].
      * rewrite len_app. unfold len. lia.
      * rewrite <- (burst_skipped m (n mod 2 ^ 32) [] [] body') by (rewrite <- Hbody; exact Hbu).
        assert (Hdr : drop 4 (hd ++ body') = body') by (apply drop_app_alt; symmetry; exact Hhd). rewrite <- Hdr at 2.
        assert (Hlen : len (hd ++ body') = len (hd ++ body)) by (unfold len; lia). rewrite Hlen.
        apply (frame_slot FPlain [] [] m (n mod 2 ^ 32) (hd ++ body) (hd ++ body')); [exact Logic.I|exact Hk|exact Hz|exact Logic.I|exact Hb|exact Hl|].
        rewrite !take_app_alt by (symmetry; exact Hhd). reflexivity.
    + unfold slot_bytes in *. cbn. rewrite B. reflexivity.
    + unfold slot_recs in *. cbn. exact C.
    + constructor; [exact Logic.I|exact D].
    + cbn. rewrite L. reflexivity.
Qed.

(** Any number of records of a plain store are hit by a burst of up to 8 bits
    in payload or checksum (and the unused bytes are anything): the records
    are operations whose result was persisted, and from now on every history
    of calls and kills is answered as if the operations hit had never been
    made, in this directory and in all others. *)
Theorem C12_damaged_records_and_afterwards E keyof es w rs0 d f rs ds bs unused :
  ordinary E keyof es -> run E world0 es = Some (w, rs0) -> e_feat E = FPlain ->
  file_at w d = Some f -> holds crc_codec f rs -> good_records E rs ->
  struck 0 rs ds bs -> len (concat ds) + 8 + len unused = len f ->
  exists ops s', Forall2 stored_as ops rs /\ killed_to E es w s' /\ contents s' d = do_ops ops /\
    goes_on E keyof (writes es) (tampered w d (be 8 (len (concat ds)) ++ concat ds ++ unused)) (set_contents s' d (do_ops (keep bs ops))).
Proof.
  intros HO Hr HF Hf Hh HG HS Hlen.
  assert (HC : dir_codec E keyof w d = crc_codec) by (unfold dir_codec; rewrite HF; reflexivity).
  destruct (kill_base E keyof es w rs0 HO Hr) as (s0 & _ & _ & HD0).
  destruct (dir_ok_records E keyof es w rs0 d f s0 HO Hr Hf HD0 rs) as (HGo & Hnr & Hsz & _); [rewrite HC; exact Hh|exact HG|].
  destruct (goods_stored E rs HGo) as (ops & Hops). exists ops.
  destruct (struck_slots E HF (or_env _ _ _ HO) 0 rs ds bs HS HGo) as (sl & A & B & C & D & L).
  destruct (tampered_goes_on E keyof es w rs0 d f (be 8 (len (concat ds)) ++ concat ds ++ unused) sl (writes es) (do_ops (keep bs ops)) HO Hr Hf) as (s' & Hk & HD & Hgo).
  - lia.
  - assert (Hl : len (be 8 (len (concat ds)) ++ concat ds ++ unused) = len f) by (rewrite !len_app, len_be; lia).
    pose proof (file_small E keyof es w rs0 d f HO Hr Hf) as Hsm.
    split_and!.
    + rewrite HC. exact A.
    + exact D.
    + exists unused. unfold shape. rewrite B. reflexivity.
    + assert (Hl' : length sl = length rs) by exact L. clear - Hnr Hl'. lia.
    + rewrite Hl. exact Hsz.
    + rewrite Hl. exact Hsm.
  - rewrite C. apply rel_ops; [apply keep_Forall2, Hops|apply keep_Forall, HGo].
  - exists s'. split_and!; [exact Hops|exact Hk| |apply Hgo, found_set, Hk].
    destruct (dir_ok_records E keyof es w rs0 d f s' HO Hr Hf HD rs) as (_ & _ & _ & R); [rewrite HC; exact Hh|exact HG|].
    eapply rel_fun; [exact R|]. apply rel_ops; assumption.
Qed.

(** * C37, C44: encrypted stores with foreign or modified records *)

Lemma untouched_Forall2 {A B} (R : A -> B -> Prop) bodies : forall cs l l', Forall2 R l l' -> Forall2 R (untouched l cs bodies) (untouched l' cs bodies).
Proof.
  induction bodies as [|b bodies IH]; intros [|c cs] l l' H; destruct H as [|x y l l' Hx H]; try constructor; cbn.
  destruct (decide (b = c)); [constructor; [exact Hx|]|]; apply IH, H.
Qed.

Lemma untouched_Forall {A} (R : A -> Prop) bodies : forall cs l, Forall R l -> Forall R (untouched l cs bodies).
Proof.
  induction bodies as [|b bodies IH]; intros [|c cs] l H; destruct H as [|x l Hx H]; try constructor; cbn.
  destruct (decide (b = c)); [constructor; [exact Hx|]|]; apply IH, H.
Qed.

Lemma frame_recs E A key nonce bodies : e_feat E = FEncrypted A -> env_ok E -> forall n rs cs,
  sealed A key nonce n rs cs -> Forall (good E) rs ->
  n + N.of_nat (length bodies) < 2 ^ 32 ->
  (forall i b, bodies !! i = Some b -> unseal A key (stream_nonce nonce (n + N.of_nat i)) b <> None -> cs !! i = Some b) ->
  slot_recs (frame_slots (FEncrypted A) key nonce n bodies) = untouched rs cs bodies /\
  Forall (slot_good E) (frame_slots (FEncrypted A) key nonce n bodies).
Proof.
  intros HF HE. pose proof (eo_feat _ HE) as HA. rewrite HF in HA. cbn in HA.
  induction bodies as [|b r IH]; intros n rs cs HS HFa Hn Hno.
  - split; [destruct rs, cs; reflexivity|constructor].
  - cbn [length] in Hn. cbn [frame_slots body_entry]. rewrite N.mod_small by lia.
    pose proof (Hno 0%nat b eq_refl) as H0. replace (n + N.of_nat 0) with n in H0 by lia.
    assert (Hno' : forall cs' : list bytes, (forall i x, cs !! S i = Some x -> cs' !! i = Some x) ->
      forall i b0, r !! i = Some b0 -> unseal A key (stream_nonce nonce (n + 1 + N.of_nat i)) b0 <> None -> cs' !! i = Some b0).
    { intros cs' Hcs i b0 Hb Hu. apply Hcs. apply (Hno (S i) b0 Hb). replace (n + N.of_nat (S i)) with (n + 1 + N.of_nat i) by lia. exact Hu. }
    assert (Hcm : unseal A key (stream_nonce nonce n) b = None -> stream_decrypt A key nonce b n = RErr DecryptFailed).
    { intros Hu. unfold stream_decrypt. rewrite Hu. destruct (n =? counter_max); reflexivity. }
    assert (Hskip : forall rs' cs', sealed A key nonce (n + 1) rs' cs' -> Forall (good E) rs' -> (forall i x, cs !! S i = Some x -> cs' !! i = Some x) ->
      unseal A key (stream_nonce nonce n) b = None -> untouched rs cs (b :: r) = untouched rs' cs' r ->
      slot_recs ((frame b, match stream_decrypt A key nonce b n with ROk p => parse_kv p | _ => None end) :: frame_slots (FEncrypted A) key nonce (n + 1) r) = untouched rs cs (b :: r) /\
      Forall (slot_good E) ((frame b, match stream_decrypt A key nonce b n with ROk p => parse_kv p | _ => None end) :: frame_slots (FEncrypted A) key nonce (n + 1) r)).
    { intros rs' cs' HS' HG' Hcs Hu Ht. rewrite (Hcm Hu), Ht. destruct (IH (n + 1) rs' cs' HS' HG' ltac:(lia) (Hno' cs' Hcs)) as [G1 G2].
      split; [exact G1|]. constructor; [exact Logic.I|exact G2]. }
    inversion HS as [|? m c rs' cs' Hc HS']; subst.
    + apply (Hskip [] []); [constructor|constructor|intros i x Hx; discriminate Hx| |destruct r; reflexivity].
      destruct (unseal _ _ _ _); [|reflexivity]. specialize (H0 ltac:(discriminate)). discriminate H0.
    + apply Forall_cons in HFa as [Hg HFa]. pose proof (good_rec E HE m Hg) as [Hk Hz]. rewrite HF in Hz. cbn [record_size] in Hz. unfold aes_size in Hz.
      rewrite N.mod_small in Hc by lia.
      destruct (HA key (stream_nonce nonce n) (encode_kv m) ltac:(lia)) as (x & Hs & Hlx & Hux). rewrite Hc in Hs. injection Hs as <-.
      destruct (decide (b = c)) as [->|Hbc].
      * assert (Hd : stream_decrypt A key nonce c n = ROk (encode_kv m)).
        { unfold stream_decrypt. rewrite Hux. destruct (N.eqb_spec n counter_max) as [Hcx|]; [unfold counter_max in Hcx; lia|reflexivity]. }
        destruct (IH (n + 1) rs' cs' HS' HFa ltac:(lia) (Hno' cs' (fun i x Hx => Hx))) as [G1 G2].
        rewrite Hd, parse_encode by exact Hk. cbn [untouched]. destruct (decide (c = c)) as [_|]; [|contradiction]. split.
        -- unfold slot_recs in *. cbn. rewrite G1. reflexivity.
        -- constructor; [|exact G2]. split; [exact Hg|]. cbn [fst]. unfold frame. rewrite len_app, len_be, HF. cbn [record_size]. unfold aes_size. lia.
      * apply (Hskip rs' cs' HS' HFa (fun i x Hx => Hx)).
        -- destruct (unseal _ _ _ b); [|reflexivity]. specialize (H0 ltac:(discriminate)). cbn in H0. congruence.
        -- cbn [untouched]. destruct (decide (b = c)); [contradiction|reflexivity].
Qed.

Lemma frame_slots_length F key nonce bodies : forall n, length (frame_slots F key nonce n bodies) = length bodies.
Proof. induction bodies as [|b r IH]; intros n; [reflexivity|]. cbn. rewrite IH. reflexivity. Qed.

(** Modified, moved, duplicated, truncated or foreign records in the file of an
    encrypted store ([bodies], any ciphertexts): if the cipher resists, every
    further history is answered from the operations whose record is untouched
    and in its place.  [n] counts the records of the new file and bounds its
    size. *)
Theorem C37_modified_records_and_afterwards E A keyof es w rs0 d f rs cs bodies unused nonce n :
  ordinary E keyof es -> run E world0 es = Some (w, rs0) -> e_feat E = FEncrypted A ->
  file_at w d = Some f -> meta_at w d = Some nonce -> holds (dir_codec E keyof w d) f rs -> good_records E rs ->
  sealed A (kof E keyof d) nonce 0 rs cs ->
  Forall (fun b => len b + 4 < 2 ^ 32) bodies -> N.of_nat (length bodies) < 2 ^ 32 ->
  len (be 8 (len (frames bodies)) ++ frames bodies ++ unused) < 2 ^ 63 ->
  no_forgery A (kof E keyof d) nonce cs bodies ->
  writes es <= n -> N.of_nat (length bodies) <= n ->
  len (be 8 (len (frames bodies)) ++ frames bodies ++ unused) <= page (e_plat E) * (1 + n * (1 + page (e_plat E))) ->
  exists ops s', Forall2 stored_as ops rs /\ killed_to E es w s' /\ contents s' d = do_ops ops /\
    goes_on E keyof n (tampered w d (be 8 (len (frames bodies)) ++ frames bodies ++ unused)) (set_contents s' d (do_ops (untouched ops cs bodies))).
Proof.
  intros HO Hr HF Hf Hm Hh HG HS HB Hnb Hl Hno Hn1 Hn2 Hsz.
  assert (HC : dir_codec E keyof w d = feature_codec (FEncrypted A) (kof E keyof d) nonce).
  { unfold dir_codec, kof. rewrite HF, Hm. reflexivity. }
  destruct (kill_base E keyof es w rs0 HO Hr) as (s0 & _ & _ & HD0).
  destruct (dir_ok_records E keyof es w rs0 d f s0 HO Hr Hf HD0 rs Hh HG) as (HGo & Hnr & Hsz0 & _).
  destruct (goods_stored E rs HGo) as (ops & Hops). exists ops.
  destruct (frame_recs E A (kof E keyof d) nonce bodies HF (or_env _ _ _ HO) 0 rs cs HS HGo) as (Hrec & Hgood); [lia| |].
  { intros i b Hb Hu. apply (Hno i b Hb). rewrite N.add_0_l in Hu. exact Hu. }
  destruct (frame_slots_ok (FEncrypted A) (kof E keyof d) nonce bodies 0) as (S1 & S2 & _).
  { eapply Forall_impl; [exact HB|]. cbn. intros b Hb. lia. }
  set (sl := frame_slots (FEncrypted A) (kof E keyof d) nonce 0 bodies) in *.
  destruct (tampered_goes_on E keyof es w rs0 d f (be 8 (len (frames bodies)) ++ frames bodies ++ unused) sl n (do_ops (untouched ops cs bodies)) HO Hr Hf Hn1) as (s' & Hk & HD & Hgo).
  - split_and!.
    + rewrite HC. exact S1.
    + exact Hgood.
    + exists unused. unfold shape. rewrite S2. reflexivity.
    + assert (Hl' : length sl = length bodies) by apply frame_slots_length. clear - Hn2 Hl'. lia.
    + exact Hsz.
    + exact Hl.
  - rewrite Hrec. apply rel_ops; [apply untouched_Forall2, Hops|apply untouched_Forall, HGo].
  - exists s'. split_and!; [exact Hops|exact Hk| |apply Hgo, found_set, Hk].
    destruct (dir_ok_records E keyof es w rs0 d f s' HO Hr Hf HD rs Hh HG) as (_ & _ & _ & R).
    eapply rel_fun; [exact R|]. apply rel_ops; assumption.
Qed.

(** Another key (or another 11-byte nonce file) under which the cipher rejects
    every stored ciphertext: for all further histories in which [d] is
    opened with the other key, [d] is an ordinary store that was empty. *)
Theorem C37_foreign_key_and_afterwards E A keyof keyof' es w rs0 d f rs cs nonce nonce' :
  ordinary E keyof es -> run E world0 es = Some (w, rs0) -> e_feat E = FEncrypted A ->
  file_at w d = Some f -> meta_at w d = Some nonce -> holds (dir_codec E keyof w d) f rs -> good_records E rs ->
  sealed A (kof E keyof d) nonce 0 rs cs ->
  (forall d', d' <> d -> keyof' d' = keyof d') -> length nonce' = nonce_len ->
  (forall i c, cs !! i = Some c -> unseal A (kof E keyof' d) (stream_nonce nonce' (N.of_nat i)) c = None) ->
  exists s', killed_to E es w s' /\ goes_on E keyof' (writes es) (tampered_meta w d f (Some nonce')) (set_contents s' d ∅).
Proof.
  intros HO Hr HF Hf Hm Hh HG HS Hk' Hn' Hrej.
  pose proof (eo_feat _ (or_env _ _ _ HO)) as HA. rewrite HF in HA. cbn in HA.
  destruct (tampered_dir E keyof es w rs0 d f HO Hr Hf) as (ino & nonce0 & Hd & Hino & HC & HM). rewrite HF in HM. destruct HM as [HM HL].
  unfold meta_at in Hm. rewrite HM in Hm. injection Hm as ->.
  destruct (kill_base E keyof es w rs0 HO Hr) as (s0 & _ & [Hfr Hi] & HD0).
  destruct (dir_ok_records E keyof es w rs0 d f s0 HO Hr Hf HD0 rs Hh HG) as (HGo & Hnr & Hsz0 & _).
  pose proof (file_small E keyof es w rs0 d f HO Hr Hf) as Hsm.
  pose proof Hh as (c & un & Hfe & Hc). rewrite HC, HF in Hc. cbn [feature_codec] in Hc.
  destruct HG as [HG HGn]. rewrite HF in HG, HGn. change 0 with (0 mod 2 ^ 32) in Hc.
  destruct (enc_sealed A _ nonce rs HA 0 c HG Hc) as (cs' & HS' & Hcs & HFc).
  rewrite <- (sealed_fun _ _ _ _ _ _ _ HS HS') in *. clear HS' cs'.
  destruct (frame_slots_ok (FEncrypted A) (kof E keyof' d) nonce' cs 0) as (S1 & S2 & _).
  { eapply Forall_impl; [exact HFc|]. cbn. intros b Hb. lia. }
  pose proof (sealed_length _ _ _ _ _ _ HS) as Hlen.
  destruct (frame_recs E A (kof E keyof' d) nonce' cs HF (or_env _ _ _ HO) 0 [] []) as (Hrec & Hgood); [constructor|constructor|lia| |].
  { intros i b Hb Hu. rewrite N.add_0_l in Hu. destruct (Hu (Hrej i b Hb)). }
  set (sl := frame_slots (FEncrypted A) (kof E keyof' d) nonce' 0 cs) in *.
  assert (Hrec0 : slot_recs sl = []) by (rewrite Hrec; destruct cs; reflexivity).
  destruct (redir_goes_on E keyof keyof' es w rs0 (tampered_meta w d f (Some nonce')) d ∅ (writes es) HO Hr) as (s' & Hk & _ & Hgo).
  - lia.
  - unfold tampered_meta. rewrite Hd. apply quiet_killed.
  - unfold tampered_meta. rewrite Hd. cbn. lia.
  - intros d' Hne. split; [apply Hk', Hne|]. unfold tampered_meta. rewrite Hd. split.
    + unfold dir_of. cbn. rewrite lookup_insert_ne by congruence. reflexivity.
    + intros j Hj. unfold inode. cbn. rewrite lookup_insert_ne; [reflexivity|]. intros <-. apply Hne. eapply Hi; eassumption.
  - intros j Hj. assert (d_data (dir_of (tampered_meta w d f (Some nonce')) d) = Some ino) as Hj' by (unfold tampered_meta; rewrite Hd; unfold dir_of; cbn; rewrite lookup_insert; reflexivity).
    rewrite Hj' in Hj. injection Hj as <-. split.
    + unfold tampered_meta. rewrite Hd. cbn. eapply Hfr, Hd.
    + intros d' Hne Hj. apply Hne. eapply Hi; eassumption.
  - unfold dir_ok. assert (d_data (dir_of (tampered_meta w d f (Some nonce')) d) = Some ino) as -> by (unfold tampered_meta; rewrite Hd; unfold dir_of; cbn; rewrite lookup_insert; reflexivity).
    left. exists (slot_recs sl), nonce'. eexists. split_and!; [| |cbn [r_ok damaged]; apply (damaged_dOk E _ f sl (writes es))|rewrite Hrec0; apply rel_empty].
    + unfold meta_ok. rewrite HF. split; [|exact Hn']. unfold tampered_meta. rewrite Hd. unfold dir_of. cbn. rewrite lookup_insert. reflexivity.
    + cbn [s_file]. unfold tampered_meta. rewrite Hd. unfold inode. cbn. rewrite lookup_insert. reflexivity.
    + rewrite HF. split_and!.
      * exact S1.
      * exact Hgood.
      * exists un. unfold shape. rewrite S2, <- Hcs. exact Hfe.
      * assert (Hl' : length sl = length cs) by apply frame_slots_length. clear - Hnr Hl' Hlen. lia.
      * exact Hsz0.
      * exact Hsm.
  - exists s'. split; [exact Hk|]. apply Hgo, found_set, Hk.
Qed.

(** * C22: an interrupted append, and afterwards *)

Lemma crashed_tampered E keyof es w rs0 i x f : ordinary E keyof es -> run E world0 es = Some (w, rs0) -> w_insts w !! i = Some x ->
  crashed w i f = tampered w (i_dir x) f /\ file_at w (i_dir x) = Some (inode w (i_ino x)) /\ dir_codec E keyof w (i_dir x) = i_codec E x.
Proof.
  intros HO Hr Hx. destruct (reach E keyof es HO w rs0 Hr) as (sp & Hsp & W). destruct (wi_insts _ _ _ _ _ _ _ W i x Hx) as (_ & I & _).
  destruct (reach_inst E keyof es w rs0 i x HO Hr Hx) as (_ & Hc & Hf & _).
  split_and!; [|exact Hf|symmetry; exact Hc]. unfold crashed, tampered. rewrite Hx, (io_data _ _ _ _ _ _ _ I). reflexivity.
Qed.

(** A kill in the middle of an append, after which the stored content length is
    the old one, or the record's own length bytes were stored and the record
    decodes to nothing or to what was to be written: all further histories are
    answered from the persisted state, without or with the interrupted
    operation, and nothing else. *)
Theorem C22_kill_in_append_and_afterwards_partial E keyof es w rs0 i x m dup q f' a b o :
  ordinary E keyof es -> run E world0 es = Some (w, rs0) -> w_insts w !! i = Some x -> i_queue x = JWrite m dup :: q ->
  ~ compacts E w i -> crash_image (job_effects E w i) (inode w (i_ino x)) f' ->
  last (job_effects E w i) = Some (FStore a b) ->
  (take 8 f' = take 8 (inode w (i_ino x)) /\ o = None) \/
  (take 8 f' <> take 8 (inode w (i_ino x)) /\
   take 4 (drop (N.to_nat a) f') = take 4 b /\ dec (i_codec E x) (drop (N.to_nat a) f') (i_pos x) = ROk (o, len b) /\ (o = None \/ o = Some m)) ->
  exists s' c, killed_to E es w s' /\ stored_as c m /\
    goes_on E keyof (writes es + 1) (crashed w i f')
      (match o with None => s' | Some _ => set_contents s' (i_dir x) (do_op (contents s' (i_dir x)) c) end).
Proof.
  intros HO Hr Hx Hq Hnc Hcr Hlast Hcond.
  destruct (append_job E keyof es w rs0 i x m dup q HO Hr Hx Hq Hnc)
    as (rs & c0 & HW & Hm & Hroom & c & sl & n & b0 & Hf & Hc & Hb0 & Hlb & Hlc & Hlim & Hef).
  destruct (eo_plat _ (or_env _ _ _ HO)) as [H64 Hpage Hmax Hhord]. pose proof (law_of E (or_env _ _ _ HO) _ x eq_refl) as Hlaw.
  pose proof HW as (I & HG & HL & HS & HD). pose proof (or_room _ _ _ HO) as HRm.
  assert (Hab : a = 8 + len c /\ b = b0).
  { destruct Hef as [[Hef _]|Hef]; rewrite Hef in Hlast; cbn in Hlast; injection Hlast as <- <-; auto. }
  destruct Hab as [-> ->].
  destruct (crashed_tampered E keyof es w rs0 i x f' HO Hr Hx) as (Hct & Hfa & HCx). rewrite Hct.
  assert (Hh : holds (dir_codec E keyof w (i_dir x)) (inode w (i_ino x)) rs) by (rewrite HCx; apply (Inv_holds _ _ _ _ _ I)).
  assert (HGr : good_records E rs).
  { split.
    - eapply Forall_impl; [exact HG|]. intros y Hy. pose proof (good_rec E (or_env _ _ _ HO) y Hy) as [Y1 Y2]. auto.
    - destruct Hroom as [_ Hrm]. destruct (e_feat E); [exact Logic.I|lia]. }
  destruct (kill_base E keyof es w rs0 HO Hr) as (s0 & _ & _ & HD0).
  destruct (dir_ok_records E keyof es w rs0 _ _ s0 HO Hr Hfa HD0 rs Hh HGr) as (_ & Hnr & Hsz0 & _).
  (* the possible files *)
  assert (Hn : n = 0 \/ n = page (e_plat E)).
  { destruct Hef as [[_ ->]|Hef]; [left; reflexivity|right]. symmetry. symmetry. eapply job_extend. exact Hef. }
  assert (Him : (exists sl0, f' = shape c sl0 /\ len sl0 <= len sl + n) \/
     exists d rest, length d = length b0 /\ f' = be 8 (len (c ++ b0)) ++ c ++ d ++ rest /\ len d + len rest <= len sl + n).
  { rewrite Hf in Hcr. destruct Hef as [[Hef ->]|Hef]; rewrite Hef in Hcr.
    - apply append_images2 in Hcr; [|lia]. destruct Hcr as [->|(d & [Hd _] & ->)]; [left; exists sl; split; [reflexivity|lia]|right].
      exists d, (drop (length b0) sl). split_and!; auto. rewrite len_drop. unfold len in *. lia.
    - apply append_images in Hcr; [|lia]. destruct Hcr as [->|[->|(d & [Hd _] & ->)]].
      + left. exists sl. split; [reflexivity|lia].
      + left. eexists. split; [reflexivity|]. rewrite len_app. unfold zeros. rewrite len_replicate. lia.
      + right. exists d, (drop (length b0) (sl ++ zeros n)). split_and!; auto.
        assert (Hz : len (sl ++ zeros n) = len sl + n) by (rewrite len_app; unfold zeros; rewrite len_replicate; lia).
        rewrite len_drop, Hz. unfold len in *. lia. }
  destruct (enc_slots_good E (or_env _ _ _ HO) (i_codec E x) rs Hlaw 0 c HG (inv_pos_ok _ _ _ _ _ I) Hc) as (sl1 & Hsl1 & Hsb & Hsm & Hsg).
  pose proof (map_some_recs sl1 rs Hsm) as Hrs1.
  assert (Hl1 : length sl1 = length rs) by (pose proof (f_equal length Hsm) as Hl1; rewrite !map_length in Hl1; exact Hl1).
  assert (Hpos1 : positions_ok (record_pos (e_feat E)) (N.of_nat (length rs) + 1)).
  { eapply positions_mono; [|apply (room_positions E), Hroom]. lia. }
  assert (Hsz1 : 8 + len c + len sl + n <= page (e_plat E) * (1 + (writes es + 1) * (1 + page (e_plat E)))).
  { rewrite Hf, shape_len in Hsz0. destruct Hn as [->| ->]; nia. }
  destruct (made_stored m (proj2 (proj1 Hm))) as (oc & Hoc).
  assert (Hhdr : forall n m : N, n < 2 ^ 64 -> m < 2 ^ 64 -> be 8 n = be 8 m -> n = m).
  { intros n1 n2 H1 H2 H. apply (f_equal unbe) in H. rewrite !unbe_be_small in H; auto. }
  assert (Hb5 : 5 <= len b0 /\ len b0 = record_size (e_feat E) m).
  { destruct (inv_encode _ _ _ _ H64 Hlaw Hmax _ _ _ I (good_rec E (or_env _ _ _ HO) m Hm) Hpos1) as (b' & Eb' & Lb').
    cbn [i_st s_pos] in Eb'. rewrite Hb0 in Eb'. injection Eb' as <-. rewrite Lb'. split; [apply (law_min _ _ _ Hlaw)|reflexivity]. }
  destruct Hb5 as [Hb5 Hb6].
  (* slots of the file found *)
  assert (Hslots : exists sl2, damaged_file E (i_codec E x) f' sl2 (writes es + 1) /\ slot_recs sl2 = match o with None => rs | Some _ => rs ++ [m] end).
  { destruct Him as [(sl0 & -> & Hsl0)|(d & rest & Hd & Hfd & Hdr)].
    - assert (o = None) as ->.
      { destruct Hcond as [[_ ->]|(Hne & _)]; [reflexivity|]. exfalso. apply Hne. rewrite Hf. unfold shape.
        rewrite !(take_app_alt (be 8 _)) by (rewrite be_length; reflexivity). reflexivity. }
      exists sl1. split; [|rewrite Hrs1; reflexivity]. split_and!.
      + exact Hsl1.
      + exact Hsg.
      + exists sl0. rewrite Hsb. reflexivity.
      + clear - Hl1 Hnr. assert (Hl' : length sl1 = length rs) by exact Hl1. lia.
      + rewrite shape_len. lia.
      + rewrite shape_len. lia.
    - assert (Hhd : take 8 f' <> take 8 (inode w (i_ino x))).
      { rewrite Hf, Hfd. unfold shape. rewrite !(take_app_alt (be 8 _)) by (rewrite be_length; reflexivity). intros H.
        apply Hhdr in H; rewrite ?len_app in *; lia. }
      destruct Hcond as [[Hcond _]|(_ & Hcond & Hdec & Ho)]; [contradiction|].
      assert (Hdrop : drop (N.to_nat (8 + len c)) f' = d ++ rest).
      { rewrite Hfd, app_assoc. apply drop_app_alt. rewrite app_length, be_length. unfold len. lia. }
      rewrite Hdrop in Hcond, Hdec. rewrite take_app_le in Hcond by (unfold len in Hb5; lia).
      assert (Hld : len d = len b0) by (unfold len; lia).
      assert (Hip : i_pos x = N.of_nat (length rs) mod 2 ^ 32) by apply (inv_pos _ _ _ _ _ I). rewrite Hip in Hdec, Hb0.
      assert (Hds : forall tail, dec (i_codec E x) (d ++ tail) (N.of_nat (length rs) mod 2 ^ 32) = ROk (o, len b0)).
      { pose proof (good_rec E (or_env _ _ _ HO) m Hm) as [Hmk Hmz].
        pose proof (frame_slot (e_feat E) (i_key x) (i_nonce x) m (N.of_nat (length rs) mod 2 ^ 32) b0 d (eo_feat _ (or_env _ _ _ HO)) Hmk Hmz
          ltac:(apply Hpos1; lia) Hb0 Hd Hcond) as G.
        intros tail. unfold i_codec in *. rewrite G. rewrite G in Hdec. congruence. }
      exists (sl1 ++ [(d, o)]). split.
      + split_and!.
        * apply slots_app. split; [exact Hsl1|]. assert (Hl' : length sl1 = length rs) by exact Hl1. rewrite Hl', N.add_0_l.
          constructor; [lia| |constructor]. rewrite Hld. exact Hds.
        * apply Forall_app. split; [exact Hsg|]. constructor; [|constructor]. unfold slot_good. cbn [fst snd].
          destruct Ho as [->| ->]; [exact Logic.I|]. split; [exact Hm|]. lia.
        * exists rest. rewrite slot_bytes_app, Hsb. unfold slot_bytes. cbn [map concat fst]. rewrite app_nil_r. unfold shape. rewrite Hfd.
          rewrite !len_app, Hld, <- !app_assoc. reflexivity.
        * rewrite app_length. assert (Hl' : length sl1 = length rs) by exact Hl1. cbn [length]. clear - Hl' Hnr. lia.
        * rewrite Hfd, !len_app, len_be. lia.
        * rewrite Hfd, !len_app, len_be. lia.
      + rewrite slot_recs_app, Hrs1. destruct Ho as [->| ->]; [apply app_nil_r|reflexivity]. }
  destruct Hslots as (sl2 & Hdam & Hrec).
  set (S := match o with None => contents s0 (i_dir x) | Some _ => do_op (contents s0 (i_dir x)) oc end).
  destruct (dir_ok_records E keyof es w rs0 _ _ s0 HO Hr Hfa HD0 rs Hh HGr) as (_ & _ & _ & R0).
  destruct (tampered_goes_on E keyof es w rs0 (i_dir x) _ f' sl2 (writes es + 1) S HO Hr Hfa ltac:(lia)) as (s' & Hk & HD' & Hgo).
  - rewrite HCx. exact Hdam.
  - rewrite Hrec. unfold S. destruct o as [m'|]; [|exact R0].
    unfold replay. rewrite fold_left_app. fold (replay rs). apply (rel_do_ops E [oc] [m]); [constructor; [exact Hoc|constructor]|constructor; [exact Hm|constructor]|exact R0].
  - destruct (dir_ok_records E keyof es w rs0 _ _ s' HO Hr Hfa HD' rs Hh HGr) as (_ & _ & _ & R1).
    pose proof (rel_fun E _ _ _ R0 R1) as Hcc. exists s', oc. split; [exact Hk|]. split; [exact Hoc|]. apply Hgo. unfold S. rewrite Hcc.
    destruct o; [apply found_set, Hk|apply found_self, Hk].
Qed.

(** * Kills while a store is created or cleared *)

(** A kill while a store is being created: whatever part of its two files was
    written, every further history finds an empty store there and everything
    else as after any kill. *)
Theorem C15_half_created_and_afterwards E keyof es w rs0 d f meta rng :
  ordinary E keyof es -> run E world0 es = Some (w, rs0) -> d_data (dir_of w d) = None ->
  (f = [] \/ f = zeros (page (e_plat E))) ->
  exists s', killed_to E es w s' /\ contents s' d = ∅ /\ goes_on E keyof (writes es) (half_created E w d f meta rng) s'.
Proof.
  intros HO Hr Hno Hf. destruct (kill_base E keyof es w rs0 HO Hr) as (_ & _ & [Hfr _] & _).
  assert (Hdd : dir_of (half_created E w d f meta rng) d = Dir (Some (w_next_ino w)) meta).
  { unfold half_created, dir_of. cbn [w_dirs]. rewrite lookup_insert. reflexivity. }
  destruct (redir_goes_on E keyof keyof es w rs0 (half_created E w d f meta rng) d ∅ (writes es) HO Hr) as (s' & Hk & HD & Hgo).
  - lia.
  - repeat split.
  - cbn. lia.
  - intros d' Hne. split; [reflexivity|]. split.
    + unfold half_created, dir_of. cbn [w_dirs]. rewrite lookup_insert_ne by congruence. reflexivity.
    + intros j Hj. pose proof (Hfr d' j Hj). unfold half_created, inode. cbn [w_inodes]. rewrite lookup_insert_ne by lia. reflexivity.
  - intros j Hj. rewrite Hdd in Hj. injection Hj as <-. split; [cbn; lia|]. intros d' _ Hd'. pose proof (Hfr d' _ Hd'). lia.
  - unfold dir_ok. rewrite Hdd. cbn [d_data]. right. split; [reflexivity|]. split; [|reflexivity].
    unfold inode, half_created. cbn [w_inodes]. rewrite lookup_insert. destruct Hf as [Hf|Hf]; [left; exact Hf|right; left; exact Hf].
  - assert (He : contents s' d = ∅).
    { specialize (HD d). apply dir_ok_clean in HD. change (dir_of (killed w) d) with (dir_of w d) in HD. rewrite Hno in HD. exact HD. }
    exists s'. split; [exact Hk|]. split; [exact He|]. apply Hgo. rewrite <- He. apply found_self, Hk.
Qed.

(** What is on disk when the process is killed after [clear_data] has removed
    the data file of [d]: [data] is the new data file if it exists already,
    [meta] the nonce file.  No process is left. *)
Definition emptied (E : env) (w : world) (d : bytes) (data meta : option bytes) (rng : N) : world :=
  match data with
  | Some f => half_created E w d f meta rng
  | None => World (<[d := Dir None meta]> (w_dirs w)) (w_inodes w) (w_next_ino w) ∅ (w_next_inst w) ∅ ∅ false rng (w_seed w)
  end.

(** The background thread of instance [i] works on for [j] jobs. *)
Definition work_on (E : env) (i : N) (j : nat) (w : world) : world := Nat.iter j (fun w => run_job E w i) w.

Lemma work_on_S E i j w : work_on E i (S j) w = work_on E i j (run_job E w i).
Proof. exact (Nat.iter_succ_r j (fun w => run_job E w i) w). Qed.

Lemma work_on_run E i j : forall w, run E w (replicate j (EIo i)) = Some (work_on E i j w, replicate j (ROk None)).
Proof. induction j as [|j IH]; intros w; [reflexivity|]. cbn [replicate run step]. rewrite IH, work_on_S. reflexivity. Qed.

Lemma work_on_ordinary E keyof es w rs0 i j :
  ordinary E keyof es -> run E world0 es = Some (w, rs0) ->
  ordinary E keyof (es ++ replicate j (EIo i)) /\ writes (es ++ replicate j (EIo i)) = writes es /\
  run E world0 (es ++ replicate j (EIo i)) = Some (work_on E i j w, rs0 ++ replicate j (ROk None)).
Proof.
  intros [A B C D] Hr.
  assert (Hw : writes (replicate j (EIo i)) = 0) by (clear; induction j as [|j IH]; [reflexivity|]; cbn [replicate]; rewrite writes_cons, IH; reflexivity).
  assert (Hp : paths (replicate j (EIo i)) = []) by (clear; induction j as [|j IH]; [reflexivity|exact IH]).
  split_and!.
  - split; [exact A| | |].
    + apply Forall_app. split; [exact B|]. apply Forall_replicate. exact Logic.I.
    + unfold one_spelling. rewrite paths_app, Hp, app_nil_r. exact C.
    + rewrite writes_app, Hw, N.add_0_r. exact D.
  - rewrite writes_app, Hw. lia.
  - rewrite run_app, Hr, work_on_run. reflexivity.
Qed.

(** A kill between any two steps, with kills allowed afterwards too. *)
Theorem C21_kill_and_afterwards E keyof es w rs0 :
  ordinary E keyof es -> run E world0 es = Some (w, rs0) ->
  exists s', killed_to E es w s' /\ goes_on E keyof (writes es) (killed w) s'.
Proof.
  intros HO Hr. destruct (kill_base E keyof es w rs0 HO Hr) as (s' & Hk & Hi & HD). exists s'. split; [exact Hk|].
  apply (quiet_goes_on E (damaged E) (damaged_law E)); [apply quiet_killed|apply Hk|exact Hi|].
  intros d. apply (dir_ok_damaged E keyof _ _ _ _ (or_env _ _ _ HO)), HD.
Qed.

(** ** clear_data *)

(** Before it removes the file, [clear_data] lets the background thread finish
    its queue.  A kill after [j] of these jobs finds the state without the
    remaining ones. *)
Theorem C57_kill_in_clear_before_removal E keyof es w rs0 h hd j :
  ordinary E keyof es -> run E world0 es = Some (w, rs0) -> w_handles w !! h = Some hd ->
  exists s', killed_to E (es ++ replicate j (EIo (h_inst hd))) (work_on E (h_inst hd) j w) s' /\
    goes_on E keyof (writes es) (killed (work_on E (h_inst hd) j w)) s'.
Proof.
  intros HO Hr _. destruct (work_on_ordinary E keyof es w rs0 (h_inst hd) j HO Hr) as (HO' & Hw & Hr').
  rewrite <- Hw. eapply C21_kill_and_afterwards; eassumption.
Qed.

Lemma emptied_goes_on E keyof w1 d s' data meta rng n :
  env_ok E -> inodes_ok w1 -> (forall d', dir_ok E keyof (killed w1) (contents s' d') n d') -> sp_handles s' = ∅ ->
  (data = None \/ data = Some [] \/ data = Some (zeros (page (e_plat E)))) ->
  goes_on E keyof n (emptied E w1 d data meta rng) (set_contents s' d ∅).
Proof.
  intros HE Hino HD Hs Hdata. pose proof Hino as [Hfr _].
  assert (Hdd : dir_of (emptied E w1 d data meta rng) d = Dir (match data with Some _ => Some (w_next_ino w1) | None => None end) meta).
  { unfold emptied, half_created, dir_of. destruct data; cbn [w_dirs]; rewrite lookup_insert; reflexivity. }
  apply (redir_found E keyof keyof w1 (emptied E w1 d data meta rng) d ∅ s' n n HE Hino HD).
  - lia.
  - destruct data; repeat split.
  - destruct data; cbn; lia.
  - intros d' Hne. split; [reflexivity|]. split.
    + unfold emptied, half_created, dir_of. destruct data; cbn [w_dirs]; rewrite lookup_insert_ne by congruence; reflexivity.
    + intros i Hi. pose proof (Hfr d' i Hi). unfold emptied, half_created, inode. destruct data; cbn [w_inodes]; [|reflexivity].
      rewrite lookup_insert_ne by lia. reflexivity.
  - intros i Hi. rewrite Hdd in Hi. destruct data as [f|]; [|discriminate Hi]. injection Hi as <-. split; [cbn; lia|].
    intros d' _ Hd'. pose proof (Hfr d' _ Hd'). lia.
  - unfold dir_ok. rewrite Hdd. cbn [d_data]. destruct data as [f|]; [|reflexivity]. right. split; [reflexivity|]. split; [|reflexivity].
    unfold inode, emptied, half_created. cbn [w_inodes]. rewrite lookup_insert. cbn. destruct Hdata as [?|[H|H]]; [discriminate|injection H as ->; left; reflexivity|injection H as ->; right; left; reflexivity].
  - apply found_set, Hs.
Qed.

(** Once it has removed it, a kill at any point finds an empty store,
    whatever was written of the new files; the other stores are as after
    any kill. *)
Theorem C57_kill_in_clear_after_removal E keyof es w rs0 h hd x data meta rng :
  ordinary E keyof es -> run E world0 es = Some (w, rs0) -> w_handles w !! h = Some hd -> w_insts w !! h_inst hd = Some x ->
  (data = None \/ data = Some [] \/ data = Some (zeros (page (e_plat E)))) ->
  let j := length (i_queue x) in
  exists s', killed_to E (es ++ replicate j (EIo (h_inst hd))) (work_on E (h_inst hd) j w) s' /\
    goes_on E keyof (writes es) (emptied E (work_on E (h_inst hd) j w) (e_canon E (h_path hd)) data meta rng)
      (set_contents s' (e_canon E (h_path hd)) ∅).
Proof.
  intros HO Hr Hh Hx Hdata j. destruct (work_on_ordinary E keyof es w rs0 (h_inst hd) j HO Hr) as (HO' & Hw & Hr').
  rewrite <- Hw. destruct (kill_base E keyof _ _ _ HO' Hr') as (s' & Hk & Hi & HD). exists s'. split; [exact Hk|].
  apply (emptied_goes_on E keyof _ _ s' data meta rng _ (or_env _ _ _ HO) Hi HD); [apply Hk|exact Hdata].
Qed.

(** The queue of an instance whose [clear_data] has begun. *)
Definition clearing (x : inst) : inst := i_with_queue (i_invalid x) (i_queue x ++ [JRemove]).

Lemma set_inst_twice w i x y : set_inst (set_inst w i x) i y = set_inst w i y.
Proof. unfold set_inst, set_insts. cbn. rewrite insert_insert. reflexivity. Qed.

Lemma run_job_clearing E w i x : w_insts w !! i = Some x -> i_queue x <> [] ->
  exists y, w_insts (run_job E w i) !! i = Some y /\ (i_io x = IoRun -> i_queue y = tail (i_queue x)) /\
    run_job E (set_inst w i (clearing x)) i = set_inst (run_job E w i) i (clearing y) /\
    i_dir y = i_dir x /\ (i_io x = IoDead -> y = x).
Proof.
  intros Hx Hq. unfold run_job at 1 2 3. cbn [set_inst set_insts w_insts]. rewrite lookup_insert, Hx.
  destruct (i_queue x) as [|[m dup|] q] eqn:Eq; [contradiction| |].
  - destruct (i_io x) eqn:Eio.
    + cbn [clearing i_with_queue i_invalid i_io i_queue]. rewrite Eio, Eq. cbn [app].
      change (i_codec E (clearing x)) with (i_codec E x). change (i_st (set_inst w i (clearing x)) (clearing x)) with (i_st w x).
      destruct (write (e_plat E) (i_codec E x) (i_st w x) m dup) as [s ok].
      exists (i_after x q (if ok then IoRun else IoDead) s). cbn [set_seed set_inode set_inst set_insts w_insts]. rewrite lookup_insert.
      split_and!; try reflexivity; [|discriminate]. unfold set_inst, set_insts, set_inode, set_seed. cbn. rewrite !insert_insert. reflexivity.
    + cbn [clearing i_with_queue i_invalid i_io i_queue]. rewrite Eio. exists x. rewrite Hx. split_and!; auto. discriminate.
  - destruct (i_io x) eqn:Eio.
    + cbn [clearing i_with_queue i_invalid i_io i_queue]. rewrite Eio, Eq. cbn [app].
      exists (i_with_queue x q). cbn [set_inst set_insts w_insts]. rewrite lookup_insert.
      split_and!; try reflexivity; [|discriminate]. unfold set_inst, set_insts, set_dir. cbn. rewrite !insert_insert. reflexivity.
    + cbn [clearing i_with_queue i_invalid i_io i_queue]. rewrite Eio. exists x. rewrite Hx. split_and!; auto. discriminate.
Qed.

Lemma work_on_clearing E keyof es w rs0 i x :
  ordinary E keyof es -> run E world0 es = Some (w, rs0) -> w_insts w !! i = Some x ->
  forall j, (j <= length (i_queue x))%nat ->
  exists y, w_insts (work_on E i j w) !! i = Some y /\ length (i_queue y) = (length (i_queue x) - j)%nat /\ i_io y = IoRun /\ i_dir y = i_dir x /\
    work_on E i j (set_inst w i (clearing x)) = set_inst (work_on E i j w) i (clearing y).
Proof.
  intros HO Hr Hx. induction j as [|j IH]; intros Hj.
  - exists x. split_and!; auto; [lia|]. apply (reach_inst E keyof es w rs0 i x HO Hr Hx).
  - destruct IH as (y & Hy & Hl & Hio & Hd & Hw); [lia|].
    destruct (run_job_clearing E (work_on E i j w) i y Hy) as (z & Hz & Hq & Hrj & Hdz & _); [intros Hn; rewrite Hn in Hl; cbn in Hl; lia|].
    exists z. change (work_on E i (S j) w) with (run_job E (work_on E i j w) i).
    change (work_on E i (S j) (set_inst w i (clearing x))) with (run_job E (work_on E i j (set_inst w i (clearing x))) i).
    rewrite Hw. split_and!; [exact Hz| | |congruence|exact Hrj].
    + rewrite (Hq Hio). destruct (i_queue y); cbn in *; lia.
    + destruct (work_on_ordinary E keyof es w rs0 i (S j) HO Hr) as (HO' & _ & Hr').
      apply (reach_inst E keyof _ _ _ i z HO' Hr' Hz).
Qed.

Lemma open_impl_new E w p key w' y : open_impl E w p key = (w', Some y) -> d_data (dir_of w (e_canon E p)) = None ->
  killed w' = half_created E w (e_canon E p) (zeros (page (e_plat E))) (d_meta (dir_of w' (e_canon E p))) (w_rng w').
Proof.
  intros H Hno. unfold open_impl in H. destruct (e_dir_ok E p); [|discriminate]. unfold open_config in H. rewrite Hno in H.
  destruct (feature_key (e_feat E) key) as [k|]; [|discriminate]. unfold open_nonce in H.
  assert (Hcf : config_new (e_plat E) [] = zeros (page (e_plat E))) by reflexivity. rewrite Hcf in H.
  destruct (is_encrypted (e_feat E)).
  - match type of H with context [init_nonce ?a ?b] => destruct (init_nonce a b) as [n1 n2] end.
    match type of H with context [open_file ?a ?b ?c ?d] => destruct (open_file a b c d) as [[s m]|] end; [|discriminate].
    injection H as <- _. unfold killed, half_created, dir_of. cbn [w_dirs w_inodes w_next_ino w_next_inst w_rng w_seed].
    rewrite !lookup_insert. cbn [default id d_data d_meta]. rewrite insert_insert. reflexivity.
  - match type of H with context [open_file ?a ?b ?c ?d] => destruct (open_file a b c d) as [[s m]|] end; [|discriminate].
    injection H as <- _. unfold killed, half_created, dir_of. cbn. rewrite !lookup_insert. reflexivity.
Qed.

(** These are the points: [clear_data] itself ends in one of them. *)
Lemma C57_clear_ends E keyof es w rs0 h hd x :
  ordinary E keyof es -> run E world0 es = Some (w, rs0) -> w_handles w !! h = Some hd -> w_insts w !! h_inst hd = Some x ->
  exists w' meta rng, step E w (EClear h) = Some (w', ROk None) /\
    killed w' = emptied E (work_on E (h_inst hd) (length (i_queue x)) w) (e_canon E (h_path hd)) (Some (zeros (page (e_plat E)))) meta rng.
Proof.
  intros HO Hr Hh Hx. destruct (reach E keyof es HO w rs0 Hr) as (sp & Hsp & W).
  destruct (handle_cases E keyof _ w sp _ _ h hd W Hh) as (_ & Hun & Up & Hk & _ & x' & Hx' & Dx & I). rewrite Hx in Hx'. injection Hx' as <-.
  destruct (clear_step E (or_env _ _ _ HO) keyof _ (PU_dir E keyof _ HO) (PU_key E keyof _ HO) (PU_inj E keyof _ HO) w sp _ _ h hd W Hh (or_room _ _ _ HO))
    as (w' & Hcl & _).
  exists w', (d_meta (dir_of w' (e_canon E (h_path hd)))), (w_rng w'). split; [cbn [step]; unfold with_handle; rewrite Hh, Hun, Hcl; reflexivity|].
  unfold do_clear in Hcl. rewrite Hx, (io_poison _ _ _ _ _ _ _ I) in Hcl. unfold impl_clear in Hcl. rewrite (io_valid _ _ _ _ _ _ _ I) in Hcl.
  cbn [negb] in Hcl. unfold post in Hcl. cbn [i_invalid i_sender i_io] in Hcl. rewrite (io_sender _ _ _ _ _ _ _ I), (io_run _ _ _ _ _ _ _ I) in Hcl.
  change (i_with_queue (i_invalid x) (i_queue (i_invalid x) ++ [JRemove])) with (clearing x) in Hcl.
  assert (Hc1 : w_insts (set_inst w (h_inst hd) (clearing x)) !! h_inst hd = Some (clearing x)) by apply lookup_insert.
  unfold drain in Hcl. rewrite Hc1 in Hcl. cbn [clearing i_with_queue i_queue i_invalid] in Hcl. rewrite app_length, Nat.add_1_r in Hcl. fold (clearing x) in Hcl.
  rewrite Nat.iter_succ in Hcl. change (Nat.iter ?n _ ?w) with (work_on E (h_inst hd) n w) in Hcl.
  destruct (work_on_clearing E keyof es w rs0 (h_inst hd) x HO Hr Hx (length (i_queue x)) (le_n _)) as (y & Hy & Hly & Hio & Hdy & Hw). rewrite Hw in Hcl. clear Hw.
  set (w1 := work_on E (h_inst hd) (length (i_queue x)) w) in *. rewrite Nat.sub_diag in Hly. apply nil_length_inv in Hly.
  set (dd := Dir None (if is_encrypted (e_feat E) then None else d_meta (dir_of w1 (i_dir x)))).
  assert (Hrj : run_job E (set_inst w1 (h_inst hd) (clearing y)) (h_inst hd) = set_inst (set_dir w1 (i_dir x) dd) (h_inst hd) (i_with_queue (clearing y) [])).
  { unfold run_job. cbn [set_inst set_insts w_insts]. rewrite lookup_insert. cbn [clearing i_with_queue i_io i_invalid i_queue i_dir]. rewrite Hio, Hly, Hdy. cbn [app].
    unfold set_inst, set_insts, set_dir. cbn. rewrite insert_insert. reflexivity. }
  rewrite Hrj in Hcl. cbn [set_inst set_insts w_insts] in Hcl. rewrite lookup_insert in Hcl. cbn [clearing i_with_queue i_invalid i_io] in Hcl. rewrite Hio in Hcl.
  match type of Hcl with context [open_impl E ?a ?b ?c] => destruct (open_impl E a b c) as [w2 [z|]] eqn:Eo end; [|discriminate].
  assert (Hw2 : killed w' = killed w2).
  { match type of Hcl with (if ?b then _ else _) = _ => destruct b end; injection Hcl as <-; reflexivity. }
  assert (Hdm : dir_of w' (e_canon E (h_path hd)) = dir_of w2 (e_canon E (h_path hd))) by (injection Hw2 as Hw2 _ _ _ _ _; unfold dir_of; rewrite Hw2; reflexivity).
  assert (Hrg : w_rng w' = w_rng w2) by (injection Hw2; auto).
  rewrite Hw2, Hdm, Hrg. rewrite (open_impl_new _ _ _ _ _ _ Eo).
  - unfold emptied, half_created, set_inst. cbn [set_insts set_dir w_dirs w_inodes w_next_ino w_next_inst w_seed]. rewrite Dx, insert_insert. reflexivity.
  - unfold dir_of, set_inst. cbn [set_insts set_dir w_dirs]. rewrite Dx, lookup_insert. reflexivity.
Qed.

(** * Cases that meet the hypotheses *)

(** What is done afterwards: everything is read, written, killed and read again. *)
Definition ex_after (i : N) : list event :=
  [ENew 9 dir_d ex_key; EGet 9 k1 TI32; EGet 9 k2 TStr; EPut 9 k1 (VI32 8); EDelete 9 k2; EGet 9 k1 TI32; EIo i; EKill;
   ENew 8 dir_d ex_key; EGet 8 k1 TI32; EGet 8 k2 TStr].

Lemma ex_after_ok F i : feature_ok F -> F = FPlain \/ F = FEncrypted toy_aead -> ordinary_with_kills (ex_env F) ex_keyof (ex_after i).
Proof.
  intros HF HFF. split.
  - apply ex_env_ok, HF.
  - assert (H : forall e, In e (ex_after i) -> e = EKill \/ call_okb (ex_env F) ex_keyof e = true).
    { intros e He. destruct HFF; subst F; cbn in He; repeat (destruct He as [<-|He]; [first [left; reflexivity|right; vm_compute; reflexivity]|]); contradiction. }
    apply List.Forall_forall. intros e He. destruct (H e He) as [?|?]; [left; assumption|right; apply call_okb_ok; assumption].
  - apply one_spellingb_ok. destruct HFF; subst F; vm_compute; reflexivity.
  - apply roomb_ok. destruct HFF; subst F; vm_compute; reflexivity.
Qed.

(** The answers to [ex_after] on the directory left by [es] after [change]. *)
Definition ex_then (F : feature) (es : list event) (change : world -> world) (i : N) : option (list result) :=
  match run (ex_env F) world0 es with
  | Some (w, _) => option_map snd (run (ex_env F) (change w) (ex_after i))
  | None => None
  end.

Example C12_afterwards_example :
  ordinary (ex_env FPlain) ex_keyof ex_two /\
  option_map (fun wr => file_at (fst wr) dir_d) (run (ex_env FPlain) world0 ex_two) = Some (Some ex_file2) /\
  struck 0 [ex_r1; ex_r2] [be 4 (len (ex_body ex_r1)) ++ ex_bad; ex_rec ex_r2] [false; true] /\
  room (ex_env FPlain) (writes ex_two + writes (ex_after 1)) /\
  ex_then FPlain ex_two (fun w => tampered w dir_d (be 8 (len (ex_rec ex_r1 ++ ex_rec ex_r2)) ++ (be 4 (len (ex_body ex_r1)) ++ ex_bad ++ ex_rec ex_r2) ++
    zeros (64 - 8 - len (ex_rec ex_r1 ++ ex_rec ex_r2)))) 1 =
  Some [ROk None; RErr KeyNotFound; ROk (Some hello); ROk None; ROk None; ROk (Some (VI32 8)); ROk None; ROk None;
        ROk None; ROk (Some (VI32 8)); ROk (Some hello)].
Proof.
  split_and!.
  - apply ex_two_ordinary. auto.
  - vm_compute. reflexivity.
  - apply (struck_hit 0 ex_r1 (be 4 (len (ex_body ex_r1))) (ex_body ex_r1) ex_bad).
    + vm_compute; reflexivity.
    + reflexivity.
    + change (ex_body ex_r1) with (take 9 (ex_body ex_r1) ++ x05 :: drop 10 (ex_body ex_r1)) at 1. apply burst_byte. discriminate.
    + apply struck_kept; [vm_compute; reflexivity|constructor].
  - apply roomb_ok. vm_compute. reflexivity.
  - vm_compute. reflexivity.
Qed.

(** The records of an encrypted store swapped: both are gone; then the store
    is used. *)
Example C37_afterwards_example :
  room (ex_env (FEncrypted toy_aead)) (writes ex_two + writes (ex_after 1)) /\
  ex_then (FEncrypted toy_aead) ex_two (fun w => tampered w dir_d (be 8 (len (frames (rev ex_cs))) ++ frames (rev ex_cs) ++ zeros 10)) 1 =
  Some [ROk None; RErr KeyNotFound; RErr KeyNotFound; ROk None; ROk None; ROk (Some (VI32 8)); ROk None; ROk None;
        ROk None; ROk (Some (VI32 8)); RErr KeyNotFound].
Proof. split; [apply roomb_ok|]; vm_compute; reflexivity. Qed.

(** A kill in the middle of the append of "key2": its length was stored and
    half of its payload. *)
Definition ex_torn (w : world) : world :=
  match job_effects (ex_env FPlain) w 0 with
  | [FStore a b; FStore a' b'] => crashed w 0 (apply_effs [FStore a b; FStore a' (take 8 b')] (inode w 0))
  | _ => w
  end.

Example C22_afterwards_example :
  ordinary (ex_env FPlain) ex_keyof ex_put1 /\
  ex_then FPlain ex_put1 ex_torn 1 =
  Some [ROk None; ROk (Some (VI32 5)); RErr KeyNotFound; ROk None; ROk None; ROk (Some (VI32 8)); ROk None; ROk None;
        ROk None; ROk (Some (VI32 8)); RErr KeyNotFound].
Proof. split; [apply ordinaryb_ok; [apply ex_env_ok; exact Logic.I|]|]; vm_compute; reflexivity. Qed.

(** A kill in [clear_data], with one background job still to do when it was
    called: after no job, after the job, after the removal of the data file
    (encrypted: the nonce file is still there), and with the new file just
    created. *)
Example C57_example :
  ordinary (ex_env (FEncrypted toy_aead)) ex_keyof ex_put1 /\
  ex_then (FEncrypted toy_aead) ex_put1 (fun w => killed (work_on (ex_env (FEncrypted toy_aead)) 0 0 w)) 1 =
    Some [ROk None; ROk (Some (VI32 5)); RErr KeyNotFound; ROk None; ROk None; ROk (Some (VI32 8)); ROk None; ROk None;
          ROk None; ROk (Some (VI32 8)); RErr KeyNotFound] /\
  ex_then (FEncrypted toy_aead) ex_put1 (fun w => killed (work_on (ex_env (FEncrypted toy_aead)) 0 1 w)) 1 =
    Some [ROk None; ROk (Some (VI32 5)); ROk (Some hello); ROk None; ROk None; ROk (Some (VI32 8)); ROk None; ROk None;
          ROk None; ROk (Some (VI32 8)); ROk (Some hello)] /\
  (forall data meta, (data = None /\ meta = Some (ex_rng 0)) \/ (data = Some [] /\ meta = None) \/ (data = Some (zeros 64) /\ meta = Some [x01]) ->
   ex_then (FEncrypted toy_aead) ex_put1 (fun w => emptied (ex_env (FEncrypted toy_aead)) (work_on (ex_env (FEncrypted toy_aead)) 0 1 w) dir_d data meta 1) 1 =
    Some [ROk None; RErr KeyNotFound; RErr KeyNotFound; ROk None; ROk None; ROk (Some (VI32 8)); ROk None; ROk None;
          ROk None; ROk (Some (VI32 8)); RErr KeyNotFound]).
Proof.
  split_and!.
  - apply ordinaryb_ok; [apply ex_env_ok; exact toy_aead_correct|]; vm_compute; reflexivity.
  - vm_compute. reflexivity.
  - vm_compute. reflexivity.
  - intros data meta [[-> ->]|[[-> ->]|[-> ->]]]; vm_compute; reflexivity.
Qed.
