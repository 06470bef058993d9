(** C79, continued: after a power failure. *)
From Verif Require Import Bytes Utf8 Proto ProtoFacts Crc8 Value Codec Store StoreFacts Encrypt World Spec Hyps Refine WorldInv WorldStep Main Frames Reach Examples P_Map P_Store Slots Crash P_Kill P_Corrupt P_Enc2 Power P_Power Abort P_Abort.
From Coq Require Import ZifyBool ZifyNat ZifyN.
From Coq Require String. Import (notations) String.
Local Open Scope N_scope.

(** * The versions the disk may hold *)

(** [v] may still be on the disk somewhere. *)
Definition lives (l : list dev) (v : bytes) : Prop := since (fun n => 0 <? n) l v.

(** The length word of [v], zeros behind its end. *)
Definition word (v : bytes) : N := unbe (take 8 (v ++ zeros 8)).

(** The length word of any version fits into a file as long as any other. *)
Definition good (l : list dev) : Prop := forall v u, lives l v -> lives l u -> u = [] \/ (8 <= len u /\ word v + 8 <= len u).

Lemma since_lives l v : since (fun _ => true) l v -> lives l v.
Proof.
  intros (l1 & l2 & A & B & C). exists l1, l2. split; [exact A|]. split; [exact B|]. intros a n c H _. apply (C a n c H eq_refl).
Qed.

Lemma word_long v : 8 <= len v -> word v = unbe (take 8 v).
Proof. intros H. unfold word. rewrite take_app_le; [reflexivity|]. unfold len in H. lia. Qed.

Lemma word_nil : word [] = 0.
Proof. reflexivity. Qed.

(** Whatever the failure makes of the file: it is empty, or its length word
    fits. *)
Lemma good_image blk l f' : 8 <= blk -> good l -> power_image blk l f' -> f' = [] \/ length_fits f'.
Proof.
  intros Hb G [(u & Hu & Hl) Hblk]. apply since_lives in Hu. destruct (Hblk 0) as (v & Hv & Hbytes).
  assert (Hlv : lives l v) by exact Hv. destruct (G v u Hlv Hu) as [->|[H8 Hw]].
  - left. destruct f'; [reflexivity|]. unfold len in Hl. cbn in Hl. lia.
  - right. unfold length_fits. rewrite Hl. split; [exact H8|].
    assert (Ht : take 8 f' = take 8 (v ++ zeros 8)); [|rewrite Ht; exact Hw].
    apply list_eq. intros i. destruct (Nat.lt_ge_cases i 8) as [Hi|Hi]; [|rewrite !lookup_take_ge by exact Hi; reflexivity].
    rewrite !lookup_take by exact Hi. specialize (Hbytes (N.of_nat i) ltac:(lia) ltac:(lia) ltac:(lia)). unfold byte_at in Hbytes.
    rewrite Nat2N.id in Hbytes. destruct (lookup_lt_is_Some_2 f' i ltac:(unfold len in *; lia)) as (b & Eb). rewrite Eb in *. cbn in Hbytes.
    destruct (Nat.lt_ge_cases i (length v)) as [Lv|Lv].
    + rewrite lookup_app_l by exact Lv. destruct (lookup_lt_is_Some_2 v i Lv) as (c & Ec). rewrite Ec in *. cbn in Hbytes. congruence.
    + rewrite lookup_app_r by exact Lv. rewrite (lookup_ge_None_2 v i Lv) in Hbytes. cbn in Hbytes. subst b.
      symmetry. apply lookup_replicate. split; [reflexivity|lia].
Qed.

(** The last content, as a function. *)
Definition lastver (l : list dev) : option bytes := fold_left (fun o x => match x with DVer f => Some f | _ => o end) l None.

Lemma now_lastver l f : now l f -> lastver l = Some f.
Proof.
  intros (l1 & l2 & -> & B). unfold lastver. rewrite fold_left_app. cbn [fold_left]. generalize (fold_left (fun o x => match x with DVer f => Some f | _ => o end) l1 (@None bytes)). intros _.
  induction l2 as [|x l2 IH]; [reflexivity|]. inversion B as [|? ? Hx B']; subst. destruct x; try discriminate Hx. cbn [fold_left]. apply IH, B'.
Qed.

Lemma now_unique l f g : now l f -> now l g -> f = g.
Proof. intros A B. apply now_lastver in A, B. congruence. Qed.

Lemma lives_nil v : ~ lives [] v.
Proof. intros (l1 & l2 & A & _). destruct l1; discriminate A. Qed.

Lemma lives_snoc l x v : lives (l ++ [x]) v ->
  x = DVer v \/ (is_new x = false /\ lives l v /\ forall n, x = DSync n -> 0 < n -> now l v).
Proof.
  intros (l1 & l2 & A & B & C). destruct l2 as [|y l2 _] using rev_ind.
  - apply app_inj_tail in A as [_ A]. left. exact A.
  - right. change (l1 ++ DVer v :: l2 ++ [y]) with (l1 ++ (DVer v :: l2) ++ [y]) in A. rewrite app_assoc in A.
    apply app_inj_tail in A as [-> ->]. apply Forall_app in B as [B By]. inversion By as [|? ? Hy _]; subst. split; [exact Hy|].
    split.
    + exists l1, l2. split; [reflexivity|]. split; [exact B|]. intros a n c -> Hn. apply (C a n (c ++ [y])); [rewrite <- app_assoc; reflexivity|exact Hn].
    + intros n -> Hn. exists l1, l2. split; [reflexivity|]. apply (C l2 n []); [reflexivity|apply N.ltb_lt, Hn].
Qed.

(** Between two operations the versions have one length and all fit; a file
    just created may also be empty. *)
Definition settled (l : list dev) (f : bytes) : Prop :=
  now l f /\ length_fits f /\ forall v, lives l v -> v = [] \/ (len v = len f /\ length_fits v).

Lemma settled_good l f : settled l f -> good l.
Proof.
  intros (_ & _ & A) v u Hv Hu. destruct (A u Hu) as [->|[Lu [Fu _]]]; [auto|]. right. split; [exact Fu|].
  destruct (A v Hv) as [->|[Lv [Fv Wv]]]; [rewrite word_nil; exact Fu|]. rewrite word_long by exact Fv. lia.
Qed.

Lemma settled_ver l f f' : settled l f -> len f' = len f -> length_fits f' -> settled (l ++ [DVer f']) f'.
Proof.
  intros (_ & _ & A) Hl Hf. split; [apply now_ver|]. split; [exact Hf|]. intros v Hv. apply lives_snoc in Hv as [Hv|(_ & Hv & _)].
  - injection Hv as <-. auto.
  - rewrite Hl. apply A, Hv.
Qed.

Lemma settled_sync l f n : now l f -> length_fits f -> 0 < n -> settled (l ++ [DSync n]) f.
Proof.
  intros Hn Hf Hp. split; [apply now_sync, Hn|]. split; [exact Hf|]. intros v Hv. right.
  apply lives_snoc in Hv as [Hv|(_ & _ & Hv)]; [discriminate Hv|]. rewrite (now_unique l v f (Hv n eq_refl Hp) Hn). auto.
Qed.

(** All along. *)
Fixpoint along (l a : list dev) : Prop :=
  match a with [] => good l | x :: a => good l /\ along (l ++ [x]) a end.

Lemma along_first l a : along l a -> good l.
Proof. destruct a; [auto|intros [A _]; exact A]. Qed.

Lemma along_app a : forall l b, along l a -> along (l ++ a) b -> along l (a ++ b).
Proof.
  induction a as [|x a IH]; intros l b A B; cbn [app along] in *.
  - rewrite app_nil_r in B. exact B.
  - destruct A as [A1 A2]. split; [exact A1|]. apply IH; [exact A2|]. rewrite <- app_assoc. exact B.
Qed.

Lemma along_prefix a : forall l b, along l (a ++ b) -> good (l ++ a).
Proof.
  induction a as [|x a IH]; intros l b A; cbn [app along] in *.
  - rewrite app_nil_r. eapply along_first, A.
  - destruct A as [_ A]. apply IH in A. rewrite <- app_assoc in A. exact A.
Qed.

Lemma zeros_fit n : 8 <= n -> length_fits (zeros n).
Proof.
  intros H. unfold length_fits. assert (L : len (zeros n) = n) by (unfold zeros; rewrite len_replicate; lia). rewrite L. split; [exact H|].
  assert (T : take 8 (zeros n) = zeros 8).
  { unfold zeros. rewrite take_replicate. f_equal. lia. }
  rewrite T. change (unbe (zeros 8)) with 0. lia.
Qed.

(** A new file. *)
Lemma along_new l n : good l -> 8 <= n -> along l [DNew; DVer []; DVer (zeros n); DSync (len (zeros n))].
Proof.
  intros G H. assert (L : len (zeros n) = n) by (unfold zeros; rewrite len_replicate; lia).
  assert (N1 : forall v, ~ lives (l ++ [DNew]) v).
  { intros v Hv. apply lives_snoc in Hv as [Hv|(Hv & _)]; discriminate Hv. }
  assert (N2 : forall v, lives ((l ++ [DNew]) ++ [DVer []]) v -> v = []).
  { intros v Hv. apply lives_snoc in Hv as [Hv|(_ & Hv & _)]; [injection Hv as <-; reflexivity|destruct (N1 v Hv)]. }
  assert (N3 : forall v, lives (((l ++ [DNew]) ++ [DVer []]) ++ [DVer (zeros n)]) v -> v = [] \/ v = zeros n).
  { intros v Hv. apply lives_snoc in Hv as [Hv|(_ & Hv & _)]; [injection Hv as <-; auto|auto]. }
  assert (N4 : forall v, lives ((((l ++ [DNew]) ++ [DVer []]) ++ [DVer (zeros n)]) ++ [DSync (len (zeros n))]) v -> v = [] \/ v = zeros n).
  { intros v Hv. apply lives_snoc in Hv as [Hv|(_ & Hv & _)]; [discriminate Hv|auto]. }
  assert (F : forall k, (forall v, lives k v -> v = [] \/ v = zeros n) -> good k).
  { intros k Hk v u Hv Hu. destruct (zeros_fit n H) as [F1 F2]. destruct (Hk u Hu) as [->| ->]; [auto|]. right. split; [exact F1|].
    destruct (Hk v Hv) as [->| ->]; [rewrite word_nil; exact F1|]. rewrite word_long by exact F1. exact F2. }
  cbn [along]. split; [exact G|]. split; [intros v u Hv; destruct (N1 v Hv)|]. split; [apply F; auto|]. split; apply F; auto.
Qed.

Section Jobs.
Context (P : plat) (H64 : usz P = 8%nat).

Lemma flush_pos f : length_fits f -> len f < 2 ^ 63 -> 0 < map_flush P f.
Proof.
  intros [H8 Hn] Hm. unfold map_flush. rewrite (offset_of P f H64 H8). cbn [default]. rewrite (N.mod_small (_ + 8)) by lia. apply N.lt_lt_add_l. reflexivity.
Qed.

(** A growing file. *)
Lemma along_grow l f n : settled l f -> len f < 2 ^ 63 ->
  let f2 := f ++ zeros n in
  along l [DSync (len f); DVer f2; DSync (map_flush P f)] /\ settled (l ++ [DSync (len f); DVer f2; DSync (map_flush P f)]) f2.
Proof.
  intros Hs Hm f2. pose proof Hs as (Hn & Hf & _). pose proof Hf as [H8 Hw].
  assert (S1 : settled (l ++ [DSync (len f)]) f) by (apply settled_sync; [exact Hn|exact Hf|lia]).
  assert (F2 : length_fits f2) by (apply fits_extend, Hf).
  assert (L2 : len f <= len f2) by (unfold f2; rewrite len_app; lia).
  assert (G2 : good ((l ++ [DSync (len f)]) ++ [DVer f2])).
  { assert (A : forall v, lives ((l ++ [DSync (len f)]) ++ [DVer f2]) v -> v = f \/ v = f2).
    { intros v Hv. apply lives_snoc in Hv as [Hv|(_ & Hv & _)]; [injection Hv as <-; auto|].
      apply lives_snoc in Hv as [Hv|(_ & _ & Hv)]; [discriminate Hv|]. left. eapply now_unique; [apply (Hv (len f) eq_refl); lia|exact Hn]. }
    assert (Wd : forall v, v = f \/ v = f2 -> word v = word f).
    { intros v [->| ->]; [reflexivity|]. rewrite !word_long by lia. unfold f2. rewrite take_app_le; [reflexivity|]. unfold len in H8. lia. }
    intros v u Hv Hu. right. rewrite (Wd v (A v Hv)), word_long by exact H8. destruct (A u Hu) as [->| ->]; lia. }
  assert (S3 : settled (((l ++ [DSync (len f)]) ++ [DVer f2]) ++ [DSync (map_flush P f)]) f2).
  { apply settled_sync; [apply now_ver|exact F2|apply flush_pos; assumption]. }
  split.
  - cbn [along]. split; [eapply settled_good, Hs|]. split; [eapply settled_good, S1|]. split; [exact G2|eapply settled_good, S3].
  - replace (l ++ [DSync (len f); DVer f2; DSync (map_flush P f)]) with (((l ++ [DSync (len f)]) ++ [DVer f2]) ++ [DSync (map_flush P f)])
      by (rewrite <- !app_assoc; reflexivity). exact S3.
Qed.

(** The effects of one job. *)
Definition fitting (f : bytes) (es : list eff) : Prop :=
  forall j e, nth_error es j = Some e -> length_fits (apply_effs (firstn (S j) es) f) /\
    match e with FStore a d => a + len d <= len (apply_effs (firstn j es) f) | FExtend _ => True end.

Lemma fitting_tail f e es : fitting f (e :: es) -> fitting (apply_eff e f) es.
Proof. intros H j x Hj. exact (H (S j) x Hj). Qed.

Lemma fitting_grows es : forall f, fitting f es -> len f <= len (apply_effs es f).
Proof.
  induction es as [|e es IH]; intros f H; [cbn; lia|]. etransitivity; [|exact (IH _ (fitting_tail _ _ _ H))].
  destruct (H 0%nat e eq_refl) as [_ He]. destruct e as [a d|n]; [rewrite store_length by exact He; lia|cbn [apply_eff]; rewrite len_app; lia].
Qed.

Lemma along_effs es : forall l f, settled l f -> fitting f es -> len (apply_effs es f) < 2 ^ 63 ->
  along l (eff_log P es f) /\ settled (l ++ eff_log P es f) (apply_effs es f).
Proof.
  induction es as [|e es IH]; intros l f Hs Hf Hm.
  - cbn [eff_log along]. rewrite app_nil_r. split; [eapply settled_good, Hs|exact Hs].
  - pose proof (fitting_tail _ _ _ Hf) as Ht. pose proof (fitting_grows _ _ Hf) as Hg.
    destruct (Hf 0%nat e eq_refl) as [He Hb]. change (apply_effs (firstn 1 (e :: es)) f) with (apply_eff e f) in He.
    change (apply_effs (e :: es) f) with (apply_effs es (apply_eff e f)) in *. cbn [firstn] in Hb. change (apply_effs [] f) with f in Hb.
    destruct e as [a d|n]; cbn [eff_log].
    + assert (S1 : settled (l ++ [DVer (apply_eff (FStore a d) f)]) (apply_eff (FStore a d) f)).
      { apply (settled_ver l f); [exact Hs|apply store_length, Hb|exact He]. }
      destruct (IH _ _ S1 Ht Hm) as [A B]. rewrite <- app_assoc in B. split; [|exact B].
      cbn [along]. split; [eapply settled_good, Hs|exact A].
    + destruct (along_grow l f n Hs ltac:(lia)) as [A1 S1]. destruct (IH _ _ S1 Ht Hm) as [A B].
      match goal with |- along l (?x :: ?y :: ?z :: ?t) /\ _ => change (x :: y :: z :: t) with ([x; y; z] ++ t) end.
      split; [apply along_app; [exact A1|exact A]|]. rewrite app_assoc. exact B.
Qed.
End Jobs.

(** * One event *)

(** Removing is the last thing a thread does in clear_data. *)
Lemma iter_removes E i q : forall w x y, w_insts w !! i = Some x -> i_queue x = q ++ [JRemove] ->
  w_insts (Nat.iter (S (length q)) (fun w => run_job E w i) w) !! i = Some y -> i_io y = IoRun ->
  d_data (dir_of (Nat.iter (S (length q)) (fun w => run_job E w i) w) (i_dir x)) = None.
Proof.
  assert (Dead : forall n w x y, w_insts w !! i = Some x -> i_io x = IoDead -> w_insts (Nat.iter n (fun w => run_job E w i) w) !! i = Some y -> i_io y = IoDead).
  { intros n w x y Hx Dx. assert (A : Nat.iter n (fun w => run_job E w i) w = w).
    { induction n as [|n IHn]; [reflexivity|]. rewrite Nat.iter_succ, IHn. eapply dead_stays; eassumption. }
    rewrite A. intros Hy. congruence. }
  induction q as [|j q IH]; intros w x y Hx Hq Hy Hio; rewrite Nat.iter_succ_r in *.
  - cbn [length] in *. change (Nat.iter 0 (fun w => run_job E w i) (run_job E w i)) with (run_job E w i) in *.
    cbn [app] in Hq. unfold run_job in *. rewrite Hx, Hq in *. destruct (i_io x) eqn:D.
    + unfold dir_of. cbn. rewrite lookup_insert. reflexivity.
    + rewrite Hx in Hy. injection Hy as <-. congruence.
  - cbn [length] in *. destruct (run_job_frame E w i x Hx) as ((z & Z1 & Z2 & Z3) & _).
    assert (Hz : w_insts (run_job E w i) !! i = Some z) by (rewrite Z1; apply lookup_insert).
    destruct (i_io x) eqn:D; cycle 1.
    { assert (W : run_job E w i = w) by (eapply dead_stays; eassumption). rewrite W in Hy. rewrite (Dead _ _ _ _ Hx D Hy) in Hio. discriminate Hio. }
    destruct (i_io z) eqn:Dz; cycle 1.
    { rewrite (Dead _ _ _ _ Hz Dz Hy) in Hio. discriminate Hio. }
    rewrite <- Z2. apply (IH _ z y); auto. clear IH Hy. unfold run_job in Hz. rewrite Hx, D, Hq in Hz. cbn [app] in Hz. destruct j as [m dup|].
    + destruct (write _ _ _ _ _) as [s ok]. cbn in Hz. rewrite lookup_insert in Hz. injection Hz as <-. reflexivity.
    + cbn in Hz. rewrite lookup_insert in Hz. injection Hz as <-. reflexivity.
Qed.

Section Run.
Context (E : env) (keyof : bytes -> bytes) (d : bytes).
Notation P := (e_plat E).

(** What is known of the log of [d] after some calls. *)
Definition calm (w : world) (l : list dev) : Prop := good l /\ forall f, file_at w d = Some f -> settled l f.

Lemma reach_fits es w rs f : ordinary E keyof es -> run E world0 es = Some (w, rs) -> file_at w d = Some f ->
  length_fits f /\ len f < 2 ^ 63.
Proof using Type.
  intros HO Hr Hf. destruct (reach E keyof es HO w rs Hr) as (sp & Hsp & W).
  destruct (file_WOk E keyof _ (PU_inj E keyof _ HO) w sp _ _ d f W Hf) as (s' & rs0 & nonce & _ & _ & _ & (I & _) & _).
  pose proof (inv_size _ _ _ _ _ I) as Hsz. destruct (inv_file _ _ _ _ _ I) as (c & sl & _ & Ec). cbn [closed_st s_file] in *.
  split; [|exact Hsz]. rewrite Ec in *. apply fits_shape, Hsz.
Qed.

(** One job. *)
Lemma along_job es w rs i x l : ordinary E keyof es -> run E world0 es = Some (w, rs) -> w_insts w !! i = Some x ->
  settled l (inode w (i_ino x)) -> along l (job_log E w i) /\ settled (l ++ job_log E w i) (inode (run_job E w i) (i_ino x)).
Proof using Type.
  intros HO Hr Hx Hs. destruct (eo_plat _ (or_env _ _ _ HO)) as [H64 Hpage Hmax Hhord].
  destruct (reach E keyof es HO w rs Hr) as (sp & _ & W). destruct (wi_insts _ _ _ _ _ _ _ W i x Hx) as (_ & I & _).
  unfold job_log. rewrite Hx, (io_run _ _ _ _ _ _ _ I).
  destruct (io_state _ _ _ _ _ _ _ I) as (q & rs1 & c & B1 & _).
  destruct q as [|[m dup] q]; cbn [map jw fst snd] in B1.
  - unfold job_effects, run_job. rewrite Hx, (io_run _ _ _ _ _ _ _ I), B1. cbn [eff_log along]. rewrite app_nil_r.
    split; [eapply settled_good, Hs|exact Hs].
  - destruct (reach_job E keyof es w rs i x m dup _ HO Hr Hx B1) as (s1 & rs2 & rs3 & c0 & Ew & Heff & HW & _ & _ & HW1 & _).
    pose proof (job_effects_complete E w i x m dup _ Hx (io_run _ _ _ _ _ _ _ I) B1) as Hc.
    pose proof HW as (J & _). pose proof (inv_ml _ _ _ _ _ J) as Hml. pose proof (inv_size _ _ _ _ _ J) as Hsz.
    pose proof Hs as (_ & Hfit & _).
    destruct (write_steady P (i_codec E x) H64 Hmax (i_st w x) m dup s1 (conj Hml (conj Hfit Hsz)) Ew) as [(_ & effs & A & B & F & G) _].
    cbn [i_st s_eff app s_file] in A, B, G. rewrite Hc, Heff, A.
    destruct HW1 as (J1 & _). pose proof (inv_size _ _ _ _ _ J1) as Hsz1.
    apply along_effs; [exact H64|exact Hs|exact G|]. rewrite <- B. exact Hsz1.
Qed.

(** A queue. *)
Lemma along_jobs i n : forall es w rs x l, ordinary E keyof es -> run E world0 es = Some (w, rs) -> w_insts w !! i = Some x ->
  settled l (inode w (i_ino x)) ->
  along l (jobs_log E n w i) /\ settled (l ++ jobs_log E n w i) (inode (Nat.iter n (fun w => run_job E w i) w) (i_ino x)) /\
  len (inode (Nat.iter n (fun w => run_job E w i) w) (i_ino x)) < 2 ^ 63.
Proof using Type.
  induction n as [|n IH]; intros es w rs x l HO Hr Hx Hs; cbn [jobs_log].
  - cbn [along]. rewrite app_nil_r. split; [eapply settled_good, Hs|]. split; [exact Hs|].
    destruct (reach_inst E keyof es w rs i x HO Hr Hx) as (_ & _ & _ & q & rs1 & c & _ & _ & (I & _) & _).
    exact (inv_size _ _ _ _ _ I).
  - destruct (along_job es w rs i x l HO Hr Hx Hs) as [A S]. rewrite Nat.iter_succ_r.
    destruct (run_job_frame E w i x Hx) as ((y & Y1 & Y2 & Y3) & _). rewrite <- Y3 in *.
    destruct (IH (es ++ [EIo i]) (run_job E w i) (rs ++ [ROk None]) y (l ++ job_log E w i)) as (A' & S' & Z').
    + apply ordinary_snoc_io, HO.
    + eapply run_snoc; [exact Hr|reflexivity].
    + rewrite Y1. apply lookup_insert.
    + exact S.
    + split; [apply along_app; assumption|]. rewrite app_assoc. split; [exact S'|exact Z'].
Qed.

Lemma along_step es e w rs w' r l : ordinary E keyof (es ++ [e]) -> run E world0 es = Some (w, rs) -> step E w e = Some (w', r) ->
  calm w l -> along l (data_log E w e d) /\ calm w' (l ++ data_log E w e d).
Proof using Type.
  intros HOe Hr Hst [G C]. pose proof (ordinary_app_l _ _ _ _ HOe) as HO.
  destruct (eo_plat _ (or_env _ _ _ HO)) as [H64 Hpage Hmax Hhord].
  assert (Hpg : 8 <= page P) by lia.
  destruct (reach E keyof es HO w rs Hr) as (sp & Hsp & W).
  pose proof (run_snoc E _ _ _ _ _ _ _ Hr Hst) as Hr'.
  assert (Hinst : forall i x, w_insts w !! i = Some x -> i_dir x = d -> settled l (inode w (i_ino x))).
  { intros i x Hx Dx. apply C. destruct (wi_insts _ _ _ _ _ _ _ W i x Hx) as (_ & I & _). unfold file_at.
    rewrite <- Dx, (io_data _ _ _ _ _ _ _ I). reflexivity. }
  assert (Ho : forall w1, (w1 = w \/ file_at w1 d = None) -> along l (open_log E w1 d)).
  { intros w1 Hw1. unfold open_log. destruct (file_at w1 d) as [f|] eqn:Hf.
    - destruct Hw1 as [->|Hw1]; [|discriminate Hw1]. pose proof (C f Hf) as Hs.
      destruct (reach_fits es w rs f HO Hr Hf) as [Hfit _].
      assert (Hcn : config_new P f = f). { unfold config_new. destruct (N.eqb_spec (len f) 0); [destruct Hfit; lia|reflexivity]. }
      rewrite Hcn. assert (S1 : settled (l ++ [DVer f]) f) by (apply (settled_ver l f); auto). cbn [along].
      split; [exact G|]. split; [eapply settled_good, S1|]. eapply settled_good, settled_sync; [apply now_ver|exact Hfit|destruct Hfit; lia].
    - change (config_new P []) with (zeros (page P)). apply along_new; assumption. }
  pose proof (or_calls _ _ _ HOe) as HC. apply Forall_app in HC as [_ HC]. apply Forall_cons_1 in HC as [HC _].
  assert (A : along l (data_log E w e d)).
  { unfold data_log. destruct e as [h path key|h key v|h key|h key t|h key t|h key|h|h|h|h|i|]; cbn [opens along]; auto.
    - destruct (w_poison w); [exact G|]. destruct (lookup_reg w path); [exact G|]. destruct (e_dir_ok E path); [|exact G].
      destruct (decide _); [|exact G]. apply Ho. auto.
    - destruct (w_handles w !! h) as [hd|] eqn:Hh; [|exact G].
      destruct (handle_cases _ _ _ _ _ _ _ _ _ W Hh) as (_ & _ & _ & _ & _ & x & Hx & Dx & I). rewrite Hx.
      destruct (i_poison x); [exact G|]. destruct (impl_clear E w (h_inst hd) x) as [w1 [o| |]] eqn:Hc; try exact G.
      destruct (e_dir_ok E (h_path hd)); [|exact G]. destruct (decide _) as [Hd|]; [|exact G]. apply Ho. right.
      unfold impl_clear in Hc. rewrite (io_valid _ _ _ _ _ _ _ I) in Hc. cbn [negb] in Hc.
      unfold post in Hc. cbn [i_invalid i_sender i_io i_queue] in Hc. rewrite (io_sender _ _ _ _ _ _ _ I), (io_run _ _ _ _ _ _ _ I) in Hc.
      set (x1 := i_with_queue (i_invalid x) (i_queue x ++ [JRemove])) in *. set (wa := set_inst w (h_inst hd) x1) in *.
      assert (Hx1 : w_insts wa !! h_inst hd = Some x1) by apply lookup_insert.
      destruct (w_insts (drain E wa (h_inst hd)) !! h_inst hd) as [x2|] eqn:Hx2; [|discriminate Hc].
      destruct (i_io x2) eqn:D2; [|discriminate Hc]. injection Hc as <- _.
      unfold drain in *. rewrite Hx1 in *. change (i_queue x1) with (i_queue x ++ [JRemove]) in *. rewrite app_length in *. cbn [length] in *.
      rewrite Nat.add_1_r in *. pose proof (iter_removes E _ (i_queue x) wa x1 x2 Hx1 eq_refl Hx2 D2) as Hn.
      change (i_dir x1) with (i_dir x) in Hn. rewrite Dx, Hd in Hn. unfold file_at.
      match goal with |- option_map _ (d_data (dir_of (set_inst ?w0 _ _) d)) = None => change (dir_of (set_inst w0 (h_inst hd) (i_quit x2)) d) with (dir_of w0 d) end.
      rewrite Hn. reflexivity.
    - destruct (w_handles w !! h) as [hd|] eqn:Hh; [|exact G]. destruct (w_insts w !! h_inst hd) as [x|] eqn:Hx; [|exact G].
      destruct (decide _) as [Dx|]; [|exact G]. destruct (Nat.eqb _ _); [|exact G]. unfold close_log. rewrite Hx.
      destruct (along_jobs (h_inst hd) (length (i_queue x)) es w rs x l HO Hr Hx (Hinst _ _ Hx Dx)) as (A & S & Z).
      apply along_app; [exact A|]. cbn [along]. split; [eapply settled_good, S|].
      pose proof S as (Sn & Sf & _). eapply settled_good, settled_sync; [exact Sn|exact Sf|]. unfold drain. rewrite Hx. apply flush_pos; [exact H64|exact Sf|].
      exact Z.
    - contradiction.
    - destruct (w_insts w !! i) as [x|] eqn:Hx; [|exact G]. destruct (decide _) as [Dx|]; [|exact G].
      apply (along_job es w rs i x l HO Hr Hx (Hinst _ _ Hx Dx)). }
  split; [exact A|]. split; [eapply (along_prefix _ l []); rewrite app_nil_r; exact A|]. intros f Hf.
  destruct (reach_fits _ _ _ f HOe Hr' Hf) as [Hfit Hsz].
  destruct (reach_prefix E keyof (es ++ [e]) HOe es [e] w rs eq_refl Hr) as (sp1 & Hsp1 & W1).
  assert (Hroom : room E (writes es + wcount e)).
  { pose proof (or_room _ _ _ HOe) as R. rewrite writes_app, writes_cons in R. eapply room_mono; [|exact R]. lia. }
  assert (HU : in_U (PU (es ++ [e])) e).
  { pose proof (in_U_all (es ++ [e]) es [e] [] ltac:(rewrite app_nil_r; reflexivity)) as F. apply Forall_cons_1 in F as [F _]. exact F. }
  destruct (step_log E (or_env _ _ _ HO) keyof (PU (es ++ [e])) (PU_dir E keyof _ HOe) (PU_key E keyof _ HOe) (PU_inj E keyof _ HOe)
    w sp1 _ _ e w' r d W1 HC HU Hroom Hst) as (sp' & _ & W' & [(L & F & _)|[(i & f0 & -> & _ & F & L & F')|(f1 & l0 & m & F & L & M & N')]]).
  - rewrite L, app_nil_r. apply C. rewrite <- F. exact Hf.
  - cbn [step] in Hst. injection Hst as <- _. unfold data_log in *. destruct (w_insts w !! i) as [x|] eqn:Hx.
    + destruct (decide (i_dir x = d)) as [Dx|Dx].
      * destruct (along_job es w rs i x l HO Hr Hx (Hinst _ _ Hx Dx)) as [_ S].
        assert (Hi : inode (run_job E w i) (i_ino x) = f); [|rewrite Hi in S; exact S].
        destruct (wi_insts _ _ _ _ _ _ _ W i x Hx) as (_ & I & _).
        assert (Hdd : dir_of (run_job E w i) d = dir_of w d).
        { destruct (io_state _ _ _ _ _ _ _ I) as (q & rs1 & c & B1 & _). unfold run_job. rewrite Hx, (io_run _ _ _ _ _ _ _ I), B1.
          destruct q as [|[m dup] q]; [reflexivity|]. cbn [map jw fst snd]. destruct (write _ _ _ _ _). reflexivity. }
        unfold file_at in Hf. rewrite Hdd, <- Dx, (io_data _ _ _ _ _ _ _ I) in Hf. injection Hf as Hf. exact Hf.
      * rewrite app_nil_r. apply C. destruct (run_job_frame E w i x Hx) as (_ & K1 & K2 & _).
        destruct (wi_insts _ _ _ _ _ _ _ W i x Hx) as (_ & I & _). unfold file_at in *. rewrite K1 in Hf by congruence.
        destruct (d_data (dir_of w d)) as [j|] eqn:Hj; [|discriminate Hf]. cbn [option_map] in *. rewrite <- Hf. symmetry. f_equal. apply K2.
        intros ->. apply Dx. symmetry. eapply (wi_ino _ _ _ _ _ _ _ W); [exact Hj|apply (io_data _ _ _ _ _ _ _ I)].
    + rewrite app_nil_r. apply C. unfold run_job in Hf. rewrite Hx in Hf. exact Hf.
  - rewrite F in Hf. injection Hf as <-. rewrite L, app_assoc. apply settled_sync; [apply N'; intros f0 Hf0; apply C, Hf0|exact Hfit|].
    destruct (eo_plat _ (or_env _ _ _ HO)) as [H64' _ _ _]. pose proof (flush_pos P H64' f1 Hfit Hsz). lia.
Qed.

(** A whole history. *)
Lemma along_run es : forall w rs, ordinary E keyof es -> run E world0 es = Some (w, rs) ->
  along [] (run_log E data_log world0 es d) /\ calm w (run_log E data_log world0 es d).
Proof using Type.
  induction es as [|e es IH] using rev_ind; intros w rs HO Hr.
  - cbn [run] in Hr. injection Hr as <- _. cbn [run_log along]. assert (G : good []) by (intros v u Hv; destruct (lives_nil v Hv)).
    split; [exact G|]. split; [exact G|]. intros f Hf. unfold file_at, dir_of in Hf. cbn in Hf. rewrite lookup_empty in Hf. discriminate Hf.
  - rewrite run_app in Hr. destruct (run E world0 es) as [[w1 rs1]|] eqn:Hr1; [|discriminate]. cbn [run] in Hr.
    destruct (step E w1 e) as [[w2 r]|] eqn:Hst; [|discriminate]. injection Hr as <- _.
    destruct (IH w1 rs1 (ordinary_app_l _ _ _ _ HO) eq_refl) as [A C].
    destruct (along_step es e w1 rs1 w2 r _ HO Hr1 Hst C) as [A' C'].
    rewrite (run_log_app E data_log d es [e] world0 w1 rs1 Hr1). cbn [run_log]. rewrite Hst, app_nil_r.
    split; [|exact C']. apply along_app; assumption.
Qed.
End Run.

(** * C79 *)

(** At any moment -- also between two changes of one operation -- a power
    failure leaves a data file that is empty or whose length word fits. *)
Theorem C79_length_fits_after_a_power_failure E keyof blk es w rs d l1 l2 f' :
  ordinary E keyof es -> run E world0 es = Some (w, rs) -> 8 <= blk ->
  run_log E data_log world0 es d = l1 ++ l2 -> power_image blk l1 f' ->
  f' = [] \/ (8 <= len f' /\ unbe (take 8 f') + 8 <= len f').
Proof.
  intros HO Hr Hb El HI. apply (good_image blk l1 f' Hb); [|exact HI].
  destruct (along_run E keyof d es w rs HO Hr) as [A _]. rewrite El in A. exact (along_prefix _ [] _ A).
Qed.

(** So the process that opens the store after a power failure does not end,
    unless panics abort: the call answers, if only with a panic. *)
Theorem C79_after_a_power_failure_partial pr E keyof blk es w rs w' h p :
  ordinary E keyof es -> run E world0 es = Some (w, rs) -> power_failure E blk es w w' -> 8 <= blk -> In p (paths es) ->
  profile_ok pr -> p_abort pr = false -> ends pr E w' (ENew h p (keyof (e_canon E p))) = false.
Proof.
  intros HO Hr PF Hb Hp Hpr Hna. destruct (eo_plat _ (or_env _ _ _ HO)) as [H64 Hpage Hmax Hhord].
  set (d := e_canon E p). destruct (file_exists E keyof es w rs p HO Hr Hp) as (f & Hf). fold d in Hf.
  destruct (PU_call E keyof es HO p Hp) as [Hdo Hkey]. fold d in Hkey.
  pose proof (pf_names _ _ _ _ _ PF d) as Hn. unfold file_at in Hf.
  destruct (d_data (dir_of w d)) as [ino|] eqn:Hdata; [|discriminate Hf].
  assert (Hf' : file_at w' d = Some (inode w' ino)) by (unfold file_at; rewrite Hn; reflexivity).
  pose proof (C79_length_fits_after_a_power_failure E keyof blk es w rs d _ [] (inode w' ino) HO Hr Hb (eq_sym (app_nil_r _)) (pf_data _ _ _ _ _ PF d _ Hf')) as Hfit.
  assert (Hc : length_fits (config_new (e_plat E) (inode w' ino))).
  { unfold config_new. destruct Hfit as [Hfit|Hfit].
    - rewrite Hfit. apply zeros_fit. lia.
    - destruct (N.eqb_spec (len (inode w' ino)) 0) as [Hz|]; [destruct Hfit; lia|exact Hfit]. }
  unfold ends. rewrite Hna. cbn [andb orb]. rewrite (pf_poison _ _ _ _ _ PF).
  unfold lookup_reg. rewrite (pf_reg _ _ _ _ _ PF), lookup_empty.
  unfold open_ends. rewrite Hdo. fold d. cbv zeta. unfold open_config. rewrite Hn.
  destruct (feature_key (e_feat E) (keyof d)) as [ky|]; [|contradiction].
  set (w1 := set_inode w' ino (config_new (e_plat E) (inode w' ino))).
  assert (Hi : inode w1 ino = config_new (e_plat E) (inode w' ino)).
  { unfold w1, inode. cbn. rewrite lookup_insert. reflexivity. }
  assert (Hni : inode (fst (open_nonce E w1 d)) ino = inode w1 ino).
  { unfold open_nonce. destruct (is_encrypted (e_feat E)); [|reflexivity]. destruct (init_nonce _ _) as [? ?]. reflexivity. }
  destruct (open_nonce E w1 d) as [w2 nonce]. cbn [fst] in Hni. rewrite Hni, Hi.
  destruct (open_file _ _ _ _) as [?|]; [reflexivity|]. unfold fatal. rewrite Hna, fits_drops by assumption. reflexivity.
Qed.

(** A power failure after which the store cannot be opened (C77): the process
    that tries gets its panic and goes on. *)
Lemma C79_after_a_power_failure_example : exists es w rs w' w2,
  ordinary (ex_env FPlain) ex_keyof es /\ run (ex_env FPlain) world0 es = Some (w, rs) /\
  power_failure (ex_env FPlain) 64 es w w' /\ In dir_d (paths es) /\ profile_ok unwinding /\ p_abort unwinding = false /\
  step (ex_env FPlain) w' (ENew 1 dir_d (ex_keyof (e_canon (ex_env FPlain) dir_d))) = Some (w2, RPanic) /\
  ends unwinding (ex_env FPlain) w' (ENew 1 dir_d (ex_keyof (e_canon (ex_env FPlain) dir_d))) = false /\
  ends shipped (ex_env FPlain) w' (ENew 1 dir_d (ex_keyof (e_canon (ex_env FPlain) dir_d))) = true.
Proof.
  assert (T : match run (ex_env FPlain) world0 ex_put1 with
    | Some (w, _) => match w_insts w !! 0 with
       | Some x => match i_queue x with
          | [JWrite m dup] => bool_decide (i_dir x = dir_d) && 
              match job_effects (ex_env FPlain) w 0 with FStore _ h :: _ => negb (bool_decide (h = be 8 0)) | _ => false end &&
              match last (job_effects (ex_env FPlain) w 0) with
              | Some (FStore a b) => bool_decide (take 4 (drop (N.to_nat a) (apply_effs (removelast (job_effects (ex_env FPlain) w 0)) (inode w (i_ino x)))) = [x00; x00; x00; x00])
              | _ => false end
          | _ => false end
       | None => false end
    | None => false end = true) by (vm_compute; reflexivity).
  destruct (run (ex_env FPlain) world0 ex_put1) as [[w rs0]|] eqn:Hr; [|discriminate T].
  destruct (w_insts w !! 0) as [x|] eqn:Hx; [|discriminate T].
  destruct (i_queue x) as [|[m dup|] [|]] eqn:Hq; try discriminate T.
  apply andb_true_iff in T as [T1 T2]. apply andb_true_iff in T1 as [Td Tn].
  apply bool_decide_eq_true in Td.
  destruct (last (job_effects (ex_env FPlain) w 0)) as [[a b|]|] eqn:Hlast; try discriminate T2. apply bool_decide_eq_true in T2.
  assert (HO : ordinary (ex_env FPlain) ex_keyof ex_put1).
  { apply ordinaryb_ok; [apply ex_env_ok; exact Logic.I|vm_compute; reflexivity]. }
  assert (Hnc : ~ compacts (ex_env FPlain) w 0). { intros (rest & Hrest). rewrite Hrest in Tn. vm_compute in Tn. discriminate Tn. }
  assert (Hin : In dir_d (paths ex_put1)) by (left; reflexivity).
  assert (Hcn : e_canon (ex_env FPlain) dir_d = i_dir x) by (rewrite Td; vm_compute; reflexivity).
  destruct (C77_idle_store_unopenable _ _ 64 _ _ _ 0 x m dup [] a b 1 dir_d HO Hr Hx Hq eq_refl Hnc Hin Hcn Hlast T2) as (Hrun & w' & w2 & PF & Hbad).
  assert (HO' : ordinary (ex_env FPlain) ex_keyof (ex_put1 ++ [EIo 0])) by (apply ordinary_snoc_io, HO).
  assert (Hin' : In dir_d (paths (ex_put1 ++ [EIo 0]))) by (rewrite paths_app; apply in_or_app; left; exact Hin).
  exists (ex_put1 ++ [EIo 0]), (run_job (ex_env FPlain) w 0), (rs0 ++ [ROk None]), w', w2.
  split; [exact HO'|]. split; [exact Hrun|]. split; [exact PF|]. split; [exact Hin'|]. split; [apply unwinding_ok|]. split; [reflexivity|].
  split; [exact Hbad|]. split.
  - refine (C79_after_a_power_failure_partial unwinding _ ex_keyof 64 _ _ _ w' 1 dir_d HO' Hrun PF _ Hin' _ eq_refl); [lia|apply unwinding_ok].
  - unfold ends, panics. rewrite Hbad. reflexivity.
Qed.
