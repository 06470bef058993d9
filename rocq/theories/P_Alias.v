(** C26 and C27: drops that interleave with opens, and several spellings of
    one directory.  Both properties are false of the code as stated; what
    remains true is proved by relating the run to an ordinary one. *)
From Verif Require Import Bytes Utf8 Proto ProtoFacts Value Codec Store StoreFacts Encrypt World Spec Hyps Refine WorldInv WorldStep Main Frames Reach Examples P_Map P_Store P_Fail.
From Coq Require Import ZifyBool ZifyNat ZifyN.
From Coq Require String. Import (notations) String.
Local Open Scope N_scope.

(** ** Replacing handles and registry *)

Definition frame (H : gmap N handle) (R : gmap bytes N) (w : world) : world := set_reg (set_handles w H) R.

Section Frame.
Context (E : env) (H : gmap N handle) (R : gmap bytes N).

Lemma frame_job w j : run_job E (frame H R w) j = frame H R (run_job E w j).
Proof.
  unfold run_job. cbn [frame set_reg set_handles w_insts]. destruct (w_insts w !! j) as [x|]; [|reflexivity].
  destruct (i_io x), (i_queue x) as [|[m dup|] q]; try reflexivity. change (i_st (frame H R w) x) with (i_st w x).
  destruct (write _ _ _ m dup) as [s ok]. reflexivity.
Qed.

Lemma frame_drain w j : drain E (frame H R w) j = frame H R (drain E w j).
Proof.
  unfold drain. cbn [frame set_reg set_handles w_insts]. destruct (w_insts w !! j) as [x|]; [|reflexivity].
  generalize (length (i_queue x)) as n. induction n as [|n IH]; [reflexivity|]. rewrite !Nat.iter_succ, IH. apply frame_job.
Qed.

Lemma frame_open w p k : open_impl E (frame H R w) p k = (frame H R (open_impl E w p k).1, (open_impl E w p k).2).
Proof.
  unfold open_impl. destruct (e_dir_ok E p); [|reflexivity].
  assert (C : open_config E (frame H R w) (e_canon E p) = (frame H R (open_config E w (e_canon E p)).1, (open_config E w (e_canon E p)).2)).
  { unfold open_config. change (dir_of (frame H R w) (e_canon E p)) with (dir_of w (e_canon E p)). destruct (d_data _); reflexivity. }
  rewrite C. destruct (open_config E w _) as [w1 ino]. cbn [fst snd]. destruct (feature_key _ k); [|reflexivity].
  assert (N : open_nonce E (frame H R w1) (e_canon E p) = (frame H R (open_nonce E w1 (e_canon E p)).1, (open_nonce E w1 (e_canon E p)).2)).
  { unfold open_nonce. change (dir_of (frame H R w1) (e_canon E p)) with (dir_of w1 (e_canon E p)). change (w_rng (frame H R w1)) with (w_rng w1).
    destruct (is_encrypted _); [|reflexivity]. destruct (init_nonce _ _). reflexivity. }
  rewrite N. destruct (open_nonce E w1 _) as [w2 nonce]. cbn [fst snd].
  change (inode (frame H R w2) ino) with (inode w2 ino). change (w_seed (frame H R w2)) with (w_seed w2).
  destruct (open_file _ _ _ _) as [[s m]|]; reflexivity.
Qed.

Lemma frame_on_inst w j f : on_inst (frame H R w) j f = (frame H R (on_inst w j f).1, (on_inst w j f).2).
Proof.
  unfold on_inst. cbn [frame set_reg set_handles w_insts]. destruct (w_insts w !! j) as [x|]; [|reflexivity].
  destruct (f x). reflexivity.
Qed.

Lemma frame_clear w hd : do_clear E (frame H R w) hd = (frame H R (do_clear E w hd).1, (do_clear E w hd).2).
Proof.
  unfold do_clear. cbn [frame set_reg set_handles w_insts]. destruct (w_insts w !! h_inst hd) as [x|]; [|reflexivity].
  destruct (i_poison x); [reflexivity|].
  assert (C : impl_clear E (frame H R w) (h_inst hd) x = (frame H R (impl_clear E w (h_inst hd) x).1, (impl_clear E w (h_inst hd) x).2)).
  { unfold impl_clear. destruct (negb (i_valid x)); [reflexivity|]. destruct (post _ _) as [x1 r].
    change (set_inst (frame H R w) (h_inst hd) x1) with (frame H R (set_inst w (h_inst hd) x1)).
    destruct r; [|reflexivity..]. rewrite frame_drain. cbn [frame set_reg set_handles w_insts].
    destruct (w_insts (drain E _ _) !! _); reflexivity. }
  rewrite C. destruct (impl_clear E w _ x) as [w1 r]. cbn [fst snd]. destruct r; [|reflexivity..].
  rewrite frame_open. destruct (open_impl E w1 _ _) as [w2 [y|]]; cbn [fst snd].
  - cbn [frame set_reg set_handles w_insts]. destruct (_ && _)%bool; reflexivity.
  - cbn [frame set_reg set_handles w_insts]. destruct (w_insts w2 !! h_inst hd); reflexivity.
Qed.

End Frame.

Lemma frame_self w : frame (w_handles w) (w_reg w) w = w.
Proof. destruct w. reflexivity. Qed.

Lemma frame_frame H R H' R' w : frame H R (frame H' R' w) = frame H R w.
Proof. reflexivity. Qed.

Lemma strong_fmap (f : handle -> handle) w R i : (forall hd, h_inst (f hd) = h_inst hd) ->
  strong (frame (f <$> w_handles w) R w) i = strong w i.
Proof.
  intros Hf. unfold strong. cbn [frame set_reg set_handles w_handles]. rewrite map_to_list_fmap.
  generalize (map_to_list (w_handles w)). intros l. induction l as [|[h hd] l IH]; [reflexivity|].
  cbn [fmap list_fmap prod_map fst snd]. unfold prod_map at 1. cbn [fst snd].
  destruct (decide (h_inst hd = i)) as [He|He].
  - rewrite !filter_cons_True by (cbn; rewrite ?Hf; exact He). cbn [length]. f_equal. exact IH.
  - rewrite !filter_cons_False by (cbn; rewrite ?Hf; exact He). exact IH.
Qed.

(** A dropped handle still counts until its fields are dropped. *)
Lemma strong_flag w R h hd i : w_handles w !! h = Some hd ->
  strong (frame (<[h := Handle (h_path hd) (h_key hd) (h_inst hd) true]> (w_handles w)) R w) i = strong w i.
Proof.
  intros Hh. unfold strong. cbn [frame set_reg set_handles w_handles].
  assert (Pm : Permutation (map_to_list (w_handles w)) ((h, hd) :: map_to_list (delete h (w_handles w)))).
  { rewrite <- map_to_list_insert by apply lookup_delete. rewrite insert_delete by exact Hh. reflexivity. }
  assert (Pm' : Permutation (map_to_list (<[h := Handle (h_path hd) (h_key hd) (h_inst hd) true]> (w_handles w)))
     ((h, Handle (h_path hd) (h_key hd) (h_inst hd) true) :: map_to_list (delete h (w_handles w)))).
  { rewrite <- map_to_list_insert by apply lookup_delete. rewrite insert_delete_insert. reflexivity. }
  rewrite Pm, Pm'. destruct (decide (h_inst hd = i)) as [He|He].
  - rewrite !filter_cons_True by exact He. reflexivity.
  - rewrite !filter_cons_False by exact He. reflexivity.
Qed.

(** The effect of dropping handle [h], in terms of [strong]. *)
Lemma drop_arc_frame E H R w h hd : strong (frame H R w) (h_inst hd) = strong w (h_inst hd) ->
  do_drop_arc E (frame H R w) h hd = (frame (delete h H) R (do_drop_arc E w h hd).1, (do_drop_arc E w h hd).2).
Proof.
  intros Hs. unfold do_drop_arc. rewrite Hs. destruct (Nat.eqb _ 1); [|reflexivity]. rewrite frame_drain. reflexivity.
Qed.

(** ** C26 *)

(** The same trace with every drop taking effect at once, when its second
    half happens. *)
Definition tidy (es : list event) : list event :=
  flat_map (fun e => match e with EDropReg _ => [] | EDropArc h => [EDrop h] | _ => [e] end) es.

(** The answers without those of the first halves of drops. *)
Fixpoint strip (es : list event) (rs : list result) : list result :=
  match es, rs with
  | EDropReg _ :: es', _ :: rs' => strip es' rs'
  | _ :: es', r :: rs' => r :: strip es' rs'
  | _, _ => []
  end.

(** The property as wished for: whatever the interleaving, answers are those
    of the specification, and no directory has two live stores. *)
Definition drops_are_atomic (E : env) (keyof : bytes -> bytes) : Prop :=
  forall es w rs, ordinary E keyof (tidy es) -> run E world0 es = Some (w, rs) ->
    (forall sp rs', spec_run (e_canon E) spec0 (tidy es) = Some (sp, rs') -> strip es rs = rs') /\
    (forall i j x y, w_insts w !! i = Some x -> w_insts w !! j = Some y -> i_dir x = i_dir y -> i = j).

(** It is false of the code: between leaving the registry and joining the
    writer, the directory can be opened a second time.  The new handle does
    not see the acknowledged put, there are two stores for one directory, and
    a delete acknowledged by the second one is undone. *)
Definition gap_trace : list event :=
  [ENew 0 dir_d ex_key; EPut 0 k1 (VI32 5); EDropReg 0; ENew 1 dir_d ex_key; EGet 1 k1 TI32].

Theorem C26_reopening_while_dropping_refuted :
  ~ drops_are_atomic (ex_env FPlain) ex_keyof /\
  (exists w rs i j x y, run (ex_env FPlain) world0 gap_trace = Some (w, rs) /\
     w_insts w !! i = Some x /\ w_insts w !! j = Some y /\ i_dir x = i_dir y /\ i <> j) /\
  results (ex_env FPlain) (gap_trace ++ [EDelete 1 k1; EDropArc 0; EDrop 1; ENew 2 dir_d ex_key; EGet 2 k1 TI32]) =
  Some [ROk None; ROk None; ROk None; ROk None; RErr KeyNotFound; ROk None; ROk None; ROk None; ROk None; ROk (Some (VI32 5))].
Proof.
  assert (T : match run (ex_env FPlain) world0 gap_trace with
              | Some (w, rs) =>
                  match w_insts w !! 0, w_insts w !! 1, last rs with
                  | Some x, Some y, Some (RErr KeyNotFound) => bool_decide (i_dir x = i_dir y)
                  | _, _, _ => false
                  end
              | None => false
              end = true) by (vm_compute; reflexivity).
  assert (O : ordinary (ex_env FPlain) ex_keyof (tidy gap_trace)).
  { apply ordinaryb_ok; [apply ex_env_ok; exact Logic.I|vm_compute; reflexivity]. }
  destruct (run (ex_env FPlain) world0 gap_trace) as [[w rs]|] eqn:Hr; [|discriminate T].
  destruct (w_insts w !! 0) as [x|] eqn:Hx; [|discriminate T]. destruct (w_insts w !! 1) as [y|] eqn:Hy; [|discriminate T].
  assert (D : i_dir x = i_dir y).
  { destruct (last rs) as [[| [] | ]|]; try discriminate T. apply bool_decide_eq_true in T. exact T. }
  split; [|split].
  - intros G. destruct (G gap_trace w rs O Hr) as [_ G2]. specialize (G2 0 1 x y Hx Hy D). discriminate G2.
  - exists w, rs, 0, 1, x, y. split_and!; auto.
  - clear. vm_compute. reflexivity.
Qed.

(** What remains true of C26 and C27: all interleavings of drops, through any
    spellings, in which a directory is only opened when some handle with that
    very spelling is fully open, or no handle for that directory exists at
    all.  [calm] follows the handles ([true]: half dropped). *)
Definition track (hs : gmap N (bytes * bool)) (e : event) : gmap N (bytes * bool) :=
  match e with
  | ENew h p _ => <[h := (p, false)]> hs
  | EDropReg h => alter (fun x => (x.1, true)) h hs
  | EDrop h | EDropArc h => delete h hs
  | _ => hs
  end.

Definition calm1 (canon : bytes -> bytes) (hs : gmap N (bytes * bool)) (e : event) : Prop :=
  match e with
  | ENew _ p _ => (exists h, hs !! h = Some (p, false)) \/ (forall h p' b, hs !! h = Some (p', b) -> canon p' <> canon p)
  | _ => True
  end.

Fixpoint calm (canon : bytes -> bytes) (hs : gmap N (bytes * bool)) (es : list event) : Prop :=
  match es with [] => True | e :: r => calm1 canon hs e /\ calm canon (track hs e) r end.

Lemma calm_app canon es1 es2 : forall hs, calm canon hs (es1 ++ es2) <-> calm canon hs es1 /\ calm canon (fold_left track es1 hs) es2.
Proof.
  induction es1 as [|e es IH]; intros hs; cbn [app calm fold_left]; [tauto|]. rewrite IH. tauto.
Qed.

Lemma strip_snoc es e r : forall rs, length rs = length es ->
  strip (es ++ [e]) (rs ++ [r]) = strip es rs ++ match e with EDropReg _ => [] | _ => [r] end.
Proof.
  induction es as [|e0 es IH]; intros [|r0 rs] L; try discriminate L; cbn [app strip].
  - destruct e; reflexivity.
  - injection L as L. rewrite (IH rs L). destruct e0; reflexivity.
Qed.

Lemma run_length E es : forall w w' rs, run E w es = Some (w', rs) -> length rs = length es.
Proof.
  induction es as [|e es IH]; intros w w' rs Hr; cbn [run] in Hr; [injection Hr as _ <-; reflexivity|].
  destruct (step E w e) as [[w1 r]|]; [|discriminate]. destruct (run E w1 es) as [[w2 rs2]|] eqn:Er; [|discriminate].
  injection Hr as _ <-. cbn [length]. f_equal. eapply IH, Er.
Qed.

Section Gap.
Context (E : env) (keyof : bytes -> bytes) (ps : list bytes) (rep : bytes -> bytes).
Notation canon := (e_canon E).
Context (Hcanon : forall p, canon (rep p) = canon p)
        (Hdir : forall p, In p ps -> e_dir_ok E p = true /\ e_dir_ok E (rep p) = true)
        (Hinj : forall p p', In p ps -> In p' ps -> canon p = canon p' -> rep p = rep p').

(** The trace with atomic drops and one spelling per directory. *)
Definition norm1 (e : event) : list event :=
  match e with EDropReg _ => [] | EDropArc h => [EDrop h] | ENew h p k => [ENew h (rep p) k] | _ => [e] end.
Definition norm (es : list event) : list event := flat_map norm1 es.

Lemma norm_app a b : norm (a ++ b) = norm a ++ norm b.
Proof. unfold norm. apply flat_map_app. Qed.

(** A handle as if it had not been half dropped, and with the chosen spelling. *)
Definition whole (hd : handle) : handle := Handle (rep (h_path hd)) (h_key hd) (h_inst hd) false.

Record gap (w w' : world) (hs : gmap N (bytes * bool)) : Prop := {
  g_w : w' = frame (whole <$> w_handles w) (w_reg w') w;
  g_hs : hs = (fun hd => (h_path hd, h_unreg hd)) <$> w_handles w;
  g_reg : forall p i, w_reg w !! p = Some i -> is_Some (w_insts w !! i) -> In p ps /\ w_reg w' !! rep p = Some i;
  g_live : forall h hd, w_handles w !! h = Some hd -> h_unreg hd = false -> w_reg w !! h_path hd = Some (h_inst hd);
  g_U : forall h hd, w_handles w !! h = Some hd -> In (h_path hd) ps
}.

Lemma gap_handles w w' hs : gap w w' hs -> w_handles w' = whole <$> w_handles w.
Proof. intros G. rewrite (g_w _ _ _ G). reflexivity. Qed.
Lemma gap_insts w w' hs : gap w w' hs -> w_insts w' = w_insts w.
Proof. intros G. rewrite (g_w _ _ _ G). reflexivity. Qed.

(** Updates that leave handles and registry alone. *)
Lemma gap_same w w' hs v v' : gap w w' hs ->
  insts_sub w v -> w_handles v = w_handles w -> w_reg v = w_reg w ->
  v' = frame (w_handles w') (w_reg w') v -> gap v v' hs.
Proof.
  intros G S Hh Hr ->. split.
  - rewrite (gap_handles _ _ _ G), Hh. reflexivity.
  - rewrite Hh. apply G.
  - intros p i Hp [x Hx]. rewrite Hr in Hp. destruct (S i x Hx) as (y & Hy & _). apply (g_reg _ _ _ G p i Hp). eauto.
  - intros h hd H1 H2. rewrite Hh in H1. rewrite Hr. apply (g_live _ _ _ G h hd H1 H2).
  - intros h hd H1. rewrite Hh in H1. apply (g_U _ _ _ G h hd H1).
Qed.

Lemma gap_strong w w' hs i : gap w w' hs -> strong w' i = strong w i.
Proof. intros G. rewrite (g_w _ _ _ G). apply strong_fmap. reflexivity. Qed.

Context (U : bytes -> Prop).
Notation WInv := (WInv E keyof U).

Lemma gap_drop_reg w w' hs h hd v r sp H n : gap w w' hs -> WInv w' sp H n -> w_handles w !! h = Some hd -> h_unreg hd = false ->
  do_drop_reg w h hd = (v, r) -> r = ROk None /\ gap v w' (track hs (EDropReg h)) /\
  w_handles v !! h = Some (Handle (h_path hd) (h_key hd) (h_inst hd) true).
Proof.
  intros G W Hh Hu. unfold do_drop_reg.
  assert (Hp : w_poison w = false). { pose proof (wi_poison _ _ _ _ _ _ _ W) as X. rewrite (g_w _ _ _ G) in X. exact X. }
  rewrite Hp. intros [= <- <-]. split; [reflexivity|]. split.
  - set (w1 := if _ : bool then _ else _).
    assert (F : w_handles w1 = w_handles w /\ w_insts w1 = w_insts w /\ forall H R, frame H R w1 = frame H R w).
    { unfold w1. destruct (Nat.eqb _ 1); auto. } destruct F as (F1 & F2 & F3).
    assert (F4 : forall p i, w_reg w1 !! p = Some i -> w_reg w !! p = Some i).
    { unfold w1. intros p i. destruct (Nat.eqb _ 1); [|auto]. cbn. intros X. apply lookup_delete_Some in X. apply X. }
    split.
    + rewrite (g_w _ _ _ G) at 1. cbn [set_handles w_handles]. rewrite F1, fmap_insert. unfold whole at 3. cbn [h_path h_key h_inst].
      change (Handle (rep (h_path hd)) (h_key hd) (h_inst hd) false) with (whole hd).
      rewrite insert_id by (rewrite lookup_fmap, Hh; reflexivity).
      change (frame ?A ?B (set_handles w1 ?C)) with (frame A B w1). rewrite F3. reflexivity.
    + cbn [set_handles w_handles track]. rewrite F1, (g_hs _ _ _ G). apply map_eq. intros k.
      destruct (decide (k = h)) as [->|Hne].
      * rewrite lookup_alter, !lookup_fmap, lookup_insert, Hh. reflexivity.
      * rewrite lookup_alter_ne by congruence. rewrite !lookup_fmap, lookup_insert_ne by congruence. reflexivity.
    + cbn [set_handles w_reg w_insts]. rewrite F2. intros p i X Y. apply (g_reg _ _ _ G p i (F4 p i X) Y).
    + cbn [set_handles w_handles w_reg]. rewrite F1. intros k hk Hk Uk. destruct (decide (k = h)) as [->|Hne].
      { rewrite lookup_insert in Hk. injection Hk as <-. discriminate Uk. }
      rewrite lookup_insert_ne in Hk by congruence. pose proof (g_live _ _ _ G k hk Hk Uk) as L.
      unfold w1. destruct (Nat.eqb _ 1) eqn:Es; [|exact L]. cbn [set_reg w_reg].
      rewrite lookup_delete_ne; [exact L|]. intros Ep. apply Nat.eqb_eq in Es. rewrite (strong_1 w h hd Hh) in Es.
      apply Hne. apply (Es k hk Hk). pose proof (g_live _ _ _ G h hd Hh Hu) as L'. rewrite Ep in L'. congruence.
    + cbn [set_handles w_handles]. rewrite F1. intros k hk Hk. destruct (decide (k = h)) as [->|Hne].
      { rewrite lookup_insert in Hk. injection Hk as <-. apply (g_U _ _ _ G h hd Hh). }
      rewrite lookup_insert_ne in Hk by congruence. apply (g_U _ _ _ G k hk Hk).
  - cbn [set_handles w_handles]. apply lookup_insert.
Qed.

Lemma gap_drop_arc w w' hs h hd v r sp H n : gap w w' hs -> WInv w' sp H n -> w_handles w !! h = Some hd ->
  do_drop_arc E w h hd = (v, r) ->
  exists v', step E w' (EDrop h) = Some (v', r) /\ gap v v' (delete h hs).
Proof.
  intros G W Hh Hd.
  assert (Hh' : w_handles w' !! h = Some (whole hd)) by (rewrite (gap_handles _ _ _ G), lookup_fmap, Hh; reflexivity).
  cbn [step]. unfold with_handle. rewrite Hh'. cbn [h_unreg whole].
  unfold do_drop_reg. rewrite (wi_poison _ _ _ _ _ _ _ W).
  change (h_inst (whole hd)) with (h_inst hd). rewrite (gap_strong _ _ _ (h_inst hd) G).
  set (w1 := if Nat.eqb _ 1 then _ else w').
  assert (Ew1 : w1 = frame (w_handles w') (w_reg w1) w).
  { unfold w1. rewrite (gap_handles _ _ _ G). rewrite (g_w _ _ _ G) at 1 2. destruct (Nat.eqb _ 1); [reflexivity|].
    rewrite (g_w _ _ _ G) at 1. reflexivity. }
  set (hd' := Handle _ _ _ true).
  assert (Ew2 : set_handles w1 (<[h := hd']> (w_handles w1)) = frame (<[h := hd']> (w_handles w')) (w_reg w1) w).
  { rewrite Ew1. reflexivity. }
  rewrite Ew2.
  assert (Hs : strong (frame (<[h := hd']> (w_handles w')) (w_reg w1) w) (h_inst (whole hd)) = strong w (h_inst (whole hd))).
  { transitivity (strong w' (h_inst hd)); [|apply (gap_strong _ _ _ _ G)].
    rewrite <- (strong_flag w' (w_reg w1) h (whole hd) (h_inst hd) Hh'). fold hd'.
    unfold strong. reflexivity. }
  rewrite (drop_arc_frame E _ _ w h (whole hd) Hs). change (do_drop_arc E w h (whole hd)) with (do_drop_arc E w h hd). rewrite Hd.
  cbn [fst snd]. eexists. split; [reflexivity|].
  rewrite delete_insert_delete.
  assert (F : w_handles v = delete h (w_handles w) /\ w_reg v = w_reg w /\ insts_sub w v /\
              (Nat.eqb (strong w (h_inst hd)) 1 = true -> w_insts v !! h_inst hd = None)).
  { unfold do_drop_arc in Hd. destruct (Nat.eqb _ 1).
    - destruct (drain_sub E w (h_inst hd)) as (A & B & C & D). injection Hd as <- _.
      cbn [set_handles set_insts w_handles w_reg w_insts]. split_and!.
      + rewrite B. reflexivity.
      + exact C.
      + intros i x Hx. cbn in Hx. apply lookup_delete_Some in Hx as [_ Hx]. apply (A i x Hx).
      + intros _. apply lookup_delete.
    - injection Hd as <- _. split_and!; try reflexivity; [intros i x Hx; cbn in Hx; eauto|discriminate]. }
  destruct F as (F1 & F2 & F3 & F4). split.
  - rewrite F1, fmap_delete, <- (gap_handles _ _ _ G). reflexivity.
  - rewrite F1, (g_hs _ _ _ G), fmap_delete. reflexivity.
  - intros p i Hp [x Hx]. rewrite F2 in Hp. destruct (F3 i x Hx) as (y & Hy & _).
    destruct (g_reg _ _ _ G p i Hp) as [A B]; [eauto|]. split; [exact A|]. cbn [frame set_reg w_reg].
    unfold w1. destruct (Nat.eqb _ 1) eqn:Es; [|exact B]. cbn [set_reg w_reg].
    rewrite lookup_delete_ne; [exact B|]. intros Ep. cbn [whole h_path] in Ep.
    destruct (handle_cases E keyof U w' sp H n h (whole hd) W Hh') as (_ & _ & _ & _ & R & _).
    cbn [whole h_path h_inst] in R. rewrite Ep, B in R. injection R as ->. rewrite F4 in Hx by reflexivity. discriminate Hx.
  - intros k hk Hk Uk. rewrite F1 in Hk. apply lookup_delete_Some in Hk as [_ Hk]. rewrite F2. apply (g_live _ _ _ G k hk Hk Uk).
  - intros k hk Hk. rewrite F1 in Hk. apply lookup_delete_Some in Hk as [_ Hk]. apply (g_U _ _ _ G k hk Hk).
Qed.

Lemma open_respell w p q k : canon p = canon q -> e_dir_ok E p = e_dir_ok E q -> open_impl E w p k = open_impl E w q k.
Proof. intros A B. unfold open_impl. rewrite A, B. reflexivity. Qed.

Lemma clear_respell w hd : In (h_path hd) ps -> do_clear E w (whole hd) = do_clear E w hd.
Proof.
  intros Hp. unfold do_clear. cbn [whole h_inst h_path h_key]. destruct (Hdir _ Hp) as [A B].
  destruct (w_insts w !! h_inst hd) as [x|]; [|reflexivity]. destruct (i_poison x); [reflexivity|].
  destruct (impl_clear E w (h_inst hd) x) as [w1 r]. destruct r; [|reflexivity..].
  rewrite (open_respell w1 (rep (h_path hd)) (h_path hd)); [reflexivity|apply Hcanon|congruence].
Qed.

Lemma gap_new w w' hs h p k v r sp H n : gap w w' hs -> WInv w' sp H n -> dirs_agree E w -> w_handles w !! h = None ->
  In p ps -> U (rep p) -> k = keyof (canon p) -> (forall p, U p -> e_dir_ok E p = true) ->
  (forall p, U p -> feature_key (e_feat E) (keyof (canon p)) <> None) -> (forall p p', U p -> U p' -> canon p = canon p' -> p = p') ->
  env_ok E -> calm1 canon hs (ENew h p k) ->
  do_new E w h p k = (v, r) ->
  exists v', step E w' (ENew h (rep p) k) = Some (v', r) /\ gap v v' (<[h := (p, false)]> hs).
Proof.
  intros G W A Hh Hp Up Hk U1 U2 U3 HE HC Hd.
  assert (Hh' : w_handles w' !! h = None) by (rewrite (gap_handles _ _ _ G), lookup_fmap, Hh; reflexivity).
  cbn [step]. rewrite Hh'.
  destruct (new_step E HE keyof U U1 U2 U3 w' sp H n h (rep p) W Hh' Up) as (v' & Hv & _).
  rewrite Hcanon, <- Hk in Hv.
  assert (Hpo : w_poison w = false). { pose proof (wi_poison _ _ _ _ _ _ _ W) as X. rewrite (g_w _ _ _ G) in X. exact X. }
  assert (NB : (forall h0 p' b, hs !! h0 = Some (p', b) -> canon p' <> canon p) -> w_reg w' !! rep p = None).
  { intros No. destruct (w_reg w' !! rep p) as [i|] eqn:R; [|reflexivity]. exfalso.
    destruct (wi_reg _ _ _ _ _ _ _ W _ _ R) as (_ & x & Hx & Dx).
    destruct (wi_insts _ _ _ _ _ _ _ W _ _ Hx) as (_ & _ & _ & h2 & hd2 & H2 & I2).
    destruct (handle_cases E keyof U w' sp H n h2 hd2 W H2) as (_ & _ & _ & _ & _ & y & Hy & Dy & _).
    rewrite I2, Hx in Hy. injection Hy as <-.
    rewrite (gap_handles _ _ _ G), lookup_fmap in H2. destruct (w_handles w !! h2) as [hd3|] eqn:H3; [|discriminate H2]. injection H2 as <-.
    apply (No h2 (h_path hd3) (h_unreg hd3)).
    - rewrite (g_hs _ _ _ G), lookup_fmap, H3. reflexivity.
    - cbn [whole h_path] in Dy. rewrite Hcanon in Dy, Dx. congruence. }
  destruct HC as [[h1 H1]|No].
  - (* a handle with this spelling is open *)
    rewrite (g_hs _ _ _ G), lookup_fmap in H1. destruct (w_handles w !! h1) as [hd1|] eqn:E1; [|discriminate H1].
    injection H1 as P1 U1'.
    pose proof (g_live _ _ _ G h1 hd1 E1 U1') as R1. rewrite P1 in R1.
    assert (Hh1' : w_handles w' !! h1 = Some (whole hd1)) by (rewrite (gap_handles _ _ _ G), lookup_fmap, E1; reflexivity).
    destruct (handle_cases E keyof U w' sp H n h1 (whole hd1) W Hh1') as (_ & _ & _ & _ & R1' & x & Hx & _).
    cbn [whole h_path h_inst] in R1', Hx. rewrite P1 in R1'. rewrite (gap_insts _ _ _ G) in Hx.
    unfold do_new in Hd, Hv |- *. rewrite Hpo in Hd. rewrite (wi_poison _ _ _ _ _ _ _ W) in Hv |- *.
    unfold lookup_reg in Hd, Hv |- *. rewrite R1 in Hd. rewrite R1' in Hv |- *. rewrite (gap_insts _ _ _ G) in Hv |- *.
    rewrite bool_decide_eq_true_2 in Hd, Hv |- * by eauto. injection Hd as <- <-. eexists. split; [reflexivity|].
    split.
    + cbn [set_handles w_handles w_reg]. rewrite (gap_handles _ _ _ G), fmap_insert.
      rewrite (g_w _ _ _ G) at 1. reflexivity.
    + cbn [set_handles w_handles]. rewrite fmap_insert, (g_hs _ _ _ G). reflexivity.
    + cbn [set_handles w_reg w_insts]. apply (g_reg _ _ _ G).
    + cbn [set_handles w_reg w_handles]. intros k' hk Hk' Uk. destruct (decide (k' = h)) as [->|Hne].
      * rewrite lookup_insert in Hk'. injection Hk' as <-. cbn. exact R1.
      * rewrite lookup_insert_ne in Hk' by congruence. apply (g_live _ _ _ G k' hk Hk' Uk).
    + cbn [set_handles w_handles]. intros k' hk Hk'. destruct (decide (k' = h)) as [->|Hne].
      * rewrite lookup_insert in Hk'. injection Hk' as <-. exact Hp.
      * rewrite lookup_insert_ne in Hk' by congruence. apply (g_U _ _ _ G k' hk Hk').
  - (* no handle of this directory *)
    specialize (NB No).
    unfold do_new in Hd, Hv |- *. rewrite Hpo in Hd. rewrite (wi_poison _ _ _ _ _ _ _ W) in Hv |- *.
    assert (L' : lookup_reg w' (rep p) = None) by (unfold lookup_reg; rewrite NB; reflexivity).
    assert (L : lookup_reg w p = None).
    { unfold lookup_reg. destruct (w_reg w !! p) as [i|] eqn:R; [|reflexivity].
      case_bool_decide as B; [|reflexivity]. destruct (g_reg _ _ _ G p i R B) as [_ X]. rewrite NB in X. discriminate X. }
    rewrite L in Hd. rewrite L' in Hv |- *.
    destruct (Hdir _ Hp) as [D1 D2].
    assert (O : open_impl E w' (rep p) k = (frame (w_handles w') (w_reg w') (open_impl E w p k).1, (open_impl E w p k).2)).
    { rewrite (open_respell w' (rep p) p) by (try apply Hcanon; congruence).
      rewrite (g_w _ _ _ G) at 1. rewrite frame_open, <- (gap_handles _ _ _ G). reflexivity. }
    rewrite O in Hv |- *. destruct (open_impl E w p k) as [w1 o] eqn:Eo. cbn [fst snd] in Hv |- *.
    destruct (open_impl_sub _ _ _ _ _ _ Eo) as (B1 & B2 & B3 & B4 & B5 & _).
    destruct o as [x|]; [|discriminate Hv]. injection Hd as <- <-. eexists. split; [reflexivity|].
    cbn [frame set_reg set_handles w_dirs w_inodes w_next_ino w_insts w_next_inst w_handles w_reg w_poison w_rng w_seed].
    split.
    + cbn [w_handles w_reg]. rewrite B2, (gap_handles _ _ _ G), fmap_insert. reflexivity.
    + cbn [w_handles]. rewrite B2, fmap_insert, (g_hs _ _ _ G). reflexivity.
    + cbn [w_reg w_insts]. rewrite B1, B3, B4. intros q i Hq Hi. destruct (decide (q = p)) as [->|Hne].
      * rewrite lookup_insert in Hq. injection Hq as <-. split; [exact Hp|]. apply lookup_insert.
      * rewrite lookup_insert_ne in Hq by congruence. pose proof (da_regb _ _ A _ _ Hq) as Hb.
        rewrite lookup_insert_ne in Hi by (clear -Hb; lia). destruct (g_reg _ _ _ G q i Hq Hi) as [X Y].
        split; [exact X|]. rewrite lookup_insert_ne; [exact Y|]. intros Er. rewrite <- Er, NB in Y. discriminate Y.
    + cbn [w_reg w_handles]. rewrite B2, B3. intros k' hk Hk' Uk. destruct (decide (k' = h)) as [->|Hne].
      * rewrite lookup_insert in Hk'. injection Hk' as <-. cbn. apply lookup_insert.
      * rewrite lookup_insert_ne in Hk' by congruence. pose proof (g_live _ _ _ G k' hk Hk' Uk) as Lk.
        rewrite lookup_insert_ne; [exact Lk|]. intros Ep.
        apply (No k' (h_path hk) (h_unreg hk)); [|congruence]. rewrite (g_hs _ _ _ G), lookup_fmap, Hk'. reflexivity.
    + cbn [w_handles]. rewrite B2. intros k' hk Hk'. destruct (decide (k' = h)) as [->|Hne].
      * rewrite lookup_insert in Hk'. injection Hk' as <-. exact Hp.
      * rewrite lookup_insert_ne in Hk' by congruence. apply (g_U _ _ _ G k' hk Hk').
Qed.

End Gap.

Section GapRun.
Context (E : env) (keyof : bytes -> bytes) (ps : list bytes) (rep : bytes -> bytes).
Notation canon := (e_canon E).
Context (Hcanon : forall p, canon (rep p) = canon p)
        (Hdir : forall p, In p ps -> e_dir_ok E p = true /\ e_dir_ok E (rep p) = true).
Notation norm := (norm rep).
Notation gap := (gap ps rep).

Lemma gap_run es : incl (paths es) ps -> ordinary E keyof (norm es) -> calm canon ∅ es ->
  forall w rs, run E world0 es = Some (w, rs) ->
  exists w', run E world0 (norm es) = Some (w', strip es rs) /\ gap w w' (fold_left track es ∅).
Proof.
  induction es as [|e es IH] using rev_ind; intros Hps HO HC w rs Hr.
  { cbn in Hr. injection Hr as <- <-. exists world0. split; [reflexivity|]. split; cbn; try reflexivity; try (rewrite ?fmap_empty; reflexivity).
    - intros p i X. rewrite lookup_empty in X. discriminate X.
    - intros p i X. rewrite lookup_empty in X. discriminate X.
    - intros p i X. rewrite lookup_empty in X. discriminate X. }
  rewrite run_app in Hr. destruct (run E world0 es) as [[w0 rs0]|] eqn:Hr0; [|discriminate Hr].
  cbn [run] in Hr. destruct (step E w0 e) as [[w1 r]|] eqn:Hs; [|discriminate Hr]. injection Hr as <- <-.
  rewrite (norm_app rep) in HO. pose proof (ordinary_app_l E keyof _ _ HO) as HO0.
  apply calm_app in HC as [HC0 [HC1 _]].
  destruct (IH) with (w := w0) (rs := rs0) as (w0' & Hr0' & G); auto.
  { intros p Hp. apply Hps. rewrite paths_app. apply in_or_app. auto. }
  rewrite fold_left_app. cbn [fold_left]. set (hs := fold_left track es ∅) in *.
  rewrite (strip_snoc es e r rs0 (run_length E es world0 w0 rs0 Hr0)), (norm_app rep).
  destruct (reach_prefix E keyof _ HO (norm es) (norm [e]) w0' (strip es rs0) eq_refl Hr0') as (sp & _ & W).
  pose proof (dirs_agree_reach E es w0 rs0 Hr0) as A.
  pose proof (or_calls _ _ _ HO) as HF. apply Forall_app in HF as [_ HF].
  assert (One : forall e' w1', norm1 rep e = [e'] -> step E w0' e' = Some (w1', r) -> gap w1 w1' (track hs e) ->
     match e with EDropReg _ => [] | _ => [r] end = [r] ->
     exists w', run E world0 (norm es ++ norm [e]) = Some (w', strip es rs0 ++ match e with EDropReg _ => [] | _ => [r] end) /\
       gap w1 w' (track hs e)).
  { intros e' w1' N S G' ->. exists w1'. split; [|exact G']. rewrite run_app, Hr0'. unfold P_Alias.norm. cbn [flat_map]. rewrite N, app_nil_r.
    cbn [run]. rewrite S. reflexivity. }
  assert (WH : forall h f, with_handle w0 h f = Some (w1, r) -> exists hd, w_handles w0 !! h = Some hd /\ h_unreg hd = false /\ f hd = (w1, r) /\
     w_handles w0' !! h = Some (whole rep hd)).
  { intros h f X. apply with_handle_Some in X as (hd & X1 & X2 & X3). exists hd. split_and!; auto.
    rewrite (gap_handles ps rep _ _ _ G), lookup_fmap, X1. reflexivity. }
  assert (ON : forall h hd f, w_handles w0' !! h = Some (whole rep hd) -> (forall x, i_dir (f x).1 = i_dir x) -> on_inst w0 (h_inst hd) f = (w1, r) ->
     exists w1', with_handle w0' h (fun hd => on_inst w0' (h_inst hd) f) = Some (w1', r) /\ gap w1 w1' hs).
  { intros h hd f X F Y. unfold with_handle. rewrite X. cbn [whole h_unreg h_inst].
    assert (Z : on_inst w0' (h_inst hd) f = (frame (w_handles w0') (w_reg w0') w1, r)).
    { rewrite (g_w _ _ _ _ _ G) at 1. rewrite frame_on_inst, Y, <- (gap_handles ps rep _ _ _ G). reflexivity. }
    rewrite Z. eexists. split; [reflexivity|]. destruct (on_inst_sub w0 _ f w1 r F Y) as (B1 & B2 & B3 & _).
    eapply (gap_same ps rep); [exact G|exact B1|exact B2|exact B3|reflexivity]. }
  destruct e; cbn [norm1 flat_map app] in HF; cbn [step] in Hs; try (apply Forall_cons in HF as [HF _]; cbn in HF).
  - (* ENew *)
    destruct (w_handles w0 !! h) eqn:Hh; [discriminate Hs|]. injection Hs as Hs.
    destruct HF as (D1 & D2 & D3). rewrite Hcanon in D2.
    destruct (gap_new E keyof ps rep Hcanon Hdir (PU (norm es ++ norm [ENew h path key])) w0 w0' hs h path key w1 r _ _ _ G W A Hh) as (w1' & S & G'); auto.
    + apply Hps. rewrite paths_app. apply in_or_app. right. left. reflexivity.
    + unfold PU. rewrite paths_app. apply in_or_app. right. left. reflexivity.
    + apply (PU_dir E keyof _ HO).
    + apply (PU_key E keyof _ HO).
    + apply (PU_inj E keyof _ HO).
    + apply (or_env _ _ _ HO).
    + eapply One; [reflexivity|exact S|exact G'|reflexivity].
  - destruct (WH _ _ Hs) as (hd & H1 & H2 & H3 & H4). destruct (ON h hd _ H4 (fun x => put_dir x key v) H3) as (w1' & S & G').
    eapply One; [reflexivity|exact S|exact G'|reflexivity].
  - contradiction.
  - destruct (WH _ _ Hs) as (hd & H1 & H2 & H3 & H4). destruct (ON h hd (fun x => (x, inst_get x key t)) H4 (fun x => eq_refl) H3) as (w1' & S & G').
    eapply One; [reflexivity|exact S|exact G'|reflexivity].
  - contradiction.
  - destruct (WH _ _ Hs) as (hd & H1 & H2 & H3 & H4). destruct (ON h hd _ H4 (fun x => delete_dir x key) H3) as (w1' & S & G').
    eapply One; [reflexivity|exact S|exact G'|reflexivity].
  - (* EClear *)
    destruct (WH _ _ Hs) as (hd & H1 & H2 & H3 & H4).
    assert (Z : do_clear E w0' (whole rep hd) = (frame (w_handles w0') (w_reg w0') w1, r)).
    { rewrite (clear_respell E ps rep Hcanon Hdir) by (apply (g_U _ _ _ _ _ G h hd H1)).
      rewrite (g_w _ _ _ _ _ G) at 1. rewrite frame_clear, H3, <- (gap_handles ps rep _ _ _ G). reflexivity. }
    destruct (do_clear_sub E w0 h hd w1 r A H1 H3) as (B1 & B2 & B3 & _).
    eapply One; [reflexivity| |eapply (gap_same ps rep); [exact G|exact B1|exact B2|exact B3|reflexivity]|reflexivity].
    cbn [step]. unfold with_handle. rewrite H4. cbn [whole h_unreg]. f_equal. exact Z.
  - (* EDrop *)
    destruct (WH _ _ Hs) as (hd & H1 & H2 & H3 & H4).
    destruct (do_drop_reg w0 h hd) as [v r1] eqn:Ed.
    destruct (gap_drop_reg E keyof ps rep (PU (norm es ++ norm [EDrop h])) w0 w0' hs h hd v r1 _ _ _ G W H1 H2 Ed) as (-> & G1 & Hh1).
    change (do_drop_arc E v h hd) with (do_drop_arc E v h (Handle (h_path hd) (h_key hd) (h_inst hd) true)) in H3.
    destruct (do_drop_arc E v h _) as [v2 r2] eqn:Ea. injection H3 as <- <-.
    destruct (gap_drop_arc E keyof ps rep (PU (norm es ++ norm [EDrop h])) v w0' _ h _ v2 r2 _ _ _ G1 W Hh1 Ea) as (w1' & S & G').
    eapply One; [reflexivity|exact S| |reflexivity]. cbn [track] in G' |- *.
    replace (delete h hs) with (delete h (alter (fun x => (x.1, true)) h hs)); [exact G'|].
    apply map_eq. intros k. destruct (decide (k = h)) as [->|Hne]; [rewrite !lookup_delete; reflexivity|].
    rewrite !lookup_delete_ne by congruence. apply lookup_alter_ne. congruence.
  - (* EDropReg *)
    destruct (WH _ _ Hs) as (hd & H1 & H2 & H3 & H4).
    destruct (gap_drop_reg E keyof ps rep (PU (norm es ++ norm [EDropReg h])) w0 w0' hs h hd w1 r _ _ _ G W H1 H2 H3) as (-> & G1 & Hh1).
    exists w0'. split; [|exact G1]. unfold P_Alias.norm at 2. cbn [flat_map norm1 app]. rewrite !app_nil_r. exact Hr0'.
  - (* EDropArc *)
    destruct (w_handles w0 !! h) as [hd|] eqn:Hh; [|discriminate Hs]. destruct (h_unreg hd); [|discriminate Hs]. injection Hs as Hs.
    destruct (gap_drop_arc E keyof ps rep (PU (norm es ++ norm [EDropArc h])) w0 w0' hs h hd w1 r _ _ _ G W Hh Hs) as (w1' & S & G').
    eapply One; [reflexivity|exact S|exact G'|reflexivity].
  - (* EIo *)
    injection Hs as Hs <-. destruct (run_job_sub E w0 i) as (B1 & B2 & B3 & _). rewrite Hs in B1, B2, B3.
    eapply One; [reflexivity| |eapply (gap_same ps rep); [exact G|exact B1|exact B2|exact B3|reflexivity]|reflexivity].
    cbn [step]. do 2 f_equal. rewrite (g_w _ _ _ _ _ G) at 1. rewrite frame_job, Hs, <- (gap_handles ps rep _ _ _ G). reflexivity.
  - contradiction.
Qed.

End GapRun.

(** *** Choosing a spelling *)

(** The first of [ps] that denotes the same directory as [p]. *)
Fixpoint first_spelling (canon : bytes -> bytes) (ps : list bytes) (p : bytes) : bytes :=
  match ps with
  | [] => p
  | q :: r => if decide (canon q = canon p) then q else first_spelling canon r p
  end.

Lemma first_canon canon ps p : canon (first_spelling canon ps p) = canon p.
Proof. induction ps as [|q r IH]; cbn; [reflexivity|]. destruct (decide _); auto. Qed.

Lemma first_in canon ps p : In p ps -> In (first_spelling canon ps p) ps.
Proof.
  induction ps as [|q r IH]; cbn; [auto|]. intros [<-|Hp]; [destruct (decide _); [auto|congruence]|].
  destruct (decide _); [auto|]. right. auto.
Qed.

Lemma first_inj canon ps p p' : In p ps -> canon p = canon p' -> first_spelling canon ps p = first_spelling canon ps p'.
Proof.
  induction ps as [|q r IH]; cbn; [contradiction|]. intros Hp Hc. rewrite Hc.
  destruct (decide (canon q = canon p')); [reflexivity|]. apply IH; [|exact Hc]. destruct Hp as [<-|Hp]; [congruence|exact Hp].
Qed.

(** An ordinary trace, but for the spelling of directories. *)
Record any_spelling (E : env) (keyof : bytes -> bytes) (es : list event) : Prop := {
  as_env : env_ok E;
  as_calls : Forall (call_ok E keyof) es;
  as_room : room E (writes es)
}.

Lemma paths_tidy es : paths (tidy es) = paths es.
Proof. induction es as [|e es IH]; [reflexivity|]. unfold tidy, paths in *. cbn [flat_map]. rewrite flat_map_app, IH. destruct e; reflexivity. Qed.

Lemma norm_tidy rep es : norm rep es = flat_map (fun e => match e with ENew h p k => [ENew h (rep p) k] | _ => [e] end) (tidy es).
Proof.
  induction es as [|e es IH]; [reflexivity|]. unfold norm, tidy in *. cbn [flat_map]. rewrite flat_map_app, <- IH.
  destruct e; reflexivity.
Qed.

Lemma norm_paths rep es : paths (norm rep es) = map rep (paths es).
Proof.
  induction es as [|e es IH]; [reflexivity|]. unfold norm, paths in *. cbn [flat_map]. rewrite flat_map_app, IH, map_app. destruct e; reflexivity.
Qed.

Lemma norm_ordinary E keyof es : any_spelling E keyof (tidy es) ->
  ordinary E keyof (norm (first_spelling (e_canon E) (paths es)) es).
Proof.
  intros [A B C]. set (rep := first_spelling _ _).
  assert (Hd : forall p, In p (paths es) -> e_dir_ok E p = true).
  { intros p Hp. rewrite <- paths_tidy in Hp. apply in_flat_map in Hp as (e & He & Hp). rewrite List.Forall_forall in B. specialize (B e He).
    destruct e; cbn in Hp; try contradiction. destruct Hp as [<-|[]]. apply B. }
  split.
  - exact A.
  - assert (Sub : incl (paths (tidy es)) (paths es)) by (rewrite paths_tidy; apply incl_refl).
    rewrite norm_tidy. revert B Sub. generalize (tidy es). intros l. induction l as [|e l IH]; intros B Sub; [constructor|].
    apply Forall_cons in B as [B1 B2]. cbn [flat_map]. apply Forall_app. split.
    + destruct e; try (constructor; [exact B1|constructor]). constructor; [|constructor]. cbn in B1 |- *.
      unfold rep. rewrite first_canon. split; [|apply B1]. apply Hd. apply first_in. apply Sub. left. reflexivity.
    + apply IH; [exact B2|]. intros p Hp. apply Sub. cbn. apply in_or_app. right. exact Hp.
  - intros p p' Hp Hp' Hc. rewrite norm_paths in Hp, Hp'. apply in_map_iff in Hp as (q & <- & Hq). apply in_map_iff in Hp' as (q' & <- & Hq').
    unfold rep in Hc |- *. rewrite !first_canon in Hc. apply first_inj; assumption.
  - replace (writes (norm rep es)) with (writes (tidy es)); [exact C|]. rewrite norm_tidy. generalize (tidy es). clear. intros l.
    induction l as [|e l IH]; [reflexivity|]. cbn [flat_map]. rewrite writes_app, <- IH, writes_cons. unfold writes. destruct e; reflexivity.
Qed.

Lemma norm_spec canon rep es : (forall p, canon (rep p) = canon p) -> forall s,
  spec_run canon s (norm rep es) = spec_run canon s (tidy es).
Proof.
  intros Hc. rewrite norm_tidy. generalize (tidy es). intros l. induction l as [|e l IH]; intros s; [reflexivity|].
  assert (G : forall e', spec_step canon s e' = spec_step canon s e ->
    spec_run canon s (e' :: flat_map (fun e => match e with ENew h p k => [ENew h (rep p) k] | _ => [e] end) l) = spec_run canon s (e :: l)).
  { intros e' He. cbn [spec_run]. rewrite He. destruct (spec_step canon s e) as [[s1 x]|]; [|reflexivity]. rewrite IH. reflexivity. }
  cbn [flat_map]. destruct e; cbn [app]; apply G; try reflexivity. cbn. rewrite Hc. reflexivity.
Qed.

(** Drops in two steps and arbitrary spellings, as long as the trace is calm. *)
Theorem calm_answers E keyof es w rs :
  any_spelling E keyof (tidy es) -> calm (e_canon E) ∅ es -> run E world0 es = Some (w, rs) ->
  (exists sp, spec_run (e_canon E) spec0 (tidy es) = Some (sp, strip es rs)) /\
  (forall i j x y, w_insts w !! i = Some x -> w_insts w !! j = Some y -> i_dir x = i_dir y -> i = j).
Proof.
  intros HA HC Hr. set (rep := first_spelling (e_canon E) (paths es)).
  pose proof (norm_ordinary E keyof es HA) as HO. fold rep in HO.
  assert (Hc : forall p, e_canon E (rep p) = e_canon E p) by (intros p; apply first_canon).
  assert (Hd : forall p, In p (paths es) -> e_dir_ok E p = true /\ e_dir_ok E (rep p) = true).
  { assert (Hd : forall p, In p (paths es) -> e_dir_ok E p = true).
    { intros p Hp. rewrite <- paths_tidy in Hp. apply in_flat_map in Hp as (e & He & Hp). pose proof (as_calls _ _ _ HA) as B.
      rewrite List.Forall_forall in B. specialize (B e He). destruct e; cbn in Hp; try contradiction. destruct Hp as [<-|[]]. apply B. }
    intros p Hp. split; [apply Hd, Hp|apply Hd, first_in, Hp]. }
  destruct (gap_run E keyof (paths es) rep Hc Hd es (incl_refl _) HO HC w rs Hr) as (w' & Hr' & G).
  destruct (reach E keyof _ HO w' _ Hr') as (sp & Hsp & W). split.
  - exists sp. rewrite <- (norm_spec (e_canon E) rep es Hc). exact Hsp.
  - intros i j x y Hx Hy. rewrite <- (gap_insts (paths es) rep _ _ _ G) in Hx, Hy.
    apply (inst_unique E keyof (PU (norm rep es)) (PU_inj E keyof _ HO) _ _ _ _ i j x y W Hx Hy).
Qed.

(** C26, what is true: with [calm] interleavings every answer is the
    specification's, and no directory ever has two live stores. *)
Theorem C26_reopening_while_dropping_partial E keyof es w rs :
  any_spelling E keyof (tidy es) -> calm (e_canon E) ∅ es -> run E world0 es = Some (w, rs) ->
  (exists sp, spec_run (e_canon E) spec0 (tidy es) = Some (sp, strip es rs)) /\
  (forall i j x y, w_insts w !! i = Some x -> w_insts w !! j = Some y -> i_dir x = i_dir y -> i = j).
Proof. apply calm_answers. Qed.

(** Two handles dropped at the same time (neither unregisters the store: each
    still sees the other's reference), a put through a third, a reopening
    afterwards, through another spelling. *)
Definition calm_trace : list event :=
  [ENew 0 dir_d ex_key; ENew 1 dir_d ex_key; EPut 0 k1 (VI32 5); EDropReg 0; EPut 1 k2 hello; ENew 2 dir_d ex_key; EDropReg 1; EDropArc 0;
   EGet 2 k1 TI32; EDropReg 2; EDropArc 1; EDropArc 2; ENew 3 (str "alias"%string) ex_key; EGet 3 k2 TStr].

Definition calm1b (canon : bytes -> bytes) (hs : gmap N (bytes * bool)) (e : event) : bool :=
  match e with
  | ENew _ p _ => existsb (fun x => bool_decide (x.2 = (p, false))) (map_to_list hs) ||
                  forallb (fun x => bool_decide (canon x.2.1 <> canon p)) (map_to_list hs)
  | _ => true
  end.

Fixpoint calmb (canon : bytes -> bytes) (hs : gmap N (bytes * bool)) (es : list event) : bool :=
  match es with [] => true | e :: r => calm1b canon hs e && calmb canon (track hs e) r end.

Lemma calmb_ok canon es : forall hs, calmb canon hs es = true -> calm canon hs es.
Proof.
  induction es as [|e es IH]; intros hs; cbn [calmb calm]; [auto|]. rewrite andb_true_iff. intros [A B]. split; [|apply IH, B].
  destruct e; cbn in A |- *; auto. apply orb_true_iff in A as [A|A].
  - left. apply existsb_exists in A as ([k x] & Hx & Hb). apply bool_decide_eq_true in Hb. cbn in Hb. subst x.
    exists k. apply elem_of_map_to_list, elem_of_list_In, Hx.
  - right. intros k p' b Hk. rewrite forallb_forall in A. specialize (A (k, (p', b))).
    apply elem_of_map_to_list, elem_of_list_In in Hk. specialize (A Hk). apply bool_decide_eq_true in A. exact A.
Qed.

Example C26_example :
  any_spelling (ex_env FPlain) ex_keyof (tidy calm_trace) /\ calm (e_canon (ex_env FPlain)) ∅ calm_trace /\
  results (ex_env FPlain) calm_trace =
  Some [ROk None; ROk None; ROk None; ROk None; ROk None; ROk None; ROk None; ROk None; ROk (Some (VI32 5)); ROk None; ROk None; ROk None; ROk None;
        ROk (Some hello)].
Proof.
  split; [|split].
  - split; [apply ex_env_ok; exact Logic.I|apply calls_okb_ok; vm_compute; reflexivity|apply roomb_ok; vm_compute; reflexivity].
  - apply calmb_ok. vm_compute. reflexivity.
  - vm_compute. reflexivity.
Qed.

(** ** C27 *)

(** The property as wished for: the store is a finite map whatever spellings
    are used. *)
Definition spellings_do_not_matter (E : env) (keyof : bytes -> bytes) : Prop :=
  forall es w rs, any_spelling E keyof es -> run E world0 es = Some (w, rs) ->
    exists sp, spec_run (e_canon E) spec0 es = Some (sp, rs).

(** It is false of the code: the registry compares the texts.  A second
    handle through another spelling is a second store over the same file; it
    misses the pending update, and a delete it acknowledges does not happen. *)
Definition alias_trace : list event :=
  [ENew 0 dir_d ex_key; EPut 0 k1 (VI32 5); ENew 1 (str "alias"%string) ex_key; EGet 1 k1 TI32].

Theorem C27_spellings_refuted :
  ~ spellings_do_not_matter (ex_env FPlain) ex_keyof /\
  results (ex_env FPlain) alias_trace = Some [ROk None; ROk None; ROk None; RErr KeyNotFound] /\
  results (ex_env FPlain)
    [ENew 0 dir_d ex_key; ENew 1 (str "alias"%string) ex_key; EPut 0 k1 (VI32 5); EDelete 1 k1; EDrop 0; EDrop 1;
     ENew 2 dir_d ex_key; EGet 2 k1 TI32] =
  Some [ROk None; ROk None; ROk None; ROk None; ROk None; ROk None; ROk None; ROk (Some (VI32 5))].
Proof.
  assert (T : results (ex_env FPlain) alias_trace = Some [ROk None; ROk None; ROk None; RErr KeyNotFound]) by (vm_compute; reflexivity).
  assert (S : option_map snd (spec_run (e_canon (ex_env FPlain)) spec0 alias_trace) = Some [ROk None; ROk None; ROk None; ROk (Some (VI32 5))])
    by (vm_compute; reflexivity).
  split; [|split].
  - intros G. unfold results in T. destruct (run (ex_env FPlain) world0 alias_trace) as [[w rs]|] eqn:Hr; [|discriminate T].
    cbn in T. injection T as ->. assert (HA : any_spelling (ex_env FPlain) ex_keyof alias_trace).
    { split; [apply ex_env_ok; exact Logic.I|apply calls_okb_ok; vm_compute; reflexivity|apply roomb_ok; vm_compute; reflexivity]. }
    destruct (G alias_trace w _ HA Hr) as (sp & Hs). rewrite Hs in S. discriminate S.
  - exact T.
  - clear. vm_compute. reflexivity.
Qed.

(** What remains true: spellings may change as long as handles that are open
    at the same time use the same one.  [hs]: the spellings of the open
    handles. *)
Fixpoint one_at_a_time (canon : bytes -> bytes) (hs : gmap N bytes) (es : list event) : Prop :=
  match es with
  | [] => True
  | ENew h p _ :: r => (forall h' p', hs !! h' = Some p' -> canon p' = canon p -> p' = p) /\ one_at_a_time canon (<[h := p]> hs) r
  | EDrop h :: r => one_at_a_time canon (delete h hs) r
  | _ :: r => one_at_a_time canon hs r
  end.

Lemma one_calm canon E keyof es : forall hs, Forall (call_ok E keyof) es -> one_at_a_time canon hs es ->
  calm canon ((fun p => (p, false)) <$> hs) es.
Proof.
  induction es as [|e es IH]; intros hs HF H; cbn [calm]; [exact Logic.I|]. apply Forall_cons in HF as [HF1 HF].
  destruct e; cbn in H, HF1; try contradiction; cbn [calm1 track]; (split; [try exact Logic.I|try (apply IH; [exact HF|]; try exact H)]).
  - destruct H as [H _]. destruct (decide (map_Exists (fun _ p' => canon p' = canon path) hs)) as [(k & p' & Hk & Hc)|No].
    + left. exists k. rewrite lookup_fmap, Hk. cbn. rewrite (H k p' Hk Hc). reflexivity.
    + right. intros k p' b Hk Hc. rewrite lookup_fmap in Hk. destruct (hs !! k) as [q|] eqn:Eq; [|discriminate Hk]. injection Hk as -> _.
      apply No. exists k, p'. auto.
  - destruct H as [_ H]. pose proof (IH _ HF H) as G. rewrite fmap_insert in G. exact G.
  - pose proof (IH _ HF H) as G. rewrite fmap_delete in G. exact G.
Qed.

Lemma ordinary_tidy E keyof es : Forall (call_ok E keyof) es -> tidy es = es /\ forall rs : list result, length rs = length es -> strip es rs = rs.
Proof.
  induction es as [|e es IH]; intros HF; [split; [reflexivity|intros [|? ?]; [reflexivity|discriminate]]|].
  apply Forall_cons in HF as [HF1 HF]. destruct (IH HF) as [A B]. unfold tidy in *. cbn [flat_map]. rewrite A.
  split; [destruct e; try reflexivity; contradiction|].
  intros [|r rs] L; [discriminate L|]. injection L as L. cbn [strip]. destruct e; try contradiction; cbn [strip]; rewrite (B rs L); reflexivity.
Qed.

Theorem C27_one_spelling_at_a_time_partial E keyof es w rs :
  any_spelling E keyof es -> one_at_a_time (e_canon E) ∅ es -> run E world0 es = Some (w, rs) ->
  exists sp, spec_run (e_canon E) spec0 es = Some (sp, rs).
Proof.
  intros HA H1 Hr. destruct (ordinary_tidy E keyof es (as_calls _ _ _ HA)) as [A B].
  pose proof (run_length E es world0 w rs Hr) as L. destruct (calm_answers E keyof es w rs) as [(sp & Hs) _]; auto.
  - rewrite A. exact HA.
  - pose proof (one_calm (e_canon E) E keyof es ∅ (as_calls _ _ _ HA) H1) as C. rewrite fmap_empty in C. exact C.
  - exists sp. rewrite A, (B rs L) in Hs. exact Hs.
Qed.

Definition respelled : list event :=
  [ENew 0 dir_d ex_key; EPut 0 k1 (VI32 5); ENew 1 dir_d ex_key; EDrop 0; EPut 1 k2 hello; EDrop 1;
   ENew 2 (str "alias"%string) ex_key; EGet 2 k1 TI32; EDelete 2 k1; EDrop 2; ENew 3 dir_d ex_key; EGet 3 k1 TI32; EGet 3 k2 TStr].

Fixpoint one_at_a_timeb (canon : bytes -> bytes) (hs : gmap N bytes) (es : list event) : bool :=
  match es with
  | [] => true
  | ENew h p _ :: r => forallb (fun x => bool_decide (canon x.2 = canon p -> x.2 = p)) (map_to_list hs) && one_at_a_timeb canon (<[h := p]> hs) r
  | EDrop h :: r => one_at_a_timeb canon (delete h hs) r
  | _ :: r => one_at_a_timeb canon hs r
  end.

Lemma one_at_a_timeb_ok canon es : forall hs, one_at_a_timeb canon hs es = true -> one_at_a_time canon hs es.
Proof.
  induction es as [|e es IH]; intros hs; cbn; [auto|]. destruct e; try apply IH. rewrite andb_true_iff. intros [A B]. split; [|apply IH, B].
  intros k p' Hk. rewrite forallb_forall in A. apply elem_of_map_to_list, elem_of_list_In in Hk. specialize (A _ Hk).
  apply bool_decide_eq_true in A. exact A.
Qed.

Example C27_example :
  any_spelling (ex_env FPlain) ex_keyof respelled /\ one_at_a_time (e_canon (ex_env FPlain)) ∅ respelled /\
  ~ one_spelling (ex_env FPlain) respelled /\
  results (ex_env FPlain) respelled =
  Some [ROk None; ROk None; ROk None; ROk None; ROk None; ROk None; ROk None; ROk (Some (VI32 5)); ROk None; ROk None; ROk None;
        RErr KeyNotFound; ROk (Some hello)].
Proof.
  split; [|split; [|split]].
  - split; [apply ex_env_ok; exact Logic.I|apply calls_okb_ok; vm_compute; reflexivity|apply roomb_ok; vm_compute; reflexivity].
  - apply one_at_a_timeb_ok. vm_compute. reflexivity.
  - intros H. specialize (H dir_d (str "alias"%string)). discriminate H.
    + cbn. auto.
    + cbn. auto.
    + vm_compute. reflexivity.
  - vm_compute. reflexivity.
Qed.
