(** Several processes (C64, C65): processes that take turns at writing, and
    others that only read, behave as the specification with versions. *)
From Verif Require Import Bytes Utf8 Proto ProtoFacts Crc8 Value Codec Store StoreFacts Encrypt World Spec Hyps Refine WorldInv WorldStep Main Frames Reach Examples P_Map P_Store Slots Damaged Crash P_Kill P_Kill2 P_Corrupt P_Enc P_Enc2 P_Damaged P_Wrong P_Fail Procs.
From Coq Require Import ZifyBool ZifyNat ZifyN.
Local Open Scope N_scope.

(** * A process does not notice what others have in memory *)

(** World [w] with more stores, handles and registrations. *)
Definition ext (F : mem) (w : world) : world :=
  World (w_dirs w) (w_inodes w) (w_next_ino w) (w_insts w ∪ p_insts F) (w_next_inst w) (w_handles w ∪ p_handles F) (w_reg w ∪ p_reg F)
        (w_poison w) (w_rng w) (w_seed w).

Record compat (F : mem) (w : world) : Prop := {
  c_insts : forall i x, p_insts F !! i = Some x -> w_insts w !! i = None /\ i < w_next_inst w;
  c_handles : forall h hd, p_handles F !! h = Some hd -> w_handles w !! h = None /\ w_insts w !! h_inst hd = None /\ h_inst hd < w_next_inst w;
  c_reg : forall p i, p_reg F !! p = Some i -> w_reg w !! p = None /\ w_insts w !! i = None /\ i < w_next_inst w;
  c_own_h : forall h hd, w_handles w !! h = Some hd ->
    p_insts F !! h_inst hd = None /\ (forall h' hd', p_handles F !! h' = Some hd' -> h_inst hd' <> h_inst hd) /\ p_reg F !! h_path hd = None;
  c_own_r : forall p i, w_reg w !! p = Some i -> p_insts F !! i = None
}.

(** The handle or store an event is about is not one of the frame's. *)
Definition apart_from (F : mem) (e : event) : Prop :=
  match e with
  | ENew h path _ => p_handles F !! h = None /\ p_reg F !! path = None
  | EPut h _ _ | EPutPanic h _ | EGet h _ _ | EGetPanic h _ _ | EDelete h _ | EClear h | EDrop h => p_handles F !! h = None
  | EIo i => p_insts F !! i = None
  | _ => False
  end.

Lemma look_l {K} `{Countable K} {A} (m f : gmap K A) i : f !! i = None -> (m ∪ f) !! i = m !! i.
Proof. intros Hf. rewrite lookup_union, Hf. destruct (m !! i); reflexivity. Qed.

Lemma delete_ext {K} `{Countable K} {A} (m f : gmap K A) i : f !! i = None -> delete i (m ∪ f) = delete i m ∪ f.
Proof. intros Hf. rewrite delete_union, (delete_notin f) by exact Hf. reflexivity. Qed.

Lemma strong_same v w i : (forall h hd, h_inst hd = i -> (w_handles v !! h = Some hd <-> w_handles w !! h = Some hd)) -> strong v i = strong w i.
Proof.
  intros G. unfold strong. apply Permutation_length, NoDup_Permutation; try apply NoDup_filter, NoDup_map_to_list.
  intros [h hd]. rewrite !elem_of_list_filter, !elem_of_map_to_list. cbn [snd]. split; intros [A B]; (split; [exact A|]); apply (G h hd A), B.
Qed.

Section Ext.
Context (E : env) (F : mem).

Lemma ext_inst w i x : set_inst (ext F w) i x = ext F (set_inst w i x).
Proof. unfold set_inst, set_insts, ext. cbn. rewrite insert_union_l. reflexivity. Qed.

Lemma ext_job w i : p_insts F !! i = None -> run_job E (ext F w) i = ext F (run_job E w i).
Proof.
  intros Hi. unfold run_job. cbn [ext w_insts]. rewrite look_l by exact Hi. destruct (w_insts w !! i) as [x|]; [|reflexivity].
  destruct (i_io x), (i_queue x) as [|[m dup|] q]; try reflexivity.
  - change (i_st (ext F w) x) with (i_st w x). destruct (write _ _ _ m dup) as [s ok]. rewrite ext_inst. reflexivity.
  - change (dir_of (ext F w) (i_dir x)) with (dir_of w (i_dir x)).
    match goal with |- set_inst ?a i ?b = _ => change a with (ext F (set_dir w (i_dir x) (Dir None (if is_encrypted (e_feat E) then None else d_meta (dir_of w (i_dir x)))))) end.
    rewrite ext_inst. reflexivity.
Qed.

Lemma ext_drain w i : p_insts F !! i = None -> drain E (ext F w) i = ext F (drain E w i).
Proof.
  intros Hi. unfold drain. cbn [ext w_insts]. rewrite look_l by exact Hi. destruct (w_insts w !! i) as [x|]; [|reflexivity].
  induction (length (i_queue x)) as [|n IH]; [reflexivity|]. rewrite !Nat.iter_succ. cbv beta. fold (ext F w) in *. rewrite IH. apply ext_job, Hi.
Qed.

Lemma ext_open w p k : open_impl E (ext F w) p k = (ext F (open_impl E w p k).1, (open_impl E w p k).2).
Proof.
  unfold open_impl. destruct (e_dir_ok E p); [|reflexivity].
  assert (E1 : open_config E (ext F w) (e_canon E p) = (ext F (open_config E w (e_canon E p)).1, (open_config E w (e_canon E p)).2)).
  { unfold open_config. change (dir_of (ext F w) (e_canon E p)) with (dir_of w (e_canon E p)). destruct (d_data _); reflexivity. }
  rewrite E1. destruct (open_config E w (e_canon E p)) as [w1 ino]. cbn [fst snd]. destruct (feature_key _ k) as [kk|]; [|reflexivity].
  assert (E2 : open_nonce E (ext F w1) (e_canon E p) = (ext F (open_nonce E w1 (e_canon E p)).1, (open_nonce E w1 (e_canon E p)).2)).
  { unfold open_nonce. change (dir_of (ext F w1) (e_canon E p)) with (dir_of w1 (e_canon E p)). destruct (is_encrypted _); [|reflexivity].
    cbn [ext w_rng]. destruct (init_nonce _ _); reflexivity. }
  rewrite E2. destruct (open_nonce E w1 (e_canon E p)) as [w2 nonce]. cbn [fst snd].
  change (inode (ext F w2) ino) with (inode w2 ino). cbn [ext w_seed]. destruct (open_file _ _ _ _) as [[s m]|]; reflexivity.
Qed.

Lemma ext_on_inst w i f : p_insts F !! i = None -> on_inst (ext F w) i f = (ext F (on_inst w i f).1, (on_inst w i f).2).
Proof.
  intros Hi. unfold on_inst. cbn [ext w_insts]. rewrite look_l by exact Hi. destruct (w_insts w !! i) as [x|]; [|reflexivity].
  destruct (f x) as [y r]. cbn [fst snd]. fold (ext F w). rewrite ext_inst. reflexivity.
Qed.

Lemma ext_clear w hd : p_insts F !! h_inst hd = None -> do_clear E (ext F w) hd = (ext F (do_clear E w hd).1, (do_clear E w hd).2).
Proof.
  intros Hi. unfold do_clear. cbn [ext w_insts]. rewrite look_l by exact Hi. fold (ext F w). destruct (w_insts w !! h_inst hd) as [x|]; [|reflexivity].
  destruct (i_poison x); [reflexivity|].
  assert (E1 : impl_clear E (ext F w) (h_inst hd) x = (ext F (impl_clear E w (h_inst hd) x).1, (impl_clear E w (h_inst hd) x).2)).
  { unfold impl_clear. destruct (negb (i_valid x)); [reflexivity|]. destruct (post (i_invalid x) JRemove) as [x1 r]. destruct r; try (rewrite ext_inst; reflexivity).
    rewrite ext_inst, ext_drain by exact Hi. cbn [ext w_insts]. rewrite look_l by exact Hi.
    destruct (w_insts (drain E (set_inst w (h_inst hd) x1) (h_inst hd)) !! h_inst hd) as [x2|]; [|reflexivity].
    cbn [fst snd]. match goal with |- (set_inst ?a _ _, _) = _ => change a with (ext F (drain E (set_inst w (h_inst hd) x1) (h_inst hd))) end.
    rewrite ext_inst. reflexivity. }
  rewrite E1. destruct (impl_clear E w (h_inst hd) x) as [w1 r]. cbn [fst snd]. destruct r; try reflexivity.
  rewrite ext_open. destruct (open_impl E w1 (h_path hd) (h_key hd)) as [w2 [y|]]; cbn [fst snd].
  - cbn [ext w_insts]. rewrite look_l by exact Hi. fold (ext F w2). destruct (_ && _); rewrite ext_inst; reflexivity.
  - cbn [ext w_insts]. rewrite look_l by exact Hi. fold (ext F w2). destruct (w_insts w2 !! h_inst hd); [rewrite ext_inst|]; reflexivity.
Qed.

Lemma ext_strong w i : (forall h' hd', p_handles F !! h' = Some hd' -> h_inst hd' <> i) -> strong (ext F w) i = strong w i.
Proof.
  intros G. apply strong_same. intros h' hd' Hi. cbn [ext w_handles]. rewrite lookup_union_Some_raw. split.
  - intros [A|[_ A]]; [exact A|]. destruct (G h' hd' A Hi).
  - auto.
Qed.

(** What a step can add. *)
Definition new_path (e : event) (h : N) (path : bytes) : Prop := match e with ENew h' path' _ => h = h' /\ path = path' | _ => False end.

Record grows (e : event) (w w' : world) : Prop := {
  g_next : w_next_inst w <= w_next_inst w';
  g_insts : forall i, is_Some (w_insts w' !! i) -> is_Some (w_insts w !! i) \/ w_next_inst w <= i;
  g_handles : forall h hd, w_handles w' !! h = Some hd ->
    (exists hd0, w_handles w !! h = Some hd0 /\ h_inst hd0 = h_inst hd /\ h_path hd0 = h_path hd) \/
    new_path e h (h_path hd) /\ (w_next_inst w <= h_inst hd \/ is_Some (w_insts w !! h_inst hd));
  g_reg : forall p i, w_reg w' !! p = Some i -> w_reg w !! p = Some i \/ (exists h, new_path e h p) /\ w_next_inst w <= i
}.

Lemma grows_sub e w w' : insts_sub w w' -> w_handles w' = w_handles w -> w_reg w' = w_reg w -> w_next_inst w' = w_next_inst w -> grows e w w'.
Proof.
  intros A B C D. split; [lia| | |].
  - intros i [x Hx]. left. destruct (A i x Hx) as (y & Hy & _). eauto.
  - intros h hd. rewrite B. eauto.
  - intros p i. rewrite C. auto.
Qed.

Lemma clear_grows e w hd w' r : do_clear E w hd = (w', r) -> grows e w w'.
Proof.
  assert (Refl : grows e w w) by (apply grows_sub; auto; apply insts_sub_refl).
  unfold do_clear. destruct (w_insts w !! h_inst hd) as [x|] eqn:Hx; [|intros [= <- _]; exact Refl].
  destruct (i_poison x); [intros [= <- _]; exact Refl|].
  destruct (impl_clear E w (h_inst hd) x) as [w1 r1] eqn:Ec.
  pose proof (impl_clear_sub _ _ _ _ _ _ Hx Ec) as (S1 & B1 & C1 & D1). pose proof (grows_sub e w w1 S1 B1 C1 D1) as G1.
  destruct r1; [|intros [= <- _]; exact G1..].
  destruct (open_impl E w1 (h_path hd) (h_key hd)) as [w2 o] eqn:Eo.
  pose proof (open_impl_sub _ _ _ _ _ _ Eo) as (A2 & B2 & C2 & D2 & _ & _).
  assert (G2 : forall z, grows e w (set_inst w2 (h_inst hd) z)).
  { intros z. destruct G1 as [H1 H2 H3 H4]. split; cbn [set_inst set_insts w_insts w_handles w_reg w_next_inst]; rewrite ?A2, ?B2, ?C2, ?D2; auto.
    intros i [y Hy]. destruct (decide (h_inst hd = i)) as [<-|Hne]; [left; eauto|]. rewrite lookup_insert_ne in Hy by exact Hne. apply H2. eauto. }
  destruct o as [y|].
  - destruct (_ && _)%bool; intros [= <- _]; apply G2.
  - destruct (w_insts w2 !! h_inst hd) as [z|]; intros [= <- _]; [apply G2|].
    destruct G1 as [H1 H2 H3 H4]. split; rewrite ?A2, ?B2, ?C2, ?D2; auto.
Qed.

Lemma drop_grows e w h hd w1 r1 w2 r2 : w_handles w !! h = Some hd -> do_drop_reg w h hd = (w1, r1) -> do_drop_arc E w1 h hd = (w2, r2) -> grows e w w2.
Proof.
  intros Hh E1 E2.
  assert (A : w_insts w1 = w_insts w /\ w_next_inst w1 = w_next_inst w /\ w_handles w1 = <[h := Handle (h_path hd) (h_key hd) (h_inst hd) true]> (w_handles w) /\
    forall p i, w_reg w1 !! p = Some i -> w_reg w !! p = Some i).
  { unfold do_drop_reg in E1. destruct (w_poison w); [injection E1 as <- _; auto|].
    destruct (Nat.eqb _ _); injection E1 as <- _; split_and!; auto. cbn. intros p i G. apply lookup_delete_Some in G as [_ G]. exact G. }
  destruct A as (A1 & A2 & A3 & A4).
  assert (Hd : forall h' hd', w_handles w1 !! h' = Some hd' -> exists hd0, w_handles w !! h' = Some hd0 /\ h_inst hd0 = h_inst hd' /\ h_path hd0 = h_path hd').
  { intros h' hd'. rewrite A3. destruct (decide (h = h')) as [<-|Hne].
    - rewrite lookup_insert. intros [= <-]. eauto.
    - rewrite lookup_insert_ne by exact Hne. eauto. }
  unfold do_drop_arc in E2. destruct (drain_sub E w1 (h_inst hd)) as (S1 & B1 & C1 & D1). destruct (Nat.eqb _ _); injection E2 as <- _.
  - split; cbn [set_handles set_insts w_insts w_handles w_reg w_next_inst].
    + lia.
    + intros i [x Hx]. apply lookup_delete_Some in Hx as [_ Hx]. destruct (S1 i x Hx) as (y & Hy & _). left. rewrite <- A1. eauto.
    + intros h' hd' G. apply lookup_delete_Some in G as [_ G]. rewrite B1 in G. left. apply Hd, G.
    + intros p i. rewrite C1. auto.
  - split; cbn [set_handles set_insts w_insts w_handles w_reg w_next_inst].
    + lia.
    + intros i [x Hx]. left. rewrite <- A1. eauto.
    + intros h' hd' G. apply lookup_delete_Some in G as [_ G]. left. apply Hd, G.
    + intros p i. auto.
Qed.

Lemma step_grows w e w' r : step E w e = Some (w', r) ->
  match e with EDropReg _ | EDropArc _ | EKill => False | _ => True end -> grows e w w'.
Proof.
  intros Hs Hk. assert (Refl : grows e w w) by (apply grows_sub; auto; apply insts_sub_refl).
  assert (ON : forall i f, (forall x, i_dir (f x).1 = i_dir x) -> on_inst w i f = (w', r) -> grows e w w').
  { intros i f Hf Ho. destruct (on_inst_sub _ _ _ _ _ Hf Ho) as (A & B & C & D). apply grows_sub; auto. }
  destruct e as [h p k|h k v|h k|h k t|h k t|h k|h|h|h|h|i|]; try contradiction; cbn [step] in Hs.
  - destruct (w_handles w !! h) eqn:Hh; [discriminate|]. injection Hs as Es. unfold do_new in Es.
    destruct (w_poison w); [injection Es as <- _; exact Refl|].
    destruct (lookup_reg w p) as [i|] eqn:El.
    + injection Es as <- _. unfold lookup_reg in El. destruct (w_reg w !! p) as [i'|] eqn:Hp; [|discriminate].
      destruct (bool_decide_reflect (is_Some (w_insts w !! i'))) as [Hi|]; [|discriminate]. injection El as ->.
      split; cbn [set_handles w_insts w_handles w_reg w_next_inst]; [lia|auto| |auto].
      intros h' hd. destruct (decide (h = h')) as [<-|Hne].
      * rewrite lookup_insert. intros [= <-]. right. cbn. auto.
      * rewrite lookup_insert_ne by exact Hne. eauto.
    + destruct (open_impl E w p k) as [w1 o] eqn:Eo. pose proof (open_impl_sub _ _ _ _ _ _ Eo) as (A & B & C & D & _ & _).
      destruct o as [x|]; injection Es as <- _; (split; cbn [set_poison w_insts w_handles w_reg w_next_inst]; rewrite ?A, ?B, ?C, ?D); eauto; try lia.
      * intros i [y Hy]. destruct (decide (w_next_inst w = i)) as [<-|Hne]; [right; lia|]. rewrite lookup_insert_ne in Hy by exact Hne. eauto.
      * intros h' hd. destruct (decide (h = h')) as [<-|Hne].
        -- rewrite lookup_insert. intros [= <-]. right. cbn. split; [auto|left; lia].
        -- rewrite lookup_insert_ne by exact Hne. eauto.
      * intros p' i. destruct (decide (p = p')) as [<-|Hne].
        -- rewrite lookup_insert. intros [= <-]. right. split; [exists h; cbn; auto|lia].
        -- rewrite lookup_insert_ne by exact Hne. eauto.
  - apply with_handle_Some in Hs as (hd & Hh & Hu & Hs). eapply ON; [|exact Hs]. intros; apply put_dir.
  - apply with_handle_Some in Hs as (hd & Hh & Hu & Hs). eapply ON; [|exact Hs]. intros x; unfold inst_put_panic; destruct (i_poison x); reflexivity.
  - apply with_handle_Some in Hs as (hd & Hh & Hu & Hs). eapply ON; [|exact Hs]. reflexivity.
  - apply with_handle_Some in Hs as (hd & Hh & Hu & Hs). eapply ON; [|exact Hs]. reflexivity.
  - apply with_handle_Some in Hs as (hd & Hh & Hu & Hs). eapply ON; [|exact Hs]. intros; apply delete_dir.
  - apply with_handle_Some in Hs as (hd & Hh & Hu & Hs). eapply clear_grows, Hs.
  - apply with_handle_Some in Hs as (hd & Hh & Hu & Hs). destruct (do_drop_reg w h hd) as [w1 r1] eqn:E1.
    destruct (do_drop_arc E w1 h hd) as [w2 r2] eqn:E2. injection Hs as <- _. eapply drop_grows; eassumption.
  - injection Hs as <- _. destruct (run_job_sub E w i) as (A & B & C & D). apply grows_sub; auto.
Qed.

Lemma compat_step w e w' r : compat F w -> apart_from F e -> step E w e = Some (w', r) -> compat F w'.
Proof.
  intros [C1 C2 C3 C4 C5] HA Hs.
  assert (G : grows e w w') by (eapply step_grows; [exact Hs|]; destruct e; auto).
  destruct G as [G1 G2 G3 G4].
  assert (NI : forall i, w_insts w !! i = None -> i < w_next_inst w -> w_insts w' !! i = None).
  { intros i Hi Hl. destruct (w_insts w' !! i) eqn:X; [|reflexivity]. destruct (G2 i (ex_intro _ _ X)) as [[y Y]|Y]; [congruence|lia]. }
  assert (HN : forall h p, new_path e h p -> p_handles F !! h = None /\ p_reg F !! p = None).
  { intros h p. destruct e; cbn; try contradiction. intros [-> ->]. exact HA. }
  split.
  - intros i x Hx. destruct (C1 i x Hx). split; [auto|lia].
  - intros h hd Hh. destruct (C2 h hd Hh) as (A & B & C). split_and!; [|auto|lia].
    destruct (w_handles w' !! h) as [hd'|] eqn:X; [|reflexivity]. destruct (G3 h _ X) as [(hd0 & Y & _)|(Y & _)]; [congruence|].
    destruct (HN h _ Y). congruence.
  - intros p i Hp. destruct (C3 p i Hp) as (A & B & D). split_and!; [|apply NI; assumption|lia].
    destruct (w_reg w' !! p) as [j|] eqn:X; [|reflexivity]. destruct (G4 p j X) as [Y|((h & Y) & _)]; [congruence|]. destruct (HN h p Y). congruence.
  - intros h hd Hh. destruct (G3 h hd Hh) as [(hd0 & Y & <- & <-)|(N1 & [Y|[y Y]])]; [apply (C4 h hd0 Y)|..]; destruct (HN h _ N1) as [N2 N3].
    + split_and!.
      * destruct (p_insts F !! h_inst hd) eqn:X; [|reflexivity]. destruct (C1 _ _ X). lia.
      * intros h' hd' X Hi. destruct (C2 _ _ X) as (_ & _ & Z). rewrite Hi in Z. lia.
      * exact N3.
    + split_and!.
      * destruct (p_insts F !! h_inst hd) eqn:X; [|reflexivity]. destruct (C1 _ _ X). congruence.
      * intros h' hd' X Hi. destruct (C2 _ _ X) as (_ & Z & _). rewrite Hi in Z. congruence.
      * exact N3.
  - intros p i Hp. destruct (G4 p i Hp) as [Y|(_ & Y)]; [apply (C5 p i Y)|].
    destruct (p_insts F !! i) eqn:X; [|reflexivity]. destruct (C1 _ _ X). lia.
Qed.

Lemma ext_step w e : compat F w -> apart_from F e ->
  step E (ext F w) e = match step E w e with Some (w', r) => Some (ext F w', r) | None => None end.
Proof.
  intros C HA.
  assert (WH : forall h f g, p_handles F !! h = None -> (forall hd, w_handles w !! h = Some hd -> f hd = (ext F (g hd).1, (g hd).2)) ->
    with_handle (ext F w) h f = match with_handle w h g with Some (w', r) => Some (ext F w', r) | None => None end).
  { intros h f g Hh Hf. unfold with_handle. cbn [ext w_handles]. rewrite look_l by exact Hh. destruct (w_handles w !! h) as [hd|] eqn:X; [|reflexivity].
    destruct (h_unreg hd); [reflexivity|]. rewrite (Hf hd eq_refl). destruct (g hd). reflexivity. }
  assert (OI : forall h f, p_handles F !! h = None ->
    with_handle (ext F w) h (fun hd => on_inst (ext F w) (h_inst hd) f) =
    match with_handle w h (fun hd => on_inst w (h_inst hd) f) with Some (w', r) => Some (ext F w', r) | None => None end).
  { intros h f Hh. apply WH; [exact Hh|]. intros hd X. apply ext_on_inst, (c_own_h _ _ C h hd X). }
  destruct e as [h p k|h k v|h k|h k t|h k t|h k|h|h|h|h|i|]; cbn [apart_from] in HA; try contradiction; cbn [step]; try (apply OI, HA).
  - destruct HA as [Hh Hp]. cbn [ext w_handles]. rewrite look_l by exact Hh. destruct (w_handles w !! h) eqn:X; [reflexivity|].
    fold (ext F w). unfold do_new. change (w_poison (ext F w)) with (w_poison w). destruct (w_poison w); [reflexivity|].
    assert (L : lookup_reg (ext F w) p = lookup_reg w p).
    { unfold lookup_reg. cbn [ext w_reg w_insts]. rewrite look_l by exact Hp. destruct (w_reg w !! p) as [i|] eqn:R; [|reflexivity].
      rewrite look_l by apply (c_own_r _ _ C p i R). reflexivity. }
    rewrite L. destruct (lookup_reg w p) as [i|].
    + unfold set_handles, ext. cbn. rewrite insert_union_l. reflexivity.
    + rewrite ext_open. destruct (open_impl E w p k) as [w1 [x|]]; cbn [fst snd]; [|reflexivity].
      unfold ext. cbn. rewrite !insert_union_l. reflexivity.
  - apply WH; [exact HA|]. intros hd X. apply ext_clear, (c_own_h _ _ C h hd X).
  - apply (WH h _ (fun hd => let '(w1, r1) := do_drop_reg w h hd in let '(w2, r2) := do_drop_arc E w1 h hd in (w2, match r1 with RPanic => RPanic | _ => r2 end))); [exact HA|].
    intros hd X. destruct (c_own_h _ _ C h hd X) as (O1 & O2 & O3).
    assert (E1 : do_drop_reg (ext F w) h hd = (ext F (do_drop_reg w h hd).1, (do_drop_reg w h hd).2)).
    { unfold do_drop_reg. change (w_poison (ext F w)) with (w_poison w). destruct (w_poison w).
      - unfold set_handles, ext. cbn. rewrite insert_union_l. reflexivity.
      - rewrite ext_strong by exact O2. destruct (Nat.eqb _ 1); unfold set_handles, set_reg, ext; cbn; rewrite insert_union_l; [|reflexivity].
        rewrite delete_ext by exact O3. reflexivity. }
    rewrite E1. destruct (do_drop_reg w h hd) as [w1 r1]. cbn [fst snd].
    assert (E2 : do_drop_arc E (ext F w1) h hd = (ext F (do_drop_arc E w1 h hd).1, (do_drop_arc E w1 h hd).2)).
    { unfold do_drop_arc. rewrite ext_strong by exact O2. destruct (Nat.eqb _ 1).
      - rewrite ext_drain by exact O1. cbn [fst snd]. f_equal.
        + unfold set_handles, set_insts, ext. cbn. rewrite !delete_ext by assumption. reflexivity.
        + cbn [ext w_insts]. rewrite look_l by exact O1. reflexivity.
      - cbn [fst snd]. unfold set_handles, ext. cbn. rewrite delete_ext by assumption. reflexivity. }
    rewrite E2. destruct (do_drop_arc E w1 h hd) as [w2 r2]. reflexivity.
  - rewrite ext_job by exact HA. reflexivity.
Qed.

End Ext.

(** * The part of a world that belongs to one process

    [own] says whose the stores are. *)
Section Cut.
Context (own : N -> N) (p : N).

Definition core (w : world) : world :=
  World (w_dirs w) (w_inodes w) (w_next_ino w) (filter (fun x : N * inst => own x.1 = p) (w_insts w)) (w_next_inst w)
        (filter (fun x : N * handle => own (h_inst x.2) = p) (w_handles w)) (filter (fun x : bytes * N => own x.2 = p) (w_reg w))
        (w_poison w) (w_rng w) (w_seed w).

Definition rest (w : world) : mem :=
  Mem (filter (fun x : N * inst => ~ own x.1 = p) (w_insts w)) (filter (fun x : N * handle => ~ own (h_inst x.2) = p) (w_handles w))
      (filter (fun x : bytes * N => ~ own x.2 = p) (w_reg w)) (w_poison w).

Lemma core_rest w : ext (rest w) (core w) = w.
Proof. unfold ext, rest, core. cbn. rewrite !map_filter_union_complement. destruct w; reflexivity. Qed.

Lemma core_insts w i x : w_insts (core w) !! i = Some x <-> w_insts w !! i = Some x /\ own i = p.
Proof. unfold core. cbn. rewrite map_filter_lookup_Some. reflexivity. Qed.
Lemma core_handles w h hd : w_handles (core w) !! h = Some hd <-> w_handles w !! h = Some hd /\ own (h_inst hd) = p.
Proof. unfold core. cbn. rewrite map_filter_lookup_Some. reflexivity. Qed.
Lemma core_reg w a i : w_reg (core w) !! a = Some i <-> w_reg w !! a = Some i /\ own i = p.
Proof. unfold core. cbn. rewrite map_filter_lookup_Some. reflexivity. Qed.
Lemma rest_insts w i x : p_insts (rest w) !! i = Some x <-> w_insts w !! i = Some x /\ own i <> p.
Proof. unfold rest. cbn. rewrite map_filter_lookup_Some. reflexivity. Qed.
Lemma rest_handles w h hd : p_handles (rest w) !! h = Some hd <-> w_handles w !! h = Some hd /\ own (h_inst hd) <> p.
Proof. unfold rest. cbn. rewrite map_filter_lookup_Some. reflexivity. Qed.
Lemma rest_reg w a i : p_reg (rest w) !! a = Some i <-> w_reg w !! a = Some i /\ own i <> p.
Proof. unfold rest. cbn. rewrite map_filter_lookup_Some. reflexivity. Qed.

End Cut.

Lemma none_by {K} `{Countable K} {A} (m : gmap K A) i : (forall x, m !! i = Some x -> False) -> m !! i = None.
Proof. intros G. destruct (m !! i) as [x|] eqn:X; [destruct (G x eq_refl)|reflexivity]. Qed.

Lemma same_maps {K} `{Countable K} {A} (m m' : gmap K A) : (forall i x, m !! i = Some x <-> m' !! i = Some x) -> m = m'.
Proof. intros G. apply map_eq. intros i. apply option_eq. intros x. apply G. Qed.

(** What a world has to satisfy for its parts to be independent. *)
Record sound (w : world) : Prop := {
  so_insts : forall i x, w_insts w !! i = Some x -> i < w_next_inst w;
  so_handles : forall h hd, w_handles w !! h = Some hd -> h_inst hd < w_next_inst w /\ w_reg w !! h_path hd = Some (h_inst hd);
  so_reg : forall a i, w_reg w !! a = Some i -> i < w_next_inst w
}.

Lemma sound_compat own p w : sound w -> compat (rest own p w) (core own p w).
Proof.
  intros [S1 S2 S3]. split.
  - intros i x Hx. apply rest_insts in Hx as [A B]. split; [|apply (S1 i x A)]. apply none_by. intros y Hy. apply core_insts in Hy as [_ Hy]. contradiction.
  - intros h hd Hh. apply rest_handles in Hh as [A B]. split_and!.
    + apply none_by. intros y Hy. apply core_handles in Hy as [Hy Hy']. congruence.
    + apply none_by. intros y Hy. apply core_insts in Hy as [_ Hy]. contradiction.
    + apply (S2 h hd A).
  - intros a i Ha. apply rest_reg in Ha as [A B]. split_and!.
    + apply none_by. intros y Hy. apply core_reg in Hy as [Hy Hy']. congruence.
    + apply none_by. intros y Hy. apply core_insts in Hy as [_ Hy]. contradiction.
    + apply (S3 a i A).
  - intros h hd Hh. apply core_handles in Hh as [A B]. split_and!.
    + apply none_by. intros y Hy. apply rest_insts in Hy as [_ Hy]. contradiction.
    + intros h' hd' Hh' Hi. apply rest_handles in Hh' as [_ Hy]. rewrite Hi in Hy. contradiction.
    + apply none_by. intros i Hi. apply rest_reg in Hi as [Hi Hy]. destruct (S2 h hd A) as [_ G]. congruence.
  - intros a i Ha. apply core_reg in Ha as [A B]. apply none_by. intros y Hy. apply rest_insts in Hy as [_ Hy]. contradiction.
Qed.

(** Ownership after a step of [p]: new stores are [p]'s. *)
Definition own_after (own : N -> N) (w : world) (p i : N) : N := if i <? w_next_inst w then own i else p.

(** A step of one process is a step of the whole, and leaves the parts of the
    others alone. *)
Lemma part_step E own p w e w1 r : sound w -> apart_from (rest own p w) e -> step E (core own p w) e = Some (w1, r) ->
  step E w e = Some (ext (rest own p w) w1, r) /\
  core (own_after own w p) p (ext (rest own p w) w1) = w1 /\
  forall q, q <> p -> mem_of (core (own_after own w p) q (ext (rest own p w) w1)) = Mem (p_insts (mem_of (core own q w))) (p_handles (mem_of (core own q w))) (p_reg (mem_of (core own q w))) (w_poison w1).
Proof.
  intros S HA Hs. pose proof (sound_compat own p w S) as C.
  assert (G : grows e (core own p w) w1) by (eapply step_grows; [exact Hs|]; destruct e; auto).
  pose proof (compat_step E (rest own p w) _ e w1 r C HA Hs) as C1.
  destruct S as [S1 S2 S3]. destruct G as [G1 G2 G3 G4]. change (w_next_inst (core own p w)) with (w_next_inst w) in *.
  assert (Old : forall i, i < w_next_inst w -> own_after own w p i = own i). { intros i Hi. unfold own_after. rewrite (proj2 (N.ltb_lt _ _) Hi). reflexivity. }
  assert (New : forall i, w_next_inst w <= i -> own_after own w p i = p). { intros i Hi. unfold own_after. rewrite (proj2 (N.ltb_ge _ _) Hi). reflexivity. }
  assert (OI : forall i, is_Some (w_insts (core own p w) !! i) -> own_after own w p i = p).
  { intros i [y Y]. apply core_insts in Y as [Y Z]. rewrite Old by apply (S1 i y Y). exact Z. }
  assert (A1 : forall i x, w_insts w1 !! i = Some x -> own_after own w p i = p).
  { intros i x Hx. destruct (G2 i (ex_intro _ x Hx)) as [Y|Y]; [apply OI, Y|apply New, Y]. }
  assert (A2 : forall h hd, w_handles w1 !! h = Some hd -> own_after own w p (h_inst hd) = p).
  { intros h hd Hh. destruct (G3 h hd Hh) as [(hd0 & Y & <- & _)|(_ & [Y|Y])]; [|apply New, Y|apply OI, Y].
    apply core_handles in Y as [Y Z]. rewrite Old by apply (S2 h hd0 Y). exact Z. }
  assert (A3 : forall a i, w_reg w1 !! a = Some i -> own_after own w p i = p).
  { intros a i Ha. destruct (G4 a i Ha) as [Y|(_ & Y)]; [|apply New, Y]. apply core_reg in Y as [Y Z]. rewrite Old by apply (S3 a i Y). exact Z. }
  assert (B1 : forall i x, p_insts (rest own p w) !! i = Some x -> own_after own w p i = own i /\ own i <> p).
  { intros i x Hx. apply rest_insts in Hx as [Y Z]. split; [apply Old, (S1 i x Y)|exact Z]. }
  assert (B2 : forall h hd, p_handles (rest own p w) !! h = Some hd -> own_after own w p (h_inst hd) = own (h_inst hd) /\ own (h_inst hd) <> p).
  { intros h hd Hx. apply rest_handles in Hx as [Y Z]. split; [apply Old, (S2 h hd Y)|exact Z]. }
  assert (B3 : forall a i, p_reg (rest own p w) !! a = Some i -> own_after own w p i = own i /\ own i <> p).
  { intros a i Hx. apply rest_reg in Hx as [Y Z]. split; [apply Old, (S3 a i Y)|exact Z]. }
  split_and!.
  - rewrite <- (core_rest own p w) at 1. rewrite (ext_step E _ _ _ C HA), Hs. reflexivity.
  - destruct w1 as [a1 a2 a3 a4 a5 a6 a7 a8 a9 a10]. unfold core, ext. cbn [w_dirs w_inodes w_next_ino w_insts w_next_inst w_handles w_reg w_poison w_rng w_seed] in *. f_equal; apply same_maps.
    + intros i x. rewrite map_filter_lookup_Some, lookup_union_Some_raw. cbn. split.
      * intros [[Y|[_ Y]] Z]; [exact Y|]. destruct (B1 i x Y). congruence.
      * intros Y. split; [left; exact Y|apply (A1 i x Y)].
    + intros i x. rewrite map_filter_lookup_Some, lookup_union_Some_raw. cbn. split.
      * intros [[Y|[_ Y]] Z]; [exact Y|]. destruct (B2 i x Y). congruence.
      * intros Y. split; [left; exact Y|apply (A2 i x Y)].
    + intros i x. rewrite map_filter_lookup_Some, lookup_union_Some_raw. cbn. split.
      * intros [[Y|[_ Y]] Z]; [exact Y|]. destruct (B3 i x Y). congruence.
      * intros Y. split; [left; exact Y|apply (A3 i x Y)].
  - intros q Hq. unfold mem_of. cbn [p_insts p_handles p_reg]. f_equal; apply same_maps.
    + intros i x. rewrite !core_insts. cbn [ext w_insts]. rewrite lookup_union_Some_raw. split.
      * intros [[Y|[_ Y]] Z]; [rewrite (A1 i x Y) in Z; congruence|]. destruct (B1 i x Y) as [E1 _]. apply rest_insts in Y as [Y _]. split; [exact Y|congruence].
      * intros [Y Z]. assert (X : p_insts (rest own p w) !! i = Some x) by (apply rest_insts; split; congruence).
        split; [right; split; [apply (c_insts _ _ C1 i x X)|exact X]|]. destruct (B1 i x X). congruence.
    + intros i x. rewrite !core_handles. cbn [ext w_handles]. rewrite lookup_union_Some_raw. split.
      * intros [[Y|[_ Y]] Z]; [rewrite (A2 i x Y) in Z; congruence|]. destruct (B2 i x Y) as [E1 _]. apply rest_handles in Y as [Y _]. split; [exact Y|congruence].
      * intros [Y Z]. assert (X : p_handles (rest own p w) !! i = Some x) by (apply rest_handles; split; congruence).
        split; [right; split; [apply (c_handles _ _ C1 i x X)|exact X]|]. destruct (B2 i x X). congruence.
    + intros i x. rewrite !core_reg. cbn [ext w_reg]. rewrite lookup_union_Some_raw. split.
      * intros [[Y|[_ Y]] Z]; [rewrite (A3 i x Y) in Z; congruence|]. destruct (B3 i x Y) as [E1 _]. apply rest_reg in Y as [Y _]. split; [exact Y|congruence].
      * intros [Y Z]. assert (X : p_reg (rest own p w) !! i = Some x) by (apply rest_reg; split; congruence).
        split; [right; split; [apply (c_reg _ _ C1 i x X)|exact X]|]. destruct (B3 i x X). congruence.
Qed.

(** * Versions *)

Definition writer_of (x : vhandle) : option bytes := match vh_sees x with None => Some (vh_dir x) | Some _ => None end.

(** The writers' part of the specification, without the past. *)
Definition spec_of (s : vspec) : spec := Spec (hd ∅ <$> v_vers s) (omap writer_of (v_handles s)).

(** The past: [S] was the contents [k] writes ago. *)
Definition past (s : vspec) (d : bytes) (k : nat) (S : smap) : Prop := (versions s d : list smap) !! k = Some S.

Lemma spec_of_contents s d : contents (spec_of s) d = newest s d.
Proof. unfold contents, spec_of, newest, versions. cbn. rewrite lookup_fmap. destruct (v_vers s !! d); reflexivity. Qed.

Lemma spec_of_handle s h d : sp_handles (spec_of s) !! h = Some d <-> exists p, v_handles s !! h = Some (VH p d None).
Proof.
  unfold spec_of. cbn. rewrite lookup_omap. destruct (v_handles s !! h) as [[q d' [S|]]|]; cbn; split.
  - discriminate.
  - intros (p & [=]).
  - intros [= ->]. eauto.
  - intros (p & [= -> ->]). reflexivity.
  - discriminate.
  - intros (p & [=]).
Qed.

Lemma past_0 s d S : past s d 0 S -> S = newest s d.
Proof. unfold past, newest. destruct (versions s d); cbn; congruence. Qed.

Lemma versions_put s d l d' : versions (put_versions s d l) d' = if decide (d = d') then l else versions s d'.
Proof.
  unfold versions, put_versions. cbn. destruct (decide (d = d')) as [<-|Hne]; [rewrite lookup_insert|rewrite lookup_insert_ne by exact Hne]; reflexivity.
Qed.

Lemma newest_put s d l d' : newest (put_versions s d l) d' = if decide (d = d') then hd ∅ l else newest s d'.
Proof. unfold newest. rewrite versions_put. destruct (decide (d = d')); reflexivity. Qed.

Lemma job_other E w i j : j <> i -> w_insts (run_job E w i) !! j = w_insts w !! j.
Proof.
  intros Hj. unfold run_job. destruct (w_insts w !! i) as [x|]; [|reflexivity]. destruct (i_io x), (i_queue x) as [|[m dup|] q]; try reflexivity.
  - destruct (write _ _ _ m dup) as [s ok]. cbn. apply lookup_insert_ne. congruence.
  - cbn. apply lookup_insert_ne. congruence.
Qed.

Lemma drain_other E w i j : j <> i -> w_insts (drain E w i) !! j = w_insts w !! j.
Proof.
  intros Hj. unfold drain. destruct (w_insts w !! i) as [x|]; [|reflexivity]. induction (length (i_queue x)) as [|n IH]; [reflexivity|].
  rewrite Nat.iter_succ. rewrite job_other by exact Hj. exact IH.
Qed.

(** Replacing one store's queue. *)
Lemma jobs_replace w w' i x y : w_insts w !! i = Some x -> w_insts w' !! i = Some y -> i_dir y = i_dir x ->
  (forall j, j <> i -> w_insts w' !! j = w_insts w !! j) -> (forall j z, w_insts w !! j = Some z -> i_dir z = i_dir x -> j = i) ->
  forall d k, jobs_left w' d k -> (d = i_dir x /\ k = length (i_queue y)) \/ (d <> i_dir x /\ jobs_left w d k).
Proof.
  intros Hx Hy Hd Ho Hu d k [(j & z & Hz & Dz & ->)|[Hn ->]].
  - destruct (decide (j = i)) as [->|Hj].
    + rewrite Hy in Hz. injection Hz as <-. left. split; congruence.
    + rewrite Ho in Hz by exact Hj. right. split; [|left; eauto 6]. intros ->. apply Hj, (Hu j z Hz Dz).
  - assert (d <> i_dir x) by (intros ->; apply (Hn i y Hy Hd)). right. split; [assumption|]. right. split; [|reflexivity].
    intros j z Hz Dz. destruct (decide (j = i)) as [->|Hj]; [congruence|]. apply (Hn j z); [rewrite Ho by exact Hj; exact Hz|exact Dz].
Qed.

Lemma jobs_remove w w' i x : w_insts w !! i = Some x -> w_insts w' !! i = None ->
  (forall j, j <> i -> w_insts w' !! j = w_insts w !! j) -> (forall j z, w_insts w !! j = Some z -> i_dir z = i_dir x -> j = i) ->
  forall d k, jobs_left w' d k -> (d = i_dir x /\ k = 0%nat) \/ (d <> i_dir x /\ jobs_left w d k).
Proof.
  intros Hx Hy Ho Hu d k [(j & z & Hz & Dz & ->)|[Hn ->]].
  - destruct (decide (j = i)) as [->|Hj]; [congruence|]. rewrite Ho in Hz by exact Hj. right. split; [|left; eauto 6]. intros ->. apply Hj, (Hu j z Hz Dz).
  - destruct (decide (d = i_dir x)) as [->|Hd]; [left; auto|]. right. split; [exact Hd|]. right. split; [|reflexivity].
    intros j z Hz Dz. destruct (decide (j = i)) as [->|Hj]; [congruence|]. apply (Hn j z); [rewrite Ho by exact Hj; exact Hz|exact Dz].
Qed.

Section Writers.
Context (E : env) {Rp : rep E} {RL : rep_law E Rp} (HE : env_ok E) (keyof : bytes -> bytes) (U : bytes -> Prop).
Context (HU_dir : forall p, U p -> e_dir_ok E p = true).
Context (HU_key : forall p, U p -> feature_key (e_feat E) (keyof (e_canon E p)) <> None).
Context (HU_inj : forall p p', U p -> U p' -> e_canon E p = e_canon E p' -> p = p').

Notation canon := (e_canon E).
Notation WInv := (WInv E keyof U).

Lemma WInv_trim w sp (H H' : bytes -> nat -> smap -> Prop) n : WInv w sp H n -> (forall d, H' d 0%nat (contents sp d)) ->
  (forall i x k S, w_insts w !! i = Some x -> (k <= length (i_queue x))%nat -> H (i_dir x) k S -> H' (i_dir x) k S) -> WInv w sp H' n.
Proof.
  intros [A B C D G I J K] H0 HH. split; auto.
  intros i x Hx. destruct (G i x Hx) as (X & [A1 A2 A3 A4 A5 A6 A7 A8 (q & rs & c & B1 & B2 & B3 & B4 & B5 & B6 & B7)] & Z). split_and!; auto.
  - split; auto. exists q, rs, c. split_and!; auto. intros j Hj. destruct (B7 j Hj) as (S' & P & Q). exists S'. split; [|exact Q].
    apply (HH i x); [exact Hx|rewrite B1, map_length; lia|exact P].
  - apply Z.
  - apply Z.
Qed.

Lemma WInv_sound w sp H n : WInv w sp H n -> sound w.
Proof.
  intros W. assert (R : forall a i, w_reg w !! a = Some i -> i < w_next_inst w).
  { intros a i Ha. destruct (wi_reg _ _ _ _ _ _ _ W a i Ha) as (_ & x & Hx & _). apply (wi_insts _ _ _ _ _ _ _ W i x Hx). }
  split; [intros i x Hx; apply (wi_insts _ _ _ _ _ _ _ W i x Hx)| |exact R].
  intros h hd Hh. destruct (handle_cases E keyof U w sp H n h hd W Hh) as (_ & _ & _ & _ & G & _). split; [apply (R _ _ G)|exact G].
Qed.

Lemma WInv_one w sp H n i x : WInv w sp H n -> w_insts w !! i = Some x -> forall j z, w_insts w !! j = Some z -> i_dir z = i_dir x -> j = i.
Proof. intros W Hx j z Hz Dz. eapply (inst_unique E keyof U HU_inj); eassumption. Qed.

Definition counted (w : world) (s : vspec) : Prop := forall d k, jobs_left w d k -> length (versions s d) = S k.

(** The invariant of the writers. *)
Definition VInv (w : world) (s : vspec) (n : N) : Prop := WInv w (spec_of s) (past s) n /\ counted w s.

Lemma VInv_length w s n d : VInv w s n -> exists l S, versions s d = l ++ [S].
Proof.
  intros [W _]. pose proof (wi_hist _ _ _ _ _ _ _ W d) as G. unfold past in G. destruct (versions s d) as [|S l] eqn:X using rev_ind; [discriminate|]. eauto.
Qed.

(** The handles after an event of a writer. *)
Definition handles_after (p : N) (e : event) (m : gmap N vhandle) : gmap N vhandle :=
  match e with ENew h path _ => <[h := VH p (canon path) None]> m | EDrop h => delete h m | _ => m end.

Definition may (guest : N -> bool) (w : world) (s : vspec) (p : N) (e : event) : Prop :=
  match e with
  | ENew h _ _ => guest h = false /\ v_handles s !! h = None
  | EPut h _ _ | EGet h _ _ | EDelete h _ | EClear h => exists d, v_handles s !! h = Some (VH p d None)
  | EDrop h => exists d, v_handles s !! h = Some (VH p d None) /\ forall h' q, v_handles s !! h' = Some (VH q d None) -> q = p
  | EIo i => forall x, w_insts w !! i = Some x -> writes_to s p (i_dir x)
  | _ => False
  end.

Lemma put_ok_queue x key v y r : inst_put x key v = (y, ROk r) -> length (i_queue y) = S (length (i_queue x)) /\ i_dir y = i_dir x.
Proof.
  unfold inst_put. destruct (i_poison x); [discriminate|]. destruct (buffer_new key v) as [m| |]; try discriminate. destruct (i_valid x); [|discriminate].
  unfold post. cbn [i_with_map i_sender i_io i_queue]. destruct (i_sender x); [|discriminate]. intros [= <- _]. cbn. rewrite app_length. cbn. split; [lia|reflexivity].
Qed.

Lemma delete_ok_queue x key y r : inst_delete x key = (y, ROk r) ->
  (is_Some (i_map x !! key) /\ length (i_queue y) = S (length (i_queue x)) /\ i_dir y = i_dir x) \/ (i_map x !! key = None /\ y = x).
Proof.
  unfold inst_delete. destruct (i_poison x); [discriminate|]. destruct (i_valid x); [|discriminate]. destruct (i_map x !! key).
  - unfold post. cbn [i_with_map i_sender i_io i_queue]. destruct (i_sender x); [|discriminate]. intros [= <- _]. left. cbn. rewrite app_length. cbn. split_and!; [eauto|lia|reflexivity].
  - intros [= <- _]. right. auto.
Qed.

Lemma on_inst_ok w i x f w' r : w_insts w !! i = Some x -> on_inst w i f = (w', r) ->
  exists y, f x = (y, r) /\ w_insts w' !! i = Some y /\ forall j, j <> i -> w_insts w' !! j = w_insts w !! j.
Proof.
  intros Hx. unfold on_inst. rewrite Hx. destruct (f x) as [y r']. intros [= <- <-]. exists y. split_and!; [reflexivity|apply lookup_insert|].
  intros j Hj. cbn. apply lookup_insert_ne. congruence.
Qed.

Lemma clear_ok_queue w hd x w' r : w_insts w !! h_inst hd = Some x -> do_clear E w hd = (w', ROk r) ->
  exists y, i_queue y = [] /\ i_dir y = canon (h_path hd) /\ w_insts w' !! h_inst hd = Some y /\ forall j, j <> h_inst hd -> w_insts w' !! j = w_insts w !! j.
Proof.
  intros Hx. unfold do_clear. rewrite Hx. destruct (i_poison x); [discriminate|]. destruct (impl_clear E w (h_inst hd) x) as [w1 r1] eqn:Ec.
  destruct r1; try discriminate.
  assert (O1 : forall j, j <> h_inst hd -> w_insts w1 !! j = w_insts w !! j).
  { intros j Hj. unfold impl_clear in Ec. destruct (negb (i_valid x)); [injection Ec as <- _; reflexivity|].
    destruct (post (i_invalid x) JRemove) as [x1 r1]. destruct r1; try discriminate.
    assert (O : w_insts (drain E (set_inst w (h_inst hd) x1) (h_inst hd)) !! j = w_insts w !! j) by (rewrite drain_other by exact Hj; cbn; apply lookup_insert_ne; congruence).
    destruct (w_insts (drain E (set_inst w (h_inst hd) x1) (h_inst hd)) !! h_inst hd) as [x2|]; [|discriminate].
    injection Ec as <- _. cbn. rewrite lookup_insert_ne by congruence. exact O. }
  destruct (open_impl E w1 (h_path hd) (h_key hd)) as [w2 o] eqn:Eo. pose proof (open_impl_sub _ _ _ _ _ _ Eo) as (A & _).
  assert (Q : match o with Some y => i_queue y = [] /\ i_dir y = canon (h_path hd) | None => True end).
  { unfold open_impl in Eo. destruct (e_dir_ok E _); [|injection Eo as _ <-; exact Logic.I]. destruct (open_config _ _ _) as [w3 ino].
    destruct (feature_key _ _); [|injection Eo as _ <-; exact Logic.I]. destruct (open_nonce _ _ _) as [w4 nn].
    destruct (open_file _ _ _ _) as [[s m]|]; injection Eo as _ <-; [split; reflexivity|exact Logic.I]. }
  destruct o as [y|]; [|discriminate]. destruct (_ && _)%bool; [discriminate|]. intros [= <- _]. exists y. destruct Q as [Q1 Q2]. split_and!; [exact Q1|exact Q2|apply lookup_insert|].
  intros j Hj. cbn. rewrite lookup_insert_ne by congruence. rewrite A. apply O1, Hj.
Qed.

Lemma counted_replace w w' s s' n i x y : WInv w (spec_of s) (past s) n -> counted w s -> w_insts w !! i = Some x -> w_insts w' !! i = Some y -> i_dir y = i_dir x ->
  (forall j, j <> i -> w_insts w' !! j = w_insts w !! j) ->
  length (versions s' (i_dir x)) = S (length (i_queue y)) -> (forall d, d <> i_dir x -> versions s' d = versions s d) -> counted w' s'.
Proof.
  intros W Co Hx Hy Hd Ho Hl Hv d k Hj.
  destruct (jobs_replace w w' i x y Hx Hy Hd Ho (WInv_one w _ _ n i x W Hx) d k Hj) as [[-> ->]|[Hne Hj']]; [exact Hl|].
  rewrite Hv by exact Hne. apply Co, Hj'.
Qed.

Lemma counted_at w s i x : counted w s -> w_insts w !! i = Some x -> length (versions s (i_dir x)) = S (length (i_queue x)).
Proof. intros Co Hx. apply Co. left. eauto. Qed.

Lemma VInv_put w s n p h d key v w' r : VInv w s n -> v_handles s !! h = Some (VH p d None) -> put_ok E key v ->
  step E w (EPut h key v) = Some (w', r) ->
  r = ROk None /\ VInv w' (put_versions s d (<[key := v]> (newest s d) :: versions s d)) (n + 1).
Proof.
  intros [W Co] Hh Hc Hs. assert (Hsp : sp_handles (spec_of s) !! h = Some d) by (apply spec_of_handle; eauto).
  cbn [step] in Hs. apply with_handle_Some in Hs as (hd & Hhd & _ & Hs).
  destruct (handle_cases E keyof U w _ _ n h hd W Hhd) as (Hs' & _ & _ & _ & _ & x & Hx & Dx & I). rewrite Hsp in Hs'. injection Hs' as ->.
  destruct (put_step E HE keyof U HU_dir HU_key HU_inj w _ _ n h hd key v W Hhd Hc) as (w2 & E2 & W2). rewrite E2 in Hs. injection Hs as <- <-.
  split; [reflexivity|]. set (d := canon (h_path hd)) in *. split.
  - eapply (WInv_spec_ext E); [| |eapply (WInv_mono E); [reflexivity| |exact W2]].
    + reflexivity.
    + intros d'. rewrite spec_of_contents, newest_put. destruct (decide (d = d')) as [<-|Hne]; [rewrite contents_set, spec_of_contents; reflexivity|].
      rewrite contents_set_ne, spec_of_contents by exact Hne. reflexivity.
    + intros d' k S. unfold upd, past. cbn [mutates]. rewrite versions_put, Hsp. destruct (decide (d = d')) as [<-|Hne].
      * rewrite bool_decide_eq_true_2 by reflexivity. rewrite contents_set, spec_of_contents. intros [[-> ->]|(k' & -> & G)]; [reflexivity|exact G].
      * rewrite bool_decide_eq_false_2 by congruence. auto.
  - destruct (on_inst_ok w _ x _ w2 _ Hx E2) as (y & Ey & Hy & Ho). destruct (put_ok_queue _ _ _ _ _ Ey) as [Ql Qd].
    eapply (counted_replace w w2 s _ n (h_inst hd) x y W Co Hx Hy Qd Ho).
    + rewrite versions_put, Dx. destruct (decide (d = d)); [|congruence]. cbn [length]. rewrite Ql. f_equal. rewrite <- Dx. apply (counted_at w s _ x Co Hx).
    + intros d' Hd'. rewrite versions_put, Dx in *. destruct (decide (d = d')); congruence.
Qed.

Lemma VInv_delete w s n p h d key w' r : VInv w s n -> v_handles s !! h = Some (VH p d None) ->
  step E w (EDelete h key) = Some (w', r) ->
  r = ROk None /\ ((is_Some (newest s d !! key) /\ VInv w' (put_versions s d (delete key (newest s d) :: versions s d)) (n + 1)) \/
                   (newest s d !! key = None /\ VInv w' s (n + 1))).
Proof.
  intros [W Co] Hh Hs. assert (Hsp : sp_handles (spec_of s) !! h = Some d) by (apply spec_of_handle; eauto).
  cbn [step] in Hs. apply with_handle_Some in Hs as (hd & Hhd & _ & Hs).
  destruct (handle_cases E keyof U w _ _ n h hd W Hhd) as (Hs' & _ & _ & _ & _ & x & Hx & Dx & I). rewrite Hsp in Hs'. injection Hs' as ->.
  destruct (delete_step E keyof U HU_dir HU_key HU_inj w _ _ n h hd key W Hhd) as (w2 & E2 & W2). rewrite E2 in Hs. injection Hs as <- <-.
  split; [reflexivity|]. set (d := canon (h_path hd)) in *.
  destruct (on_inst_ok w _ x _ w2 _ Hx E2) as (y & Ey & Hy & Ho).
  assert (Rk : match newest s d !! key with Some _ => is_Some (i_map x !! key) | None => i_map x !! key = None end).
  { destruct (io_state _ _ _ _ _ _ _ I) as (q & rs & c & _ & _ & _ & _ & _ & R & _). specialize (R key). rewrite Dx, spec_of_contents in R.
    destruct (newest s d !! key); [destruct R as (m & -> & _); eauto|exact R]. }
  destruct (newest s d !! key) as [v|] eqn:Ev.
  - left. split; [eauto|]. destruct (delete_ok_queue _ _ _ _ Ey) as [(_ & Ql & Qd)|[X _]]; [|rewrite X in Rk; destruct Rk; discriminate]. split.
    + eapply (WInv_spec_ext E); [| |eapply (WInv_mono E); [reflexivity| |exact W2]].
      * reflexivity.
      * intros d'. rewrite spec_of_contents, newest_put. destruct (decide (d = d')) as [<-|Hne]; [rewrite contents_set, spec_of_contents; reflexivity|].
        rewrite contents_set_ne, spec_of_contents by exact Hne. reflexivity.
      * intros d' k S. unfold upd, past. cbn [mutates]. rewrite versions_put, Hsp. destruct (decide (d = d')) as [<-|Hne].
        -- rewrite bool_decide_eq_true_2 by (rewrite spec_of_contents, Ev; eauto). rewrite contents_set, spec_of_contents. intros [[-> ->]|(k' & -> & G)]; [reflexivity|exact G].
        -- rewrite bool_decide_eq_false_2 by (intros [X _]; congruence). auto.
    + eapply (counted_replace w w2 s _ n (h_inst hd) x y W Co Hx Hy Qd Ho).
      * rewrite versions_put, Dx. destruct (decide (d = d)); [|congruence]. cbn [length]. rewrite Ql. f_equal. rewrite <- Dx. apply (counted_at w s _ x Co Hx).
      * intros d' Hd'. rewrite versions_put, Dx in *. destruct (decide (d = d')); congruence.
  - right. split; [reflexivity|]. destruct (delete_ok_queue _ _ _ _ Ey) as [(X & _)|[_ ->]]; [rewrite Rk in X; destruct X; discriminate|]. split.
    + eapply (WInv_spec_ext E); [| |eapply (WInv_mono E); [reflexivity| |exact W2]].
      * reflexivity.
      * intros d'. destruct (decide (d = d')) as [<-|Hne]; [|rewrite contents_set_ne by exact Hne; reflexivity].
        rewrite contents_set, spec_of_contents. symmetry. apply delete_notin, Ev.
      * intros d' k S. unfold upd, past. cbn [mutates]. rewrite Hsp. rewrite bool_decide_eq_false_2; [auto|].
        intros [X Y]. injection X as <-. rewrite spec_of_contents, Ev in Y. destruct Y. discriminate.
    + eapply (counted_replace w w2 s _ n (h_inst hd) x x W Co Hx Hy eq_refl Ho); [|auto]. apply (counted_at w s _ x Co Hx).
Qed.

Lemma VInv_clear w s n p h d w' r : VInv w s n -> v_handles s !! h = Some (VH p d None) -> room E n ->
  step E w (EClear h) = Some (w', r) -> r = ROk None /\ VInv w' (put_versions s d [∅]) n.
Proof.
  intros [W Co] Hh Hroom Hs. assert (Hsp : sp_handles (spec_of s) !! h = Some d) by (apply spec_of_handle; eauto).
  cbn [step] in Hs. apply with_handle_Some in Hs as (hd & Hhd & _ & Hs).
  destruct (handle_cases E keyof U w _ _ n h hd W Hhd) as (Hs' & _ & _ & _ & _ & x & Hx & Dx & I). rewrite Hsp in Hs'. injection Hs' as ->.
  destruct (clear_step E HE keyof U HU_dir HU_key HU_inj w _ _ n h hd W Hhd Hroom) as (w2 & E2 & W2 & _). rewrite E2 in Hs. injection Hs as <- <-.
  split; [reflexivity|]. set (d := canon (h_path hd)) in *.
  destruct (clear_ok_queue w hd x w2 _ Hx E2) as (y & Qy' & Dy & Hy & Ho). fold d in Dy.
  split.
  - eapply (WInv_spec_ext E _ _ _ (set_contents (spec_of s) d ∅)); [| |eapply WInv_trim; [exact W2|..]].
    + reflexivity.
    + intros d'. rewrite spec_of_contents, newest_put. destruct (decide (d = d')) as [<-|Hne]; [rewrite contents_set; reflexivity|].
      rewrite contents_set_ne, spec_of_contents by exact Hne. reflexivity.
    + intros d'. unfold past. rewrite versions_put. destruct (decide (d = d')) as [<-|Hne]; [rewrite contents_set; reflexivity|].
      rewrite contents_set_ne by exact Hne. apply (wi_hist _ _ _ _ _ _ _ W).
    + intros j z k S Hz Hk. unfold upd, past. cbn [mutates]. rewrite versions_put, Hsp. destruct (decide (d = i_dir z)) as [Hdz|Hne].
      * rewrite bool_decide_eq_true_2 by congruence. assert (z = y) as ->.
        { assert (j = h_inst hd) as -> by (eapply (inst_unique E keyof U HU_inj); [exact W2|exact Hz|exact Hy|congruence]). congruence. }
        rewrite Qy' in Hk. cbn in Hk. rewrite <- Hdz, contents_set. intros [[-> ->]|(k' & -> & _)]; [reflexivity|lia].
      * rewrite bool_decide_eq_false_2 by congruence. auto.
  - eapply (counted_replace w w2 s _ n (h_inst hd) x y W Co Hx Hy ltac:(congruence) Ho).
    + rewrite versions_put, Dx. destruct (decide (d = d)); [|congruence]. rewrite Qy'. reflexivity.
    + intros d' Hd'. rewrite versions_put, Dx in *. destruct (decide (d = d')); congruence.
Qed.

Lemma VInv_get w s n p h d key t w' r : VInv w s n -> v_handles s !! h = Some (VH p d None) -> get_ok t ->
  step E w (EGet h key t) = Some (w', r) -> r = spec_get (newest s d) key t /\ w' = w.
Proof.
  intros [W Co] Hh Hc Hs. assert (Hsp : sp_handles (spec_of s) !! h = Some d) by (apply spec_of_handle; eauto).
  cbn [step] in Hs. apply with_handle_Some in Hs as (hd & Hhd & _ & Hs).
  destruct (handle_cases E keyof U w _ _ n h hd W Hhd) as (Hs' & _). rewrite Hsp in Hs'. injection Hs' as ->.
  rewrite (get_step E keyof U w _ _ n h hd key t W Hhd Hc), spec_of_contents in Hs. injection Hs as <- <-. auto.
Qed.

Lemma spec_of_insert s h p d : spec_of (put_handle s h (VH p d None)) = Spec (sp_dirs (spec_of s)) (<[h := d]> (sp_handles (spec_of s))).
Proof. unfold spec_of, put_handle. cbn. f_equal. apply map_eq. intros h'. rewrite lookup_omap. destruct (decide (h = h')) as [<-|Hne].
  - rewrite !lookup_insert. reflexivity.
  - rewrite !lookup_insert_ne, lookup_omap by exact Hne. reflexivity.
Qed.

Lemma spec_of_delete s h : spec_of (VSpec (v_vers s) (delete h (v_handles s))) = Spec (sp_dirs (spec_of s)) (delete h (sp_handles (spec_of s))).
Proof. unfold spec_of. cbn. f_equal. apply map_eq. intros h'. rewrite lookup_omap. destruct (decide (h = h')) as [<-|Hne].
  - rewrite !lookup_delete. reflexivity.
  - rewrite !lookup_delete_ne, lookup_omap by exact Hne. reflexivity.
Qed.

Lemma VInv_new w s n p h path key w' r : VInv w s n -> v_handles s !! h = None -> U path -> key = keyof (canon path) ->
  step E w (ENew h path key) = Some (w', r) -> r = ROk None /\ VInv w' (put_handle s h (VH p (canon path) None)) n.
Proof.
  intros [W Co] Hh Up -> Hs. cbn [step] in Hs. destruct (w_handles w !! h) eqn:Hhd; [discriminate|]. injection Hs as Hs.
  destruct (new_step E HE keyof U HU_dir HU_key HU_inj w _ _ n h path W Hhd Up) as (w2 & E2 & W2). rewrite E2 in Hs. injection Hs as <- <-.
  split; [reflexivity|]. split.
  - rewrite spec_of_insert. exact W2.
  - intros d k Hj. change (versions (put_handle s h (VH p (canon path) None)) d) with (versions s d). apply Co. clear Co.
    unfold do_new in E2. rewrite (wi_poison _ _ _ _ _ _ _ W), (lookup_reg_inv E keyof U w _ _ n path W) in E2.
    destruct (w_reg w !! path) as [i|] eqn:Hr; [injection E2 as <-; exact Hj|].
    destruct (open_impl E w path (keyof (canon path))) as [w1 o] eqn:Eo. pose proof (open_impl_sub _ _ _ _ _ _ Eo) as (A & B & C & D & _ & _).
    destruct o as [y|]; [|discriminate].
    assert (Q : i_queue y = [] /\ i_dir y = canon path).
    { unfold open_impl in Eo. destruct (e_dir_ok E _); [|discriminate]. destruct (open_config _ _ _) as [w3 ino].
      destruct (feature_key _ _); [|discriminate]. destruct (open_nonce _ _ _) as [w4 nn].
      destruct (open_file _ _ _ _) as [[s' m]|]; [|discriminate]. injection Eo as _ <-. split; reflexivity. }
    assert (Hno : forall i x, w_insts w !! i = Some x -> i_dir x <> canon path).
    { intros i x Hx Dx. destruct (wi_insts _ _ _ _ _ _ _ W i x Hx) as (_ & _ & (p' & Hp') & _).
      destruct (wi_reg _ _ _ _ _ _ _ W p' i Hp') as (Up' & x' & Hx' & Dx'). rewrite Hx in Hx'. injection Hx' as <-.
      assert (p' = path) as -> by (apply HU_inj; congruence). congruence. }
    assert (Hni : w_insts w !! w_next_inst w = None).
    { apply none_by. intros x Hx. destruct (wi_insts _ _ _ _ _ _ _ W _ x Hx) as (X & _). lia. }
    assert (Ei : w_insts w2 = <[w_next_inst w := y]> (w_insts w)) by (injection E2 as <-; cbn; rewrite A, D; reflexivity).
    destruct Q as [Q1 Q2]. destruct Hj as [(j & z & Hz & Dz & ->)|[Hn ->]].
    + rewrite Ei in Hz. destruct (decide (w_next_inst w = j)) as [<-|Hj].
      * rewrite lookup_insert in Hz. injection Hz as <-. rewrite Q1. right. split; [|reflexivity]. intros i x Hx. rewrite <- Dz, Q2. apply (Hno i x Hx).
      * rewrite lookup_insert_ne in Hz by exact Hj. left. eauto.
    + right. split; [|reflexivity]. intros i x Hx. apply (Hn i x). rewrite Ei, lookup_insert_ne by congruence. exact Hx.
Qed.

Lemma VInv_io w s n i x : VInv w s n -> room E n -> w_insts w !! i = Some x ->
  (exists l S, versions s (i_dir x) = l ++ [S] /\ l <> [] /\ VInv (run_job E w i) (put_versions s (i_dir x) l) n) \/ run_job E w i = w.
Proof.
  intros [W Co] Hroom Hx. destruct (i_queue x) as [|j q] eqn:Hq.
  { right. unfold run_job. rewrite Hx, Hq. destruct (i_io x); reflexivity. }
  left. destruct (VInv_length w s n (i_dir x) (conj W Co)) as (l & S & Hv). exists l, S. split; [exact Hv|].
  pose proof (counted_at w s i x Co Hx) as Hl. rewrite Hv, Hq, app_length in Hl. cbn [length] in Hl.
  assert (Hlen : length l = Datatypes.S (length q)) by lia. split; [intros ->; discriminate|].
  destruct (wi_insts _ _ _ _ _ _ _ W i x Hx) as (_ & I & _).
  destruct (io_state _ _ _ _ _ _ _ I) as (q0 & rs & c & B1 & _ & _). rewrite Hq in B1. destruct q0 as [|[m dup] q0]; [discriminate|]. cbn [map jw fst snd] in B1. injection B1 as -> ->.
  assert (Hy : exists y, w_insts (run_job E w i) !! i = Some y /\ i_dir y = i_dir x /\ i_queue y = map jw q0).
  { unfold run_job. rewrite Hx, Hq, (io_run _ _ _ _ _ _ _ I). unfold jw at 1. cbn [fst snd]. destruct (write _ _ _ m dup) as [s1 ok]. eexists. cbn. rewrite lookup_insert. split_and!; reflexivity. }
  destruct Hy as (y & Hy & Dy & Qy). rewrite <- Qy in Hlen.
  pose proof (io_step E HE keyof U HU_dir HU_key HU_inj w _ _ n i W Hroom) as W2.
  assert (Hhd : hd ∅ l = newest s (i_dir x)). { unfold newest. rewrite Hv. destruct l; [discriminate|reflexivity]. }
  assert (Hx0 : forall d, newest (put_versions s (i_dir x) l) d = newest s d). { intros d. rewrite newest_put. destruct (decide (i_dir x = d)) as [<-|_]; [exact Hhd|reflexivity]. }
  split.
  - eapply (WInv_spec_ext E _ _ _ (spec_of s)); [reflexivity|intros d; rewrite !spec_of_contents; apply Hx0|]. eapply WInv_trim; [exact W2|..].
    + intros d. unfold past. rewrite spec_of_contents, <- Hx0. unfold newest. rewrite versions_put. destruct (decide (i_dir x = d)) as [<-|Hd].
      * destruct l; [discriminate|reflexivity].
      * pose proof (wi_hist _ _ _ _ _ _ _ W d) as G. unfold past in G. destruct (versions s d); [discriminate|reflexivity].
    + intros j z k S' Hz Hk. unfold past. rewrite versions_put. destruct (decide (i_dir x = i_dir z)) as [Hd|Hd]; [|auto].
      assert (z = y) as ->.
      { assert (j = i) as -> by (eapply (inst_unique E keyof U HU_inj); [exact W2|exact Hz|exact Hy|congruence]). congruence. }
      rewrite <- Hd, Hv. rewrite lookup_app_l by lia. auto.
  - eapply (counted_replace w _ s _ n i x y W Co Hx Hy Dy).
    + intros j Hj. apply job_other, Hj.
    + rewrite versions_put. destruct (decide (i_dir x = i_dir x)); [exact Hlen|congruence].
    + intros d' Hd'. rewrite versions_put. destruct (decide (i_dir x = d')); congruence.
Qed.

Lemma same_inst w s n h h' hd hd' : VInv w s n -> w_handles w !! h = Some hd -> w_handles w !! h' = Some hd' ->
  (h_inst hd' = h_inst hd <-> canon (h_path hd') = canon (h_path hd)).
Proof.
  intros [W _] Hh Hh'.
  destruct (handle_cases E keyof U w _ _ n h hd W Hh) as (_ & _ & Up & _ & Hr & x & Hx & Dx & _).
  destruct (handle_cases E keyof U w _ _ n h' hd' W Hh') as (_ & _ & Up' & _ & Hr' & x' & Hx' & Dx' & _). split.
  - intros Hi. rewrite Hi in *. congruence.
  - intros Hc. apply HU_inj in Hc; [|assumption..]. congruence.
Qed.

Lemma VInv_handle w s n h p d : VInv w s n -> v_handles s !! h = Some (VH p d None) -> exists hd, w_handles w !! h = Some hd /\ canon (h_path hd) = d.
Proof.
  intros [W _] Hh. assert (Hsp : sp_handles (spec_of s) !! h = Some d) by (apply spec_of_handle; eauto).
  pose proof (wi_handles _ _ _ _ _ _ _ W h) as G. unfold handle_ok in G. rewrite Hsp in G. destruct (w_handles w !! h) as [hd|]; [|contradiction].
  destruct G as (_ & _ & -> & _). eauto.
Qed.

Lemma VInv_drop w s n p h d w' r : VInv w s n -> v_handles s !! h = Some (VH p d None) -> (forall h' q, v_handles s !! h' = Some (VH q d None) -> q = p) ->
  room E n -> step E w (EDrop h) = Some (w', r) ->
  let s' := VSpec (v_vers s) (delete h (v_handles s)) in
  r = ROk None /\ ((~ writes_to s' p d /\ VInv w' (put_versions s' d [newest s d]) n) \/ (writes_to s' p d /\ VInv w' s' n)).
Proof.
  intros V Hh Hone Hroom Hs s'. pose proof V as [W Co]. assert (Hsp : sp_handles (spec_of s) !! h = Some d) by (apply spec_of_handle; eauto).
  cbn [step] in Hs. apply with_handle_Some in Hs as (hd & Hhd & _ & Hs).
  destruct (handle_cases E keyof U w _ _ n h hd W Hhd) as (Hs' & _ & _ & _ & _ & x & Hx & Dx & I). rewrite Hsp in Hs'. injection Hs' as ->.
  set (d := canon (h_path hd)) in *.
  destruct (drop_step E HE keyof U HU_dir HU_key HU_inj w _ _ n h hd W Hhd Hroom) as (w2 & r1 & w1 & E1 & -> & E2 & W2). rewrite E1, E2 in Hs. injection Hs as <- <-.
  split; [reflexivity|].
  assert (HW : writes_to s' p d <-> exists h' hd', w_handles w !! h' = Some hd' /\ h_inst hd' = h_inst hd /\ h' <> h).
  { split.
    - intros (h' & Hh'). cbn in Hh'. apply lookup_delete_Some in Hh' as [Hne Hh']. destruct (VInv_handle w s n h' p d V Hh') as (hd' & A & B).
      exists h', hd'. split_and!; [exact A| |congruence]. apply (same_inst w s n h h' hd hd' V Hhd A). exact B.
    - intros (h' & hd' & A & B & C). apply (same_inst w s n h h' hd hd' V Hhd A) in B.
      destruct (handle_cases E keyof U w _ _ n h' hd' W A) as (F & _). rewrite B in F. apply spec_of_handle in F as (q & F).
      exists h'. cbn. rewrite lookup_delete_ne by congruence. rewrite F. rewrite (Hone h' q F). reflexivity. }
  assert (A1 : w_insts w1 = w_insts w /\ strong w1 (h_inst hd) = strong w (h_inst hd)).
  { unfold do_drop_reg in E1. rewrite (wi_poison _ _ _ _ _ _ _ W) in E1. injection E1 as <-. split; [destruct (Nat.eqb _ 1); reflexivity|].
    unfold strong. set (w0 := if Nat.eqb _ 1 then _ else _). assert (w_handles w0 = w_handles w) as -> by (unfold w0; destruct (Nat.eqb _ 1); reflexivity). cbn [set_handles w_handles].
    assert (Pm : Permutation (map_to_list (w_handles w)) ((h, hd) :: map_to_list (delete h (w_handles w)))).
    { rewrite <- map_to_list_insert by apply lookup_delete. rewrite insert_delete by exact Hhd. reflexivity. }
    rewrite Pm. rewrite <- insert_delete_insert, map_to_list_insert by apply lookup_delete. rewrite !filter_cons_True by reflexivity. reflexivity. }
  destruct A1 as [A1 A2]. unfold do_drop_arc in E2. rewrite A2 in E2. destruct (Nat.eqb_spec (strong w (h_inst hd)) 1) as [Hst|Hst].
  - left. assert (HN : ~ writes_to s' p d).
    { intros G. apply HW in G as (h' & hd' & A & B & C). apply C. apply (proj1 (strong_1 w h hd Hhd) Hst h' hd' A B). }
    split; [exact HN|].
    assert (N1 : w_insts w2 !! h_inst hd = None) by (injection E2 as <-; cbn; apply lookup_delete).
    assert (N2 : forall j, j <> h_inst hd -> w_insts w2 !! j = w_insts w !! j).
    { intros j Hj. injection E2 as <-. cbn. rewrite lookup_delete_ne by congruence. rewrite drain_other by exact Hj. rewrite A1. reflexivity. }
    assert (Hnew : forall d', newest (put_versions s' d [newest s d]) d' = newest s d'). { intros d'. rewrite newest_put. destruct (decide (d = d')) as [<-|_]; reflexivity. }
    split.
    + eapply (WInv_spec_ext E _ _ _ (spec_of s')); [reflexivity|intros d'; rewrite !spec_of_contents; apply Hnew|].
      unfold s'. rewrite spec_of_delete. fold s'. eapply WInv_trim; [exact W2|..].
      * intros d'. rewrite (contents_ext _ (spec_of s)) by reflexivity. rewrite spec_of_contents. unfold past. rewrite versions_put. destruct (decide (d = d')) as [<-|Hd]; [reflexivity|].
        pose proof (wi_hist _ _ _ _ _ _ _ W d') as G. rewrite spec_of_contents in G. exact G.
      * intros j z k S' Hz Hk. unfold past. rewrite versions_put. destruct (decide (d = i_dir z)) as [Hd|Hd]; [|auto].
        destruct (decide (j = h_inst hd)) as [->|Hj]; [congruence|]. rewrite N2 in Hz by exact Hj.
        destruct Hj. apply (WInv_one w _ _ n (h_inst hd) x W Hx j z Hz). congruence.
    + intros d' k Hj. destruct (jobs_remove w w2 (h_inst hd) x Hx N1 N2 (WInv_one w _ _ n _ x W Hx) d' k Hj) as [[-> ->]|[Hne Hj']].
      * rewrite versions_put, Dx. destruct (decide (d = d)); [reflexivity|congruence].
      * rewrite versions_put. destruct (decide (d = d')); [congruence|]. apply Co, Hj'.
  - right. split.
    + apply HW. destruct (decide (Exists (fun x : N * handle => h_inst x.2 = h_inst hd /\ x.1 <> h) (map_to_list (w_handles w)))) as [G|G].
      * apply Exists_exists in G as ([h' hd'] & A & B & C). apply elem_of_map_to_list in A. exists h', hd'. auto.
      * destruct Hst. apply (strong_1 w h hd Hhd). intros h' hd' A B. destruct (decide (h' = h)) as [|C]; [assumption|].
        destruct G. apply Exists_exists. exists (h', hd'). split; [apply elem_of_map_to_list, A|]. split; assumption.
    + split; [unfold s'; rewrite spec_of_delete; exact W2|]. intros d' k Hj. apply Co. injection E2 as <-. unfold jobs_left in *. cbn [set_handles w_insts] in Hj. rewrite A1 in Hj. exact Hj.
Qed.

(** * What is in the files is the oldest version *)

Lemma inst_dir w S Hd n x : inst_ok E keyof w S Hd n x -> exists S', Hd (length (i_queue x)) S' /\ dir_ok E keyof w S' n (i_dir x).
Proof.
  intros [A1 A2 A3 A4 A5 A6 A7 A8 (q & rs & c & B1 & B2 & B3 & B4 & B5 & B6 & B7)]. destruct (B7 0%nat ltac:(lia)) as (S' & HS & RS). exists S'. split.
  - rewrite B1, map_length. rewrite Nat.sub_0_r in HS. exact HS.
  - unfold dir_ok. rewrite A7. left. exists rs, (i_nonce x), (i_st w x). split_and!.
    + exact A8.
    + reflexivity.
    + unfold i_codec in B3. rewrite A6 in B3. eapply r_mono; [|exact B3]. lia.
    + exact RS.
Qed.

Lemma oldest_last s d l S : versions s d = l ++ [S] -> oldest s d = S.
Proof. unfold oldest. intros ->. apply List.last_last. Qed.

Lemma has_inst w d : (exists i x, w_insts w !! i = Some x /\ i_dir x = d) \/ (forall i x, w_insts w !! i = Some x -> i_dir x <> d).
Proof.
  destruct (decide (Exists (fun x : N * inst => i_dir x.2 = d) (map_to_list (w_insts w)))) as [G|G].
  - left. apply Exists_exists in G as ([i x] & A & B). apply elem_of_map_to_list in A. eauto.
  - right. intros i x Hx Dx. apply G, Exists_exists. exists (i, x). split; [apply elem_of_map_to_list, Hx|exact Dx].
Qed.

Lemma oldest_file w s n d : VInv w s n -> dir_ok E keyof w (oldest s d) n d.
Proof.
  intros V. pose proof V as [W Co]. destruct (VInv_length w s n d V) as (l & S & Hv). rewrite (oldest_last s d l S Hv). destruct (has_inst w d) as [(i & x & Hx & Dx)|Hn].
  - destruct (wi_insts _ _ _ _ _ _ _ W i x Hx) as (_ & I & _). destruct (inst_dir _ _ _ _ _ I) as (S' & HS & G). rewrite Dx in *.
    pose proof (counted_at w s i x Co Hx) as Hl. rewrite Dx, Hv, app_length in Hl. cbn in Hl. unfold past in HS. rewrite Hv in HS.
    rewrite lookup_app_r in HS by lia. replace (length (i_queue x) - length l)%nat with 0%nat in HS by lia. cbn in HS. injection HS as <-. exact G.
  - pose proof (wi_dirs _ _ _ _ _ _ _ W d Hn) as G. rewrite spec_of_contents in G. pose proof (Co d 0%nat ltac:(right; auto)) as Hl. rewrite Hv, app_length in Hl. cbn in Hl.
    destruct l; [|cbn in Hl; lia]. unfold newest in G. rewrite Hv in G. exact G.
Qed.

(** * Opening for reading *)

Definition bump (w : world) : world :=
  World (w_dirs w) (w_inodes w) (w_next_ino w) (w_insts w) (w_next_inst w + 1) (w_handles w) (w_reg w) (w_poison w) (w_rng w) (w_seed w).

Lemma WInv_disk w w' sp H n : WInv w sp H n -> disk_eq w w' -> w_insts w' = w_insts w -> w_handles w' = w_handles w -> w_reg w' = w_reg w ->
  w_poison w' = w_poison w -> w_next_inst w <= w_next_inst w' -> w_next_ino w' = w_next_ino w -> WInv w' sp H n.
Proof.
  intros [A B C D G I J K] [Q1 Q2] E1 E2 E3 E4 E5 E6. split; auto.
  - congruence.
  - intros h. rewrite E2. specialize (C h). unfold handle_ok in *. rewrite E3. exact C.
  - intros p i. rewrite E3, E1. apply D.
  - intros i x. rewrite E1, E2, E3. intros Hx. destruct (G i x Hx) as (X & Y & Z). split_and!; [lia| |apply Z|apply Z].
    eapply (inst_ok_frame E); [..|exact Y]; auto; try lia.
  - intros d. rewrite E1. intros Hd. eapply (dir_ok_frame E); [..|apply I, Hd]; auto; try lia.
  - intros d i. rewrite Q1, E6. apply J.
  - intros d d' i. rewrite !Q1. apply K.
Qed.

Lemma files_of_inst w S Hd n x : inst_ok E keyof w S Hd n x -> files_there E w (i_dir x).
Proof.
  intros [A1 A2 A3 A4 A5 A6 A7 A8 (q & rs & c & B1 & B2 & B3 & B4 & B5 & B6 & B7)]. split.
  - unfold file_at. rewrite A7. cbn. eexists. split; [reflexivity|]. intros G. pose proof (r_nonempty _ _ _ _ (law_of E HE _ x eq_refl) B3) as L. cbn in L. rewrite G in L. cbn in L. lia.
  - intros He. unfold meta_ok, meta_at in *. destruct (e_feat E); [discriminate|]. eauto.
Qed.

Lemma VInv_visit w s n path : VInv w s n -> U path ->
  exists w1 y, open_impl E w path (keyof (canon path)) = (w1, Some y) /\ VInv (bump w1) s n /\
    i_queue y = [] /\ i_dir y = canon path /\ i_valid y = true /\ i_poison y = false /\ i_io y = IoRun /\ rel E (i_map y) (oldest s (canon path)) /\
    w_insts w1 = w_insts w /\ w_handles w1 = w_handles w /\ w_reg w1 = w_reg w /\ w_poison w1 = w_poison w /\ w_next_inst w1 = w_next_inst w.
Proof.
  intros V Up. pose proof V as [W Co].
  destruct (open_impl_ok E HE keyof U HU_dir HU_key HU_inj w path (oldest s (canon path)) n Up (oldest_file w s n _ V) (fun i => wi_fresh _ _ _ _ _ _ _ W (canon path) i))
      as (w1 & y & Eo & Dy & Iy & Qy & T1 & T2 & T3 & T4 & T5 & T6 & T7 & T8 & T9).
  exists w1, y. specialize (Iy (fun _ S => S = oldest s (canon path)) eq_refl).
  split; [exact Eo|]. split; [|split_and!; auto; try apply Iy].
  2:{ destruct (io_state _ _ _ _ _ _ _ Iy) as (q & rs & c & _ & _ & _ & _ & _ & R & _). exact R. }
  split; [|intros d k Hj; apply Co; unfold jobs_left in *; cbn [bump w_insts] in Hj; rewrite T1 in Hj; exact Hj].
  destruct (has_inst w (canon path)) as [(i & x & Hx & Dx)|Hn].
  - destruct (wi_insts _ _ _ _ _ _ _ W i x Hx) as (_ & I & _). pose proof (files_of_inst _ _ _ _ _ I) as FT. rewrite Dx in FT.
    destruct (read_open E w path _ w1 (Some y) FT Eo) as (DE & _ & NI & _).
    eapply WInv_disk; [exact W|..]; cbn [bump w_insts w_handles w_reg w_poison w_next_inst w_next_ino]; auto; lia.
  - destruct (inst_dir _ _ _ _ _ Iy) as (S' & -> & Dok). rewrite Dy in Dok.
    assert (Hon : oldest s (canon path) = newest s (canon path)).
    { pose proof (Co (canon path) 0%nat ltac:(right; auto)) as Hl. unfold oldest, newest. destruct (versions s (canon path)) as [|S1 [|? ?]]; try (cbn in Hl; lia). reflexivity. }
    assert (Hother : forall d j, d <> canon path -> d_data (dir_of w d) = Some j -> inode w1 j = inode w j).
    { intros d j Hd Hj. apply T8; [apply (wi_fresh _ _ _ _ _ _ _ W d j Hj)|]. right. intros Hj'. apply Hd.
      eapply (wi_ino _ _ _ _ _ _ _ W); eassumption. }
    assert (Hdino : forall d j, d <> canon path -> d_data (dir_of w d) = Some j -> j <> i_ino y).
    { intros d j Hd Hj ->. destruct T9 as [(X & _)|(_ & X & _)].
      - apply Hd. eapply (wi_ino _ _ _ _ _ _ _ W); eassumption.
      - pose proof (wi_fresh _ _ _ _ _ _ _ W d _ Hj). lia. }
    pose proof (io_data _ _ _ _ _ _ _ Iy) as Hdy. rewrite Dy in Hdy.
    split; cbn [bump w_insts w_handles w_reg w_poison w_next_inst w_next_ino].
    + rewrite T4. apply (wi_poison _ _ _ _ _ _ _ W).
    + apply (wi_hist _ _ _ _ _ _ _ W).
    + intros h. rewrite T2. pose proof (wi_handles _ _ _ _ _ _ _ W h) as G. unfold handle_ok in *. cbn [bump w_reg]. rewrite T3. exact G.
    + intros p i. rewrite T1, T3. apply (wi_reg _ _ _ _ _ _ _ W).
    + intros i x. rewrite T1, T2, T3. intros Hx. destruct (wi_insts _ _ _ _ _ _ _ W i x Hx) as (X & Y & Z). split_and!; [lia| |apply Z|apply Z].
      eapply (inst_ok_frame E); [..|exact Y]; auto; try lia; [apply (T7 (i_dir x)), (Hn i x Hx)|].
      eapply Hother; [exact (Hn i x Hx)|]. apply (io_data _ _ _ _ _ _ _ Y).
    + intros d. rewrite T1. intros Hd. rewrite spec_of_contents. destruct (decide (d = canon path)) as [->|Hne].
      * rewrite <- Hon. eapply (dir_ok_frame E); [..|exact Dok]; auto; reflexivity.
      * eapply (dir_ok_frame E); [apply T7, Hne| |reflexivity|]; [intros i Hi; apply (Hother d i Hne Hi)|]. rewrite <- spec_of_contents. apply (wi_dirs _ _ _ _ _ _ _ W d Hd).
    + intros d i Hi. change (d_data (dir_of w1 d) = Some i) in Hi. destruct (decide (d = canon path)) as [->|Hd].
      * rewrite Hdy in Hi. injection Hi as <-. destruct T9 as [(X & Y)|(X & Y & Z & _)]; [|lia]. pose proof (wi_fresh _ _ _ _ _ _ _ W _ _ X). lia.
      * rewrite T7 in Hi by exact Hd. pose proof (wi_fresh _ _ _ _ _ _ _ W _ _ Hi). lia.
    + intros d d' i Hi Hi'. change (d_data (dir_of w1 d) = Some i) in Hi. change (d_data (dir_of w1 d') = Some i) in Hi'.
      destruct (decide (d = canon path)) as [->|Hd], (decide (d' = canon path)) as [->|Hd']; [reflexivity| | |].
      * rewrite Hdy in Hi. injection Hi as <-. rewrite T7 in Hi' by exact Hd'. destruct (Hdino d' _ Hd' Hi'). reflexivity.
      * rewrite Hdy in Hi'. injection Hi' as <-. rewrite T7 in Hi by exact Hd. destruct (Hdino d _ Hd Hi). reflexivity.
      * rewrite T7 in Hi by exact Hd. rewrite T7 in Hi' by exact Hd'. eapply (wi_ino _ _ _ _ _ _ _ W); eassumption.
Qed.

(** * The death of one process *)

Definition writingb (s : vspec) (p : N) (d : bytes) : bool :=
  existsb (fun x : N * vhandle => (vh_proc x.2 =? p) && bool_decide (vh_dir x.2 = d) && match vh_sees x.2 with None => true | Some _ => false end) (map_to_list (v_handles s)).

Lemma writingb_ok s p d : writingb s p d = true <-> writes_to s p d.
Proof.
  unfold writingb, writes_to. rewrite existsb_exists. split.
  - intros ([h [q d' o]] & A & B). apply elem_of_list_In, elem_of_map_to_list in A. cbn in B. exists h. rewrite A.
    apply andb_true_iff in B as [B C]. apply andb_true_iff in B as [B D]. apply N.eqb_eq in B. apply bool_decide_eq_true in D. destruct o; [discriminate|]. congruence.
  - intros (h & Hh). exists (h, VH p d None). split; [apply elem_of_list_In, elem_of_map_to_list, Hh|]. cbn. rewrite N.eqb_refl, bool_decide_eq_true_2 by reflexivity. reflexivity.
Qed.

Definition kill_vspec (s : vspec) (p : N) : vspec :=
  VSpec (map_imap (fun d l => Some (if writingb s p d then [List.last l ∅] else l)) (v_vers s)) (filter (fun x : N * vhandle => vh_proc x.2 <> p) (v_handles s)).

Lemma kill_versions s p d : versions (kill_vspec s p) d = if writingb s p d then [oldest s d] else versions s d.
Proof.
  unfold oldest, versions, kill_vspec. cbn. rewrite map_lookup_imap. destruct (v_vers s !! d); cbn; destruct (writingb s p d); reflexivity.
Qed.

Lemma kill_handles s p h : v_handles (kill_vspec s p) !! h = match v_handles s !! h with Some x => if decide (vh_proc x = p) then None else Some x | None => None end.
Proof.
  unfold kill_vspec. cbn. apply option_eq. intros x. rewrite map_filter_lookup_Some. cbn. destruct (v_handles s !! h) as [y|]; [|split; [intros [? _]|]; discriminate].
  destruct (decide (vh_proc y = p)); split; intros G; [destruct G as [G1 G2]; congruence|discriminate|destruct G; congruence|split; congruence].
Qed.

Lemma VInv_kill own p w s n : VInv w s n -> (forall h hd q d, w_handles w !! h = Some hd -> v_handles s !! h = Some (VH q d None) -> own (h_inst hd) = q) ->
  VInv (join (disk_of w) (rest own p w)) (kill_vspec s p) n.
Proof.
  intros V Own. pose proof V as [W Co].
  assert (HV : forall h hd, w_handles w !! h = Some hd -> v_handles s !! h = Some (VH (own (h_inst hd)) (canon (h_path hd)) None)).
  { intros h hd Hh. destruct (handle_cases E keyof U w _ _ n h hd W Hh) as (F & _). apply spec_of_handle in F as (q & F). rewrite (Own h hd q _ Hh F). exact F. }
  assert (WI : forall i x, w_insts w !! i = Some x -> writes_to s (own i) (i_dir x)).
  { intros i x Hx. destruct (wi_insts _ _ _ _ _ _ _ W i x Hx) as (_ & _ & _ & h & hd & Hh & Hi). pose proof (HV h hd Hh) as G.
    destruct (handle_cases E keyof U w _ _ n h hd W Hh) as (_ & _ & _ & _ & _ & z & Hz & Dz & _). exists h. rewrite Hi in *. rewrite Hx in Hz. injection Hz as <-. rewrite Dz. exact G. }
  assert (OW : forall q q' d, writes_to s q d -> writes_to s q' d -> q = q').
  { intros q q' d (h & Hh) (h' & Hh'). destruct (VInv_handle w s n h q d V Hh) as (hd & A & B). destruct (VInv_handle w s n h' q' d V Hh') as (hd' & A' & B').
    rewrite <- (Own h hd q d A Hh), <- (Own h' hd' q' d A' Hh'). f_equal. apply (same_inst w s n h' h hd' hd V A' A). congruence. }
  assert (KV : forall i x, p_insts (rest own p w) !! i = Some x -> versions (kill_vspec s p) (i_dir x) = versions s (i_dir x)).
  { intros i x Hx. apply rest_insts in Hx as [Hx Ho]. rewrite kill_versions. destruct (writingb s p (i_dir x)) eqn:X; [|reflexivity].
    apply writingb_ok in X. destruct Ho. apply (OW _ _ _ (WI i x Hx) X). }
  assert (KD : forall d, (forall i x, p_insts (rest own p w) !! i = Some x -> i_dir x <> d) -> writingb s p d = false -> forall i x, w_insts w !! i = Some x -> i_dir x <> d).
  { intros d Hn Hw i x Hx Dx. destruct (decide (own i = p)) as [Ho|Ho].
    - pose proof (WI i x Hx) as G. rewrite Ho, Dx in G. apply writingb_ok in G. congruence.
    - apply (Hn i x); [apply rest_insts; auto|exact Dx]. }
  assert (KN : forall d, versions (kill_vspec s p) d = versions s d -> newest (kill_vspec s p) d = newest s d). { intros d G. unfold newest. rewrite G. reflexivity. }
  split.
  - split; cbn [join disk_of w_poison w_handles w_reg w_insts w_next_inst w_next_ino k_inst k_ino].
    + apply (wi_poison _ _ _ _ _ _ _ W).
    + intros d. rewrite spec_of_contents. unfold past, newest. rewrite kill_versions. destruct (writingb s p d); [reflexivity|].
      pose proof (wi_hist _ _ _ _ _ _ _ W d) as G. unfold past in G. destruct (versions s d); [discriminate|reflexivity].
    + intros h. pose proof (wi_handles _ _ _ _ _ _ _ W h) as G. unfold handle_ok in *. cbn [w_reg].
      destruct (w_handles w !! h) as [hd|] eqn:Hh.
      * pose proof (HV h hd Hh) as Hv. destruct (decide (own (h_inst hd) = p)) as [Ho|Ho].
        -- assert (X1 : p_handles (rest own p w) !! h = None) by (apply none_by; intros y Hy; apply rest_handles in Hy as [Hy Hy']; congruence). rewrite X1.
           assert (X2 : sp_handles (spec_of (kill_vspec s p)) !! h = None).
           { apply none_by. intros d Hd. apply spec_of_handle in Hd as (q & Hd). rewrite kill_handles, Hv in Hd. cbn in Hd. destruct (decide (own (h_inst hd) = p)); congruence. }
           rewrite X2. exact Logic.I.
        -- assert (X1 : p_handles (rest own p w) !! h = Some hd) by (apply rest_handles; auto). rewrite X1.
           assert (X2 : sp_handles (spec_of (kill_vspec s p)) !! h = Some (canon (h_path hd))).
           { apply spec_of_handle. exists (own (h_inst hd)). rewrite kill_handles, Hv. cbn. destruct (decide (own (h_inst hd) = p)); congruence. }
           rewrite X2. destruct (sp_handles (spec_of s) !! h) as [d|]; [|contradiction]. destruct G as (G1 & G2 & -> & G4 & G5). split_and!; auto. apply rest_reg; auto.
      * assert (X1 : p_handles (rest own p w) !! h = None) by (apply none_by; intros y Hy; apply rest_handles in Hy as [Hy Hy']; congruence). rewrite X1.
        assert (X2 : sp_handles (spec_of (kill_vspec s p)) !! h = None); [|rewrite X2; exact Logic.I].
        apply none_by. intros d Hd. apply spec_of_handle in Hd as (q & Hd). rewrite kill_handles in Hd.
        assert (Hs : v_handles s !! h = Some (VH q d None)) by (destruct (v_handles s !! h) as [z|]; [destruct (decide (vh_proc z = p)); congruence|discriminate]).
        destruct (VInv_handle w s n h q d V Hs) as (hd & Hx & _). congruence.
    + intros a i Ha. apply rest_reg in Ha as [Ha Ho]. destruct (wi_reg _ _ _ _ _ _ _ W a i Ha) as (Ua & x & Hx & Dx). split; [exact Ua|]. exists x. split; [apply rest_insts; auto|exact Dx].
    + intros i x Hr. pose proof (KV i x Hr) as Kv. apply rest_insts in Hr as [Hx Ho]. destruct (wi_insts _ _ _ _ _ _ _ W i x Hx) as (X & Y & (a & Ha) & h & hd & Hh & Hi). split_and!.
      * exact X.
      * rewrite spec_of_contents, (KN _ Kv), <- spec_of_contents. eapply (inst_ok_frame E); [..|exact Y]; auto; try lia. intros k S. unfold past. rewrite Kv. auto.
      * exists a. apply rest_reg; auto.
      * exists h, hd. split; [|exact Hi]. apply rest_handles. rewrite Hi. auto.
    + intros d Hn. rewrite spec_of_contents. unfold newest. rewrite kill_versions. destruct (writingb s p d) eqn:Hw; cbn [hd].
      * eapply (dir_ok_frame E); [..|apply (oldest_file w s n d V)]; auto; lia.
      * fold (newest s d). rewrite <- spec_of_contents. eapply (dir_ok_frame E); [..|apply (wi_dirs _ _ _ _ _ _ _ W d (KD d Hn Hw))]; auto; lia.
    + apply (wi_fresh _ _ _ _ _ _ _ W).
    + apply (wi_ino _ _ _ _ _ _ _ W).
  - intros d k [(i & x & Hx & Dx & ->)|[Hn ->]]; cbn [join w_insts disk_of] in *.
    + rewrite <- Dx, (KV i x Hx). apply rest_insts in Hx as [Hx _]. apply (counted_at w s i x Co Hx).
    + rewrite kill_versions. destruct (writingb s p d) eqn:Hw; [reflexivity|]. apply Co. right. split; [apply (KD d Hn Hw)|reflexivity].
Qed.

End Writers.
