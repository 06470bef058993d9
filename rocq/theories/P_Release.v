(** C86: what closing a store gives back.  Threads, open files and memory maps
    belong to the instances of World.v ([MmkvImpl]: its [IOLooper] owns the
    thread, the thread's [IOWriter] owns the [File] and the [MemoryMap]). *)
From Verif Require Import Bytes Utf8 Proto Value Codec Store StoreFacts Encrypt World Spec Hyps Refine WorldInv WorldStep Main Frames Reach Examples P_Map P_Enc.
From Coq Require Import ZifyBool ZifyNat ZifyN.
From Coq Require String. Import (notations) String.
Local Open Scope N_scope.

(** Some handle (mmkv.rs:36-41) still owns the store [i]. *)
Definition has_handle (w : world) (i : N) : Prop := exists h hd, w_handles w !! h = Some hd /\ h_inst hd = i.

(** The background thread of store [i] is there: it has been started, has not
    panicked and has not been joined. *)
Definition thread_runs (w : world) (i : N) : Prop := exists x, w_insts w !! i = Some x /\ i_io x = IoRun /\ i_join x = true.

(** The file [ino] is open and mapped. *)
Definition file_open (w : world) (ino : N) : Prop := exists i x, w_insts w !! i = Some x /\ i_ino x = ino.

Section Release.
Context (E : env).

(** Nothing but the stores' own state changes. *)
Definition stays (w w' : world) : Prop :=
  w_handles w' = w_handles w /\ w_reg w' = w_reg w /\ w_next_inst w' = w_next_inst w /\ w_poison w' = w_poison w /\
  forall j, is_Some (w_insts w' !! j) <-> is_Some (w_insts w !! j).

Lemma stays_refl w : stays w w.
Proof. repeat split; auto. Qed.

Lemma stays_trans a b c : stays a b -> stays b c -> stays a c.
Proof. intros (A1 & A2 & A3 & A4 & A5) (B1 & B2 & B3 & B4 & B5). repeat split; try congruence; intros H; [apply A5, B5, H|apply B5, A5, H]. Qed.

Lemma stays_set w i x y : w_insts w !! i = Some x -> stays w (set_inst w i y).
Proof.
  intros Hx. repeat split; cbn; rewrite lookup_insert_is_Some; intros H.
  - destruct H as [<-|[_ H]]; [eauto|exact H].
  - destruct (decide (i = j)); [left; assumption|right; split; assumption].
Qed.

Lemma stays_job w i : stays w (run_job E w i).
Proof.
  unfold run_job. destruct (w_insts w !! i) as [x|] eqn:Hx; [|apply stays_refl]. destruct (i_io x); [|apply stays_refl].
  destruct (i_queue x) as [|[m dup|] q]; [apply stays_refl| |].
  - destruct (write (e_plat E) (i_codec E x) (i_st w x) m dup) as [s ok]. exact (stays_set w i x _ Hx).
  - exact (stays_set w i x _ Hx).
Qed.

Lemma stays_drain w i : stays w (drain E w i).
Proof.
  unfold drain. destruct (w_insts w !! i) as [x|]; [|apply stays_refl]. induction (length (i_queue x)) as [|k IH]; [apply stays_refl|].
  rewrite Nat.iter_succ. eapply stays_trans; [exact IH|apply stays_job].
Qed.

Lemma stays_open w p key : stays w (open_impl E w p key).1.
Proof.
  unfold open_impl. destruct (e_dir_ok E p); [|apply stays_refl].
  assert (C : stays w (open_config E w (e_canon E p)).1).
  { unfold open_config. destruct (d_data (dir_of w (e_canon E p))); repeat split; auto. }
  destruct (open_config E w (e_canon E p)) as [w1 ino]. cbn [fst] in C. destruct (feature_key (e_feat E) key) as [k|]; [|exact C].
  assert (D : stays w1 (open_nonce E w1 (e_canon E p)).1).
  { unfold open_nonce. destruct (is_encrypted (e_feat E)); [|apply stays_refl]. destruct (init_nonce _ _). repeat split; auto. }
  destruct (open_nonce E w1 (e_canon E p)) as [w2 nonce]. cbn [fst] in D. pose proof (stays_trans _ _ _ C D) as G.
  destruct (open_file _ _ _ _) as [[s m]|]; exact G.
Qed.

Lemma stays_clear w hd : stays w (do_clear E w hd).1.
Proof.
  unfold do_clear. destruct (w_insts w !! h_inst hd) as [x|] eqn:Hx; [|apply stays_refl]. destruct (i_poison x); [apply stays_refl|].
  assert (C : stays w (impl_clear E w (h_inst hd) x).1).
  { unfold impl_clear. destruct (negb (i_valid x)); [apply stays_refl|]. destruct (post (i_invalid x) JRemove) as [x1 r].
    pose proof (stays_set w (h_inst hd) x x1 Hx) as A. destruct r; try exact A.
    pose proof (stays_trans _ _ _ A (stays_drain (set_inst w (h_inst hd) x1) (h_inst hd))) as B.
    destruct (w_insts (drain E (set_inst w (h_inst hd) x1) (h_inst hd)) !! h_inst hd) as [x2|] eqn:H2; [|exact B].
    exact (stays_trans _ _ _ B (stays_set _ _ _ _ H2)). }
  destruct (impl_clear E w (h_inst hd) x) as [w1 r]. cbn [fst] in C. destruct r; try exact C.
  pose proof (stays_trans _ _ _ C (stays_open w1 (h_path hd) (h_key hd))) as D.
  destruct (open_impl E w1 (h_path hd) (h_key hd)) as [w2 [y|]]; cbn [fst] in D.
  - assert (S : is_Some (w_insts w2 !! h_inst hd)) by (apply D; eauto). destruct S as [z Hz].
    destruct (_ && _); cbn [fst]; exact (stays_trans _ _ _ D (stays_set _ _ _ _ Hz)).
  - cbn [fst]. destruct (w_insts w2 !! h_inst hd) as [z|] eqn:Hz; [|exact D]. exact (stays_trans _ _ _ D (stays_set _ _ _ _ Hz)).
Qed.

Lemma stays_on w i f : stays w (on_inst w i f).1.
Proof. unfold on_inst. destruct (w_insts w !! i) as [x|] eqn:Hx; [|apply stays_refl]. destruct (f x) as [x' r]. exact (stays_set _ _ _ _ Hx). Qed.

(** What holds whatever happens. *)
Record kept (w : world) : Prop := {
  kp_owned : forall i, is_Some (w_insts w !! i) -> has_handle w i;
  kp_insts : forall i, is_Some (w_insts w !! i) -> i < w_next_inst w;
  kp_handles : forall h hd, w_handles w !! h = Some hd -> h_inst hd < w_next_inst w
}.

Lemma kept_stays w w' : stays w w' -> kept w -> kept w'.
Proof.
  intros (A1 & A2 & A3 & A4 & A5) [K1 K2 K3]. unfold has_handle in *. split; rewrite ?A1, ?A3.
  - intros i H. unfold has_handle. rewrite A1. apply K1, A5, H.
  - intros i H. apply K2, A5, H.
  - exact K3.
Qed.

(** Dropping one handle. *)
Lemma kept_arc w h hd : w_handles w !! h = Some hd -> kept w -> kept (do_drop_arc E w h hd).1.
Proof.
  intros Hh K. pose proof K as [K1 K2 K3]. unfold do_drop_arc. destruct (Nat.eqb (strong w (h_inst hd)) 1) eqn:Hs.
  - apply Nat.eqb_eq in Hs. pose proof (proj1 (strong_1 w h hd Hh) Hs) as Al. cbn [fst].
    destruct (stays_drain w (h_inst hd)) as (A1 & A2 & A3 & A4 & A5).
    split; cbn -[has_handle]; rewrite ?A1, ?A3.
    + intros i H. rewrite lookup_delete_is_Some in H. destruct H as [Hne H]. apply A5 in H. destruct (K1 i H) as (h' & hd' & X & Y).
      exists h', hd'. split; [|exact Y]. cbn. apply lookup_delete_Some. split; [|exact X]. intros <-. rewrite Hh in X. congruence.
    + intros i H. rewrite lookup_delete_is_Some in H. apply K2, A5, H.
    + intros h' hd' H. apply lookup_delete_Some in H as [_ H]. exact (K3 _ _ H).
  - apply Nat.eqb_neq in Hs. cbn [fst]. split; cbn.
    + intros i H. destruct (K1 i H) as (h' & hd' & X & Y). destruct (decide (h' = h)) as [->|Hne].
      * rewrite Hh in X. injection X as <-.
        destruct (decide (map_Exists (fun h2 hd2 => h2 <> h /\ h_inst hd2 = i) (w_handles w))) as [(h2 & hd2 & B2 & B1 & B3)|N].
        { exists h2, hd2. split; [|exact B3]. apply lookup_delete_Some. split; [congruence|exact B2]. }
        destruct Hs. apply (strong_1 w h hd Hh). intros h2 hd2 B2 B3. destruct (decide (h2 = h)) as [->|Hne]; [reflexivity|]. destruct N. exists h2, hd2. split_and!; congruence.
      * exists h', hd'. split; [|exact Y]. apply lookup_delete_Some. split; [congruence|exact X].
    + exact K2.
    + intros h' hd' H. apply lookup_delete_Some in H as [_ H]. exact (K3 _ _ H).
Qed.

(** Marking a handle as unregistered. *)
Lemma kept_flag w w' h hd : w_handles w !! h = Some hd -> w_insts w' = w_insts w -> w_next_inst w' = w_next_inst w ->
  w_handles w' = <[h := Handle (h_path hd) (h_key hd) (h_inst hd) true]> (w_handles w) -> kept w -> kept w'.
Proof.
  intros Hh A B C [K1 K2 K3]. split; rewrite ?A, ?B, ?C.
  - intros i H. destruct (K1 i H) as (h' & hd' & X & Y). destruct (decide (h' = h)) as [->|Hne].
    + rewrite Hh in X. injection X as <-. exists h. eexists. rewrite C, lookup_insert. split; [reflexivity|exact Y].
    + exists h', hd'. rewrite C, lookup_insert_ne by congruence. auto.
  - exact K2.
  - intros h' hd' H. apply lookup_insert_Some in H as [[<- <-]|[_ H]]; [exact (K3 _ _ Hh)|exact (K3 _ _ H)].
Qed.

Lemma kept_reg w h hd : w_handles w !! h = Some hd -> kept w -> kept (do_drop_reg w h hd).1.
Proof.
  intros Hh K. unfold do_drop_reg. destruct (w_poison w); [|destruct (Nat.eqb (strong w (h_inst hd)) 1)]; cbn [fst]; (eapply kept_flag; [exact Hh|..|exact K]; reflexivity).
Qed.

Lemma kept_step w e w' r : step E w e = Some (w', r) -> kept w -> kept w'.
Proof.
  intros Hs K.
  assert (WH : forall h f, with_handle w h f = Some (w', r) -> exists hd, w_handles w !! h = Some hd /\ (w', r) = f hd).
  { intros h f Hf. unfold with_handle in Hf. destruct (w_handles w !! h) as [hd|] eqn:Hh; [|discriminate]. destruct (h_unreg hd); [discriminate|].
    injection Hf as Hf. exists hd. auto. }
  assert (ON : forall i f, (w', r) = on_inst w i f -> kept w').
  { intros i f Hf. pose proof (stays_on w i f) as G. rewrite <- Hf in G. exact (kept_stays _ _ G K). }
  destruct e; cbn [step] in Hs.
  - destruct (w_handles w !! h) eqn:Hh; [discriminate|]. injection Hs as Hs. unfold do_new in Hs. destruct (w_poison w); [injection Hs as <- _; exact K|].
    destruct (lookup_reg w path) as [i|] eqn:Hl.
    + injection Hs as <- _. unfold lookup_reg in Hl. destruct (w_reg w !! path) as [i'|]; [|discriminate]. case_bool_decide as HI; [|discriminate]. injection Hl as ->.
      destruct K as [K1 K2 K3]. split; cbn.
      * intros j Hj. destruct (K1 j Hj) as (h' & hd' & X & Y). exists h', hd'. split; [|exact Y]. cbn. rewrite lookup_insert_ne by congruence. exact X.
      * exact K2.
      * intros h' hd' H. apply lookup_insert_Some in H as [[<- <-]|[_ H]]; [exact (K2 _ HI)|exact (K3 _ _ H)].
    + pose proof (kept_stays _ _ (stays_open w path key) K) as K1. destruct (stays_open w path key) as (SH & _).
      destruct (open_impl E w path key) as [w1 [x|]]; cbn [fst] in *.
      2:{ injection Hs as <- _. destruct K1 as [K1 K2 K3]. split; assumption. }
      injection Hs as <- _. destruct K1 as [K1 K2 K3]. split; cbn.
      * intros j Hj. apply lookup_insert_is_Some in Hj as [<-|[Hne Hj]].
        { exists h. eexists. cbn. rewrite lookup_insert. split; reflexivity. }
        destruct (K1 j Hj) as (h' & hd' & X & Y). exists h', hd'. split; [|exact Y]. cbn. rewrite lookup_insert_ne; [exact X|]. rewrite SH in X. congruence.
      * intros j Hj. apply lookup_insert_is_Some in Hj as [<-|[Hne Hj]]; [lia|]. specialize (K2 j Hj). lia.
      * intros h' hd' H. apply lookup_insert_Some in H as [[<- <-]|[_ H]]; [cbn; lia|]. specialize (K3 _ _ H). lia.
  - destruct (WH _ _ Hs) as (hd & Hh & G). exact (ON _ _ G).
  - destruct (WH _ _ Hs) as (hd & Hh & G). exact (ON _ _ G).
  - destruct (WH _ _ Hs) as (hd & Hh & G). exact (ON _ _ G).
  - destruct (WH _ _ Hs) as (hd & Hh & G). exact (ON _ _ G).
  - destruct (WH _ _ Hs) as (hd & Hh & G). exact (ON _ _ G).
  - destruct (WH _ _ Hs) as (hd & Hh & G). pose proof (stays_clear w hd) as S. rewrite <- G in S. exact (kept_stays _ _ S K).
  - destruct (WH _ _ Hs) as (hd & Hh & G). pose proof (kept_reg w h hd Hh K) as K1.
    assert (Hh1 : w_handles (do_drop_reg w h hd).1 !! h = Some (Handle (h_path hd) (h_key hd) (h_inst hd) true)).
    { unfold do_drop_reg. destruct (w_poison w); [|destruct (Nat.eqb _ _)]; cbn; apply lookup_insert. }
    destruct (do_drop_reg w h hd) as [w1 r1]. cbn [fst] in *.
    pose proof (kept_arc w1 h _ Hh1 K1) as K2. change (do_drop_arc E w1 h (Handle (h_path hd) (h_key hd) (h_inst hd) true)) with (do_drop_arc E w1 h hd) in K2.
    destruct (do_drop_arc E w1 h hd) as [w2 r2]. injection G as -> _. exact K2.
  - destruct (WH _ _ Hs) as (hd & Hh & G). pose proof (kept_reg w h hd Hh K) as K1. rewrite <- G in K1. exact K1.
  - destruct (w_handles w !! h) as [hd|] eqn:Hh; [|discriminate]. destruct (h_unreg hd); [|discriminate]. injection Hs as G.
    pose proof (kept_arc w h hd Hh K) as K1. rewrite G in K1. exact K1.
  - injection Hs as <- _. exact (kept_stays _ _ (stays_job w i) K).
  - injection Hs as <- _. split; cbn; [intros i H; rewrite lookup_empty in H; destruct H; discriminate|intros i H; rewrite lookup_empty in H; destruct H; discriminate|intros h hd H; rewrite lookup_empty in H; discriminate].
Qed.

Lemma kept_run es : forall w w' rs, run E w es = Some (w', rs) -> kept w -> kept w'.
Proof.
  induction es as [|e es IH]; intros w w' rs Hr K; cbn [run] in Hr; [injection Hr as <- _; exact K|].
  destruct (step E w e) as [[w1 r]|] eqn:Hs; [|discriminate]. destruct (run E w1 es) as [[w2 rs2]|] eqn:Hr2; [|discriminate]. injection Hr as <- _.
  exact (IH _ _ _ Hr2 (kept_step _ _ _ _ Hs K)).
Qed.

Lemma kept_world0 : kept world0.
Proof. split; cbn; [intros i H; rewrite lookup_empty in H; destruct H; discriminate|intros i H; rewrite lookup_empty in H; destruct H; discriminate|intros h hd H; rewrite lookup_empty in H; discriminate]. Qed.

(** ** The table of open stores (INSTANCE_MAP) *)

(** The event is not half of a drop during which other threads go on. *)
Definition whole (e : event) : Prop := match e with EDropReg _ | EDropArc _ => False | _ => True end.

(** Every entry leads to a store, and its handles have the entry's path. *)
Definition listed (w : world) : Prop := w_poison w = false -> forall p i, w_reg w !! p = Some i ->
  is_Some (w_insts w !! i) /\ forall h hd, w_handles w !! h = Some hd -> h_inst hd = i -> h_path hd = p.

Lemma listed_stays w w' : stays w w' -> listed w -> listed w'.
Proof.
  intros (A1 & A2 & A3 & A4 & A5) L. unfold listed. rewrite A1, A2, A4. intros Hp p i Hi. destruct (L Hp p i Hi) as [X Y]. split; [apply A5, X|exact Y].
Qed.

Lemma listed_step w e w' r : whole e -> step E w e = Some (w', r) -> kept w -> listed w -> listed w'.
Proof.
  intros Hw Hs K L.
  assert (WH : forall h f, with_handle w h f = Some (w', r) -> exists hd, w_handles w !! h = Some hd /\ (w', r) = f hd).
  { intros h f Hf. unfold with_handle in Hf. destruct (w_handles w !! h) as [hd|] eqn:Hh; [|discriminate]. destruct (h_unreg hd); [discriminate|].
    injection Hf as Hf. exists hd. auto. }
  assert (ON : forall i f, (w', r) = on_inst w i f -> listed w').
  { intros i f Hf. pose proof (stays_on w i f) as G. rewrite <- Hf in G. exact (listed_stays _ _ G L). }
  destruct e; cbn [step] in Hs; try contradiction.
  - destruct (w_handles w !! h) eqn:Hh; [discriminate|]. injection Hs as Hs. unfold do_new in Hs. destruct (w_poison w) eqn:Hpo; [injection Hs as <- _; exact L|].
    destruct (lookup_reg w path) as [i|] eqn:Hl.
    + injection Hs as <- _. unfold lookup_reg in Hl. destruct (w_reg w !! path) as [i'|] eqn:Hr; [|discriminate]. case_bool_decide as HI; [|discriminate]. injection Hl as ->.
      intros _ p j Hj. cbn in Hj |- *. destruct (L Hpo p j Hj) as [X Y]. split; [exact X|]. intros h' hd' H Hij.
      apply lookup_insert_Some in H as [[<- <-]|[_ H]]; [|exact (Y _ _ H Hij)]. cbn in Hij |- *. subst j.
      destruct (kp_owned _ K i HI) as (h2 & hd2 & B1 & B2). rewrite <- (Y _ _ B1 B2). symmetry. apply (proj2 (L Hpo path i Hr) _ _ B1 B2).
    + pose proof (stays_open w path key) as S. pose proof (listed_stays _ _ S L) as L1. pose proof (kept_stays _ _ S K) as [K1 K2 K3].
      destruct (open_impl E w path key) as [w1 [x|]]; cbn [fst] in *.
      2:{ injection Hs as <- _. intros Hq. discriminate Hq. }
      injection Hs as <- _. intros Hp p j Hj. cbn in Hp, Hj |- *. apply lookup_insert_Some in Hj as [[<- <-]|[Hne Hj]].
      * rewrite lookup_insert. split; [eauto|]. intros h' hd' H Hij. apply lookup_insert_Some in H as [[<- <-]|[_ H]]; [reflexivity|]. specialize (K3 _ _ H). lia.
      * destruct (L1 Hp p j Hj) as [X Y]. assert (j < w_next_inst w1) by exact (K2 j X). rewrite lookup_insert_ne by lia. split; [exact X|].
        intros h' hd' H' Hij. apply lookup_insert_Some in H' as [[<- <-]|[_ H']]; [cbn in Hij; lia|exact (Y _ _ H' Hij)].
  - destruct (WH _ _ Hs) as (hd & Hh & G). exact (ON _ _ G).
  - destruct (WH _ _ Hs) as (hd & Hh & G). exact (ON _ _ G).
  - destruct (WH _ _ Hs) as (hd & Hh & G). exact (ON _ _ G).
  - destruct (WH _ _ Hs) as (hd & Hh & G). exact (ON _ _ G).
  - destruct (WH _ _ Hs) as (hd & Hh & G). exact (ON _ _ G).
  - destruct (WH _ _ Hs) as (hd & Hh & G). pose proof (stays_clear w hd) as S. rewrite <- G in S. exact (listed_stays _ _ S L).
  - destruct (WH _ _ Hs) as (hd & Hh & G). unfold do_drop_reg in G. destruct (w_poison w) eqn:Hpo.
    { assert (Hp' : w_poison w' = true).
      { unfold do_drop_arc in G. destruct (Nat.eqb _ _) in G; injection G as -> _; cbn; [|exact Hpo].
        match goal with |- context [drain E ?a ?b] => destruct (stays_drain a b) as (_ & _ & _ & -> & _) end. exact Hpo. }
      intros Hq. congruence. }
    set (w1 := if Nat.eqb (strong w (h_inst hd)) 1 then set_reg w (delete (h_path hd) (w_reg w)) else w) in G.
    set (w2 := set_handles w1 (<[h := Handle (h_path hd) (h_key hd) (h_inst hd) true]> (w_handles w1))) in G.
    assert (Hs1 : w_handles w1 = w_handles w) by (unfold w1; destruct (Nat.eqb _ _); reflexivity).
    assert (Hi1 : w_insts w1 = w_insts w) by (unfold w1; destruct (Nat.eqb _ _); reflexivity).
    assert (Hst : strong w2 (h_inst hd) = strong w (h_inst hd)).
    { assert (H2 : w_handles w2 !! h = Some (Handle (h_path hd) (h_key hd) (h_inst hd) true)) by (cbn; apply lookup_insert).
      unfold strong. unfold w2 at 1. cbn [set_handles w_handles]. rewrite Hs1.
      rewrite <- (insert_id (w_handles w) h hd Hh) at 2. rewrite <- insert_delete_insert. rewrite <- (insert_delete_insert (w_handles w) h hd).
      rewrite !map_to_list_insert by apply lookup_delete. rewrite !filter_cons. cbn [snd h_inst]. rewrite !decide_True by reflexivity. reflexivity. }
    unfold do_drop_arc in G. rewrite Hst in G. unfold w1 in w2. destruct (Nat.eqb (strong w (h_inst hd)) 1) eqn:Hq; injection G as -> _.
    + destruct (stays_drain w2 (h_inst hd)) as (A1 & A2 & A3 & A4 & A5).
      apply Nat.eqb_eq in Hq. pose proof (proj1 (strong_1 w h hd Hh) Hq) as Al.
      intros Hp p j Hj. cbn in Hj |- *. rewrite A2 in Hj. cbn in Hj. apply lookup_delete_Some in Hj as [Hne Hj]. destruct (L Hpo p j Hj) as [X Y].
      assert (Hij : j <> h_inst hd). { intros ->. apply Hne. exact (Y h hd Hh eq_refl). }
      rewrite lookup_delete_ne by congruence. split; [apply A5; cbn; exact X|].
      intros h' hd' H Hi. rewrite A1 in H. cbn in H. apply lookup_delete_Some in H as [Hne' H]. rewrite lookup_insert_ne in H by congruence. exact (Y _ _ H Hi).
    + intros Hp p j Hj. cbn in Hj |- *. destruct (L Hpo p j Hj) as [X Y]. split; [exact X|].
      intros h' hd' H Hi. apply lookup_delete_Some in H as [Hne' H]. rewrite lookup_insert_ne in H by congruence. exact (Y _ _ H Hi).
  - injection Hs as <- _. exact (listed_stays _ _ (stays_job w i) L).
  - injection Hs as <- _. intros _ p j Hj. cbn in Hj. rewrite lookup_empty in Hj. discriminate Hj.
Qed.

Lemma listed_run es : forall w w' rs, Forall whole es -> run E w es = Some (w', rs) -> kept w -> listed w -> listed w'.
Proof.
  induction es as [|e es IH]; intros w w' rs Hw Hr K L; cbn [run] in Hr; [injection Hr as <- _; exact L|].
  apply Forall_cons in Hw as [Hw1 Hw]. destruct (step E w e) as [[w1 r]|] eqn:Hs; [|discriminate].
  destruct (run E w1 es) as [[w2 rs2]|] eqn:Hr2; [|discriminate]. injection Hr as <- _.
  exact (IH _ _ _ Hw Hr2 (kept_step _ _ _ _ Hs K) (listed_step _ _ _ _ Hw1 Hs K L)).
Qed.

Lemma listed_world0 : listed world0.
Proof. intros _ p i H. cbn in H. rewrite lookup_empty in H. discriminate H. Qed.

End Release.

(** * C86 *)

(** Whatever is called and whatever fails -- panics, dead threads, kills, drops
    that overlap with other calls -- a background thread runs, and a data file is
    open and mapped, only for a store that some handle still owns; and there are
    never more of them than handles. *)
Theorem C86_nothing_stays_without_a_handle_partial E es w rs : run E world0 es = Some (w, rs) ->
  (forall i, thread_runs w i -> has_handle w i) /\
  (forall ino, file_open w ino -> exists i x, w_insts w !! i = Some x /\ i_ino x = ino /\ has_handle w i) /\
  (forall is, NoDup is -> Forall (thread_runs w) is -> (length is <= size (w_handles w))%nat) /\
  (w_handles w = ∅ -> (forall i, ~ thread_runs w i) /\ forall ino, ~ file_open w ino).
Proof.
  intros Hr. pose proof (kept_run E es _ _ _ Hr kept_world0) as [K1 K2 K3].
  assert (T : forall i, thread_runs w i -> has_handle w i) by (intros i (x & Hx & _); apply K1; eauto).
  assert (F : forall ino, file_open w ino -> exists i x, w_insts w !! i = Some x /\ i_ino x = ino /\ has_handle w i).
  { intros ino (i & x & Hx & Hi). exists i, x. split; [exact Hx|]. split; [exact Hi|]. apply K1. eauto. }
  split; [exact T|]. split; [exact F|]. split.
  - intros is ND Ht.
    assert (Sub : forall i, i ∈ is -> i ∈ map (fun kh : N * handle => h_inst kh.2) (map_to_list (w_handles w))).
    { intros i Hi. rewrite Forall_forall in Ht. destruct (T i (Ht i Hi)) as (h & hd & A & B). apply elem_of_list_fmap. exists (h, hd). split; [symmetry; exact B|].
      apply elem_of_map_to_list. exact A. }
    pose proof (submseteq_length _ _ (NoDup_submseteq _ _ ND Sub)) as G. rewrite map_length in G. exact G.
  - intros He. split.
    + intros i Hi. destruct (T i Hi) as (h & hd & A & _). rewrite He, lookup_empty in A. discriminate A.
    + intros ino Hi. destruct (F ino Hi) as (i & x & _ & _ & h & hd & A & _). rewrite He, lookup_empty in A. discriminate A.
Qed.

(** In ordinary histories: every store with a handle has its thread, there is one
    store per directory, and the open file is the one the directory has now (a
    file that clear_data removed is not kept open). *)
Theorem C86_one_thread_per_open_directory_partial E keyof es w rs : ordinary E keyof es -> run E world0 es = Some (w, rs) ->
  (forall i, thread_runs w i <-> has_handle w i) /\
  (forall h1 h2 hd1 hd2, w_handles w !! h1 = Some hd1 -> w_handles w !! h2 = Some hd2 -> e_canon E (h_path hd1) = e_canon E (h_path hd2) -> h_inst hd1 = h_inst hd2) /\
  (forall i x, w_insts w !! i = Some x -> d_data (dir_of w (i_dir x)) = Some (i_ino x)).
Proof.
  intros HO Hr. destruct (reach E keyof es HO w rs Hr) as (sp & _ & W).
  assert (G : forall h hd, w_handles w !! h = Some hd -> PU es (h_path hd) /\ w_reg w !! h_path hd = Some (h_inst hd)).
  { intros h hd Hh. pose proof (wi_handles _ _ _ _ _ _ _ W h) as G. rewrite Hh in G. unfold handle_ok in G.
    destruct (sp_handles sp !! h); [|contradiction]. destruct G as (_ & A & _ & _ & B). auto. }
  split; [|split].
  - intros i. split.
    + intros (x & Hx & _). destruct (wi_insts _ _ _ _ _ _ _ W i x Hx) as (_ & _ & _ & h & hd & A & B). exists h, hd. auto.
    + intros (h & hd & Hh & <-). destruct (G h hd Hh) as [_ R]. destruct (wi_reg _ _ _ _ _ _ _ W _ _ R) as (_ & x & Hx & _).
      destruct (wi_insts _ _ _ _ _ _ _ W _ _ Hx) as (_ & I & _). exists x. split; [exact Hx|]. split; [exact (io_run _ _ _ _ _ _ _ I)|exact (io_join _ _ _ _ _ _ _ I)].
  - intros h1 h2 hd1 hd2 H1 H2 He. destruct (G _ _ H1) as [U1 R1], (G _ _ H2) as [U2 R2].
    rewrite (PU_inj E keyof es HO _ _ U1 U2 He) in R1. congruence.
  - intros i x Hx. destruct (wi_insts _ _ _ _ _ _ _ W i x Hx) as (_ & I & _). exact (io_data _ _ _ _ _ _ _ I).
Qed.

(** When no drop overlaps with other calls and no open has failed, the table of
    open stores has no other entries either. *)
Theorem C86_closing_clears_the_table_partial E es w rs : Forall whole es -> run E world0 es = Some (w, rs) -> w_poison w = false ->
  (forall p i, w_reg w !! p = Some i -> has_handle w i) /\ (w_handles w = ∅ -> w_reg w = ∅).
Proof.
  intros Hw Hr Hp. pose proof (kept_run E es _ _ _ Hr kept_world0) as [K1 K2 K3].
  pose proof (listed_run E es _ _ _ Hw Hr kept_world0 listed_world0 Hp) as L.
  assert (G : forall p i, w_reg w !! p = Some i -> has_handle w i) by (intros p i Hi; apply K1; exact (proj1 (L p i Hi))).
  split; [exact G|]. intros He. apply map_empty. intros p. destruct (w_reg w !! p) as [i|] eqn:Hi; [|reflexivity].
  destruct (G p i Hi) as (h & hd & A & _). rewrite He, lookup_empty in A. discriminate A.
Qed.

(** Two threads drop the last two handles of a directory: each sees the other's
    reference (mmkv.rs:46: strong_count is 2 for both, as the fields are dropped
    after the lock is released), and nobody takes the entry out of the table. *)
Definition ex_two_drops : list event := [ENew 0 dir_d ex_key; ENew 1 dir_d ex_key; EDropReg 0; EDropReg 1; EDropArc 0; EDropArc 1].

Theorem C86_table_is_empty_after_closing_refuted : ~ (forall E es w rs, run E world0 es = Some (w, rs) -> Forall (eq (ROk None)) rs ->
  w_handles w = ∅ -> w_reg w = ∅).
Proof.
  intros H. set (E := ex_env FPlain).
  assert (T : match run E world0 ex_two_drops with
    | Some (w, rs) => match rs with [ROk None; ROk None; ROk None; ROk None; ROk None; ROk None] => true | _ => false end &&
        match map_to_list (w_handles w) with [] => true | _ => false end && match w_reg w !! dir_d with Some _ => true | None => false end
    | None => false end = true) by (vm_compute; reflexivity).
  destruct (run E world0 ex_two_drops) as [[w rs]|] eqn:Hr; [|discriminate T].
  apply andb_true_iff in T as [T T3]. apply andb_true_iff in T as [T1 T2].
  assert (Hh : w_handles w = ∅). { apply map_to_list_empty_iff. destruct (map_to_list (w_handles w)); [reflexivity|discriminate T2]. }
  rewrite (H E _ w rs Hr) in T3; [rewrite lookup_empty in T3; discriminate T3| |exact Hh].
  repeat (destruct rs as [|[[?|]| |] rs]; try discriminate T1; try (constructor; [reflexivity|])). constructor.
Qed.

(** A run in which everything goes wrong: a put whose serializer panics, a store
    that cannot be opened, and after that a drop that panics. *)
Definition ex_trouble : list event :=
  [ENew 0 dir_d ex_key; EPut 0 k1 (VI32 5); EPutPanic 0 k1; ENew 1 dir_e ex_key; ENew 2 dir_d ex_key; EPut 1 k2 hello; ENew 3 (str "!none"%string) ex_key; EDrop 0; EDrop 2; EDropReg 1; EDropArc 1].

Lemma C86_nothing_stays_example : match run (ex_env FPlain) world0 ex_trouble with
  | Some (w, rs) => rs = [ROk None; ROk None; RPanic; ROk None; ROk None; ROk None; RPanic; RPanic; RPanic; RPanic; ROk None] /\ map_to_list (w_handles w) = [] /\
      map_to_list (w_insts w) = []
  | None => False end.
Proof. vm_compute. repeat split. Qed.
