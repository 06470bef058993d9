(** C80: whatever goes wrong with one store (a panic, a dead background
    thread, a file that cannot be opened, a value that does not fit, the end
    of the process), the directories it does not belong to are left as they
    are.  The events here are not restricted in any way. *)
From Verif Require Import Bytes Utf8 Proto ProtoFacts Crc8 Value Codec Store StoreFacts Encrypt World Spec Hyps Refine WorldInv WorldStep Main Frames Reach Examples P_Map P_Store Slots Crash P_Kill P_Corrupt Power P_Power Abort P_Abort.
From Coq Require Import ZifyBool ZifyNat ZifyN.
From Coq Require String. Import (notations) String.
Local Open Scope N_scope.

(** * The files of a directory belong to nobody else *)
Section Apart.
Context (E : env) (d : bytes).
Notation canon := (e_canon E).

Record apart (w : world) : Prop := {
  ap_ino : forall i x j, w_insts w !! i = Some x -> i_dir x <> d -> d_data (dir_of w d) = Some j -> i_ino x <> j;
  ap_dir : forall d' j, d_data (dir_of w d) = Some j -> d_data (dir_of w d') = Some j -> d' = d;
  ap_fresh : forall j, d_data (dir_of w d) = Some j -> j < w_next_ino w;
  ap_handle : forall h hd x, w_handles w !! h = Some hd -> w_insts w !! h_inst hd = Some x -> i_dir x = canon (h_path hd);
  ap_reg : forall p i x, w_reg w !! p = Some i -> w_insts w !! i = Some x -> i_dir x = canon p;
  ap_next : forall i x, w_insts w !! i = Some x -> i < w_next_inst w;
  ap_next_h : forall h hd, w_handles w !! h = Some hd -> h_inst hd < w_next_inst w;
  ap_next_r : forall p i, w_reg w !! p = Some i -> i < w_next_inst w
}.

(** The names and contents of the files of [d] are the same. *)
Definition kept (w w' : world) : Prop :=
  dir_of w' d = dir_of w d /\ forall j, d_data (dir_of w d) = Some j -> inode w' j = inode w j.

Lemma kept_refl w : kept w w.
Proof. split; reflexivity. Qed.

Lemma kept_trans a b c : kept a b -> kept b c -> kept a c.
Proof. intros [A1 A2] [B1 B2]. split; [congruence|]. intros j Hj. rewrite B2 by congruence. apply A2, Hj. Qed.

Lemma apart_transfer w w' :
  apart w -> dir_of w' d = dir_of w d ->
  (forall d' j, d' <> d -> d_data (dir_of w' d') = Some j -> d_data (dir_of w d') = Some j \/ w_next_ino w <= j) ->
  w_next_ino w <= w_next_ino w' -> w_next_inst w <= w_next_inst w' ->
  (forall i x, w_insts w' !! i = Some x ->
     (exists x0, w_insts w !! i = Some x0 /\ i_dir x = i_dir x0 /\
        (i_ino x = i_ino x0 \/ i_dir x <> d /\ d_data (dir_of w' (i_dir x)) = Some (i_ino x))) \/
     (w_next_inst w <= i /\ i < w_next_inst w' /\ i_dir x <> d /\ d_data (dir_of w' (i_dir x)) = Some (i_ino x))) ->
  (forall h hd, w_handles w' !! h = Some hd ->
     (exists h0 hd0, w_handles w !! h0 = Some hd0 /\ h_inst hd0 = h_inst hd /\ h_path hd0 = h_path hd) \/
     (h_inst hd < w_next_inst w' /\ forall x, w_insts w' !! h_inst hd = Some x -> i_dir x = canon (h_path hd))) ->
  (forall p i, w_reg w' !! p = Some i ->
     w_reg w !! p = Some i \/ (i < w_next_inst w' /\ forall x, w_insts w' !! i = Some x -> i_dir x = canon p)) ->
  apart w'.
Proof.
  intros A Hd Hdirs Hn1 Hn2 Hins Hhs Hrs. split.
  - intros i x j Hx Hdx Hj Heq. rewrite Hd in Hj.
    assert (K : d_data (dir_of w' (i_dir x)) = Some (i_ino x) -> False).
    { rewrite Heq. intros K. destruct (Hdirs _ _ Hdx K) as [K1|K1].
      - apply Hdx. eapply (ap_dir _ A); eassumption.
      - pose proof (ap_fresh _ A j Hj). lia. }
    destruct (Hins i x Hx) as [(x0 & Hx0 & D0 & [I0|[_ K1]])|(_ & _ & _ & K1)]; [|exact (K K1)|exact (K K1)].
    eapply (ap_ino _ A i x0 j); congruence.
  - intros d' j Hj Hj'. rewrite Hd in Hj. destruct (decide (d' = d)) as [|Hne]; [assumption|].
    destruct (Hdirs d' j Hne Hj') as [K|K]; [eapply (ap_dir _ A); eassumption|]. pose proof (ap_fresh _ A j Hj). lia.
  - intros j Hj. rewrite Hd in Hj. pose proof (ap_fresh _ A j Hj). lia.
  - intros h hd x Hh Hx. destruct (Hhs h hd Hh) as [(h0 & hd0 & H0 & I0 & P0)|[_ K]]; [|apply K, Hx].
    destruct (Hins _ x Hx) as [(x0 & Hx0 & D0 & _)|(K & _)].
    + rewrite D0, <- P0. eapply (ap_handle _ A h0 hd0); [exact H0|]. rewrite I0. exact Hx0.
    + pose proof (ap_next_h _ A h0 hd0 H0). lia.
  - intros p i x Hp Hx. destruct (Hrs p i Hp) as [H0|[_ K]]; [|apply K, Hx].
    destruct (Hins _ x Hx) as [(x0 & Hx0 & D0 & _)|(K & _)].
    + rewrite D0. eapply (ap_reg _ A); eassumption.
    + pose proof (ap_next_r _ A p i H0). lia.
  - intros i x Hx. destruct (Hins _ x Hx) as [(x0 & Hx0 & _)|(_ & K & _)]; [|exact K]. pose proof (ap_next _ A i x0 Hx0). lia.
  - intros h hd Hh. destruct (Hhs h hd Hh) as [(h0 & hd0 & H0 & I0 & _)|[K _]]; [|exact K]. pose proof (ap_next_h _ A h0 hd0 H0). lia.
  - intros p i Hp. destruct (Hrs p i Hp) as [H0|[K _]]; [|exact K]. pose proof (ap_next_r _ A p i H0). lia.
Qed.

(** ** Background work *)

Record worked (i : N) (x : inst) (w w' : world) : Prop := {
  wk_apart : apart w';
  wk_kept : kept w w';
  wk_inst : exists y, w_insts w' = <[i := y]> (w_insts w) /\ i_dir y = i_dir x /\ i_ino y = i_ino x;
  wk_handles : w_handles w' = w_handles w;
  wk_reg : w_reg w' = w_reg w;
  wk_ino : w_next_ino w' = w_next_ino w;
  wk_next : w_next_inst w' = w_next_inst w;
  wk_dirs : forall d' j, d_data (dir_of w' d') = Some j -> d_data (dir_of w d') = Some j
}.

Lemma job_worked w i x : apart w -> w_insts w !! i = Some x -> i_dir x <> d -> worked i x w (run_job E w i).
Proof.
  intros A Hx Hdx. destruct (run_job_frame E w i x Hx) as ((y & Y1 & Y2 & Y3) & F1 & F2 & F3 & F4).
  assert (X : w_next_ino (run_job E w i) = w_next_ino w /\ w_next_inst (run_job E w i) = w_next_inst w /\
    forall d' j, d_data (dir_of (run_job E w i) d') = Some j -> d_data (dir_of w d') = Some j).
  { unfold run_job. rewrite Hx. destruct (i_io x); [|auto]. destruct (i_queue x) as [|[m dup|] q]; [auto| |].
    - destruct (write _ _ _ _ _) as [s ok]. auto.
    - split; [reflexivity|]. split; [reflexivity|]. intros d' j. erewrite dir_of_insert by reflexivity.
      destruct (decide (i_dir x = d')); [discriminate|auto]. }
  destruct X as (X1 & X2 & X3).
  assert (K : kept w (run_job E w i)).
  { split; [apply F1; congruence|]. intros j Hj. apply F2. intros ->. eapply (ap_ino _ A); eauto. }
  split; eauto. apply (apart_transfer w); [exact A|apply K|intros d' j _ Hj; left; apply X3, Hj|lia|lia| | |].
  - intros i0 x0 H0. rewrite Y1 in H0. left. destruct (decide (i = i0)) as [<-|Hne].
    + rewrite lookup_insert in H0. injection H0 as <-. exists x. auto.
    + rewrite lookup_insert_ne in H0 by exact Hne. exists x0. auto.
  - intros h hd H0. rewrite F3 in H0. left. exists h, hd. auto.
  - intros p i0 H0. rewrite F4 in H0. auto.
Qed.

Lemma worked_trans i x y a b c : worked i x a b -> w_insts b !! i = Some y -> worked i y b c -> worked i x a c.
Proof.
  intros [A1 A2 (z & Z1 & Z2 & Z3) A4 A5 A6 A7 A8] Hy [B1 B2 (u & U1 & U2 & U3) B4 B5 B6 B7 B8].
  rewrite Z1, lookup_insert in Hy. injection Hy as <-. split; try congruence; auto.
  - eapply kept_trans; eassumption.
  - exists u. rewrite U1, Z1, insert_insert. split; [reflexivity|]. split; congruence.
Qed.

Lemma jobs_worked i n : forall w x, apart w -> w_insts w !! i = Some x -> i_dir x <> d ->
  worked i x w (Nat.iter n (fun w => run_job E w i) w).
Proof.
  induction n as [|n IH]; intros w x A Hx Hdx.
  - cbn. split; auto; [apply kept_refl|]. exists x. rewrite insert_id by exact Hx. auto.
  - rewrite iter_shift. pose proof (job_worked w i x A Hx Hdx) as W. pose proof W as [A' _ (y & Y1 & Y2 & Y3) _ _ _ _ _].
    assert (Hy : w_insts (run_job E w i) !! i = Some y) by (rewrite Y1; apply lookup_insert).
    eapply worked_trans; [exact W|exact Hy|]. apply IH; [exact A'|exact Hy|congruence].
Qed.

Lemma drain_worked i w x : apart w -> w_insts w !! i = Some x -> i_dir x <> d -> worked i x w (drain E w i).
Proof. intros A Hx Hdx. unfold drain. rewrite Hx. apply jobs_worked; assumption. Qed.

(** A change of one store's own state. *)
Lemma set_inst_apart w i x x' : apart w -> w_insts w !! i = Some x -> i_dir x' = i_dir x -> i_ino x' = i_ino x -> apart (set_inst w i x').
Proof.
  intros A Hx D I. apply (apart_transfer w); [exact A|reflexivity|auto|cbn; lia|cbn; lia| | |auto].
  - intros i0 x0 H0. cbn in H0. left. destruct (decide (i = i0)) as [<-|Hne].
    + rewrite lookup_insert in H0. injection H0 as <-. exists x. auto.
    + rewrite lookup_insert_ne in H0 by exact Hne. exists x0. auto.
  - intros h hd H0. left. exists h, hd. auto.
Qed.

(** ** Opening *)

Record opened (p : bytes) (w w' : world) (o : option inst) : Prop := {
  op_kept : kept w w';
  op_dirs : forall d' j, d' <> d -> d_data (dir_of w' d') = Some j -> d_data (dir_of w d') = Some j \/ w_next_ino w <= j;
  op_ino : w_next_ino w <= w_next_ino w';
  op_next : w_next_inst w' = w_next_inst w;
  op_insts : w_insts w' = w_insts w;
  op_handles : w_handles w' = w_handles w;
  op_reg : w_reg w' = w_reg w;
  op_some : forall y, o = Some y -> i_dir y = canon p /\ d_data (dir_of w' (canon p)) = Some (i_ino y)
}.

Lemma open_opened w p key w' o : apart w -> canon p <> d -> open_impl E w p key = (w', o) -> opened p w w' o.
Proof.
  intros A Hp Ho. assert (G : let '(w', o) := open_impl E w p key in (forall d', d' <> canon p -> dir_of w' d' = dir_of w d') /\
    (forall j, Some j <> d_data (dir_of w (canon p)) -> j < w_next_ino w -> inode w' j = inode w j)).
  { eapply (open_impl_frame E (fun _ => []) (fun _ => False)); intros; contradiction. } rewrite Ho in G. destruct G as [G1 G2].
  assert (K : kept w w').
  { split; [apply G1; congruence|]. intros j Hj. apply G2; [|eapply (ap_fresh _ A), Hj]. intros Hj'. apply Hp.
    eapply (ap_dir _ A); [exact Hj|]. symmetry. exact Hj'. }
  unfold open_impl in Ho. destruct (e_dir_ok E p); [|injection Ho as <- <-; split; [exact K|auto|lia|reflexivity|reflexivity|reflexivity|reflexivity|discriminate]].
  cbv zeta in Ho. destruct (open_config E w (canon p)) as [w1 ino] eqn:Hc.
  assert (C1 : d_data (dir_of w1 (canon p)) = Some ino /\ (d_data (dir_of w (canon p)) = Some ino \/ w_next_ino w <= ino) /\
    w_next_ino w <= w_next_ino w1 /\ w_next_inst w1 = w_next_inst w /\ w_insts w1 = w_insts w /\ w_handles w1 = w_handles w /\ w_reg w1 = w_reg w).
  { unfold open_config in Hc. destruct (d_data (dir_of w (canon p))) as [i|] eqn:Hd.
    - injection Hc as <- <-. split_and!; try reflexivity; auto.
    - injection Hc as <- <-. split_and!; try reflexivity; [|right; lia|cbn; lia]. unfold dir_of. cbn. rewrite lookup_insert. reflexivity. }
  destruct C1 as (C1 & C2 & C3 & C4 & C5 & C6 & C7).
  assert (Hdirs : forall w3, (forall d', d' <> canon p -> dir_of w3 d' = dir_of w d') -> d_data (dir_of w3 (canon p)) = Some ino ->
    forall d' j, d' <> d -> d_data (dir_of w3 d') = Some j -> d_data (dir_of w d') = Some j \/ w_next_ino w <= j).
  { intros w3 H1 H2 d' j _ Hj. destruct (decide (d' = canon p)) as [->|Hne].
    - rewrite H2 in Hj. injection Hj as <-. exact C2.
    - rewrite H1 in Hj by exact Hne. auto. }
  destruct (feature_key (e_feat E) key) as [k|].
  - destruct (open_nonce E w1 (canon p)) as [w2 nonce] eqn:Hn.
    assert (C : d_data (dir_of w2 (canon p)) = Some ino /\ w_next_ino w2 = w_next_ino w1 /\ w_next_inst w2 = w_next_inst w1 /\
      w_insts w2 = w_insts w1 /\ w_handles w2 = w_handles w1 /\ w_reg w2 = w_reg w1).
    { unfold open_nonce in Hn. destruct (is_encrypted _); [|injection Hn as <- _; split_and!; auto].
      destruct (init_nonce _ _) as [n0 m0]. injection Hn as <- _. split_and!; try reflexivity. unfold dir_of. cbn. rewrite lookup_insert. exact C1. }
    destruct C as (B1 & B2 & B3 & B4 & B5 & B6).
    destruct (open_file _ _ _ _) as [[s m]|]; injection Ho as <- <-; (split; [exact K|apply Hdirs; [exact G1|exact B1]|lia|congruence|congruence|congruence|congruence|]).
    + intros y [= <-]. cbn. auto.
    + discriminate.
  - injection Ho as <- <-. split; [exact K|apply Hdirs; [exact G1|exact C1]|exact C3|exact C4|exact C5|exact C6|exact C7|discriminate].
Qed.

Lemma opened_apart p w w' o : apart w -> opened p w w' o -> apart w'.
Proof.
  intros A [K O1 O2 O3 O4 O5 O6 _]. apply (apart_transfer w); [exact A|apply K|exact O1|exact O2|lia| | |].
  - intros i x Hx. rewrite O4 in Hx. left. exists x. auto.
  - intros h hd Hh. rewrite O5 in Hh. left. exists h, hd. auto.
  - intros q i Hq. rewrite O6 in Hq. auto.
Qed.

(** ** Any event *)

Lemma poison_apart w : apart w -> apart (set_poison w).
Proof.
  intros A. apply (apart_transfer w); [exact A|reflexivity|auto|cbn; lia|cbn; lia| | |auto].
  - intros i x Hx. left. exists x. auto.
  - intros h hd Hh. left. exists h, hd. auto.
Qed.

Lemma same_apart w w' : w_dirs w' = w_dirs w -> w_inodes w' = w_inodes w -> w_next_ino w' = w_next_ino w -> w_next_inst w' = w_next_inst w ->
  w_insts w' = w_insts w ->
  (forall h hd, w_handles w' !! h = Some hd ->
     exists h0 hd0, w_handles w !! h0 = Some hd0 /\ h_inst hd0 = h_inst hd /\ h_path hd0 = h_path hd) ->
  (forall p i, w_reg w' !! p = Some i -> w_reg w !! p = Some i) -> apart w -> apart w' /\ kept w w'.
Proof.
  intros H1 H2 H3 H4 H5 H6 H7 A. assert (Hd : forall d', dir_of w' d' = dir_of w d') by (intros d'; unfold dir_of; rewrite H1; reflexivity).
  split; [|split; [apply Hd|intros j _; unfold inode; rewrite H2; reflexivity]].
  apply (apart_transfer w); [exact A|apply Hd|intros d' j _ Hj; left; rewrite <- Hd; exact Hj|lia|lia| | |].
  - intros i x Hx. rewrite H5 in Hx. left. exists x. auto.
  - intros h hd Hh. left. apply (H6 h hd Hh).
  - intros p i Hp. left. apply H7, Hp.
Qed.

Lemma drop_reg_apart w h hd w1 r : apart w -> w_handles w !! h = Some hd -> do_drop_reg w h hd = (w1, r) ->
  (apart w1 /\ kept w w1) /\ w_insts w1 = w_insts w.
Proof.
  intros A Hh H. unfold do_drop_reg in H.
  assert (Hin : forall (m : gmap N handle) h0 hd0, m = w_handles w ->
    <[h := Handle (h_path hd) (h_key hd) (h_inst hd) true]> m !! h0 = Some hd0 ->
    exists h1 hd1, w_handles w !! h1 = Some hd1 /\ h_inst hd1 = h_inst hd0 /\ h_path hd1 = h_path hd0).
  { intros m h0 hd0 -> H0. destruct (decide (h = h0)) as [<-|Hne].
    - rewrite lookup_insert in H0. injection H0 as <-. exists h, hd. auto.
    - rewrite lookup_insert_ne in H0 by exact Hne. exists h0, hd0. auto. }
  destruct (w_poison w).
  - injection H as <- _. split; [|reflexivity]. apply same_apart; try reflexivity; auto. intros h0 hd0. apply Hin. reflexivity.
  - injection H as <- _. destruct (Nat.eqb _ _); (split; [|reflexivity]); apply same_apart; try reflexivity; auto.
    + intros h0 hd0. apply Hin. reflexivity.
    + intros p i Hp. cbn in Hp. apply lookup_delete_Some in Hp as [_ Hp]. exact Hp.
    + intros h0 hd0. apply Hin. reflexivity.
Qed.

Lemma drop_arc_apart w h hd w1 r : apart w -> (forall x, w_insts w !! h_inst hd = Some x -> i_dir x <> d) ->
  do_drop_arc E w h hd = (w1, r) -> apart w1 /\ kept w w1.
Proof.
  intros A Hd H. unfold do_drop_arc in H. cbv zeta in H.
  assert (Hdel : forall w0 h0 hd0, delete h (w_handles w0) !! h0 = Some hd0 ->
    exists h1 hd1, w_handles w0 !! h1 = Some hd1 /\ h_inst hd1 = h_inst hd0 /\ h_path hd1 = h_path hd0).
  { intros w0 h0 hd0 H0. apply lookup_delete_Some in H0 as [_ H0]. exists h0, hd0. auto. }
  destruct (Nat.eqb (strong w (h_inst hd)) 1).
  - injection H as <- _. set (w2 := drain E w (h_inst hd)).
    assert (G : apart w2 /\ kept w w2).
    { destruct (w_insts w !! h_inst hd) as [x|] eqn:Hx.
      - destruct (drain_worked (h_inst hd) w x A Hx (Hd x eq_refl)). auto.
      - unfold w2, drain. rewrite Hx. split; [exact A|apply kept_refl]. }
    destruct G as [A2 K2]. split; [|exact K2].
    apply (apart_transfer w2); [exact A2|reflexivity|auto|cbn; lia|cbn; lia| | |auto].
    + intros i x Hx. cbn in Hx. apply lookup_delete_Some in Hx as [_ Hx]. left. exists x. auto.
    + intros h0 hd0 H0. left. eapply (Hdel w2), H0.
  - injection H as <- _. apply same_apart; try reflexivity; auto. intros h0 hd0. apply Hdel.
Qed.

Lemma on_inst_apart w i f w' r : apart w -> (forall x, i_dir (fst (f x)) = i_dir x /\ i_ino (fst (f x)) = i_ino x) ->
  on_inst w i f = (w', r) -> apart w' /\ kept w w'.
Proof.
  intros A Hf H. unfold on_inst in H. destruct (w_insts w !! i) as [x|] eqn:Hx; [|injection H as <- _; split; [exact A|apply kept_refl]].
  destruct (Hf x) as [D I]. destruct (f x) as [x' r']. injection H as <- _. split; [|split; reflexivity].
  eapply set_inst_apart; eauto.
Qed.

Lemma clear_apart w i x w1 r : apart w -> w_insts w !! i = Some x -> i_dir x <> d -> impl_clear E w i x = (w1, r) ->
  apart w1 /\ kept w w1 /\ exists y, w_insts w1 !! i = Some y /\ i_dir y = i_dir x.
Proof.
  intros A Hx Hdx H. unfold impl_clear in H. destruct (negb (i_valid x)); [injection H as <- _; split; [exact A|split; [apply kept_refl|eauto]]|].
  destruct (post (i_invalid x) JRemove) as [x1 r1] eqn:Hp.
  assert (D1 : i_dir x1 = i_dir x /\ i_ino x1 = i_ino x) by (unfold post in Hp; destruct (i_sender _); injection Hp as <- _; split; reflexivity).
  destruct D1 as [D1 I1]. set (w0 := set_inst w i x1) in *.
  assert (A0 : apart w0) by (eapply set_inst_apart; eauto). assert (K0 : kept w w0) by (split; reflexivity).
  assert (H0 : w_insts w0 !! i = Some x1) by (cbn; apply lookup_insert).
  destruct r1 as [v|e|]; [|injection H as <- _; split; [exact A0|split; [exact K0|eauto]]..].
  assert (Hdx1 : i_dir x1 <> d) by congruence.
  destruct (drain_worked i w0 x1 A0 H0 Hdx1) as [A2 K2 (y & Y1 & Y2 & Y3) _ _ _ _ _].
  assert (Hy : w_insts (drain E w0 i) !! i = Some y) by (rewrite Y1; apply lookup_insert). rewrite Hy in H. injection H as <- _.
  split; [eapply set_inst_apart; eauto; reflexivity|]. split; [eapply kept_trans; [exact K0|]; eapply kept_trans; [exact K2|]; split; reflexivity|].
  exists (i_quit y). cbn. rewrite lookup_insert. split; [reflexivity|]. cbn. congruence.
Qed.

(** No event works on files of a directory that is not its own, whatever
    state the stores are in. *)
Lemma step_apart w e w' r : apart w -> step E w e = Some (w', r) -> works_on E w e <> Some d -> apart w' /\ kept w w'.
Proof.
  intros A Hst Hwk. destruct e as [h path key|h key v|h key|h key t|h key t|h key|h|h|h|h|i|]; cbn [step works_on] in *; unfold with_handle in Hst.
  - destruct (w_handles w !! h); [discriminate|]. injection Hst as Hst. unfold do_new in Hst.
    destruct (w_poison w); [injection Hst as <- _; split; [exact A|apply kept_refl]|].
    destruct (lookup_reg w path) as [i|] eqn:Hl.
    + injection Hst as <- _. unfold lookup_reg in Hl. destruct (w_reg w !! path) as [i'|] eqn:Hr; [|discriminate].
      destruct (bool_decide _); [|discriminate]. injection Hl as <-. split; [|split; reflexivity].
      apply (apart_transfer w); [exact A|reflexivity|auto|cbn; lia|cbn; lia| | |auto].
      * intros i x Hx. left. exists x. auto.
      * intros h0 hd0 H0. cbn in H0. destruct (decide (h = h0)) as [<-|Hne].
        -- rewrite lookup_insert in H0. injection H0 as <-. right. cbn. split; [apply (ap_next_r _ A path), Hr|].
           intros x Hx. eapply (ap_reg _ A); eassumption.
        -- rewrite lookup_insert_ne in H0 by exact Hne. left. exists h0, hd0. auto.
    + destruct (open_impl E w path key) as [w1 o] eqn:Ho. assert (Hp : canon path <> d) by congruence.
      pose proof (open_opened w path key w1 o A Hp Ho) as O. pose proof (opened_apart _ _ _ _ A O) as A1. destruct O as [K O1 O2 O3 O4 O5 O6 O7].
      destruct o as [x|]; injection Hst as <- _; cycle 1.
      { split; [apply poison_apart, A1|exact K]. }
      split; [|exact K]. destruct (O7 x eq_refl) as [Dx Ix].
      apply (apart_transfer w1); [exact A1|reflexivity|auto|cbn; lia|cbn; lia| | |].
      * intros i0 x0 H0. cbn in H0. destruct (decide (w_next_inst w1 = i0)) as [<-|Hne].
        -- rewrite lookup_insert in H0. injection H0 as <-. right. cbn. split_and!; [lia|lia|congruence|].
           rewrite Dx. exact Ix.
        -- rewrite lookup_insert_ne in H0 by exact Hne. left. exists x0. auto.
      * intros h0 hd0 H0. cbn in H0. destruct (decide (h = h0)) as [<-|Hne].
        -- rewrite lookup_insert in H0. injection H0 as <-. right. cbn. split; [lia|]. intros x0 Hx0. rewrite lookup_insert in Hx0. congruence.
        -- rewrite lookup_insert_ne in H0 by exact Hne. left. exists h0, hd0. auto.
      * intros p i0 H0. cbn in H0. destruct (decide (path = p)) as [<-|Hne].
        -- rewrite lookup_insert in H0. injection H0 as <-. right. cbn. split; [lia|]. intros x0 Hx0. rewrite lookup_insert in Hx0. congruence.
        -- rewrite lookup_insert_ne in H0 by exact Hne. auto.
  - destruct (w_handles w !! h) as [hd|]; [|discriminate]. destruct (h_unreg hd); [discriminate|]. injection Hst as Hst.
    eapply on_inst_apart; [exact A| |exact Hst]. intros x. unfold inst_put. destruct (i_poison x); [auto|].
    destruct (buffer_new key v); [|auto|auto]. destruct (i_valid x); [|auto]. unfold post. destruct (i_sender _); auto.
  - destruct (w_handles w !! h) as [hd|]; [|discriminate]. destruct (h_unreg hd); [discriminate|]. injection Hst as Hst.
    eapply on_inst_apart; [exact A| |exact Hst]. intros x. unfold inst_put_panic. destruct (i_poison x); auto.
  - destruct (w_handles w !! h) as [hd|]; [|discriminate]. destruct (h_unreg hd); [discriminate|]. injection Hst as Hst.
    eapply on_inst_apart; [exact A| |exact Hst]. intros x. auto.
  - destruct (w_handles w !! h) as [hd|]; [|discriminate]. destruct (h_unreg hd); [discriminate|]. injection Hst as Hst.
    eapply on_inst_apart; [exact A| |exact Hst]. intros x. auto.
  - destruct (w_handles w !! h) as [hd|]; [|discriminate]. destruct (h_unreg hd); [discriminate|]. injection Hst as Hst.
    eapply on_inst_apart; [exact A| |exact Hst]. intros x. unfold inst_delete. destruct (i_poison x); [auto|].
    destruct (i_valid x); [|auto]. destruct (i_map x !! key); [|auto]. unfold post. destruct (i_sender _); auto.
  - destruct (w_handles w !! h) as [hd|] eqn:Hh; [|discriminate]. destruct (h_unreg hd); [discriminate|]. injection Hst as Hst.
    cbn [option_map] in Hwk. assert (Hp : canon (h_path hd) <> d) by congruence. unfold do_clear in Hst.
    destruct (w_insts w !! h_inst hd) as [x|] eqn:Hx; [|injection Hst as <- _; split; [exact A|apply kept_refl]].
    destruct (i_poison x); [injection Hst as <- _; split; [exact A|apply kept_refl]|].
    pose proof (ap_handle _ A h hd x Hh Hx) as Dx.
    destruct (impl_clear E w (h_inst hd) x) as [w1 r1] eqn:Hc. assert (Hdx : i_dir x <> d) by congruence.
    destruct (clear_apart w (h_inst hd) x w1 r1 A Hx Hdx Hc) as (A1 & K1 & y & Hy & Dy).
    destruct r1 as [v|e|]; [|injection Hst as <- _; auto..].
    destruct (open_impl E w1 (h_path hd) (h_key hd)) as [w2 o] eqn:Ho.
    pose proof (open_opened w1 _ _ w2 o A1 Hp Ho) as O. pose proof (opened_apart _ _ _ _ A1 O) as A2. destruct O as [K O1 O2 O3 O4 O5 O6 O7].
    pose proof (kept_trans _ _ _ K1 K) as K2. rewrite <- O4 in Hy.
    destruct o as [z|].
    + destruct (O7 z eq_refl) as [Dz Iz].
      assert (Hz : forall z', i_dir z' = i_dir z -> i_ino z' = i_ino z -> apart (set_inst w2 (h_inst hd) z')).
      { intros z' Z1 Z2. apply (apart_transfer w2); [exact A2|reflexivity|auto|cbn; lia|cbn; lia| | |auto].
        - intros i0 x0 H0. cbn in H0. left. destruct (decide (h_inst hd = i0)) as [<-|Hne].
          + rewrite lookup_insert in H0. injection H0 as <-. exists y. split; [exact Hy|]. split; [congruence|]. right. split; [congruence|].
            change (d_data (dir_of w2 (i_dir z')) = Some (i_ino z')). rewrite Z1, Z2, Dz. exact Iz.
          + rewrite lookup_insert_ne in H0 by exact Hne. exists x0. auto.
        - intros h0 hd0 H0. left. exists h0, hd0. auto. }
      destruct (i_join _ && _); injection Hst as <- _; (split; [apply Hz; reflexivity|exact K2]).
    + rewrite Hy in Hst. injection Hst as <- _. split; [|exact K2]. eapply set_inst_apart; [exact A2|exact Hy|reflexivity|reflexivity].
  - destruct (w_handles w !! h) as [hd|] eqn:Hh; [|discriminate]. destruct (h_unreg hd); [discriminate|]. injection Hst as Hst.
    cbn [option_map] in Hwk. destruct (do_drop_reg w h hd) as [w1 r1] eqn:Hr. destruct (do_drop_arc E w1 h hd) as [w2 r2] eqn:Ha.
    injection Hst as <- _. destruct (drop_reg_apart w h hd w1 r1 A Hh Hr) as ((A1 & K1) & Hi).
    destruct (drop_arc_apart w1 h hd w2 r2 A1) as [A2 K2]; [|exact Ha|split; [exact A2|eapply kept_trans; eassumption]].
    intros x Hx. rewrite Hi in Hx. rewrite (ap_handle _ A h hd x Hh Hx). congruence.
  - destruct (w_handles w !! h) as [hd|] eqn:Hh; [|discriminate]. destruct (h_unreg hd); [discriminate|]. injection Hst as Hst.
    apply (drop_reg_apart w h hd w' r A Hh Hst).
  - destruct (w_handles w !! h) as [hd|] eqn:Hh; [|discriminate]. destruct (h_unreg hd); [|discriminate]. injection Hst as Hst.
    apply (drop_arc_apart w h hd w' r A); [|exact Hst]. cbn [option_map] in Hwk. intros x Hx. rewrite (ap_handle _ A h hd x Hh Hx). congruence.
  - injection Hst as <- _. destruct (w_insts w !! i) as [x|] eqn:Hx.
    + cbn [option_map] in Hwk. destruct (job_worked w i x A Hx); [congruence|]. auto.
    + unfold run_job. rewrite Hx. split; [exact A|apply kept_refl].
  - injection Hst as <- _. split; [|split; reflexivity].
    apply (apart_transfer w); [exact A|reflexivity|auto|cbn; lia|cbn; lia| | |].
    + intros i x Hx. cbn in Hx. rewrite lookup_empty in Hx. discriminate Hx.
    + intros h hd Hh. cbn in Hh. rewrite lookup_empty in Hh. discriminate Hh.
    + intros p i Hp. cbn in Hp. rewrite lookup_empty in Hp. discriminate Hp.
Qed.
End Apart.

(** A reachable world keeps its directories apart. *)
Lemma reach_apart E keyof es w rs d : ordinary E keyof es -> run E world0 es = Some (w, rs) -> apart E d w.
Proof.
  intros HO Hr. destruct (reach E keyof es HO w rs Hr) as (sp & _ & W). split.
  - intros i x j Hx Hdx Hj Heq. apply Hdx. destruct (wi_insts _ _ _ _ _ _ _ W i x Hx) as (_ & I & _).
    eapply (wi_ino _ _ _ _ _ _ _ W); [apply (io_data _ _ _ _ _ _ _ I)|congruence].
  - intros d' j H1 H2. eapply (wi_ino _ _ _ _ _ _ _ W); eassumption.
  - intros j Hj. eapply (wi_fresh _ _ _ _ _ _ _ W), Hj.
  - intros h hd x Hh Hx. destruct (handle_cases _ _ _ _ _ _ _ _ _ W Hh) as (_ & _ & _ & _ & _ & y & Hy & Dy & _). congruence.
  - intros p i x Hp Hx. destruct (wi_reg _ _ _ _ _ _ _ W p i Hp) as (_ & y & Hy & Dy). congruence.
  - intros i x Hx. apply (wi_insts _ _ _ _ _ _ _ W i x Hx).
  - intros h hd Hh. destruct (handle_cases _ _ _ _ _ _ _ _ _ W Hh) as (_ & _ & _ & _ & _ & y & Hy & _). apply (wi_insts _ _ _ _ _ _ _ W _ y Hy).
  - intros p i Hp. destruct (wi_reg _ _ _ _ _ _ _ W p i Hp) as (_ & y & Hy & _). apply (wi_insts _ _ _ _ _ _ _ W _ y Hy).
Qed.

(** * C80 *)

(** None of the events, as they happen, is a call on a handle of [d], a call
    opening [d] or background work for [d].  Nothing else is asked of them. *)
Fixpoint elsewhere (E : env) (d : bytes) (w : world) (es : list event) : Prop :=
  match es with
  | [] => True
  | e :: r => works_on E w e <> Some d /\ match step E w e with Some (w', _) => elsewhere E d w' r | None => True end
  end.

Lemma elsewhere_kept E d bad : forall w w2 rs2, apart E d w -> run E w bad = Some (w2, rs2) -> elsewhere E d w bad -> apart E d w2 /\ kept d w w2.
Proof.
  induction bad as [|e bad IH]; intros w w2 rs2 A Hr He.
  - cbn in Hr. injection Hr as <- _. split; [exact A|apply kept_refl].
  - cbn [run] in Hr. cbn [elsewhere] in He. destruct He as [H1 H2]. destruct (step E w e) as [[w1 r]|] eqn:Hst; [|discriminate].
    destruct (run E w1 bad) as [[w3 r3]|] eqn:Hr1; [|discriminate]. injection Hr as <- _.
    destruct (step_apart E d w e w1 r A Hst H1) as [A1 K1]. destruct (IH w1 w3 r3 A1 Hr1 H2) as [A2 K2].
    split; [exact A2|]. eapply kept_trans; eassumption.
Qed.

(** Whatever is done to other stores, in this process and in later ones: the
    files of [d] do not change. *)
Theorem C80_files_are_left_alone E keyof es w rs0 bad w2 rs2 d :
  ordinary E keyof es -> run E world0 es = Some (w, rs0) -> run E w bad = Some (w2, rs2) -> elsewhere E d w bad ->
  file_at w2 d = file_at w d /\ meta_at w2 d = meta_at w d.
Proof.
  intros HO Hr Hb He. destruct (elsewhere_kept E d bad w w2 rs2 (reach_apart E keyof es w rs0 d HO Hr) Hb He) as [_ [K1 K2]].
  apply same_disk_by; assumption.
Qed.

Lemma kept_opens E keyof es w rs0 w2 d f h p :
  ordinary E keyof es -> run E world0 es = Some (w, rs0) -> kept d w w2 -> file_at w d = Some f -> In p (paths es) -> e_canon E p = d ->
  exists s' w3, killed_to E es w s' /\ step E (killed w2) (ENew h p (keyof d)) = Some (w3, ROk None) /\
    answers_as E w3 h (contents s' d) /\ forall pr, ends pr E (killed w2) (ENew h p (keyof d)) = false.
Proof.
  intros HO Hr [K1 K2] Hf Hp Hcp. destruct (reach E keyof es HO w rs0 Hr) as (sp & Hsp & W).
  destruct (file_WOk E keyof _ (PU_inj E keyof _ HO) w sp _ _ d f W Hf) as (s' & rs & nonce & Hh & Hd & HM & HW & HR). exists s'.
  assert (Hkt : killed_to E es w s').
  { split; [exact Hh|]. intros d'. destruct (Hd d') as (k & Hk & HH).
    destruct (hist0_sound E keyof _ (PU_dir E keyof _ HO) (PU_key E keyof _ HO) (PU_inj E keyof _ HO) spec0 es d' k _ sp rs0 Hsp HH) as (es1 & es2 & s1 & rs1 & A & B & C & D).
    exists es1, es2, s1, rs1. split_and!; auto. rewrite D. exact Hk. }
  destruct (PU_call E keyof es HO p Hp) as [Hdo Hkey]. rewrite Hcp in Hkey.
  destruct (feature_key (e_feat E) (keyof d)) as [ky|] eqn:Hky; [|contradiction].
  assert (Hk' : kof E keyof d = ky) by (unfold kof; rewrite Hky; reflexivity).
  assert (Hlaw : codec_law (feature_codec (e_feat E) (kof E keyof d) nonce) (record_pos (e_feat E)) (record_size (e_feat E))).
  { apply feature_law, (eo_feat _ (or_env _ _ _ HO)). }
  pose proof (WOk_nonempty E _ _ _ _ Hlaw HW) as Hne. cbn [closed_st s_file] in Hne.
  assert (Hnn : f <> []). { intros G. rewrite G in Hne. unfold len in Hne. cbn in Hne. lia. }
  unfold file_at in Hf. destruct (d_data (dir_of w d)) as [ino|] eqn:Hdata; [|discriminate Hf]. injection Hf as Hf.
  assert (HC : feature_codec (e_feat E) ky (if is_encrypted (e_feat E) then nonce else []) = feature_codec (e_feat E) (kof E keyof d) nonce).
  { rewrite Hk'. destruct (e_feat E); reflexivity. }
  destruct HW as (I & _). destruct (eo_plat _ (or_env _ _ _ HO)) as [H64 Hpage Hmax Hhord].
  pose proof (inv_read_all _ _ _ _ H64 Hlaw Hmax _ _ I) as R1. rewrite (view_full _ (inv_ml _ _ _ _ _ I)) in R1. cbn [closed_st s_file] in R1.
  assert (Q1 : w_handles (killed w2) !! h = None) by apply lookup_empty.
  assert (Q2 : lookup_reg (killed w2) p = None) by (unfold lookup_reg, killed; cbn [w_reg]; rewrite lookup_empty; reflexivity).
  assert (Q3 : d_data (dir_of (killed w2) (e_canon E p)) = Some ino).
  { change (dir_of (killed w2) (e_canon E p)) with (dir_of w2 (e_canon E p)). rewrite Hcp, K1. exact Hdata. }
  assert (Q4 : inode (killed w2) ino = f).
  { change (inode (killed w2) ino) with (inode w2 ino). rewrite K2 by reflexivity. exact Hf. }
  assert (Q5 : match e_feat E with FPlain => (if is_encrypted (e_feat E) then nonce else []) = []
    | FEncrypted _ => d_meta (dir_of (killed w2) (e_canon E p)) = Some (if is_encrypted (e_feat E) then nonce else []) /\ length (if is_encrypted (e_feat E) then nonce else []) = nonce_len end).
  { change (dir_of (killed w2) (e_canon E p)) with (dir_of w2 (e_canon E p)). rewrite Hcp, K1. unfold meta_ok in HM. destruct (e_feat E); [reflexivity|exact HM]. }
  pose proof (open_answers E (killed w2) h p (keyof d) ky _ ino f eq_refl Q1 Q2 Hdo Q3 Q4 Hnn Hky Q5) as Ho.
  rewrite HC, R1 in Ho. destruct Ho as (w3 & Hst & Hget). exists w3. split; [exact Hkt|]. split; [exact Hst|]. split.
  - intros k t Ht. rewrite Hget. f_equal. f_equal. unfold get_answer. apply (get_refines E); assumption.
  - intros pr. rewrite (open_ends_left pr E (killed w2) h p (keyof d) ky _ ino f eq_refl Q1 Q2 Hdo Q3 Q4 Hnn Hky Q5).
    rewrite HC, R1. reflexivity.
Qed.

(** When the process is over, however it ended, [d] opens again and holds
    what a kill before those events would have left: every call on [d] but
    those still queued. *)
Theorem C80_other_stores_survive E keyof es w rs0 bad w2 rs2 d h p :
  ordinary E keyof es -> run E world0 es = Some (w, rs0) -> run E w bad = Some (w2, rs2) -> elsewhere E d w bad ->
  In p (paths es) -> e_canon E p = d ->
  exists s' w3, killed_to E es w s' /\ step E (killed w2) (ENew h p (keyof d)) = Some (w3, ROk None) /\
    answers_as E w3 h (contents s' d) /\ forall pr, ends pr E (killed w2) (ENew h p (keyof d)) = false.
Proof.
  intros HO Hr Hb He Hp Hcp. destruct (file_exists E keyof es w rs0 p HO Hr Hp) as (f & Hf). rewrite Hcp in Hf.
  destruct (elsewhere_kept E d bad w w2 rs2 (reach_apart E keyof es w rs0 d HO Hr) Hb He) as [_ K].
  eapply kept_opens; eassumption.
Qed.

(** In particular when one of the events took the process with it. *)
Theorem C80_when_the_process_is_gone pr E keyof es w rs0 bad w2 rs2 d h p :
  ordinary E keyof es -> run E world0 es = Some (w, rs0) -> frun pr E w bad = Some (w2, rs2, true) -> elsewhere E d w bad ->
  In p (paths es) -> e_canon E p = d ->
  exists s' w3, killed_to E es w s' /\ fstep pr E w2 (ENew h p (keyof d)) = Some (Lives w3 (ROk None)) /\
    answers_as E w3 h (contents s' d).
Proof.
  intros HO Hr Hb He Hp Hcp. destruct (file_exists E keyof es w rs0 p HO Hr Hp) as (f & Hf). rewrite Hcp in Hf.
  assert (G : exists w1, w2 = killed w1 /\ kept d w w1).
  { clear Hf Hp. pose proof (reach_apart E keyof es w rs0 d HO Hr) as A. clear HO Hr. revert w rs2 A Hb He.
    induction bad as [|e bad IH]; intros w rs2 A Hb He; [discriminate Hb|]. cbn [frun] in Hb. cbn [elsewhere] in He.
    destruct He as [H1 H2]. unfold fstep in Hb. destruct (step E w e) as [[w1 r]|] eqn:Hst; [|discriminate Hb].
    destruct (step_apart E d w e w1 r A Hst H1) as [A1 K1]. destruct (ends pr E w e).
    - injection Hb as <- _. eauto.
    - destruct (frun pr E w1 bad) as [[[w3 r3] b]|] eqn:Hb1; [|discriminate Hb]. injection Hb as -> _ ->.
      destruct (IH w1 r3 A1 Hb1 H2) as (w4 & -> & K2). exists w4. split; [reflexivity|]. eapply kept_trans; eassumption. }
  destruct G as (w1 & -> & K). destruct (kept_opens E keyof es w rs0 w1 d f h p HO Hr K Hf Hp Hcp) as (s' & w3 & A & B & C & D).
  exists s', w3. split; [exact A|]. split; [|exact C]. unfold fstep. rewrite B, D. reflexivity.
Qed.

Fixpoint elsewhereb (E : env) (d : bytes) (w : world) (es : list event) : bool :=
  match es with
  | [] => true
  | e :: r => negb (bool_decide (works_on E w e = Some d)) && match step E w e with Some (w', _) => elsewhereb E d w' r | None => true end
  end.

Lemma elsewhereb_ok E d es : forall w, elsewhereb E d w es = true -> elsewhere E d w es.
Proof.
  induction es as [|e es IH]; intros w H; [exact Logic.I|]. cbn [elsewhereb elsewhere] in *. apply andb_true_iff in H as [H1 H2].
  split; [apply negb_true_iff, bool_decide_eq_false in H1; exact H1|]. destruct (step E w e) as [[w' r]|]; [apply IH, H2|exact Logic.I].
Qed.

(** Two stores; a value that is too large is put into the second one.  With
    unwinding and with the shipped profile the background thread takes the
    process with it; the first store opens again. *)
Definition ex_two : list event := [ENew 0 dir_d ex_key; EPut 0 k1 hello; EIo 0; ENew 1 dir_e ex_key].
Definition ex_accident : list event := [EPut 1 k2 ex_big; EIo 1; EPut 1 k1 hello].

Example C80_example : forall pr, pr = unwinding \/ pr = shipped ->
  ordinary (ex_env FPlain) ex_keyof ex_two /\
  match run (ex_env FPlain) world0 ex_two with
  | Some (w, _) =>
      elsewhere (ex_env FPlain) dir_d w ex_accident /\
      match frun pr (ex_env FPlain) w ex_accident with
      | Some (w2, rs2, b) => (rs2, b) = ([ROk None], true) /\
          match frun pr (ex_env FPlain) w2 [ENew 0 dir_d ex_key; EGet 0 k1 TStr] with
          | Some (_, rs3, b3) => (rs3, b3) = ([ROk None; ROk (Some hello)], false)
          | None => False
          end
      | None => False
      end
  | None => False
  end.
Proof.
  intros pr Hpr.
  assert (R : match run (ex_env FPlain) world0 ex_two with
    | Some (w, _) => (elsewhereb (ex_env FPlain) dir_d w ex_accident,
        match frun pr (ex_env FPlain) w ex_accident with
        | Some (w2, rs2, b) => Some (rs2, b, outcome (frun pr (ex_env FPlain) w2 [ENew 0 dir_d ex_key; EGet 0 k1 TStr]))
        | None => None
        end)
    | None => (false, None)
    end = (true, Some ([ROk None], true, Some ([ROk None; ROk (Some hello)], false)))).
  { destruct Hpr as [->| ->]; vm_compute; reflexivity. }
  split; [apply ordinaryb_ok; [apply ex_env_ok; exact Logic.I|vm_compute; reflexivity]|].
  destruct (run (ex_env FPlain) world0 ex_two) as [[w rs]|]; [|discriminate R].
  apply pair_equal_spec in R as [R1 R2]. split; [apply elsewhereb_ok, R1|].
  destruct (frun pr (ex_env FPlain) w ex_accident) as [[[w2 rs2] b]|]; [|discriminate R2].
  assert (R3 : (rs2, b) = ([ROk None], true) /\ outcome (frun pr (ex_env FPlain) w2 [ENew 0 dir_d ex_key; EGet 0 k1 TStr]) = Some ([ROk None; ROk (Some hello)], false)).
  { injection R2 as -> -> R2. auto. }
  destruct R3 as [R3 R4]. split; [exact R3|].
  destruct (frun pr (ex_env FPlain) w2 _) as [[[w3 rs3] b3]|]; [|discriminate R4]. cbn [outcome] in R4. congruence.
Qed.
