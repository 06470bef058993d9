(** C60: threads opening, using and closing stores at the same time. *)
From Verif Require Import Bytes Utf8 Proto ProtoFacts Value Codec Store StoreFacts Encrypt World Spec Hyps Refine WorldInv WorldStep Main Frames Reach Examples P_Map P_Store P_Fail P_Alias Looper P_Loop Conc P_Conc P_Live Reg.
From Coq Require Import ZifyBool ZifyNat ZifyN.
Local Open Scope N_scope.

(** ** The registry's lock *)

(** Program points at which a call has the write lock for sure. *)
Definition wr (p : rpc) : bool := match p with QWrite | QOpen | QIns _ | QRem _ => true | _ => false end.
Definition rel (p : rpc) : bool := match p with QRel _ => true | _ => false end.

Record LK (s : reg) : Prop := {
  k_r : forall c, c ∈ r_readers s -> exists p o, r_ops s !! c = Some (p, o) /\ (p = QRead \/ rel p = true);
  k_w : forall c, r_writer s = Some c -> exists p o, r_ops s !! c = Some (p, o) /\ wr p || rel p = true;
  k_x : forall c, r_writer s = Some c -> r_readers s = ∅;
  k_rd : forall c o, r_ops s !! c = Some (QRead, o) -> c ∈ r_readers s;
  k_wr : forall c p o, r_ops s !! c = Some (p, o) -> wr p = true -> r_writer s = Some c;
  k_nx : forall c x, r_ops s !! c = Some x -> c < r_next s
}.

Ltac ins H d c := destruct (decide (d = c)) as [->|]; [rewrite lookup_insert in H|rewrite lookup_insert_ne in H by congruence].
Ltac at_op d c := destruct (decide (d = c)) as [->|]; [rewrite ?lookup_insert, ?lookup_delete in *|rewrite ?lookup_insert_ne, ?lookup_delete_ne in * by congruence].

(** The call moves on without touching the lock. *)
Lemma LK_move s c p o p' w dd : LK s -> r_ops s !! c = Some (p, o) ->
  (p = QRead \/ wr p = true -> wr p = wr p' \/ rel p' = true) -> (p = QRead -> rel p' = true) -> (rel p = false) ->
  (p' = QRead -> False) -> (wr p' = true -> wr p = true) ->
  LK (Reg w (r_readers s) (r_writer s) (<[c := (p', o)]> (r_ops s)) (r_next s) dd).
Proof.
  intros [A1 A2 A3 A4 A5 A6] Hc B1 B2 B3 B4 B5. split; cbn.
  - intros d X. destruct (A1 d X) as (q & oq & Y & Z). at_op d c; [|eauto]. rewrite Hc in Y. injection Y as <- <-.
    eexists _, _. split; [reflexivity|]. right. destruct Z as [Z|Z]; [auto|congruence].
  - intros d X. destruct (A2 d X) as (q & oq & Y & Z). at_op d c; [|eauto]. rewrite Hc in Y. injection Y as <- <-.
    eexists _, _. split; [reflexivity|]. rewrite B3, orb_false_r in Z. destruct B1 as [B1|B1]; auto; rewrite ?B1, ?orb_true_r; [|auto]. rewrite <- B1, Z. auto.
  - exact A3.
  - intros d od X. at_op d c; [|eauto]. injection X as -> <-. destruct B4. reflexivity.
  - intros d q od X Y. at_op d c; [|eauto]. injection X as <- <-. eauto.
  - intros d x X. at_op d c; eauto.
Qed.

Lemma LK_0 : LK reg0.
Proof. split; cbn; intros; set_solver. Qed.

Lemma LK_begin s p o w : LK s -> p = QWant \/ p = QWantW -> LK (set_w (begin s p o) w).
Proof.
  intros [A1 A2 A3 A4 A5 A6] Hp.
  assert (Fr : r_ops s !! r_next s = None) by (destruct (r_ops s !! r_next s) as [x|] eqn:X; [apply A6 in X; lia|reflexivity]).
  split; cbn; auto.
  - intros d X. destruct (A1 d X) as (q & oq & Y & Z). at_op d (r_next s); [congruence|eauto].
  - intros d X. destruct (A2 d X) as (q & oq & Y & Z). at_op d (r_next s); [congruence|eauto].
  - intros d od X. at_op d (r_next s); [|eauto]. injection X as -> _. destruct Hp; discriminate.
  - intros d q od X Y. at_op d (r_next s); [|eauto]. injection X as <- _. destruct Hp; subst; discriminate.
  - intros d x X. at_op d (r_next s); [lia|]. apply A6 in X. lia.
Qed.

Section Locks.
Context (E : env).

Lemma LK_step s a s' : LK s -> rstep E s a s' -> LK s'.
Proof.
  intros L X.
  destruct X as [s path key|s h o U|s h U Nc|s c path key Hc Hw|s c path key Hc Hp|s c path key i Hc Hp Hf|s c path key Hc Hp Hf|s c o Hc Hw Hr|s c path key Hc Hp
    |s c path key i Hc Hp Hf|s c path key Hc Hp Hf|s c path key w x Hc Ho|s c path key w Hc Ho|s c path key i Hc|s c h hd Hc Hp Hh|s c h hd Hc Hp Hh|s c h hd last Hc Hh
    |s c o r Hc|s c h hd r Hc Hh Hs|s c h hd r Hc Hh Hs|s c h hd r x Hc Hh Hx Hq|s c h o w r Hc Hs|s i x Hx Hq Hi|s c o r Hc];
    try (apply (LK_begin s _ _ (r_world s) L); auto; fail);
    try (unfold set_op, set_w, set_dead; cbn; eapply LK_move; [exact L|eassumption|cbn; intros; auto; try discriminate; intuition discriminate..]; fail).
  - (* read *)
    destruct L as [A1 A2 A3 A4 A5 A6]. split; cbn.
    + intros d X. at_op d c; [eauto|]. destruct (A1 d) as (q & oq & Y & Z); [set_solver|eauto].
    + intros d X. congruence.
    + intros d X. congruence.
    + intros d od X. at_op d c; [set_solver|]. apply A4 in X. set_solver.
    + intros d q od X Y. at_op d c; [|eauto]. injection X as <- _. discriminate Y.
    + intros d x X. at_op d c; eauto.
  - (* miss *)
    destruct L as [A1 A2 A3 A4 A5 A6]. split; cbn.
    + intros d X. destruct (A1 d) as (q & oq & Y & Z); [set_solver|]. at_op d c; [set_solver|eauto].
    + intros d X. destruct (A2 d X) as (q & oq & Y & Z). at_op d c; [|eauto]. rewrite Hc in Y. injection Y as <- _. discriminate Z.
    + intros d X. rewrite (A3 d X). set_solver.
    + intros d od X. at_op d c; [discriminate X|]. apply A4 in X. set_solver.
    + intros d q od X Y. at_op d c; [injection X as <- _; discriminate Y|eauto].
    + intros d x X. at_op d c; eauto.
  - (* write *)
    destruct L as [A1 A2 A3 A4 A5 A6]. split; cbn.
    + intros d X. set_solver.
    + intros d X. injection X as <-. rewrite lookup_insert. eauto.
    + auto.
    + intros d od X. at_op d c; [discriminate X|]. apply A4 in X. set_solver.
    + intros d q od X Y. at_op d c; [reflexivity|]. specialize (A5 _ _ _ X Y). congruence.
    + intros d x X. at_op d c; eauto.
  - (* release *)
    destruct L as [A1 A2 A3 A4 A5 A6]. set (q' := match o with OClose _ => QArc r | _ => QDone r end).
    assert (Q : wr q' = false /\ q' <> QRead) by (unfold q'; destruct o; split; (reflexivity || discriminate)).
    split; cbn.
    + intros d X. destruct (A1 d) as (q & oq & Y & Z); [set_solver|]. at_op d c; [set_solver|eauto].
    + intros d X. destruct (decide (r_writer s = Some c)) as [W|W]; [discriminate X|]. destruct (A2 d X) as (q & oq & Y & Z). at_op d c; [congruence|eauto].
    + intros d X. destruct (decide (r_writer s = Some c)) as [W|W]; [discriminate X|]. rewrite (A3 d X). set_solver.
    + intros d od X. at_op d c; [injection X as X _; destruct Q; contradiction|]. apply A4 in X. set_solver.
    + intros d q od X Y. at_op d c; [injection X as <- _; destruct Q; congruence|]. pose proof (A5 _ _ _ X Y) as W.
      destruct (decide (r_writer s = Some c)) as [W'|W']; [congruence|exact W].
    + intros d x X. at_op d c; eauto.
  - destruct L. split; auto.
  - destruct L as [A1 A2 A3 A4 A5 A6]. split; cbn; auto.
    + intros d X. destruct (A1 d X) as (q & oq & Y & Z). at_op d c; [|eauto]. rewrite Hc in Y. injection Y as <- _. destruct Z; discriminate.
    + intros d X. destruct (A2 d X) as (q & oq & Y & Z). at_op d c; [|eauto]. rewrite Hc in Y. injection Y as <- _. discriminate.
    + intros d od X. at_op d c; [discriminate X|eauto].
    + intros d q od X Y. at_op d c; [discriminate X|eauto].
    + intros d x X. at_op d c; [discriminate X|eauto].
Qed.

End Locks.

(** ** Handles, the registry and the calls under way *)

(** Updates that leave handles and registry alone. *)
Record benign (w w' : world) : Prop := {
  b_handles : w_handles w' = w_handles w;
  b_reg : w_reg w' = w_reg w;
  b_next : w_next_inst w' = w_next_inst w;
  b_poison : w_poison w' = w_poison w;
  b_insts : forall i, is_Some (w_insts w' !! i) <-> is_Some (w_insts w !! i)
}.

Lemma benign_refl w : benign w w.
Proof. split; reflexivity || tauto. Qed.
Lemma benign_trans w1 w2 w3 : benign w1 w2 -> benign w2 w3 -> benign w1 w3.
Proof. intros [A B C D F] [A' B' C' D' F']. split; try congruence. intros i. rewrite F'. apply F. Qed.
Lemma benign_set w i x y : w_insts w !! i = Some x -> benign w (set_inst w i y).
Proof. intros Hx. split; try reflexivity. intros j. cbn. at_op j i; [|tauto]. rewrite Hx. split; eauto. Qed.

Section Benign.
Context (E : env).

Lemma benign_job w i : benign w (run_job E w i).
Proof.
  unfold run_job. destruct (w_insts w !! i) as [x|] eqn:Hx; [|apply benign_refl].
  destruct (i_io x), (i_queue x) as [|[m dup|] q]; try apply benign_refl.
  - destruct (write _ _ _ m dup) as [s ok]. destruct (benign_set w i x (i_after x q (if ok then IoRun else IoDead) s) Hx). split; auto.
  - destruct (benign_set w i x (i_with_queue x q) Hx). split; auto.
Qed.

Lemma benign_drain w i : benign w (drain E w i).
Proof.
  unfold drain. destruct (w_insts w !! i) as [x|]; [|apply benign_refl]. induction (length (i_queue x)) as [|n IH]; [apply benign_refl|].
  rewrite Nat.iter_succ. eapply benign_trans; [exact IH|apply benign_job].
Qed.

Lemma benign_open w p k w1 o : open_impl E w p k = (w1, o) -> benign w w1.
Proof. intros H. apply open_impl_sub in H as (A & B & C & D & F & _). split; auto. intros i. rewrite A. tauto. Qed.

Lemma benign_on w i f w' r : on_inst w i f = (w', r) -> benign w w'.
Proof.
  unfold on_inst. destruct (w_insts w !! i) as [x|] eqn:Hx; [|intros [= <- _]; apply benign_refl].
  destruct (f x) as [y r']. intros [= <- _]. eapply benign_set, Hx.
Qed.

Lemma benign_impl_clear w i x w' r : w_insts w !! i = Some x -> impl_clear E w i x = (w', r) -> benign w w'.
Proof.
  intros Hx. unfold impl_clear. destruct (negb (i_valid x)); [intros [= <- _]; apply benign_refl|].
  destruct (post (i_invalid x) JRemove) as [x1 r1]. pose proof (benign_set w i x x1 Hx) as B1.
  destruct r1; [|intros [= <- _]; exact B1..].
  pose proof (benign_drain (set_inst w i x1) i) as B2.
  destruct (w_insts (drain E _ i) !! i) as [x2|] eqn:Hx2; intros [= <- _]; eapply benign_trans; try exact B1; [|exact B2].
  eapply benign_trans; [exact B2|eapply benign_set, Hx2].
Qed.

Lemma benign_clear w hd w' r : do_clear E w hd = (w', r) -> benign w w'.
Proof.
  unfold do_clear. destruct (w_insts w !! h_inst hd) as [x|] eqn:Hx; [|intros [= <- _]; apply benign_refl].
  destruct (i_poison x); [intros [= <- _]; apply benign_refl|].
  destruct (impl_clear E w (h_inst hd) x) as [w1 r1] eqn:Ec. pose proof (benign_impl_clear _ _ _ _ _ Hx Ec) as B1.
  destruct r1; [|intros [= <- _]; exact B1..].
  destruct (open_impl E w1 (h_path hd) (h_key hd)) as [w2 o] eqn:Eo. pose proof (benign_trans _ _ _ B1 (benign_open _ _ _ _ _ Eo)) as B2.
  assert (Hi : exists y, w_insts w2 !! h_inst hd = Some y). { apply (b_insts _ _ B2). eauto. } destruct Hi as [y Hy].
  destruct o as [z|].
  - destruct (_ && _)%bool; intros [= <- _]; eapply benign_trans; try exact B2; eapply benign_set, Hy.
  - rewrite Hy. intros [= <- _]. eapply benign_trans; [exact B2|]. eapply benign_set, Hy.
Qed.

Lemma benign_call w h o w' r : step E w (event_of h o) = Some (w', r) -> benign w w'.
Proof.
  destruct o; cbn [event_of step]; intros H; apply with_handle_Some in H as (hd & Hh & _ & H); eauto using benign_on, benign_clear.
Qed.

End Benign.

(** Handle [h], being [hd], is the only one of its store. *)
Definition alone (m : gmap N handle) (h : N) (hd : handle) : Prop := forall h' hd', m !! h' = Some hd' -> h_inst hd' = h_inst hd -> h' = h.
(** No open handle has this path. *)
Definition no_open (m : gmap N handle) (path : bytes) : Prop := forall h hd, m !! h = Some hd -> h_unreg hd = false -> h_path hd <> path.

(** What is known about a call by where it is. *)
Definition op_ok (s : reg) (c : N) (p : rpc) (o : rop) : Prop :=
  let w := r_world s in let m := w_handles w in
  match o, p with
  | OOpen path key, (QWant | QRead | QWantW | QWrite) => m !! c = None
  | OOpen path key, QOpen => m !! c = None /\ no_open m path /\ find s path = None /\ w_poison w = false
  | OOpen path key, QIns i => m !! c = None /\ no_open m path /\ is_Some (w_insts w !! i) /\ i < w_next_inst w /\ (forall h hd, m !! h = Some hd -> h_inst hd <> i)
  | OOpen _ _, (QRel _ | QDone _) => True
  | OClose h, (QWantW | QWrite) => exists hd, m !! h = Some hd /\ h_unreg hd = false
  | OClose h, QRem b => exists hd, m !! h = Some hd /\ h_unreg hd = false /\ (b = true -> alone m h hd)
  | OClose h, (QRel _ | QArc _) => exists hd, m !! h = Some hd /\ h_unreg hd = true
  | OClose h, QJoin _ => exists hd, m !! h = Some hd /\ h_unreg hd = true /\ alone m h hd /\ h_inst hd ∈ r_dead s
  | OClose h, QDone _ => m !! h = None
  | OCall h _, QWant => exists hd, m !! h = Some hd /\ h_unreg hd = false
  | OCall h _, QDone _ => True
  | _, _ => False
  end.

Record HN (s : reg) : Prop := {
  n_hnext : forall h hd, w_handles (r_world s) !! h = Some hd -> h < r_next s;
  n_inst : forall h hd, w_handles (r_world s) !! h = Some hd -> is_Some (w_insts (r_world s) !! h_inst hd) /\ h_inst hd < w_next_inst (r_world s);
  n_op : forall c p o, r_ops s !! c = Some (p, o) -> op_ok s c p o;
  n_close : forall c p c' p' h, r_ops s !! c = Some (p, OClose h) -> r_ops s !! c' = Some (p', OClose h) -> c = c';
  n_excl : forall c p c' p' h o, r_ops s !! c = Some (p, OCall h o) -> r_ops s !! c' = Some (p', OClose h) -> False;
  n_own : forall c p h, r_ops s !! c = Some (p, OClose h) -> r_ops s !! h = None /\ h < r_next s;
  n_unreg : forall h hd, w_handles (r_world s) !! h = Some hd -> h_unreg hd = true -> exists c p, r_ops s !! c = Some (p, OClose h);
  n_reg : forall h hd, w_handles (r_world s) !! h = Some hd -> h_unreg hd = false -> w_reg (r_world s) !! h_path hd = Some (h_inst hd);
  n_dead : forall i, i ∈ r_dead s -> exists c h r hd, r_ops s !! c = Some (QJoin r, OClose h) /\ w_handles (r_world s) !! h = Some hd /\ h_inst hd = i;
  n_ibound : forall i x, w_insts (r_world s) !! i = Some x -> i < w_next_inst (r_world s)
}.

Lemma HN_0 : HN reg0.
Proof. split; cbn; intros; set_solver. Qed.

(** A call moves on and the world changes benignly. *)
Lemma HN_move s s' c p o p' : HN s -> benign (r_world s) (r_world s') -> r_ops s !! c = Some (p, o) ->
  r_ops s' = <[c := (p', o)]> (r_ops s) -> r_next s' = r_next s -> r_dead s' = r_dead s ->
  (forall r h, p = QJoin r -> o = OClose h -> False) -> op_ok s' c p' o -> HN s'.
Proof.
  intros [A1 A2 A3 A4 A5 A6 A7 A8 A9 A10] B Hc Eo En Ed Nj Ok. pose proof B as [B1 B2 B3 B4 B5]. split; rewrite ?Eo, ?En, ?Ed, ?B1, ?B2, ?B3.
  - exact A1.
  - intros h hd Hh. destruct (A2 h hd Hh) as [Y Z]. split; [apply B5, Y|exact Z].
  - intros d q od X. at_op d c; [injection X as <- <-; exact Ok|]. apply A3 in X. revert X. unfold op_ok, find, lookup_reg. rewrite B1, B2, B3, B4, Ed.
    assert (F : forall i, bool_decide (is_Some (w_insts (r_world s') !! i)) = bool_decide (is_Some (w_insts (r_world s) !! i))) by (intros i; apply bool_decide_ext, B5).
    destruct od, q; try (intros X; exact X).
    + intros (X1 & X2 & X3 & X4). split_and!; [exact X1|exact X2| |exact X4]. destruct (w_reg (r_world s) !! path); [rewrite F|]; exact X3.
    + intros (X1 & X2 & X3 & X4 & X5). split_and!; [exact X1|exact X2|apply B5, X3|exact X4|exact X5].
  - intros d q d' q' h X Y. at_op d c; at_op d' c; eauto; rewrite ?lookup_insert, ?lookup_insert_ne in * by congruence; try congruence.
    + injection X as -> ->. eauto.
    + injection Y as -> ->. eauto.
  - intros d q d' q' h oo X Y. at_op d c; at_op d' c; rewrite ?lookup_insert, ?lookup_insert_ne in * by congruence; try congruence.
    + injection X as -> ->. eauto.
    + injection Y as -> ->. eauto.
    + eauto.
  - intros d q h X. at_op d c.
    + injection X as <- ->. destruct (A6 _ _ _ Hc) as [Y Z]. split; [|exact Z]. at_op h c; [congruence|exact Y].
    + destruct (A6 _ _ _ X) as [Y Z]. split; [|exact Z]. at_op h c; [congruence|exact Y].
  - intros h hd Hh Hu. destruct (A7 h hd Hh Hu) as (d & q & Y). destruct (decide (d = c)) as [->|Hne].
    + rewrite Hc in Y. injection Y as _ ->. exists c, p'. apply lookup_insert.
    + exists d, q. rewrite lookup_insert_ne by congruence. exact Y.
  - exact A8.
  - intros i Hi. destruct (A9 i Hi) as (d & h & r & hd & X & Y). exists d, h, r, hd. split; [|exact Y].
    at_op d c; [|exact X]. rewrite Hc in X. injection X as -> ->. destruct (Nj r h eq_refl eq_refl).
  - intros i x Hx. destruct (proj1 (B5 i) (mk_is_Some _ _ Hx)) as [y Hy]. eauto.
Qed.

Lemma wr_only s c d q od : LK s -> c ∈ r_readers s \/ r_writer s = Some c -> r_ops s !! d = Some (q, od) -> wr q = true -> d = c.
Proof.
  intros L [H|H] X Y; pose proof (k_wr _ L _ _ _ X Y) as W; [|congruence]. rewrite (k_x _ L _ W) in H. set_solver.
Qed.

Lemma HN_begin s p o : LK s -> HN s ->
  match o with
  | OOpen _ _ => p = QWant
  | OCall h _ => p = QWant /\ usable s h
  | OClose h => p = QWantW /\ usable s h /\ (forall c q x, r_ops s !! c = Some (q, OCall h x) -> False)
  end -> HN (begin s p o).
Proof.
  intros L HH Hs. pose proof HH as [A1 A2 A3 A4 A5 A6 A7 A8 A9 A10].
  assert (Fr : r_ops s !! r_next s = None) by (destruct (r_ops s !! r_next s) as [x|] eqn:X; [apply (k_nx _ L) in X; lia|reflexivity]).
  assert (Fh : w_handles (r_world s) !! r_next s = None) by (destruct (w_handles (r_world s) !! r_next s) as [x|] eqn:X; [apply A1 in X; lia|reflexivity]).
  assert (Us : forall h, usable s h -> exists hd, w_handles (r_world s) !! h = Some hd /\ h_unreg hd = false).
  { intros h ([hd Hh] & _ & Hn). exists hd. split; [exact Hh|]. destruct (h_unreg hd) eqn:Hu; [|reflexivity].
    destruct (A7 h hd Hh Hu) as (c & q & X). destruct (Hn _ _ X). }
  split; cbn; auto.
  - intros h hd Hh. apply A1 in Hh. lia.
  - intros d q od X. at_op d (r_next s); [injection X as <- <-|apply A3 in X; exact X].
    destruct o; cbn; [subst p; exact Fh|destruct Hs as (-> & Hs & _); apply Us, Hs|destruct Hs as (-> & Hs); apply Us, Hs].
  - intros d q d' q' h X Y. at_op d (r_next s); at_op d' (r_next s); rewrite ?lookup_insert, ?lookup_insert_ne in * by congruence; auto.
    + injection X as -> ->. destruct Hs as (_ & (_ & _ & Hs) & _). destruct (Hs _ _ Y).
    + injection Y as -> ->. destruct Hs as (_ & (_ & _ & Hs) & _). destruct (Hs _ _ X).
    + eauto.
  - intros d q d' q' h oo X Y. at_op d (r_next s); at_op d' (r_next s); rewrite ?lookup_insert, ?lookup_insert_ne in * by congruence.
    + congruence.
    + injection X as -> ->. destruct Hs as (_ & (_ & _ & Hs)). destruct (Hs _ _ Y).
    + injection Y as -> ->. destruct Hs as (_ & _ & Hs). destruct (Hs _ _ _ X).
    + eauto.
  - intros d q h X. at_op d (r_next s).
    + injection X as -> ->. destruct Hs as (_ & ([hd Hh] & Hs & _) & _). apply A1 in Hh. split; [|lia]. rewrite lookup_insert_ne by lia. exact Hs.
    + destruct (A6 _ _ _ X) as [Y Z]. split; [|lia]. rewrite lookup_insert_ne by lia. exact Y.
  - intros h hd Hh Hu. destruct (A7 h hd Hh Hu) as (d & q & Y). exists d, q. rewrite lookup_insert_ne by congruence. exact Y.
  - intros i Hi. destruct (A9 i Hi) as (d & h & r & hd & X & Y). exists d, h, r, hd. split; [|exact Y]. rewrite lookup_insert_ne by congruence. exact X.
Qed.

(** The lock of the registry is poisoned. *)
Lemma HN_poison s : HN s -> (forall d od, r_ops s !! d <> Some (QOpen, od)) -> HN (set_w s (set_poison (r_world s))).
Proof.
  intros [A1 A2 A3 A4 A5 A6 A7 A8 A9 A10] Hn. split; auto. intros d q od X. pose proof (A3 d q od X) as Y.
  destruct od, q; try exact Y. destruct (Hn _ _ X).
Qed.

(** A new handle of a known store. *)
Lemma HN_add s s' c p path key i r : LK s -> HN s -> r_ops s !! c = Some (p, OOpen path key) -> c ∈ r_readers s \/ r_writer s = Some c ->
  p = QRead \/ p = QWrite -> find s path = Some i ->
  s' = set_op (set_w s (add_handle (r_world s) c path key i)) c (QRel r) (OOpen path key) -> HN s'.
Proof.
  intros L HH Hc Hl Hp Hf ->. pose proof HH as [A1 A2 A3 A4 A5 A6 A7 A8 A9 A10].
  assert (Cn : w_handles (r_world s) !! c = None) by (pose proof (A3 _ _ _ Hc) as X; destruct Hp as [-> | ->]; exact X).
  pose proof (k_nx _ L _ _ Hc) as Cx.
  assert (W : forall d q od, d <> c -> r_ops s !! d = Some (q, od) -> wr q = false).
  { intros d q od Hne X. destruct (wr q) eqn:Y; [|reflexivity]. destruct Hne. eapply wr_only; eassumption. }
  unfold find, lookup_reg in Hf. destruct (w_reg (r_world s) !! path) as [j|] eqn:Hr; [|discriminate Hf].
  case_bool_decide as Hi; [|discriminate Hf]. case_bool_decide as Hd; [discriminate Hf|]. injection Hf as ->.
  split; cbn.
  - intros h hd X. at_op h c; [exact Cx|eauto].
  - intros h hd X. at_op h c; [|eauto]. injection X as <-. cbn. split; [exact Hi|]. destruct Hi as [x Hx]. eauto.
  - intros d q od X. destruct (decide (d = c)) as [->|Hne]; [rewrite lookup_insert in X; injection X as <- <-; exact Logic.I|].
    rewrite lookup_insert_ne in X by congruence. pose proof (A3 _ _ _ X) as Y. pose proof (W _ _ _ Hne X) as Nw.
    assert (G : forall h hd, w_handles (r_world s) !! h = Some hd -> <[c := Handle path key i false]> (w_handles (r_world s)) !! h = Some hd).
    { intros h hd Z. rewrite lookup_insert_ne; [exact Z|]. intros ->. congruence. }
    destruct od as [path' key'|h|h o]; destruct q; try discriminate Nw; cbn in Y |- *; try exact Y;
      try (rewrite lookup_insert_ne by congruence; exact Y);
      try (destruct Y as (hd & Y1 & Y2); exists hd; split; [apply G, Y1|exact Y2]).
    + destruct Y as (hd & Y1 & Y2 & Y3 & Y4). exists hd. split_and!; [apply G, Y1|exact Y2| |exact Y4].
      intros h' hd' Z1 Z2. at_op h' c; [|eauto]. injection Z1 as <-. cbn in Z2. congruence.
    + rewrite lookup_insert_ne; [exact Y|]. intros ->. destruct (A6 _ _ _ X) as [Y1 _]. congruence.
  - intros d q d' q' h X Y. destruct (decide (d = c)) as [->|]; [rewrite lookup_insert in X; discriminate X|]. destruct (decide (d' = c)) as [->|]; [rewrite lookup_insert in Y; discriminate Y|].
    rewrite lookup_insert_ne in X, Y by congruence. eauto.
  - intros d q d' q' h oo X Y. destruct (decide (d = c)) as [->|]; [rewrite lookup_insert in X; discriminate X|]. destruct (decide (d' = c)) as [->|]; [rewrite lookup_insert in Y; discriminate Y|].
    rewrite lookup_insert_ne in X, Y by congruence. eauto.
  - intros d q h X. destruct (decide (d = c)) as [->|]; [rewrite lookup_insert in X; discriminate X|]. rewrite lookup_insert_ne in X by congruence.
    destruct (A6 _ _ _ X) as [Y Z]. split; [|exact Z]. rewrite lookup_insert_ne by congruence. exact Y.
  - intros h hd Hh Hu. at_op h c; [injection Hh as <-; discriminate Hu|]. destruct (A7 h hd Hh Hu) as (d & q & Y). exists d, q. rewrite lookup_insert_ne by congruence. exact Y.
  - intros h hd Hh Hu. at_op h c; [injection Hh as <-; exact Hr|]. eauto.
  - intros j Hj. destruct (A9 j Hj) as (d & h & r' & hd & X & Y & Z). exists d, h, r', hd. rewrite !lookup_insert_ne by congruence. auto.
  - exact A10.
Qed.

Section HNStep.
Context (E : env).

Lemma HN_benign s w : HN s -> benign (r_world s) w -> HN (set_w s w).
Proof.
  intros H B. destruct H as [A1 A2 A3 A4 A5 A6 A7 A8 A9 A10]. pose proof B as [B1 B2 B3 B4 B5]. split; cbn; rewrite ?B1, ?B2, ?B3; auto.
  - intros h hd Hh. destruct (A2 h hd Hh) as [Y Z]. split; [apply B5, Y|exact Z].
  - intros d q od X. apply A3 in X. revert X. unfold op_ok, find, lookup_reg. cbn. rewrite B1, B2, B3, B4.
    assert (F : forall i, bool_decide (is_Some (w_insts w !! i)) = bool_decide (is_Some (w_insts (r_world s) !! i))) by (intros i; apply bool_decide_ext, B5).
    destruct od, q; try (intros X; exact X).
    + intros (X1 & X2 & X3 & X4). split_and!; [exact X1|exact X2| |exact X4]. destruct (w_reg (r_world s) !! path); [rewrite F|]; exact X3.
    + intros (X1 & X2 & X3 & X4 & X5). split_and!; [exact X1|exact X2|apply B5, X3|exact X4|exact X5].
  - intros i x Hx. destruct (proj1 (B5 i) (mk_is_Some _ _ Hx)) as [y Hy]. eauto.
Qed.

(** No open handle has a path that is not found. *)
Lemma find_none s path : HN s -> find s path = None -> no_open (w_handles (r_world s)) path.
Proof.
  intros HH Hf h hd Hh Hu Ep. pose proof (n_reg _ HH h hd Hh Hu) as R. destruct (n_inst _ HH h hd Hh) as [I _].
  unfold find, lookup_reg in Hf. rewrite <- Ep, R in Hf. rewrite bool_decide_eq_true_2 in Hf by exact I. case_bool_decide as D; [|discriminate Hf].
  destruct (n_dead _ HH _ D) as (c & h' & r & hd' & X & Y & Z). pose proof (n_op _ HH _ _ _ X) as (hd'' & W1 & W2 & W3 & _).
  rewrite Y in W1. injection W1 as <-. assert (h = h') as -> by (eapply W3; [exact Hh|congruence]). rewrite Hh in Y. injection Y as <-. congruence.
Qed.

Lemma alone_strong w h hd : w_handles w !! h = Some hd -> Nat.eqb (strong w (h_inst hd)) 1 = true -> alone (w_handles w) h hd.
Proof. intros Hh Hs. apply Nat.eqb_eq in Hs. exact (proj1 (strong_1 w h hd Hh) Hs). Qed.

(** The handle of a closing call loses its place in the registry. *)
Lemma HN_flag s c p h hd r R : LK s -> HN s -> r_ops s !! c = Some (p, OClose h) -> w_handles (r_world s) !! h = Some hd -> h_unreg hd = false ->
  p <> QDone r -> r_writer s = Some c ->
  (forall k hk, k <> h -> w_handles (r_world s) !! k = Some hk -> h_unreg hk = false -> R !! h_path hk = Some (h_inst hk)) ->
  (forall path, find s path = None -> R !! path = None \/ R !! path = w_reg (r_world s) !! path) ->
  HN (set_op (set_w s (flag_handle (set_reg (r_world s) R) h hd)) c (QRel r) (OClose h)).
Proof.
  intros L HH Hc Hh Hu Hp Hw HR HR'. pose proof HH as [A1 A2 A3 A4 A5 A6 A7 A8 A9 A10].
  assert (Hnu : ~ exists c' p', c' <> c /\ r_ops s !! c' = Some (p', OClose h)). { intros (c' & p' & Hne & X). apply Hne. eauto. }
  set (hd' := Handle (h_path hd) (h_key hd) (h_inst hd) true).
  assert (G : forall k hk, <[h := hd']> (w_handles (r_world s)) !! k = Some hk -> exists hk0, w_handles (r_world s) !! k = Some hk0 /\ h_inst hk0 = h_inst hk /\ h_path hk0 = h_path hk /\ (h_unreg hk = false -> hk = hk0 /\ k <> h)).
  { intros k hk X. at_op k h; [injection X as <-; exists hd; split_and!; auto; discriminate|]. exists hk. auto. }
  assert (W : forall d q od, d <> c -> r_ops s !! d = Some (q, od) -> wr q = false).
  { intros d q od Hne X. destruct (wr q) eqn:Y; [|reflexivity]. destruct Hne. eapply wr_only; eauto. }
  split; cbn; fold hd'.
  - intros k hk X. destruct (G k hk X) as (hk0 & Y & _). eauto.
  - intros k hk X. destruct (G k hk X) as (hk0 & Y & <- & _). eauto.
  - intros d q od X. destruct (decide (d = c)) as [->|Hne]; [rewrite lookup_insert in X; injection X as <- <-; cbn; exists hd'; split; [apply lookup_insert|reflexivity]|].
    rewrite lookup_insert_ne in X by congruence. pose proof (A3 _ _ _ X) as Y. pose proof (W _ _ _ Hne X) as Nw.
    destruct od as [path' key'|k|k o]; destruct q; try discriminate Nw; cbn in Y |- *; try exact Y; fold hd'.
    1-3: at_op d h; [congruence|exact Y].
    all: assert (k <> h) by (intros ->; (eapply Hnu; eauto; fail) || (eapply A5; eassumption)); rewrite lookup_insert_ne by congruence.
    1-3,5,6: exact Y.
    destruct Y as (hk & Y1 & Y2 & Y3 & Y4). exists hk. split_and!; auto. intros k' hk' Z1 Z2. destruct (G _ _ Z1) as (hk0 & Z3 & Z4 & _). eapply Y3; [exact Z3|congruence].
  - intros d q d' q' k X Y. ins X d c; ins Y d' c; auto.
    + injection X as _ ->. eauto.
    + injection Y as _ ->. eauto.
    + eauto.
  - intros d q d' q' k oo X Y. destruct (decide (d = c)) as [->|]; [rewrite lookup_insert in X; discriminate X|]. rewrite lookup_insert_ne in X by congruence.
    destruct (decide (d' = c)) as [->|]; [rewrite lookup_insert in Y; injection Y as _ ->|rewrite lookup_insert_ne in Y by congruence]; eauto.
  - intros d q k X. destruct (A6 _ _ _ Hc) as [U1 U2].
    assert (r_ops s !! k = None /\ k < r_next s) as [V1 V2].
    { destruct (decide (d = c)) as [->|]; [rewrite lookup_insert in X; injection X as _ <-; auto|rewrite lookup_insert_ne in X by congruence; eauto]. }
    split; [|exact V2]. rewrite lookup_insert_ne by congruence. exact V1.
  - intros k hk X Uk. at_op k h.
    + exists c, (QRel r). apply lookup_insert.
    + destruct (A7 _ _ X Uk) as (d & q & Y). assert (d <> c) by congruence. exists d, q. rewrite lookup_insert_ne by congruence. exact Y.
  - intros k hk X Uk. destruct (G _ _ X) as (hk0 & Y & _ & _ & Z). destruct (Z Uk) as [-> Hne]. eauto.
  - intros i Hi. destruct (A9 i Hi) as (d & k & r' & hk & X & Y & Z). assert (d <> c).
    { intros ->. rewrite Hc in X. injection X as -> ->. destruct (A3 _ _ _ Hc) as (hd2 & W1 & W2 & _). congruence. }
    destruct (decide (k = h)) as [->|].
    + rewrite Hh in Y. injection Y as <-. exists d, h, r', hd'. rewrite lookup_insert, lookup_insert_ne by congruence. auto.
    + exists d, k, r', hk. rewrite !lookup_insert_ne by congruence. auto.
  - exact A10.
Qed.

(** The handle of a closing call goes away. *)
Lemma HN_gone s c p h hd r dd I : LK s -> HN s -> r_ops s !! c = Some (p, OClose h) -> w_handles (r_world s) !! h = Some hd ->
  wr p = false -> h_unreg hd = true ->
  (forall i, i <> h_inst hd -> I !! i = w_insts (r_world s) !! i) -> (alone (w_handles (r_world s)) h hd \/ I = w_insts (r_world s)) ->
  (forall i x, I !! i = Some x -> w_insts (r_world s) !! i = Some x) ->
  (forall i, i <> h_inst hd -> i ∈ dd <-> i ∈ r_dead s) -> (h_inst hd ∈ dd -> h_inst hd ∈ r_dead s) -> (alone (w_handles (r_world s)) h hd /\ I !! h_inst hd = None /\ h_inst hd ∉ dd \/ (forall r', p <> QJoin r') /\ dd = r_dead s) ->
  HN (set_op (set_dead (set_w s (set_handles (set_insts (r_world s) I) (delete h (w_handles (r_world s))))) dd) c (QDone r) (OClose h)).
Proof.
  intros L HH Hc Hh Hp Hu HI HA HI' Hd Hd' HD. pose proof HH as [A1 A2 A3 A4 A5 A6 A7 A8 A9 A10].
  assert (G : forall k hk, delete h (w_handles (r_world s)) !! k = Some hk -> k <> h /\ w_handles (r_world s) !! k = Some hk /\ (I = w_insts (r_world s) \/ h_inst hk <> h_inst hd)).
  { intros k hk X. apply lookup_delete_Some in X as [X Y]. split_and!; auto. destruct HA as [HA|HA]; auto. right. intros Z. apply X. symmetry. eauto. }
  assert (GI : forall k hk, delete h (w_handles (r_world s)) !! k = Some hk -> I !! h_inst hk = w_insts (r_world s) !! h_inst hk).
  { intros k hk X. destruct (G _ _ X) as (_ & _ & [-> |Y]); auto. }
  split; cbn.
  - intros k hk X. apply G in X as (_ & X & _). eauto.
  - intros k hk X. rewrite (GI _ _ X). apply G in X as (_ & X & _). eauto.
  - intros d q od X. destruct (decide (d = c)) as [->|Hne]; [rewrite lookup_insert in X; injection X as <- <-; cbn; apply lookup_delete|].
    rewrite lookup_insert_ne in X by congruence. pose proof (A3 _ _ _ X) as Y.
    assert (Kn : forall k, (exists q', od = OClose k /\ q' = q) \/ (exists o', od = OCall k o') -> k <> h).
    { intros k [(q' & -> & _)|(o' & ->)] ->; [destruct Hne|]; eauto. }
    assert (Al : forall k hk, alone (w_handles (r_world s)) k hk -> alone (delete h (w_handles (r_world s))) k hk).
    { intros k hk Z k' hk' Z1 Z2. apply lookup_delete_Some in Z1 as [_ Z1]. eauto. }
    assert (No : forall pa, no_open (w_handles (r_world s)) pa -> no_open (delete h (w_handles (r_world s))) pa).
    { intros pa Z k' hk' Z1 Z2. apply lookup_delete_Some in Z1 as [_ Z1]. eauto. }
    destruct od as [path' key'|k|k o]; destruct q; cbn in Y |- *; try exact Y;
      try (rewrite lookup_delete_ne by (intros <-; eapply (Kn h); eauto); exact Y);
      try (destruct (decide (d = h)) as [->|]; [rewrite lookup_delete; reflexivity|rewrite lookup_delete_ne by congruence; exact Y]).
    + destruct Y as (Y1 & Y2 & Y3 & Y4). split_and!; [destruct (decide (d = h)) as [->|]; [rewrite lookup_delete; reflexivity|rewrite lookup_delete_ne by congruence; exact Y1]|auto| |exact Y4].
      revert Y3. unfold find, lookup_reg. cbn. destruct (w_reg (r_world s) !! path') as [j|]; [|auto].
      destruct (decide (is_Some (I !! j))) as [B2|B2]; [rewrite (bool_decide_eq_true_2 _ B2)|rewrite (bool_decide_eq_false_2 _ B2); reflexivity].
      assert (B1 : is_Some (w_insts (r_world s) !! j)) by (destruct B2 as [x Hx]; apply HI' in Hx; eauto). rewrite (bool_decide_eq_true_2 _ B1).
      destruct (decide (j ∈ r_dead s)) as [B3|B3]; [|rewrite (bool_decide_eq_false_2 _ B3); discriminate].
      destruct (decide (j ∈ dd)) as [B4|B4]; [rewrite (bool_decide_eq_true_2 _ B4); reflexivity|exfalso]. destruct (decide (j = h_inst hd)) as [->|Hj].
      * destruct HD as [(_ & HD & _)|[_ ->]]; [|contradiction]. rewrite HD in B2. destruct B2; discriminate.
      * apply B4, Hd; auto.
    + destruct Y as (Y1 & Y2 & Y3 & Y4 & Y5). split_and!; auto.
      * destruct (decide (d = h)) as [->|]; [rewrite lookup_delete; reflexivity|rewrite lookup_delete_ne by congruence; exact Y1].
      * rewrite HI; [exact Y3|]. intros ->. eapply Y5; eauto.
      * intros k hk Z. apply lookup_delete_Some in Z as [_ Z]. eauto.
    + destruct Y as (hk & Y1 & Y2 & Y3). exists hk. split_and!; auto. rewrite lookup_delete_ne by (intros <-; eapply (Kn h); eauto); exact Y1.
    + destruct Y as (hk & Y1 & Y2 & Y3 & Y4). assert (k <> h) by (intros ->; eapply (Kn h); eauto).
      exists hk. split_and!; auto; [rewrite lookup_delete_ne by congruence; exact Y1|].
      apply Hd; [|exact Y4]. intros Ei. apply H. symmetry. eapply Y3; [exact Hh|congruence].
  - intros d q d' q' k X Y. ins X d c; ins Y d' c; auto.
    + injection X as _ ->. eauto.
    + injection Y as _ ->. eauto.
    + eauto.
  - intros d q d' q' k oo X Y. destruct (decide (d = c)) as [->|]; [rewrite lookup_insert in X; discriminate X|]. rewrite lookup_insert_ne in X by congruence.
    destruct (decide (d' = c)) as [->|]; [rewrite lookup_insert in Y; injection Y as _ ->|rewrite lookup_insert_ne in Y by congruence]; eauto.
  - intros d q k X. destruct (A6 _ _ _ Hc) as [U1 U2].
    assert (r_ops s !! k = None /\ k < r_next s) as [V1 V2].
    { destruct (decide (d = c)) as [->|]; [rewrite lookup_insert in X; injection X as _ <-; auto|rewrite lookup_insert_ne in X by congruence; eauto]. }
    split; [|exact V2]. rewrite lookup_insert_ne by congruence. exact V1.
  - intros k hk X Uk. apply G in X as (Hne & X & _). destruct (A7 _ _ X Uk) as (d & q & Y). assert (d <> c) by congruence. exists d, q. rewrite lookup_insert_ne by congruence. exact Y.
  - intros k hk X Uk. apply G in X as (Hne & X & _). eauto.
  - intros i Hi. assert (Hi' : i ∈ r_dead s). { destruct (decide (i = h_inst hd)) as [->|Hn]; [auto|apply Hd; auto]. }
    destruct (A9 i Hi') as (d & k & r' & hk & X & Y & Z). assert (k <> h).
    { intros ->. rewrite Hh in Y. injection Y as <-. assert (d = c) as -> by eauto. rewrite Hc in X. injection X as ->. subst i.
      destruct HD as [(_ & _ & HD)|[HD _]]; [contradiction|apply (HD r' eq_refl)]. }
    assert (d <> c) by congruence. exists d, k, r', hk. rewrite lookup_insert_ne, lookup_delete_ne by congruence. auto.
  - intros i x X. eauto.
Qed.

Lemma HN_step s a s' : LK s -> HN s -> rstep E s a s' -> HN s'.
Proof.
  intros L HH X.
  destruct X as [s path key|s h o U|s h U Nc|s c path key Hc Hw|s c path key Hc Hp|s c path key i Hc Hp Hf|s c path key Hc Hp Hf|s c o Hc Hw Hr|s c path key Hc Hp
    |s c path key i Hc Hp Hf|s c path key Hc Hp Hf|s c path key w x Hc Ho|s c path key w Hc Ho|s c path key i Hc|s c h hd Hc Hp Hh|s c h hd Hc Hp Hh|s c h hd last Hc Hh
    |s c o r Hc|s c h hd r Hc Hh Hs|s c h hd r Hc Hh Hs|s c h hd r x Hc Hh Hx Hq|s c h o w r Hc Hs|s i x Hx Hq Hi|s c o r Hc].
  - apply HN_begin; auto.
  - apply HN_begin; auto.
  - apply HN_begin; auto.
  - eapply HN_move; [exact HH|apply benign_refl|exact Hc|reflexivity..|discriminate|]. apply (n_op _ HH _ _ _ Hc).
  - eapply HN_move; [exact HH|apply benign_refl|exact Hc|reflexivity..|discriminate|exact Logic.I].
  - eapply HN_add; [exact L|exact HH|exact Hc|left; eapply k_rd; eassumption|auto|exact Hf|reflexivity].
  - eapply HN_move; [exact HH|apply benign_refl|exact Hc|reflexivity..|discriminate|]. apply (n_op _ HH _ _ _ Hc).
  - eapply HN_move; [exact HH|apply benign_refl|exact Hc|reflexivity..|discriminate|]. pose proof (n_op _ HH _ _ _ Hc) as Y. destruct o; exact Y.
  - eapply HN_move; [exact HH|apply benign_refl|exact Hc|reflexivity..|discriminate|exact Logic.I].
  - eapply HN_add; [exact L|exact HH|exact Hc|right; eapply k_wr; [exact L|exact Hc|reflexivity]|auto|exact Hf|reflexivity].
  - eapply HN_move; [exact HH|apply benign_refl|exact Hc|reflexivity..|discriminate|]. cbn. split_and!; auto; [apply (n_op _ HH _ _ _ Hc)|apply find_none; assumption].
  - (* build *)
    pose proof (open_impl_sub E _ _ _ _ _ Ho) as (B1 & B2 & B3 & B4 & B5 & _). pose proof (n_op _ HH _ _ _ Hc) as (C1 & C2 & C3 & C4).
    pose proof (benign_open E _ _ _ _ _ Ho) as Bn.
    assert (H1 : HN (set_w s w)) by (apply HN_benign; assumption).
    destruct H1 as [A1 A2 A3 A4 A5 A6 A7 A8 A9 A10]. cbn in *.
    assert (Fi : w_insts w !! w_next_inst w = None) by (destruct (w_insts w !! w_next_inst w) as [y|] eqn:Y; [apply A10 in Y; lia|reflexivity]).
    assert (W : forall d q od, d <> c -> r_ops s !! d = Some (q, od) -> wr q = false).
    { intros d q od Hne X. destruct (wr q) eqn:Y; [|reflexivity]. destruct Hne. eapply wr_only; [exact L|right; eapply k_wr; [exact L|exact Hc|reflexivity]|exact X|exact Y]. }
    split; cbn.
    + exact A1.
    + intros h hd Hh. destruct (A2 h hd Hh) as [Y Z]. split; [|lia]. rewrite lookup_insert_ne by lia. exact Y.
    + intros d q od X. ins X d c.
      * injection X as <- <-. cbn. rewrite B2. split_and!; auto; [rewrite lookup_insert; eauto|lia|]. intros h hd Hh. destruct (n_inst _ HH h hd Hh) as [_ Y]. lia.
      * pose proof (A3 _ _ _ X) as Y. pose proof (W _ _ _ ltac:(eassumption) X) as Nw. destruct od, q; try discriminate Nw; cbn in Y |- *; exact Y.
    + intros d q d' q' k X Y. ins X d c; ins Y d' c; auto; try discriminate. eauto.
    + intros d q d' q' k oo X Y. ins X d c; ins Y d' c; try discriminate. eauto.
    + intros d q k X. ins X d c; [discriminate|]. destruct (A6 _ _ _ X) as [Y Z]. split; [|exact Z]. rewrite lookup_insert_ne by congruence. exact Y.
    + intros h hd Hh Hu. destruct (A7 h hd Hh Hu) as (d & q & Y). exists d, q. rewrite lookup_insert_ne by congruence. exact Y.
    + exact A8.
    + intros j Hj. destruct (A9 j Hj) as (d & h & r' & hd & X & Y & Z). exists d, h, r', hd. rewrite !lookup_insert_ne by congruence. auto.
    + intros i y Y. ins Y i (w_next_inst w); [lia|]. apply A10 in Y. lia.
  - (* build panics *)
    pose proof (benign_open E _ _ _ _ _ Ho) as Bn.
    apply (HN_poison (set_op (set_w s w) c (QRel RPanic) (OOpen path key))).
    + eapply HN_move; [exact HH|exact Bn|exact Hc|reflexivity..|discriminate|exact Logic.I].
    + cbn. intros d od X. ins X d c; [discriminate|]. assert (d = c); [|congruence]. eapply wr_only; [exact L|right; eapply k_wr; [exact L|exact Hc|reflexivity]|exact X|reflexivity].
  - (* insert *)
    pose proof HH as [A1 A2 A3 A4 A5 A6 A7 A8 A9 A10]. pose proof (A3 _ _ _ Hc) as (C1 & C2 & C3 & C4 & C5).
    pose proof (k_nx _ L _ _ Hc) as Cx.
    assert (W : forall d q od, d <> c -> r_ops s !! d = Some (q, od) -> wr q = false).
    { intros d q od Hne X. destruct (wr q) eqn:Y; [|reflexivity]. destruct Hne. eapply wr_only; [exact L|right; eapply k_wr; [exact L|exact Hc|reflexivity]|exact X|exact Y]. }
    split; cbn.
    + intros h hd Y. ins Y h c; eauto.
    + intros h hd Y. ins Y h c; [|eauto]. injection Y as <-. cbn. auto.
    + intros d q od X. ins X d c; [injection X as <- <-; exact Logic.I|].
      pose proof (A3 _ _ _ X) as Y. pose proof (W _ _ _ ltac:(eassumption) X) as Nw.
      assert (G : forall h hd, w_handles (r_world s) !! h = Some hd -> <[c := Handle path key i false]> (w_handles (r_world s)) !! h = Some hd).
      { intros h hd Z. rewrite lookup_insert_ne; [exact Z|]. intros ->. congruence. }
      destruct od as [path' key'|h|h o]; destruct q; try discriminate Nw; cbn in Y |- *; try exact Y;
        try (rewrite lookup_insert_ne by congruence; exact Y);
        try (destruct Y as (hd & Y1 & Y2); exists hd; split; [apply G, Y1|exact Y2]).
      * destruct Y as (hd & Y1 & Y2 & Y3 & Y4). exists hd. split_and!; [apply G, Y1|exact Y2| |exact Y4].
        intros h' hd' Z1 Z2. ins Z1 h' c; [|eauto]. injection Z1 as <-. cbn in Z2. destruct (C5 _ _ Y1). congruence.
      * rewrite lookup_insert_ne; [exact Y|]. intros ->. destruct (A6 _ _ _ X) as [Y1 _]. congruence.
    + intros d q d' q' k X Y. ins X d c; ins Y d' c; auto; try discriminate. eauto.
    + intros d q d' q' k oo X Y. ins X d c; ins Y d' c; try discriminate. eauto.
    + intros d q k X. ins X d c; [discriminate|]. destruct (A6 _ _ _ X) as [Y Z]. split; [|exact Z]. rewrite lookup_insert_ne by congruence. exact Y.
    + intros h hd Hh Hu. ins Hh h c; [injection Hh as <-; discriminate Hu|]. destruct (A7 h hd Hh Hu) as (d & q & Y). exists d, q. rewrite lookup_insert_ne by congruence. exact Y.
    + intros h hd Hh Hu. ins Hh h c; [injection Hh as <-; apply lookup_insert|]. rewrite lookup_insert_ne; [eauto|]. intros Ep. apply (C2 _ _ Hh Hu). congruence.
    + intros j Hj. destruct (A9 j Hj) as (d & h & r' & hd & X & Y & Z). exists d, h, r', hd. rewrite !lookup_insert_ne by congruence. auto.
    + exact A10.
  - (* close, poisoned *)
    pose proof (n_op _ HH _ _ _ Hc) as (hd' & Y1 & Y2). rewrite Hh in Y1. injection Y1 as <-.
    replace (r_world s) with (set_reg (r_world s) (w_reg (r_world s))) by (destruct (r_world s); reflexivity).
    eapply (HN_flag s c); [exact L|exact HH|exact Hc|exact Hh|exact Y2|discriminate|eapply k_wr; [exact L|exact Hc|reflexivity]| |auto].
    intros k hk _ Hk Uk. apply (n_reg _ HH k hk Hk Uk).
  - (* count *)
    pose proof (n_op _ HH _ _ _ Hc) as (hd' & Y1 & Y2). rewrite Hh in Y1. injection Y1 as <-.
    eapply HN_move; [exact HH|apply benign_refl|exact Hc|reflexivity..|discriminate|]. cbn. exists hd. split_and!; auto. apply alone_strong, Hh.
  - (* remove *)
    pose proof (n_op _ HH _ _ _ Hc) as (hd' & Y1 & Y2 & Y3). rewrite Hh in Y1. injection Y1 as <-.
    assert (exists R, (if last then set_reg (r_world s) (delete (h_path hd) (w_reg (r_world s))) else r_world s) = set_reg (r_world s) R /\
       (forall path, R !! path = None \/ R !! path = w_reg (r_world s) !! path) /\
       (forall k hk, k <> h -> w_handles (r_world s) !! k = Some hk -> h_unreg hk = false -> R !! h_path hk = Some (h_inst hk))) as (R & -> & R1 & R2).
    { destruct last.
      - exists (delete (h_path hd) (w_reg (r_world s))). split_and!; [reflexivity| |].
        + intros path. destruct (decide (path = h_path hd)) as [->|]; [left; apply lookup_delete|right; apply lookup_delete_ne; congruence].
        + intros k hk Hne Hk Uk. rewrite lookup_delete_ne; [apply (n_reg _ HH k hk Hk Uk)|]. intros Ep. apply Hne.
          apply (Y3 eq_refl k hk Hk). pose proof (n_reg _ HH k hk Hk Uk) as Z1. pose proof (n_reg _ HH h hd Hh Y2) as Z2. congruence.
      - exists (w_reg (r_world s)). split_and!; [destruct (r_world s); reflexivity|auto|]. intros k hk _ Hk Uk. apply (n_reg _ HH k hk Hk Uk). }
    eapply HN_flag; [exact L|exact HH|exact Hc|exact Hh|exact Y2|discriminate|eapply k_wr; [exact L|exact Hc|reflexivity]|exact R2|auto].
  - (* release *)
    eapply HN_move; [exact HH|apply benign_refl|exact Hc|reflexivity..|discriminate|]. pose proof (n_op _ HH _ _ _ Hc) as Y. destruct o; [exact Y|exact Y|destruct Y].
  - (* arc *)
    pose proof (n_op _ HH _ _ _ Hc) as (hd' & Y1 & Y2). rewrite Hh in Y1. injection Y1 as <-.
    pose proof (HN_gone s c _ h hd r (r_dead s) (w_insts (r_world s)) L HH Hc Hh eq_refl Y2) as G.
    replace (set_insts (r_world s) (w_insts (r_world s))) with (r_world s) in G by (destruct (r_world s); reflexivity).
    apply G; auto.
  - (* last arc *)
    pose proof (n_op _ HH _ _ _ Hc) as (hd' & Y1 & Y2). rewrite Hh in Y1. injection Y1 as <-.
    assert (Al : alone (w_handles (r_world s)) h hd) by exact (proj1 (strong_1 _ h hd Hh) Hs).
    pose proof HH as [A1 A2 A3 A4 A5 A6 A7 A8 A9 A10]. split; cbn; auto.
    + intros d q od X. ins X d c; [injection X as <- <-; cbn; exists hd; split_and!; auto; set_solver|].
      pose proof (A3 _ _ _ X) as Y. destruct od as [path' key'|k|k o]; destruct q; try exact Y.
      * destruct Y as (Z1 & Z2 & Z3 & Z4). split_and!; auto. revert Z3. unfold find. cbn. destruct (lookup_reg (r_world s) path') as [j|]; [|auto].
        destruct (decide (j ∈ r_dead s)) as [B3|B3]; [|rewrite (bool_decide_eq_false_2 _ B3); discriminate]. intros _. rewrite bool_decide_eq_true_2 by set_solver. reflexivity.
      * destruct Y as (hk & Z1 & Z2 & Z3 & Z4). exists hk. split_and!; auto. cbn. set_solver.
    + intros d q d' q' k X Y. ins X d c; ins Y d' c; auto.
      * injection X as _ ->. eauto.
      * injection Y as _ ->. eauto.
      * eauto.
    + intros d q d' q' k oo X Y. ins X d c; [discriminate|]. ins Y d' c; [injection Y as _ ->|]; eauto.
    + intros d q k X. destruct (A6 _ _ _ Hc) as [U1 U2].
      assert (r_ops s !! k = None /\ k < r_next s) as [V1 V2] by (ins X d c; [injection X as _ <-; auto|eauto]).
      split; [|exact V2]. rewrite lookup_insert_ne by congruence. exact V1.
    + intros k hk Hk Uk. destruct (decide (k = h)) as [->|]; [exists c, (QJoin r); apply lookup_insert|].
      destruct (A7 k hk Hk Uk) as (d & q & Y). exists d, q. rewrite lookup_insert_ne by congruence. exact Y.
    + intros j Hj. apply elem_of_union in Hj as [Hj|Hj].
      * apply elem_of_singleton in Hj as ->. exists c, h, r, hd. rewrite lookup_insert. auto.
      * destruct (A9 j Hj) as (d & k & r' & hk & X & Y & Z). exists d, k, r', hk. rewrite lookup_insert_ne by congruence. auto.
  - (* joined *)
    pose proof (n_op _ HH _ _ _ Hc) as (hd' & Y1 & Y2 & Y3 & Y4). rewrite Hh in Y1. injection Y1 as <-.
    eapply HN_gone; [exact L|exact HH|exact Hc|exact Hh|reflexivity|exact Y2|..].
    + intros i Hi. apply lookup_delete_ne. congruence.
    + auto.
    + intros i y Y. apply lookup_delete_Some in Y. tauto.
    + intros i Hi. set_solver.
    + set_solver.
    + left. split_and!; [exact Y3|apply lookup_delete|set_solver].
  - (* call *)
    eapply HN_move; [exact HH|eapply benign_call, Hs|exact Hc|reflexivity..|discriminate|exact Logic.I].
  - apply HN_benign; [exact HH|apply benign_job].
  - (* return *)
    pose proof HH as [A1 A2 A3 A4 A5 A6 A7 A8 A9 A10].
    assert (D : forall d x, delete c (r_ops s) !! d = Some x -> r_ops s !! d = Some x /\ d <> c) by (intros d y Y; apply lookup_delete_Some in Y as [? ?]; auto).
    split; cbn; auto.
    + intros d q od X. apply D in X as [X _]. exact (A3 _ _ _ X).
    + intros d q d' q' k X Y. apply D in X as [X _]. apply D in Y as [Y _]. eauto.
    + intros d q d' q' k oo X Y. apply D in X as [X _]. apply D in Y as [Y _]. eauto.
    + intros d q k X. apply D in X as [X _]. destruct (A6 _ _ _ X) as [Y Z]. split; [|exact Z]. at_op k c; [reflexivity|exact Y].
    + intros k hk Hk Uk. destruct (A7 k hk Hk Uk) as (d & q & Y). exists d, q. rewrite lookup_delete_ne; [exact Y|]. intros ->. rewrite Hc in Y. injection Y as <- ->.
      pose proof (A3 _ _ _ Hc) as Z. cbn in Z. congruence.
    + intros j Hj. destruct (A9 j Hj) as (d & k & r' & hk & X & Y & Z). exists d, k, r', hk. rewrite lookup_delete_ne by congruence. auto.
Qed.

Lemma HN_exec ls s : rexec E reg0 ls s -> LK s /\ HN s.
Proof.
  induction 1 as [|ls s1 a s2 X [L H] St]; [split; [apply LK_0|apply HN_0]|]. split; [eapply LK_step; eassumption|eapply HN_step; eassumption].
Qed.

End HNStep.

(** ** One store per path *)

Lemma in_rsnoc (ls : list rlabel) a b : a ∈ ls ++ [b] <-> a ∈ ls \/ a = b.
Proof. rewrite elem_of_app, elem_of_list_singleton. reflexivity. Qed.

(** What the history says about the calls. *)
Record RH (ls : list rlabel) (s : reg) : Prop := {
  h_ops : forall c p o, r_ops s !! c = Some (p, o) -> RInv c o ∈ ls /\ forall r, RRet c r ∉ ls;
  h_inv : forall c o, RInv c o ∈ ls -> c < r_next s;
  h_ret : forall c r, RRet c r ∈ ls -> c < r_next s /\ r_ops s !! c = None;
  h_fun : forall c o o', RInv c o ∈ ls -> RInv c o' ∈ ls -> o = o';
  h_hd : forall h hd, w_handles (r_world s) !! h = Some hd -> RInv h (OOpen (h_path hd) (h_key hd)) ∈ ls
}.

Lemma RH_0 : RH [] reg0.
Proof. split; cbn; intros; set_solver. Qed.

Section RHStep.
Context (E : env).

Lemma step_handles s a s' : LK s -> HN s -> rstep E s a s' ->
  forall h hd, w_handles (r_world s') !! h = Some hd ->
    (exists hd0, w_handles (r_world s) !! h = Some hd0 /\ h_path hd = h_path hd0 /\ h_key hd = h_key hd0) \/
    (exists p, r_ops s !! h = Some (p, OOpen (h_path hd) (h_key hd))).
Proof.
  intros L HH X h' hd'.
  assert (G : forall w, benign (r_world s) w -> w_handles w !! h' = Some hd' -> exists hd0, w_handles (r_world s) !! h' = Some hd0 /\ h_path hd' = h_path hd0 /\ h_key hd' = h_key hd0).
  { intros w B Y. rewrite (b_handles _ _ B) in Y. eauto. }
  destruct X as [s path key|s h o U|s h U Nc|s c path key Hc Hw|s c path key Hc Hp|s c path key i Hc Hp Hf|s c path key Hc Hp Hf|s c o Hc Hw Hr|s c path key Hc Hp
    |s c path key i Hc Hp Hf|s c path key Hc Hp Hf|s c path key w x Hc Ho|s c path key w Hc Ho|s c path key i Hc|s c h hd Hc Hp Hh|s c h hd Hc Hp Hh|s c h hd last Hc Hh
    |s c o r Hc|s c h hd r Hc Hh Hs|s c h hd r Hc Hh Hs|s c h hd r x Hc Hh Hx Hq|s c h o w r Hc Hs|s i x Hx Hq Hi|s c o r Hc]; cbn; intros Y; try (left; eauto; fail).
  - ins Y h' c; [|left; eauto]. injection Y as <-. right. eauto.
  - ins Y h' c; [|left; eauto]. injection Y as <-. right. eauto.
  - left. apply (G w); [eapply benign_open, Ho|exact Y].
  - left. apply (G w); [eapply benign_open, Ho|exact Y].
  - ins Y h' c; [|left; eauto]. injection Y as <-. right. eauto.
  - left. ins Y h' h; [|eauto]. injection Y as <-. exists hd. auto.
  - left. ins Y h' h; [injection Y as <-; exists hd; auto|]. destruct last; eauto.
  - left. apply lookup_delete_Some in Y as [_ Y]. eauto.
  - left. apply lookup_delete_Some in Y as [_ Y]. eauto.
  - left. apply (G w); [eapply benign_call, Hs|exact Y].
  - left. eapply G; [apply benign_job|exact Y].
Qed.

Lemma step_ops s a s' : rstep E s a s' ->
  (exists p o, a = RInv (r_next s) o /\ r_ops s' = <[r_next s := (p, o)]> (r_ops s) /\ r_next s' = r_next s + 1) \/
  (r_next s' = r_next s /\
   ((exists c p p' o, a = RTau /\ r_ops s !! c = Some (p, o) /\ r_ops s' = <[c := (p', o)]> (r_ops s)) \/
    (a = RTau /\ r_ops s' = r_ops s) \/
    (exists c o r, a = RRet c r /\ r_ops s !! c = Some (QDone r, o) /\ r_ops s' = delete c (r_ops s)))).
Proof. intros X. destruct X; cbn; try (left; eauto; fail); right; (split; [reflexivity|]); eauto 10. Qed.

Lemma RH_step ls s a s' : LK s -> HN s -> RH ls s -> rstep E s a s' -> RH (ls ++ [a]) s'.
Proof.
  intros L HH [A1 A2 A3 A4 A5] X. pose proof (step_handles _ _ _ L HH X) as SH. apply step_ops in X as [(p & o & -> & Eo & En)|(En & [(c & p & p' & o & -> & Hc & Eo)|[(-> & Eo)|(c & o & r & -> & Hc & Eo)]])].
  - split.
    + intros d q od Y. rewrite Eo in Y. ins Y d (r_next s).
      * injection Y as <- <-. split; [apply in_rsnoc; auto|]. intros r Z. apply in_rsnoc in Z as [Z|Z]; [apply A3 in Z as [Z _]; lia|discriminate].
      * destruct (A1 _ _ _ Y) as [B C]. split; [apply in_rsnoc; auto|]. intros r Z. apply in_rsnoc in Z as [Z|Z]; [eapply C, Z|discriminate].
    + intros d od Z. rewrite En. apply in_rsnoc in Z as [Z|Z]; [apply A2 in Z; lia|injection Z as -> _; lia].
    + intros d r Z. rewrite En, Eo. apply in_rsnoc in Z as [Z|Z]; [|discriminate]. destruct (A3 _ _ Z) as [B C]. split; [lia|]. rewrite lookup_insert_ne by lia. exact C.
    + intros d o1 o2 Z1 Z2. apply in_rsnoc in Z1 as [Z1|Z1], Z2 as [Z2|Z2]; eauto.
      * injection Z2 as -> ->. apply A2 in Z1. lia.
      * injection Z1 as -> ->. apply A2 in Z2. lia.
      * congruence.
    + intros h hd Hh. apply in_rsnoc. left. destruct (SH _ _ Hh) as [(hd0 & Y & -> & ->)|(q & Y)]; [eauto|apply (A1 _ _ _ Y)].
  - split; rewrite ?Eo, ?En.
    + intros d q od Y. assert (exists q', r_ops s !! d = Some (q', od)) as (q' & Y') by (ins Y d c; [injection Y as <- <-|]; eauto).
      destruct (A1 _ _ _ Y') as [B C]. split; [apply in_rsnoc; auto|]. intros r Z. apply in_rsnoc in Z as [Z|Z]; [eapply C, Z|discriminate].
    + intros d od Z. apply in_rsnoc in Z as [Z|Z]; [eauto|discriminate].
    + intros d r Z. apply in_rsnoc in Z as [Z|Z]; [|discriminate]. destruct (A3 _ _ Z) as [B C]. split; [lia|]. rewrite lookup_insert_ne by congruence. exact C.
    + intros d o1 o2 Z1 Z2. apply in_rsnoc in Z1 as [Z1|Z1], Z2 as [Z2|Z2]; try discriminate. eauto.
    + intros h hd Hh. apply in_rsnoc. left. destruct (SH _ _ Hh) as [(hd0 & Y & -> & ->)|(q & Y)]; [eauto|apply (A1 _ _ _ Y)].
  - split; rewrite ?Eo, ?En.
    + intros d q od Y. destruct (A1 _ _ _ Y) as [B C]. split; [apply in_rsnoc; auto|]. intros r Z. apply in_rsnoc in Z as [Z|Z]; [eapply C, Z|discriminate].
    + intros d od Z. apply in_rsnoc in Z as [Z|Z]; [eauto|discriminate].
    + intros d r Z. apply in_rsnoc in Z as [Z|Z]; [|discriminate]. eauto.
    + intros d o1 o2 Z1 Z2. apply in_rsnoc in Z1 as [Z1|Z1], Z2 as [Z2|Z2]; try discriminate. eauto.
    + intros h hd Hh. apply in_rsnoc. left. destruct (SH _ _ Hh) as [(hd0 & Y & -> & ->)|(q & Y)]; [eauto|apply (A1 _ _ _ Y)].
  - split; rewrite ?Eo, ?En.
    + intros d q od Y. apply lookup_delete_Some in Y as [Hne Y]. destruct (A1 _ _ _ Y) as [B C]. split; [apply in_rsnoc; auto|].
      intros r' Z. apply in_rsnoc in Z as [Z|Z]; [eapply C, Z|congruence].
    + intros d od Z. apply in_rsnoc in Z as [Z|Z]; [eauto|discriminate].
    + intros d r' Z. apply in_rsnoc in Z as [Z|Z].
      * destruct (A3 _ _ Z) as [B C]. split; [lia|]. at_op d c; [reflexivity|exact C].
      * injection Z as -> ->. split; [eapply k_nx; eassumption|apply lookup_delete].
    + intros d o1 o2 Z1 Z2. apply in_rsnoc in Z1 as [Z1|Z1], Z2 as [Z2|Z2]; try discriminate. eauto.
    + intros h hd Hh. apply in_rsnoc. left. destruct (SH _ _ Hh) as [(hd0 & Y & -> & ->)|(q & Y)]; [eauto|apply (A1 _ _ _ Y)].
Qed.

(** An opening that succeeded has made its handle. *)
Record RO (ls : list rlabel) (s : reg) : Prop := {
  ro_rel : forall c path key v, r_ops s !! c = Some (QRel (ROk v), OOpen path key) \/ r_ops s !! c = Some (QDone (ROk v), OOpen path key) -> is_Some (w_handles (r_world s) !! c);
  ro_ret : forall h path key v, RInv h (OOpen path key) ∈ ls -> RRet h (ROk v) ∈ ls -> (forall c, RInv c (OClose h) ∉ ls) -> is_Some (w_handles (r_world s) !! h)
}.

(** Only a close call removes a handle. *)
Lemma step_keeps s a s' h : LK s -> HN s -> rstep E s a s' -> is_Some (w_handles (r_world s) !! h) ->
  is_Some (w_handles (r_world s') !! h) \/ exists c p, r_ops s !! c = Some (p, OClose h).
Proof.
  intros L HH X Hi.
  assert (G : forall w, benign (r_world s) w -> is_Some (w_handles w !! h)) by (intros w B; rewrite (b_handles _ _ B); exact Hi).
  assert (I : forall k x, is_Some (<[k := x]> (w_handles (r_world s)) !! h)) by (intros k x; at_op h k; eauto).
  destruct X as [s path key|s k o U|s k U Nc|s c path key Hc Hw|s c path key Hc Hp|s c path key i Hc Hp Hf|s c path key Hc Hp Hf|s c o Hc Hw Hr|s c path key Hc Hp
    |s c path key i Hc Hp Hf|s c path key Hc Hp Hf|s c path key w x Hc Ho|s c path key w Hc Ho|s c path key i Hc|s c k hd Hc Hp Hh|s c k hd Hc Hp Hh|s c k hd last Hc Hh
    |s c o r Hc|s c k hd r Hc Hh Hs|s c k hd r Hc Hh Hs|s c k hd r x Hc Hh Hx Hq|s c k o w r Hc Hs|s i x Hx Hq Hj|s c o r Hc]; cbn; auto.
  - left. apply (G w). eapply benign_open, Ho.
  - left. apply (G w). eapply benign_open, Ho.
  - left. destruct last; apply I.
  - destruct (decide (h = k)) as [->|]; [right; eauto|left; rewrite lookup_delete_ne by congruence; exact Hi].
  - destruct (decide (h = k)) as [->|]; [right; eauto|left; rewrite lookup_delete_ne by congruence; exact Hi].
  - left. apply (G w). eapply benign_call, Hs.
  - left. eapply G. apply benign_job.
Qed.

Lemma RO_step ls s a s' : LK s -> HN s -> RH ls s -> RO ls s -> rstep E s a s' -> RO (ls ++ [a]) s'.
Proof.
  intros L HH RR [B1 B2] X.
  assert (K : forall h p o, r_ops s !! h = Some (p, o) -> is_Some (w_handles (r_world s) !! h) -> is_Some (w_handles (r_world s') !! h)).
  { intros h p o Y Z. destruct (step_keeps _ _ _ h L HH X Z) as [W|(c & q & W)]; [exact W|]. destruct (n_own _ HH _ _ _ W). congruence. }
  split.
  - intros c path key v Y.
    assert (G : (r_ops s !! c = Some (QRel (ROk v), OOpen path key) \/ r_ops s !! c = Some (QDone (ROk v), OOpen path key)) -> is_Some (w_handles (r_world s') !! c)).
    { intros Z. pose proof (B1 _ _ _ _ Z). destruct Z as [Z|Z]; eapply K; eauto. }
    clear K B2. destruct X as [s pa ke|s k o U|s k U Nc|s d pa ke Hc Hw|s d pa ke Hc Hp|s d pa ke i Hc Hp Hf|s d pa ke Hc Hp Hf|s d o Hc Hw Hr|s d pa ke Hc Hp
    |s d pa ke i Hc Hp Hf|s d pa ke Hc Hp Hf|s d pa ke w x Hc Ho|s d pa ke w Hc Ho|s d pa ke i Hc|s d k hd Hc Hp Hh|s d k hd Hc Hp Hh|s d k hd last Hc Hh
    |s d o r Hc|s d k hd r Hc Hh Hs|s d k hd r Hc Hh Hs|s d k hd r x Hc Hh Hx Hq|s d k o w r Hc Hs|s i x Hx Hq Hj|s d o r Hc]; cbn in Y |- *;
    try (destruct (decide (c = r_next s)) as [->|]; [rewrite lookup_insert in Y; destruct Y; discriminate|rewrite lookup_insert_ne in Y by congruence; exact (G Y)]);
    try (destruct (decide (c = d)) as [->|]; [rewrite lookup_insert in Y; destruct Y; discriminate|rewrite lookup_insert_ne in Y by congruence; exact (G Y)]).
    + destruct (decide (c = d)) as [->|]; [rewrite lookup_insert; eauto|rewrite lookup_insert_ne in Y by congruence; exact (G Y)].
    + destruct (decide (c = d)) as [->|]; [rewrite lookup_insert; eauto|rewrite lookup_insert_ne in Y by congruence; exact (G Y)].
    + destruct (decide (c = d)) as [->|]; [rewrite lookup_insert; eauto|rewrite lookup_insert_ne in Y by congruence; exact (G Y)].
    + destruct (decide (c = d)) as [->|]; [|rewrite lookup_insert_ne in Y by congruence; exact (G Y)]. rewrite lookup_insert in Y.
      destruct o; destruct Y as [Y|Y]; try discriminate Y. injection Y as -> -> ->. eapply B1. eauto.
    + exact (G Y).
    + assert (c <> d) by (intros ->; rewrite lookup_delete in Y; destruct Y; discriminate). rewrite lookup_delete_ne in Y by congruence. exact (G Y).
  - intros h path key v Y Z Nc. pose proof (RH_step _ _ _ _ L HH RR X) as RR'.
    assert (Nc' : forall c p, r_ops s !! c <> Some (p, OClose h)).
    { intros c p W. apply (Nc c). apply in_rsnoc. left. apply (h_ops _ _ RR _ _ _ W). }
    assert (H0 : is_Some (w_handles (r_world s) !! h)).
    { apply in_rsnoc in Z as [Z|Z].
      - apply in_rsnoc in Y as [Y|Y].
        + eapply B2; eauto. intros c W. apply (Nc c). apply in_rsnoc. auto.
        + subst a. destruct (h_ret _ _ RR _ _ Z) as [W _]. inversion X; subst; lia.
      - subst a. apply in_rsnoc in Y as [Y|Y]; [|discriminate]. inversion X; subst.
        destruct (h_ops _ _ RR _ _ _ H3) as [W _]. pose proof (h_fun _ _ RR _ _ _ Y W) as <-. eapply B1. eauto. }
    destruct (step_keeps _ _ _ h L HH X H0) as [W|(c & p & W)]; [exact W|]. destruct (Nc' _ _ W).
Qed.

Lemma R_exec ls s : rexec E reg0 ls s -> LK s /\ HN s /\ RH ls s /\ RO ls s.
Proof.
  induction 1 as [|ls s1 a s2 X (L & H & R & O) St].
  - split_and!; [apply LK_0|apply HN_0|apply RH_0|]. split; cbn; intros; set_solver.
  - split_and!; [eapply LK_step; eassumption|eapply HN_step; eassumption|eapply RH_step; eassumption|eapply RO_step; eassumption].
Qed.

End RHStep.

Lemma open_handle_get E ls s h path key : rexec E reg0 ls s -> open_handle ls h path key ->
  exists i x, w_handles (r_world s) !! h = Some (Handle path key i false) /\ w_reg (r_world s) !! path = Some i /\ w_insts (r_world s) !! i = Some x.
Proof.
  intros X (Hi & (v & Hr) & Hn). destruct (R_exec E ls s X) as (L & HH & RR & RO').
  destruct (ro_ret _ _ RO' _ _ _ _ Hi Hr Hn) as [hd Hh]. pose proof (h_fun _ _ RR _ _ _ Hi (h_hd _ _ RR _ _ Hh)) as Ep. injection Ep as -> ->.
  assert (Hu : h_unreg hd = false).
  { destruct (h_unreg hd) eqn:Hu; [|reflexivity]. destruct (n_unreg _ HH _ _ Hh Hu) as (c & p & Y). destruct (Hn c). apply (h_ops _ _ RR _ _ _ Y). }
  destruct (n_inst _ HH _ _ Hh) as [[x Hx] _]. exists (h_inst hd), x. split_and!; [|apply (n_reg _ HH _ _ Hh Hu)|exact Hx]. rewrite Hh. destruct hd. cbn in *. congruence.
Qed.

(** However threads open and close stores, use them, and whatever fails: two
    open handles of one path are interchangeable, and what is put through one
    can be read through the other. *)
Theorem C60_one_store_per_path E ls s h1 h2 path key1 key2 :
  rexec E reg0 ls s -> open_handle ls h1 path key1 -> open_handle ls h2 path key2 ->
  (forall o, o <> CClear -> step E (r_world s) (event_of h1 o) = step E (r_world s) (event_of h2 o)) /\
  (forall k v w, value_ok v = true -> step E (r_world s) (EPut h1 k v) = Some (w, ROk None) ->
     step E w (EGet h2 k (type_of v)) = Some (w, ROk (Some v))).
Proof.
  intros X O1 O2. destruct (open_handle_get _ _ _ _ _ _ X O1) as (i & x & H1 & R1 & I1). destruct (open_handle_get _ _ _ _ _ _ X O2) as (i2 & x2 & H2 & R2 & _).
  rewrite R1 in R2. injection R2 as <-. split.
  - intros o Ho. destruct o; cbn [event_of step]; unfold with_handle; rewrite ?H1, ?H2; cbn; try reflexivity. contradiction.
  - intros k v w Hv. cbn [step]. unfold with_handle. rewrite H1. cbn [h_unreg h_inst]. unfold on_inst. rewrite I1. unfold inst_put.
    destruct (i_poison x) eqn:Ep; [discriminate|].
    destruct (buffer_new k v) as [m|e|] eqn:Hb; [|discriminate..]. destruct (i_valid x) eqn:Ev; [|discriminate]. unfold post. cbn [i_with_map i_sender i_io].
    assert (P : buffer_parse m (type_of v) = ROk v).
    { unfold buffer_parse. rewrite (buffer_new_alive _ _ _ Hb). unfold buffer_new in Hb. destruct (type_token (type_of v)) as [tv| |]; [|discriminate..].
      injection Hb as <-. cbn [kv_type kv_value]. rewrite Z.eqb_refl, from_to_bytes by exact Hv. reflexivity. }
    intros Y. set (x1 := i_with_queue _ _) in Y. assert (w = set_inst (r_world s) i x1) as ->.
    { destruct (i_sender x); [destruct (i_io x)|]; congruence. }
    change (w_handles (set_inst (r_world s) i x1)) with (w_handles (r_world s)). rewrite H2. cbn [h_unreg h_inst set_inst set_insts w_insts]. rewrite lookup_insert.
    unfold inst_get. replace (i_poison x1) with false by (symmetry; exact Ep). replace (i_valid x1) with true by (symmetry; exact Ev).
    change (i_map x1) with (<[k := m]> (i_map x)). rewrite lookup_insert, P. cbn [res_map]. f_equal. f_equal.
    unfold set_inst, set_insts. cbn. rewrite insert_insert. reflexivity.
Qed.

(** ** Histories and linearizations *)

Notation rid := (fun x : N * rop * result => x.1.1).

(** [st c]: the call [c] in progress and its result if it has taken effect. *)
Record HistR (ls : list rlabel) (st : N -> option (rop * option result)) (n : N) (lin : list (N * rop * result)) : Prop := {
  hr_nodup : NoDup (map rid lin);
  hr_called : forall c o r, (c, o, r) ∈ lin -> RInv c o ∈ ls;
  hr_bound : forall c o, RInv c o ∈ ls -> c < n;
  hr_before : forall c o, st c = Some (o, None) -> RInv c o ∈ ls /\ c ∉ map rid lin;
  hr_after : forall c o r, st c = Some (o, Some r) -> (c, o, r) ∈ lin;
  hr_ret : forall c r, RRet c r ∈ ls -> (exists o, (c, o, r) ∈ lin) /\ st c = None;
  hr_rt : forall c r d o, earlier ls (RRet c r) (RInv d o) -> d ∈ map rid lin -> earlier (map rid lin) c d
}.

Lemma in_rids c o r (lin : list (N * rop * result)) : (c, o, r) ∈ lin -> c ∈ map rid lin.
Proof. intros X. apply elem_of_list_In, in_map_iff. exists (c, o, r). split; [reflexivity|]. apply elem_of_list_In, X. Qed.

Lemma HistR_tau ls st st' n lin : HistR ls st n lin -> (forall c, st' c = st c) -> HistR (ls ++ [RTau]) st' n lin.
Proof.
  intros [A1 A2 A3 A4 A5 A6 A7] Es. split; auto.
  - intros c o r X. apply in_rsnoc. eauto.
  - intros c o X. apply in_rsnoc in X as [X|X]; [eauto|discriminate X].
  - intros c o X. rewrite Es in X. destruct (A4 c o X). split; [apply in_rsnoc; auto|assumption].
  - intros c o r X. rewrite Es in X. eauto.
  - intros c r X. rewrite Es. apply in_rsnoc in X as [X|X]; [eauto|discriminate X].
  - intros c r d o X Y. apply earlier_snoc in X as [X|[X _]]; [eauto|discriminate X].
Qed.

Lemma HistR_lin ls st st' n lin c o r : HistR ls st n lin -> st c = Some (o, None) ->
  (forall d, st' d = if decide (d = c) then Some (o, Some r) else st d) ->
  HistR (ls ++ [RTau]) st' n (lin ++ [(c, o, r)]).
Proof.
  intros [A1 A2 A3 A4 A5 A6 A7] Hc Es. destruct (A4 c o Hc) as [Hi Hn].
  split; rewrite ?map_app; cbn [map fst].
  - apply NoDup_app. split_and!; auto; [|apply NoDup_singleton]. intros d D D'. apply elem_of_list_singleton in D'. cbn in D'. congruence.
  - intros d o' r' X. apply in_rsnoc. left. apply elem_of_app in X as [X|X]; [eauto|]. apply elem_of_list_singleton in X. injection X as -> -> ->. exact Hi.
  - intros d o' X. apply in_rsnoc in X as [X|X]; [eauto|discriminate X].
  - intros d o' X. rewrite Es in X. destruct (decide (d = c)) as [->|Hne]; [discriminate X|]. destruct (A4 d o' X) as [B C].
    split; [apply in_rsnoc; auto|]. rewrite elem_of_app, elem_of_list_singleton. intros [D|D]; [auto|congruence].
  - intros d o' r' X. rewrite Es in X. apply elem_of_app. destruct (decide (d = c)) as [->|Hne]; [|left; eauto].
    injection X as -> ->. right. left.
  - intros d r' X. apply in_rsnoc in X as [X|X]; [|discriminate X]. destruct (A6 d r' X) as [(o' & B) C].
    assert (Hne : d <> c) by (intros ->; congruence). split; [exists o'; apply elem_of_app; auto|]. rewrite Es, decide_False by assumption. exact C.
  - intros d r' e o' X Y. apply earlier_snoc in X as [X|[X _]]; [|discriminate X]. apply elem_of_app in Y as [Y|Y]; [apply earlier_app; eauto|].
    exists (map rid lin), [c]. split_and!; auto. destruct X as (l1 & l2 & -> & Hd & _).
    destruct (A6 d r') as [(o'' & B) _]; [apply elem_of_app; auto|]. eapply in_rids, B.
Qed.

Lemma HistR_call ls st st' n lin o : HistR ls st n lin ->
  (forall d, st' d = if decide (d = n) then Some (o, None) else st d) ->
  HistR (ls ++ [RInv n o]) st' (n + 1) lin.
Proof.
  intros [A1 A2 A3 A4 A5 A6 A7] Es.
  assert (Fr : n ∉ map rid lin).
  { intros X. apply elem_of_list_In, in_map_iff in X as ([[c o'] r] & Ec & X). cbn in Ec. subst c. apply elem_of_list_In, A2, A3 in X. lia. }
  split; auto.
  - intros d o' r X. apply in_rsnoc. eauto.
  - intros d o' X. apply in_rsnoc in X as [X|X]; [apply A3 in X; lia|]. injection X as -> _. lia.
  - intros d o' X. rewrite Es in X. destruct (decide (d = n)) as [->|Hne].
    + injection X as ->. split; [apply in_rsnoc; auto|exact Fr].
    + destruct (A4 d o' X). split; [apply in_rsnoc; auto|assumption].
  - intros d o' r X. rewrite Es in X. destruct (decide (d = n)) as [->|Hne]; [discriminate X|eauto].
  - intros d r X. apply in_rsnoc in X as [X|X]; [|discriminate X]. destruct (A6 d r X) as [(o' & B) C]. split; [eauto|].
    rewrite Es, decide_False; [exact C|]. intros ->. apply Fr. eapply in_rids, B.
  - intros d r e o' X Y. apply earlier_snoc in X as [X|[X _]]; [eauto|]. injection X as -> _. contradiction.
Qed.

Lemma HistR_return ls st st' n lin c o r : HistR ls st n lin -> st c = Some (o, Some r) ->
  (forall d, st' d = if decide (d = c) then None else st d) -> HistR (ls ++ [RRet c r]) st' n lin.
Proof.
  intros [A1 A2 A3 A4 A5 A6 A7] Hc Es. split; auto.
  - intros d o' r' X. apply in_rsnoc. eauto.
  - intros d o' X. apply in_rsnoc in X as [X|X]; [eauto|discriminate X].
  - intros d o' X. rewrite Es in X. destruct (decide (d = c)) as [->|Hne]; [discriminate X|]. destruct (A4 d o' X). split; [apply in_rsnoc; auto|assumption].
  - intros d o' r' X. rewrite Es in X. destruct (decide (d = c)) as [->|Hne]; [discriminate X|eauto].
  - intros d r' X. rewrite Es. apply in_rsnoc in X as [X|X].
    + destruct (A6 d r' X) as [B C]. split; [exact B|]. destruct (decide (d = c)); auto.
    + injection X as -> ->. split; [eauto|]. rewrite decide_True by reflexivity. reflexivity.
  - intros d r' e o' X Y. apply earlier_snoc in X as [X|[X _]]; [eauto|discriminate X].
Qed.

Lemma HistR_0 : HistR [] (fun _ => None) 0 [].
Proof. split; cbn; try discriminate; try (intros; match goal with H : _ ∈ [] |- _ => inversion H end). constructor. Qed.

Lemma HistR_linearizes ls st n lin : HistR ls st n lin -> linearizes ls lin.
Proof. intros [A1 A2 A3 A4 A5 A6 A7]. split; auto. intros c r X. apply A6, X. Qed.

(** The result of a call that has taken effect. *)
Definition eff (p : rpc) (o : rop) : option result :=
  match o, p with
  | OOpen _ _, QIns _ => Some (ROk None)
  | OOpen _ _, (QRel r | QDone r) => Some r
  | _, QDone r => Some r
  | _, _ => None
  end.
Definition st_of (s : reg) (c : N) : option (rop * option result) :=
  match r_ops s !! c with Some (p, o) => Some (o, eff p o) | None => None end.

(** ** The run of World.v behind an execution *)

(** The run is ahead of the execution when a call is between taking effect
    and registering its store or leaving the registry. *)
Definition aH (q : option (N * (rpc * rop))) (m : gmap N handle) : gmap N handle :=
  match q with
  | Some (c, (QIns i, OOpen p k)) => <[c := Handle p k i false]> m
  | Some (_, (QRem _, OClose h)) => match m !! h with Some hd => <[h := Handle (h_path hd) (h_key hd) (h_inst hd) true]> m | None => m end
  | _ => m
  end.
Definition aR (q : option (N * (rpc * rop))) (m : gmap N handle) (R : gmap bytes N) : gmap bytes N :=
  match q with
  | Some (c, (QIns i, OOpen p k)) => <[p := i]> R
  | Some (_, (QRem true, OClose h)) => match m !! h with Some hd => delete (h_path hd) R | None => R end
  | _ => R
  end.
Definition adj (q : option (N * (rpc * rop))) (w : world) : world := frame (aH q (w_handles w)) (aR q (w_handles w) (w_reg w)) w.
Definition at_writer (s : reg) : option (N * (rpc * rop)) :=
  match r_writer s with Some c => option_map (fun x => (c, x)) (r_ops s !! c) | None => None end.
Definition ahead (s : reg) : world := adj (at_writer s) (r_world s).

(** The handle concerned. *)
Definition subject (q : option (N * (rpc * rop))) (h : N) : Prop :=
  match q with Some (c, (QIns _, OOpen _ _)) => h = c | Some (_, (QRem _, OClose k)) => h = k | _ => False end.

Definition quiet (q : option (N * (rpc * rop))) : Prop :=
  match q with Some (c, (QIns i, OOpen p k)) => False | Some (_, (QRem _, OClose h)) => False | _ => True end.

Lemma adj_quiet q w : quiet q -> adj q w = w.
Proof. intros Q. transitivity (frame (w_handles w) (w_reg w) w); [|apply frame_self]. unfold adj. destruct q as [[c [[| | | | | |[]| | | |] []]]|]; try reflexivity; destruct Q. Qed.

Lemma aH_lookup q m h : ~ subject q h -> aH q m !! h = m !! h.
Proof. destruct q as [[c [[] []]]|]; cbn; intros N; try reflexivity; [rewrite lookup_insert_ne by congruence; reflexivity|]. destruct (m !! h0); [|reflexivity]. rewrite lookup_insert_ne by congruence. reflexivity. Qed.

Lemma aH_delete q m h : ~ subject q h -> aH q (delete h m) = delete h (aH q m).
Proof.
  destruct q as [[c [[] []]]|]; cbn; intros N; try reflexivity; [rewrite delete_insert_ne by congruence; reflexivity|].
  rewrite lookup_delete_ne by congruence. destruct (m !! h0); [|reflexivity]. rewrite delete_insert_ne by congruence. reflexivity.
Qed.

Lemma aR_delete q m R h : ~ subject q h -> aR q (delete h m) R = aR q m R.
Proof. destruct q as [[c [[| | | | | |[]| | | |] []]]|]; cbn; intros N; try reflexivity. rewrite lookup_delete_ne by congruence. reflexivity. Qed.

Lemma adj_benign q w w' : w_handles w' = w_handles w -> w_reg w' = w_reg w -> adj q w' = frame (aH q (w_handles w)) (aR q (w_handles w) (w_reg w)) w'.
Proof. intros A B. unfold adj. rewrite A, B. reflexivity. Qed.

Section Sim.
Context (E : env) (keyof : bytes -> bytes).
Notation canon := (e_canon E).

Lemma adj_job q w i : adj q (run_job E w i) = run_job E (adj q w) i.
Proof. pose proof (benign_job E w i) as [A B _ _ _]. rewrite (adj_benign q w _ A B). unfold adj. rewrite frame_job. reflexivity. Qed.

Lemma adj_call q w h o w' r : ~ subject q h -> step E w (event_of h o) = Some (w', r) -> step E (adj q w) (event_of h o) = Some (adj q w', r).
Proof.
  intros N H. pose proof (benign_call E _ _ _ _ _ H) as [A B _ _ _]. rewrite (adj_benign q w _ A B).
  assert (L : w_handles (adj q w) !! h = w_handles w !! h) by (cbn; apply aH_lookup, N). revert H.
  destruct o; cbn [event_of step]; unfold with_handle; rewrite L; destruct (w_handles w !! h) as [hd|]; try discriminate; destruct (h_unreg hd); try discriminate;
    intros H; injection H as H; unfold adj; [rewrite frame_on_inst, H..|rewrite frame_clear, H]; reflexivity.
Qed.

Lemma strong_add w R c hd j : w_handles w !! c = None -> h_inst hd <> j -> strong (frame (<[c := hd]> (w_handles w)) R w) j = strong w j.
Proof.
  intros Hn Hj. unfold strong. cbn [frame set_reg set_handles w_handles]. rewrite (map_to_list_insert _ _ _ Hn).
  rewrite filter_cons_False by exact Hj. reflexivity.
Qed.

Lemma adj_strong s q j : (match q with Some (c, x) => r_ops s !! c = Some x | None => True end) -> HN s ->
  (exists h hd, w_handles (r_world s) !! h = Some hd /\ h_inst hd = j) -> strong (adj q (r_world s)) j = strong (r_world s) j.
Proof.
  intros Hq HH (h & hd & Hh & Hj). destruct q as [[c [p o]]|]; [|unfold adj; cbn; rewrite frame_self; reflexivity].
  pose proof (n_op _ HH _ _ _ Hq) as Ok.
  destruct p as [| | | | | |[]| | | |]; try (unfold adj; cbn; rewrite frame_self; reflexivity); destruct o; try (unfold adj; cbn; rewrite frame_self; reflexivity); unfold adj; cbn [aH aR].
  - destruct Ok as (C1 & C2 & C3 & C4 & C5). apply strong_add; [exact C1|]. cbn. intros <-. eapply C5; eauto.
  - destruct Ok as (hd' & C1 & _). rewrite C1. apply strong_flag, C1.
  - destruct Ok as (hd' & C1 & _). rewrite C1. apply strong_flag, C1.
Qed.

Lemma drop_arc_eq w h hd x : w_handles w !! h = Some hd -> w_insts w !! h_inst hd = Some x -> i_queue x = [] \/ i_io x = IoDead -> strong w (h_inst hd) = 1%nat ->
  do_drop_arc E w h hd = (set_handles (set_insts w (delete (h_inst hd) (w_insts w))) (delete h (w_handles w)),
     if i_join x then match i_io x with IoRun => ROk None | IoDead => RPanic end else ROk None).
Proof.
  intros Hh Hx Hq Hs. unfold do_drop_arc. rewrite Hs. cbn [Nat.eqb].
  assert (drain E w (h_inst hd) = w) as ->.
  { unfold drain. rewrite Hx. destruct Hq as [-> |Hd]; [reflexivity|]. eapply iter_dead; eassumption. }
  rewrite Hx. reflexivity.
Qed.

Lemma adj_drop q w h hd w' r : ~ subject q h -> w_handles w !! h = Some hd -> h_unreg hd = true -> strong (adj q w) (h_inst hd) = strong w (h_inst hd) ->
  do_drop_arc E w h hd = (w', r) -> step E (adj q w) (EDropArc h) = Some (adj q w', r).
Proof.
  intros N Hh Hu Hs Hd. cbn [step].
  assert (w_handles (adj q w) !! h = Some hd) as -> by (cbn; rewrite aH_lookup by exact N; exact Hh). rewrite Hu. f_equal.
  unfold adj at 1. rewrite drop_arc_frame by exact Hs. rewrite Hd. cbn [fst snd]. f_equal.
  assert (w_handles w' = delete h (w_handles w) /\ w_reg w' = w_reg w) as [A B].
  { unfold do_drop_arc in Hd. destruct (Nat.eqb _ 1); injection Hd as <- _; cbn; [|auto]. destruct (drain_sub E w (h_inst hd)) as (_ & B & C & _). rewrite B. auto. }
  unfold adj. rewrite A, B, aH_delete, aR_delete by exact N. reflexivity.
Qed.

(** The events of the run and the calls in the order they took effect. *)
Inductive matches : list event -> list result -> list (N * rop * result) -> Prop :=
| mt_nil : matches [] [] []
| mt_io tr rs lin i : matches tr rs lin -> matches (tr ++ [EIo i]) (rs ++ [ROk None]) lin
| mt_reg tr rs lin h r : matches tr rs lin -> matches (tr ++ [EDropReg h]) (rs ++ [r]) lin
| mt_ev tr rs lin e c o r : matches tr rs lin -> tidy [e] = [op_event c o] -> matches (tr ++ [e]) (rs ++ [r]) (lin ++ [(c, o, r)]).

Notation lev := (fun x : N * rop * result => op_event x.1.1 x.1.2).

Lemma tidy_app a b : tidy (a ++ b) = tidy a ++ tidy b.
Proof. apply flat_map_app. Qed.

Lemma op_event_io c o i : op_event c o <> EIo i.
Proof. destruct o as [| |h o]; [discriminate..|destruct o; discriminate]. Qed.

Lemma matches_spec tr rs lin : matches tr rs lin -> length rs = length tr /\
  forall sp, spec_run canon spec0 (tidy tr) = Some (sp, strip tr rs) -> spec_run canon spec0 (map lev lin) = Some (sp, map snd lin).
Proof.
  induction 1 as [|tr rs lin i M [L IH]|tr rs lin h r M [L IH]|tr rs lin e c o r M [L IH] He].
  - split; [reflexivity|]. auto.
  - split; [rewrite !app_length, L; reflexivity|]. intros sp. rewrite tidy_app, (strip_snoc tr _ _ rs L). cbn [tidy flat_map app]. rewrite spec_run_app.
    destruct (spec_run canon spec0 (tidy tr)) as [[s1 r1]|] eqn:E1; [|discriminate]. cbn. intros [= -> Er]. apply app_inj_tail in Er as [-> _]. auto.
  - split; [rewrite !app_length, L; reflexivity|]. intros sp. rewrite tidy_app, (strip_snoc tr _ _ rs L). cbn [tidy flat_map app]. rewrite !app_nil_r. auto.
  - split; [rewrite !app_length, L; reflexivity|]. intros sp. rewrite tidy_app, (strip_snoc tr _ _ rs L), He.
    assert (match e with EDropReg _ => [] | _ => [r] end = [r]) as -> by (destruct e; (reflexivity || discriminate He)).
    rewrite spec_run_app, map_app, map_app. cbn [map fst snd]. rewrite spec_run_app.
    destruct (spec_run canon spec0 (tidy tr)) as [[s1 r1]|] eqn:E1; [|discriminate]. cbn [spec_run].
    destruct (spec_step canon s1 (op_event c o)) as [[s2 r2]|] eqn:E2; [|discriminate]. intros [= -> Er]. apply app_inj_tail in Er as [-> ->].
    rewrite (IH s1 eq_refl), E2. reflexivity.
Qed.

Lemma matches_paths tr rs lin : matches tr rs lin -> paths tr = paths (map lev lin).
Proof.
  induction 1 as [|tr rs lin i M IH|tr rs lin h r M IH|tr rs lin e c o r M IH He]; [reflexivity|..]; rewrite ?map_app, !paths_app, IH; cbn; rewrite ?app_nil_r; try reflexivity.
  f_equal. cbn in He. rewrite app_nil_r in He. assert (paths [e] = paths [op_event c o]) as X; [|unfold paths in X; cbn in X; rewrite !app_nil_r in X; exact X].
  destruct e; try discriminate He; injection He as He; rewrite <- He; reflexivity.
Qed.

Lemma matches_calls tr rs lin : matches tr rs lin -> Forall (call_ok E keyof) (map lev lin) -> Forall (call_ok E keyof) (tidy tr) /\ writes (tidy tr) = writes (map lev lin).
Proof.
  induction 1 as [|tr rs lin i M IH|tr rs lin h r M IH|tr rs lin e c o r M IH He]; intros F.
  - split; [constructor|reflexivity].
  - destruct (IH F) as [A B]. rewrite tidy_app, writes_app, B. split; [apply Forall_app; split; [exact A|repeat constructor]|]. change (writes (tidy [EIo i])) with 0. lia.
  - destruct (IH F) as [A B]. rewrite tidy_app, writes_app, B. split; [apply Forall_app; split; [exact A|constructor]|]. change (writes (tidy [EDropReg h])) with 0. lia.
  - rewrite map_app in F |- *. apply Forall_app in F as [F1 F2]. destruct (IH F1) as [A B]. rewrite tidy_app, He, !writes_app, B. split; [apply Forall_app; auto|reflexivity].
Qed.

Lemma writes_sub l l' : l ⊆+ l' -> writes l <= writes l'.
Proof.
  intros X. apply submseteq_Permutation in X as [k X]. unfold writes.
  assert (P : forall a b : list event, a ≡ₚ b -> length (List.filter is_write a) = length (List.filter is_write b)).
  { induction 1 as [|x a b _ IH|x y a|a b d _ IH1 _ IH2]; cbn; [reflexivity|destruct (is_write x); cbn; lia|destruct (is_write x), (is_write y); reflexivity|congruence]. }
  rewrite (P _ _ X), List.filter_app, app_length. lia.
Qed.

(** Calls that took effect had begun. *)
Lemma lin_any ls tr rs lin : ordinary E keyof (begun ls) -> linearizes ls lin -> matches tr rs lin -> any_spelling E keyof (tidy tr).
Proof.
  intros [O1 O2 O3 O4] Z M.
  assert (Hin : forall x, x ∈ lin -> lev x ∈ begun ls).
  { intros [[c o] r] Hx. apply (lz_called _ _ Z) in Hx. apply elem_of_list_In, in_flat_map. exists (RInv c o). split; [apply elem_of_list_In, Hx|left; reflexivity]. }
  assert (F : Forall (call_ok E keyof) (map lev lin)).
  { apply List.Forall_forall. intros e He. apply in_map_iff in He as (x & <- & Hx). rewrite List.Forall_forall in O2. apply O2, elem_of_list_In, Hin, elem_of_list_In, Hx. }
  destruct (matches_calls _ _ _ M F) as [A B]. split; [exact O1|exact A|]. rewrite B. eapply room_mono; [|exact O4].
  set (iv := flat_map (fun a => match a with RInv c o => [(c, o)] | _ => [] end) ls).
  assert (Eb : begun ls = map (fun x => op_event x.1 x.2) iv).
  { unfold begun, iv. clear. induction ls as [|a ls IH]; [reflexivity|]. cbn [flat_map]. rewrite map_app, IH. destruct a; reflexivity. }
  rewrite Eb. replace (map lev lin) with (map (fun x => op_event x.1 x.2) (map fst lin)) by (rewrite map_map; reflexivity).
  apply writes_sub. apply fmap_submseteq. apply NoDup_submseteq.
  - pose proof (lz_nodup _ _ Z) as N. eapply (NoDup_fmap_1 fst). change (fst <$> map fst lin) with (map fst (map fst lin)). rewrite map_map. exact N.
  - intros [c o] Hc. apply elem_of_list_In, in_map_iff in Hc as ([[c' o'] r] & Ec & Hc). cbn in Ec. injection Ec as -> ->.
    apply elem_of_list_In, in_flat_map. exists (RInv c o). split; [|left; reflexivity]. apply elem_of_list_In. eapply (lz_called _ _ Z), elem_of_list_In, Hc.
Qed.

(** The handles of a calm run, as tracked, and the absence of panics. *)
Lemma calm_state es w rs : any_spelling E keyof (tidy es) -> P_Alias.calm canon ∅ es -> run E world0 es = Some (w, rs) ->
  w_poison w = false /\ fold_left track es ∅ = (fun hd => (h_path hd, h_unreg hd)) <$> w_handles w.
Proof.
  intros HA HC Hr. set (rep := first_spelling canon (paths es)).
  pose proof (norm_ordinary E keyof es HA) as HO. fold rep in HO.
  assert (Hc : forall p, canon (rep p) = canon p) by (intros p; apply first_canon).
  assert (Hd : forall p, In p (paths es) -> e_dir_ok E p = true /\ e_dir_ok E (rep p) = true).
  { assert (Hd : forall p, In p (paths es) -> e_dir_ok E p = true).
    { intros p Hp. rewrite <- paths_tidy in Hp. apply in_flat_map in Hp as (e & He & Hp). pose proof (as_calls _ _ _ HA) as B.
      rewrite List.Forall_forall in B. specialize (B e He). destruct e; cbn in Hp; try contradiction. destruct Hp as [<-|[]]. apply B. }
    intros p Hp. split; [apply Hd, Hp|apply Hd, first_in, Hp]. }
  destruct (gap_run E keyof (paths es) rep Hc Hd es (incl_refl _) HO HC w rs Hr) as (w' & Hr' & G).
  destruct (reach E keyof _ HO w' _ Hr') as (sp & Hsp & W). split.
  - pose proof (wi_poison _ _ _ _ _ _ _ W) as X. rewrite (g_w _ _ _ _ _ G) in X. exact X.
  - exact (g_hs _ _ _ _ _ G).
Qed.

Record Sim (ls : list rlabel) (s : reg) (tr : list event) (rs : list result) (lin : list (N * rop * result)) : Prop := {
  m_run : run E world0 tr = Some (ahead s, rs);
  m_mt : matches tr rs lin;
  m_calm : P_Alias.calm canon ∅ tr;
  m_hist : HistR ls (st_of s) (r_next s) lin;
  m_ok : forall c h r p, r_ops s !! c = Some (p, OClose h) -> p = QRel r \/ p = QArc r \/ p = QJoin r -> r = ROk None
}.

Lemma Sim_0 : Sim [] reg0 [] [] [].
Proof.
  split; [reflexivity|constructor|exact Logic.I|apply HistR_0|]. cbn. intros c h r p X. rewrite lookup_empty in X. discriminate X.
Qed.

Lemma ordinary_begun_app ls a : ordinary E keyof (begun (ls ++ [a])) -> ordinary E keyof (begun ls).
Proof. unfold begun. rewrite flat_map_app. apply ordinary_app_l. Qed.

Lemma apart_app ls a : apart canon (ls ++ [a]) -> apart canon ls.
Proof. intros H ls1 ls2 c path key c' h path' key' -> . eapply H. rewrite <- app_assoc. reflexivity. Qed.

Lemma Sim_tau ls s s' tr rs lin : Sim ls s tr rs lin -> ahead s' = ahead s -> (forall d, st_of s' d = st_of s d) -> r_next s' = r_next s ->
  (forall c h r p, r_ops s' !! c = Some (p, OClose h) -> p = QRel r \/ p = QArc r \/ p = QJoin r -> r = ROk None) ->
  exists tr rs lin, Sim (ls ++ [RTau]) s' tr rs lin.
Proof.
  intros [A1 A2 A3 A4 A5] Ea Es En Ok. exists tr, rs, lin. split; auto; [rewrite Ea; exact A1|]. rewrite En. eapply HistR_tau; eauto.
Qed.

Lemma run_more tr w rs e w' r : run E world0 tr = Some (w, rs) -> step E w e = Some (w', r) -> run E world0 (tr ++ [e]) = Some (w', rs ++ [r]).
Proof. intros A B. rewrite run_app, A. cbn [run]. rewrite B. reflexivity. Qed.

Lemma calm_more tr e : P_Alias.calm canon ∅ tr -> calm1 canon (fold_left track tr ∅) e -> P_Alias.calm canon ∅ (tr ++ [e]).
Proof. intros A B. apply calm_app. split; [exact A|]. cbn. auto. Qed.

Lemma Sim_io ls s s' tr rs lin i : Sim ls s tr rs lin -> step E (ahead s) (EIo i) = Some (ahead s', ROk None) -> (forall d, st_of s' d = st_of s d) -> r_next s' = r_next s ->
  (forall c h r p, r_ops s' !! c = Some (p, OClose h) -> p = QRel r \/ p = QArc r \/ p = QJoin r -> r = ROk None) ->
  exists tr rs lin, Sim (ls ++ [RTau]) s' tr rs lin.
Proof.
  intros [A1 A2 A3 A4 A5] Ea Es En Ok. exists (tr ++ [EIo i]), (rs ++ [ROk None]), lin. split; auto.
  - eapply run_more; eassumption.
  - constructor. exact A2.
  - apply calm_more; [exact A3|exact Logic.I].
  - rewrite En. eapply HistR_tau; eauto.
Qed.

Lemma Sim_reg ls s s' tr rs lin h r : Sim ls s tr rs lin -> step E (ahead s) (EDropReg h) = Some (ahead s', r) -> (forall d, st_of s' d = st_of s d) -> r_next s' = r_next s ->
  (forall c h r p, r_ops s' !! c = Some (p, OClose h) -> p = QRel r \/ p = QArc r \/ p = QJoin r -> r = ROk None) ->
  exists tr rs lin, Sim (ls ++ [RTau]) s' tr rs lin.
Proof.
  intros [A1 A2 A3 A4 A5] Ea Es En Ok. exists (tr ++ [EDropReg h]), (rs ++ [r]), lin. split; auto.
  - eapply run_more; eassumption.
  - constructor. exact A2.
  - apply calm_more; [exact A3|exact Logic.I].
  - rewrite En. eapply HistR_tau; eauto.
Qed.

Lemma Sim_lin ls s s' tr rs lin c o e r : Sim ls s tr rs lin -> step E (ahead s) e = Some (ahead s', r) -> tidy [e] = [op_event c o] ->
  calm1 canon (fold_left track tr ∅) e ->
  st_of s c = Some (o, None) -> (forall d, st_of s' d = if decide (d = c) then Some (o, Some r) else st_of s d) -> r_next s' = r_next s ->
  (forall c h r p, r_ops s' !! c = Some (p, OClose h) -> p = QRel r \/ p = QArc r \/ p = QJoin r -> r = ROk None) ->
  exists tr rs lin, Sim (ls ++ [RTau]) s' tr rs lin.
Proof.
  intros [A1 A2 A3 A4 A5] Ea He C1 Hc Es En Ok. exists (tr ++ [e]), (rs ++ [r]), (lin ++ [(c, o, r)]). split; auto.
  - eapply run_more; eassumption.
  - constructor; assumption.
  - apply calm_more; assumption.
  - rewrite En. eapply HistR_lin; eauto.
Qed.

Lemma Sim_fine ls s tr rs lin : ordinary E keyof (begun ls) -> Sim ls s tr rs lin ->
  w_poison (r_world s) = false /\ fold_left track tr ∅ = (fun hd => (h_path hd, h_unreg hd)) <$> w_handles (ahead s) /\ dirs_agree E (ahead s).
Proof.
  intros O [A1 A2 A3 A4 A5]. pose proof (lin_any ls tr rs lin O (HistR_linearizes _ _ _ _ A4) A2) as HA.
  destruct (calm_state tr _ _ HA A3 A1) as [P T]. split_and!; [exact P|exact T|]. eapply dirs_agree_reach, A1.
Qed.

(** What is visible of a call. *)
Lemma st_move s s' c p p' o : r_ops s !! c = Some (p, o) -> r_ops s' = <[c := (p', o)]> (r_ops s) -> eff p' o = eff p o -> forall d, st_of s' d = st_of s d.
Proof. intros Hc Eo Ee d. unfold st_of. rewrite Eo. at_op d c; [rewrite Hc, Ee|]; reflexivity. Qed.
Lemma st_lin s s' c p p' o r : r_ops s !! c = Some (p, o) -> r_ops s' = <[c := (p', o)]> (r_ops s) -> eff p' o = Some r ->
  forall d, st_of s' d = if decide (d = c) then Some (o, Some r) else st_of s d.
Proof. intros Hc Eo Ee d. unfold st_of. rewrite Eo. destruct (decide (d = c)) as [->|]; [rewrite lookup_insert, Ee|rewrite lookup_insert_ne by congruence]; reflexivity. Qed.
Lemma st_now s c p o : r_ops s !! c = Some (p, o) -> eff p o = None -> st_of s c = Some (o, None).
Proof. intros Hc He. unfold st_of. rewrite Hc, He. reflexivity. Qed.
Lemma ok_move s s' c p' o : r_ops s' = <[c := (p', o)]> (r_ops s) ->
  (forall c h r p, r_ops s !! c = Some (p, OClose h) -> p = QRel r \/ p = QArc r \/ p = QJoin r -> r = ROk None) ->
  (forall h r, o = OClose h -> p' = QRel r \/ p' = QArc r \/ p' = QJoin r -> r = ROk None) ->
  (forall c h r p, r_ops s' !! c = Some (p, OClose h) -> p = QRel r \/ p = QArc r \/ p = QJoin r -> r = ROk None).
Proof. intros Eo A B d h r p X Y. rewrite Eo in X. at_op d c; [injection X as -> ->; eauto|eauto]. Qed.

Lemma writer_same s s' c p' o : r_writer s' = r_writer s -> r_ops s' = <[c := (p', o)]> (r_ops s) -> r_writer s <> Some c -> at_writer s' = at_writer s.
Proof. intros Ew Eo Hw. unfold at_writer. rewrite Ew, Eo. destruct (r_writer s) as [d|]; [|reflexivity]. rewrite lookup_insert_ne by congruence. reflexivity. Qed.

Lemma ahead_quiet s : quiet (at_writer s) -> ahead s = r_world s.
Proof. apply adj_quiet. Qed.

Lemma writer_none s : r_writer s = None -> at_writer s = None.
Proof. unfold at_writer. intros ->. reflexivity. Qed.
Lemma writer_some s c x : r_writer s = Some c -> r_ops s !! c = Some x -> at_writer s = Some (c, x).
Proof. unfold at_writer. intros -> ->. reflexivity. Qed.

Lemma writer_quiet s c x : r_writer s = Some c -> r_ops s !! c = Some x -> quiet (Some (c, x)) -> quiet (at_writer s).
Proof. intros A B C. rewrite (writer_some s c x A B). exact C. Qed.

Lemma not_writer s c p o : LK s -> r_ops s !! c = Some (p, o) -> wr p || rel p = false -> r_writer s <> Some c.
Proof. intros L Hc Hp Hw. destruct (k_w _ L _ Hw) as (q & oq & X & Y). rewrite Hc in X. injection X as <- _. congruence. Qed.

Lemma reader_writer s c : LK s -> c ∈ r_readers s -> r_writer s = None.
Proof. intros L Hc. destruct (r_writer s) as [d|] eqn:W; [|reflexivity]. rewrite (k_x _ L _ W) in Hc. set_solver. Qed.

(** Opening is calm. *)
Lemma open_calm ls s tr rs lin c p path key : rexec E reg0 ls s -> ordinary E keyof (begun ls) -> apart canon ls -> Sim ls s tr rs lin ->
  r_ops s !! c = Some (p, OOpen path key) -> quiet (at_writer s) ->
  calm1 canon (fold_left track tr ∅) (ENew c path key) /\ (find s path = None -> lookup_reg (r_world s) path = None).
Proof.
  intros X O A M Hc Q. destruct (R_exec E ls s X) as (L & HH & RR & RO'). destruct (Sim_fine ls s tr rs lin O M) as (P & T & D).
  rewrite (ahead_quiet s Q) in T, D. rewrite T. clear T.
  pose proof (proj1 (h_ops _ _ RR _ _ _ Hc)) as Ic.
  assert (Uc : under_way ls c (OOpen path key)) by exact (h_ops _ _ RR _ _ _ Hc).
  assert (Cl : forall d q h hd, r_ops s !! d = Some (q, OClose h) -> w_handles (r_world s) !! h = Some hd -> canon (h_path hd) = canon path ->
    exists h2 k2, open_handle ls h2 path k2).
  { intros d q h hd Y Z Ep. eapply (A ls [] c path key d h); [symmetry; apply app_nil_r|exact Uc|exact (h_ops _ _ RR _ _ _ Y)|exact (h_hd _ _ RR _ _ Z)|exact Ep]. }
  split.
  - destruct (decide (map_Exists (fun _ hd => h_path hd = path /\ h_unreg hd = false) (w_handles (r_world s)))) as [Y|Y].
    + left. apply map_Exists_lookup in Y as (h & hd & Hh & <- & Hu). exists h. rewrite lookup_fmap, Hh. cbn. rewrite Hu. reflexivity.
    + right. intros h p' b Hh Ep. rewrite lookup_fmap in Hh. destruct (w_handles (r_world s) !! h) as [hd|] eqn:Hd; [|discriminate Hh]. cbn in Hh. injection Hh as <- <-.
      apply Y, map_Exists_lookup. destruct (h_unreg hd) eqn:Hu.
      * destruct (n_unreg _ HH _ _ Hd Hu) as (d & q & Z). destruct (Cl _ _ _ _ Z Hd Ep) as (h2 & k2 & Ho).
        destruct (open_handle_get E ls s h2 path k2 X Ho) as (i & x & B1 & _). exists h2, (Handle path k2 i false). auto.
      * exists h, hd. split_and!; auto. pose proof (h_hd _ _ RR _ _ Hd) as Ih.
        assert (G : forall d pa ke, RInv d (OOpen pa ke) ∈ ls -> In pa (paths (begun ls))).
        { intros d pa ke Z. apply in_flat_map. exists (ENew d pa ke). split; [|left; reflexivity]. apply in_flat_map. exists (RInv d (OOpen pa ke)).
          split; [apply elem_of_list_In, Z|left; reflexivity]. }
        eapply (or_paths _ _ _ O); eauto.
  - intros Hf. destruct (lookup_reg (r_world s) path) as [i|] eqn:Hl; [|reflexivity]. exfalso. unfold find in Hf. rewrite Hl in Hf.
    destruct (decide (i ∈ r_dead s)) as [B|B]; [|rewrite (bool_decide_eq_false_2 _ B) in Hf; discriminate Hf].
    destruct (n_dead _ HH _ B) as (d & h & r & hd & Z1 & Z2 & Z3). unfold lookup_reg in Hl. destruct (w_reg (r_world s) !! path) as [j|] eqn:Hj; [|discriminate Hl].
    destruct (decide (is_Some (w_insts (r_world s) !! j))) as [[x Hx]|Hx]; [|rewrite bool_decide_eq_false_2 in Hl by exact Hx; discriminate Hl].
    rewrite bool_decide_eq_true_2 in Hl by eauto. injection Hl as ->.
    assert (Ep : canon (h_path hd) = canon path). { transitivity (i_dir x); [symmetry; eapply (da_handle _ _ D); [exact Z2|congruence]|eapply (da_reg _ _ D); eassumption]. }
    destruct (Cl _ _ _ _ Z1 Z2 Ep) as (h2 & k2 & Ho). destruct (open_handle_get E ls s h2 path k2 X Ho) as (i2 & x2 & B1 & B2 & B3).
    assert (i2 = i) as -> by congruence. pose proof (n_op _ HH _ _ _ Z1) as (hd' & W1 & W2 & W3 & _). rewrite Z2 in W1. injection W1 as <-.
    assert (h2 = h) as -> by (eapply W3; [exact B1|cbn; congruence]). rewrite Z2 in B1. injection B1 as ->. discriminate W2.
Qed.

Lemma Sim_step ls s a s' : rexec E reg0 ls s -> ordinary E keyof (begun (ls ++ [a])) -> apart canon (ls ++ [a]) ->
  (exists tr rs lin, Sim ls s tr rs lin) -> rstep E s a s' -> exists tr rs lin, Sim (ls ++ [a]) s' tr rs lin.
Proof.
  intros X O' A' (tr & rs & lin & M) St. pose proof (ordinary_begun_app _ _ O') as O. pose proof (apart_app _ _ A') as A.
  destruct (R_exec E ls s X) as (L & HH & RR & RO'). destruct (Sim_fine ls s tr rs lin O M) as (P & T & D). pose proof (m_ok _ _ _ _ _ M) as Ok.
  assert (Fr : r_ops s !! r_next s = None) by (destruct (r_ops s !! r_next s) as [x|] eqn:Y; [apply (k_nx _ L) in Y; lia|reflexivity]).
  assert (Bg : forall p o, (p = QWant \/ p = QWantW) -> exists tr rs lin, Sim (ls ++ [RInv (r_next s) o]) (begin s p o) tr rs lin).
  { intros p o Hp. exists tr, rs, lin. destruct M as [M1 M2 M3 M4 M5]. split; auto.
    - rewrite M1. f_equal. f_equal. unfold ahead. f_equal. unfold at_writer. cbn. destruct (r_writer s) as [d|] eqn:W; [|reflexivity].
      destruct (k_w _ L _ W) as (q & oq & Y & _). rewrite lookup_insert_ne by congruence. reflexivity.
    - cbn. eapply HistR_call; [exact M4|]. intros d. unfold st_of. cbn. destruct (decide (d = r_next s)) as [->|]; [rewrite lookup_insert|rewrite lookup_insert_ne by congruence; reflexivity].
      destruct Hp as [-> | ->]; destruct o; reflexivity.
    - cbn. intros c h r q Y Z. at_op c (r_next s); [|eauto]. injection Y as <- _. destruct Hp as [-> | ->]; destruct Z as [?|[?|?]]; discriminate. }
  destruct St as [s path key|s h o U|s h U Nc|s c path key Hc Hw|s c path key Hc Hp|s c path key i Hc Hp Hf|s c path key Hc Hp Hf|s c o Hc Hw Hr|s c path key Hc Hp
    |s c path key i Hc Hp Hf|s c path key Hc Hp Hf|s c path key w x Hc Ho|s c path key w Hc Ho|s c path key i Hc|s c h hd Hc Hp Hh|s c h hd Hc Hp Hh|s c h hd last Hc Hh
    |s c o r Hc|s c h hd r Hc Hh Hs|s c h hd r Hc Hh Hs|s c h hd r x Hc Hh Hx Hq|s c h o w r Hc Hs|s i x Hx Hq Hi|s c o r Hc];
    try congruence; try (apply Bg; auto; fail); clear Bg.
  - (* read *)
    eapply Sim_tau; [exact M| |eapply st_move; [exact Hc|reflexivity..]|reflexivity|eapply ok_move; [reflexivity|exact Ok|discriminate]].
    unfold ahead. cbn [r_world set_op set_lk]. f_equal. rewrite !writer_none by exact Hw. reflexivity.
  - (* hit *)
    pose proof (reader_writer s c L (k_rd _ L _ _ Hc)) as Wn. assert (Q : quiet (at_writer s)) by (rewrite writer_none by exact Wn; exact Logic.I).
    destruct (open_calm ls s tr rs lin c _ path key X O A M Hc Q) as [C1 _].
    eapply (Sim_lin _ _ _ _ _ _ c (OOpen path key) (ENew c path key) (ROk None));
      [exact M| |reflexivity|exact C1|eapply st_now; [exact Hc|reflexivity]|eapply st_lin; [exact Hc|reflexivity..]|reflexivity|eapply ok_move; [reflexivity|exact Ok|discriminate]].
    rewrite (ahead_quiet s Q), ahead_quiet by (rewrite writer_none by exact Wn; exact Logic.I). cbn [step]. pose proof (n_op _ HH _ _ _ Hc) as Y. cbn in Y. rewrite Y.
    unfold do_new. rewrite Hp. unfold find in Hf. destruct (lookup_reg (r_world s) path) as [j|]; [|discriminate Hf].
    destruct (bool_decide (j ∈ r_dead s)); [discriminate Hf|]. injection Hf as ->. reflexivity.
  - (* miss *)
    pose proof (reader_writer s c L (k_rd _ L _ _ Hc)) as Wn.
    eapply Sim_tau; [exact M| |eapply st_move; [exact Hc|reflexivity..]|reflexivity|eapply ok_move; [reflexivity|exact Ok|discriminate]].
    unfold ahead. cbn [r_world set_op set_lk]. f_equal. rewrite !writer_none by exact Wn. reflexivity.
  - (* write *)
    eapply Sim_tau; [exact M| |eapply st_move; [exact Hc|reflexivity|destruct o; reflexivity]|reflexivity|eapply ok_move; [reflexivity|exact Ok|intros h r _ [?|[?|?]]; discriminate]].
    rewrite (ahead_quiet s) by (rewrite writer_none by exact Hw; exact Logic.I). etransitivity; [apply ahead_quiet|reflexivity].
    eapply writer_quiet; [reflexivity|cbn; apply lookup_insert|]. destruct o; exact Logic.I.
  - (* again *)
    pose proof (k_wr _ L _ _ _ Hc eq_refl) as Wc. assert (Q : quiet (at_writer s)) by (rewrite (writer_some s c _ Wc Hc); exact Logic.I).
    destruct (open_calm ls s tr rs lin c _ path key X O A M Hc Q) as [C1 _].
    eapply (Sim_lin _ _ _ _ _ _ c (OOpen path key) (ENew c path key) (ROk None));
      [exact M| |reflexivity|exact C1|eapply st_now; [exact Hc|reflexivity]|eapply st_lin; [exact Hc|reflexivity..]|reflexivity|eapply ok_move; [reflexivity|exact Ok|discriminate]].
    rewrite (ahead_quiet s Q). rewrite ahead_quiet by (eapply writer_quiet; [exact Wc|cbn; apply lookup_insert|exact Logic.I]).
    cbn [step]. pose proof (n_op _ HH _ _ _ Hc) as Y. cbn in Y. rewrite Y.
    unfold do_new. rewrite Hp. unfold find in Hf. destruct (lookup_reg (r_world s) path) as [j|]; [|discriminate Hf].
    destruct (bool_decide (j ∈ r_dead s)); [discriminate Hf|]. injection Hf as ->. reflexivity.
  - (* absent *)
    pose proof (k_wr _ L _ _ _ Hc eq_refl) as Wc.
    eapply Sim_tau; [exact M| |eapply st_move; [exact Hc|reflexivity..]|reflexivity|eapply ok_move; [reflexivity|exact Ok|discriminate]].
    rewrite (ahead_quiet s) by (rewrite (writer_some s c _ Wc Hc); exact Logic.I). etransitivity; [apply ahead_quiet|reflexivity].
    eapply writer_quiet; [exact Wc|cbn; apply lookup_insert|exact Logic.I].
  - (* build *)
    pose proof (k_wr _ L _ _ _ Hc eq_refl) as Wc. assert (Q : quiet (at_writer s)) by (rewrite (writer_some s c _ Wc Hc); exact Logic.I).
    destruct (open_calm ls s tr rs lin c _ path key X O A M Hc Q) as [C1 C2]. pose proof (n_op _ HH _ _ _ Hc) as (Y1 & Y2 & Y3 & Y4).
    eapply (Sim_lin _ _ _ _ _ _ c (OOpen path key) (ENew c path key) (ROk None));
      [exact M| |reflexivity|exact C1|eapply st_now; [exact Hc|reflexivity]|eapply st_lin; [exact Hc|reflexivity..]|reflexivity|eapply ok_move; [reflexivity|exact Ok|discriminate]].
    rewrite (ahead_quiet s Q). cbn [step]. rewrite Y1. unfold do_new. rewrite Y4, (C2 Y3), Ho. f_equal.
    unfold ahead. erewrite (writer_some (set_op _ c _ _) c); [|exact Wc|cbn; apply lookup_insert]. reflexivity.
  - (* panic *)
    exfalso. pose proof (k_wr _ L _ _ _ Hc eq_refl) as Wc. assert (Q : quiet (at_writer s)) by (rewrite (writer_some s c _ Wc Hc); exact Logic.I).
    destruct (open_calm ls s tr rs lin c _ path key X O A M Hc Q) as [C1 C2]. pose proof (n_op _ HH _ _ _ Hc) as (Y1 & Y2 & Y3 & Y4).
    set (s' := set_op (set_w s (set_poison w)) c (QRel RPanic) (OOpen path key)).
    assert (S' : exists tr' rs' lin', Sim (ls ++ [RTau]) s' tr' rs' lin').
    { eapply (Sim_lin _ _ _ _ _ _ c (OOpen path key) (ENew c path key) RPanic);
      [exact M| |reflexivity|exact C1|eapply st_now; [exact Hc|reflexivity]|eapply st_lin; [exact Hc|reflexivity..]|reflexivity|eapply ok_move; [reflexivity|exact Ok|discriminate]].
      rewrite (ahead_quiet s Q), ahead_quiet by (eapply writer_quiet; [exact Wc|cbn; apply lookup_insert|exact Logic.I]).
      cbn [step]. rewrite Y1. unfold do_new. rewrite Y4, (C2 Y3), Ho. reflexivity. }
    destruct S' as (tr' & rs' & lin' & M'). destruct (Sim_fine _ _ _ _ _ O' M') as (P' & _). discriminate P'.
  - (* insert *)
    pose proof (k_wr _ L _ _ _ Hc eq_refl) as Wc.
    eapply Sim_tau; [exact M| |eapply st_move; [exact Hc|reflexivity..]|reflexivity|eapply ok_move; [reflexivity|exact Ok|discriminate]].
    rewrite ahead_quiet by (eapply writer_quiet; [exact Wc|cbn; apply lookup_insert|exact Logic.I]).
    unfold ahead. rewrite (writer_some s c _ Wc Hc). reflexivity.
  - (* count *)
    pose proof (k_wr _ L _ _ _ Hc eq_refl) as Wc. pose proof (n_op _ HH _ _ _ Hc) as (hd' & Y1 & Y2). rewrite Hh in Y1. injection Y1 as <-.
    eapply (Sim_reg _ _ _ _ _ _ h (ROk None)); [exact M| |eapply st_move; [exact Hc|reflexivity..]|reflexivity|eapply ok_move; [reflexivity|exact Ok|intros k r _ [?|[?|?]]; discriminate]].
    rewrite (ahead_quiet s) by (rewrite (writer_some s c _ Wc Hc); exact Logic.I). cbn [step]. unfold with_handle. rewrite Hh, Y2. f_equal.
    unfold do_drop_reg. rewrite Hp. unfold ahead. erewrite (writer_some (set_op _ c _ _) c); [|exact Wc|cbn; apply lookup_insert]. unfold adj. cbn [r_world set_op aH aR]. rewrite Hh.
    destruct (Nat.eqb (strong (r_world s) (h_inst hd)) 1); destruct (r_world s); reflexivity.
  - (* remove *)
    pose proof (k_wr _ L _ _ _ Hc eq_refl) as Wc.
    eapply Sim_tau; [exact M| |eapply st_move; [exact Hc|reflexivity..]|reflexivity|eapply ok_move; [reflexivity|exact Ok|intros k r _ [?|[?|?]]; congruence]].
    rewrite ahead_quiet by (eapply writer_quiet; [exact Wc|cbn; apply lookup_insert|exact Logic.I]).
    unfold ahead. rewrite (writer_some s c _ Wc Hc). unfold adj. cbn [aH aR r_world set_op set_w]. destruct last; rewrite Hh; destruct (r_world s); reflexivity.
  - (* release *)
    eapply Sim_tau; [exact M| |eapply st_move; [exact Hc|reflexivity|destruct o; [reflexivity..|destruct (n_op _ HH _ _ _ Hc)]]|reflexivity|eapply ok_move; [reflexivity|exact Ok|]].
    + unfold ahead. cbn [r_world set_op set_lk]. destruct (decide (r_writer s = Some c)) as [Wc|Wc].
      * rewrite !adj_quiet; [reflexivity|rewrite (writer_some s c _ Wc Hc); destruct o; exact Logic.I|exact Logic.I].
      * f_equal. unfold at_writer. cbn. destruct (r_writer s) as [d|]; [|reflexivity]. rewrite lookup_insert_ne by congruence. reflexivity.
    + intros h r' -> [?|[?|?]]; try discriminate. injection H as <-. eapply (Ok c h r); eauto.
  - (* arc *)
    pose proof (n_op _ HH _ _ _ Hc) as (hd' & Y1 & Y2). rewrite Hh in Y1. injection Y1 as <-.
    assert (r = ROk None) as -> by (eapply (Ok c h r); eauto).
    eapply (Sim_lin _ _ _ _ _ _ c (OClose h) (EDropArc h) (ROk None));
      [exact M| |reflexivity|exact Logic.I|eapply st_now; [exact Hc|reflexivity]|eapply st_lin; [exact Hc|reflexivity..]|reflexivity|eapply ok_move; [reflexivity|exact Ok|intros k r _ [?|[?|?]]; discriminate]].
    assert (Ew : at_writer s = at_writer (set_op (set_w s (set_handles (r_world s) (delete h (w_handles (r_world s))))) c (QDone (ROk None)) (OClose h))).
    { symmetry. eapply writer_same; [reflexivity..|]. eapply not_writer; [exact L|exact Hc|reflexivity]. }
    unfold ahead at 2. rewrite <- Ew. unfold ahead. eapply adj_drop; [|exact Hh|exact Y2| |].
    + intros N. unfold at_writer in N. destruct (r_writer s) as [d|]; [|exact N]. destruct (r_ops s !! d) as [[q oq]|] eqn:Hd; [|exact N].
      cbn in N. destruct (n_own _ HH _ _ _ Hc) as [B _]. destruct q, oq; try exact N; subst; [congruence|].
      pose proof (n_close _ HH _ _ _ _ _ Hc Hd) as <-. congruence.
    + apply adj_strong; [|exact HH|eauto]. unfold at_writer. destruct (r_writer s) as [d|]; [|exact Logic.I]. destruct (r_ops s !! d) eqn:Hd; [exact Hd|exact Logic.I].
    + unfold do_drop_arc. apply Nat.eqb_neq in Hs. rewrite Hs. reflexivity.
  - (* last arc *)
    eapply Sim_tau; [exact M| |eapply st_move; [exact Hc|reflexivity..]|reflexivity|eapply ok_move; [reflexivity|exact Ok|]].
    + unfold ahead. cbn [r_world set_op set_dead]. f_equal. eapply writer_same; [reflexivity..|]. eapply not_writer; [exact L|exact Hc|reflexivity].
    + intros k r' [= ->] [G|[G|G]]; try discriminate G. injection G as <-. eapply (Ok c k r); eauto.
  - (* joined *)
    pose proof (n_op _ HH _ _ _ Hc) as (hd' & Y1 & Y2 & Y3 & Y4). rewrite Hh in Y1. injection Y1 as <-.
    assert (r = ROk None) as -> by (eapply (Ok c h r); eauto). set (r2 := if i_join x then _ else _).
    eapply (Sim_lin _ _ _ _ _ _ c (OClose h) (EDropArc h) r2);
      [exact M| |reflexivity|exact Logic.I|eapply st_now; [exact Hc|reflexivity]|eapply st_lin; [exact Hc|reflexivity..]|reflexivity|eapply ok_move; [reflexivity|exact Ok|intros k r _ [?|[?|?]]; discriminate]].
    match goal with |- _ = Some (ahead ?t, _) => assert (Ew : at_writer s = at_writer t) end.
    { symmetry. eapply writer_same; [reflexivity..|]. eapply not_writer; [exact L|exact Hc|reflexivity]. }
    unfold ahead at 2. rewrite <- Ew. unfold ahead. eapply adj_drop; [|exact Hh|exact Y2| |].
    + intros N. unfold at_writer in N. destruct (r_writer s) as [d|]; [|exact N]. destruct (r_ops s !! d) as [[q oq]|] eqn:Hd; [|exact N].
      cbn in N. destruct (n_own _ HH _ _ _ Hc) as [B _]. destruct q, oq; try exact N; subst; [congruence|].
      pose proof (n_close _ HH _ _ _ _ _ Hc Hd) as <-. congruence.
    + apply adj_strong; [|exact HH|eauto]. unfold at_writer. destruct (r_writer s) as [d|]; [|exact Logic.I]. destruct (r_ops s !! d) eqn:Hd; [exact Hd|exact Logic.I].
    + apply (drop_arc_eq _ _ _ x Hh Hx Hq). exact (proj2 (strong_1 _ h hd Hh) Y3).
  - (* call *)
    pose proof (n_op _ HH _ _ _ Hc) as (hd & Y1 & Y2).
    eapply (Sim_lin _ _ _ _ _ _ c (OCall h o) (event_of h o) r);
      [exact M| |destruct o; reflexivity|destruct o; exact Logic.I|eapply st_now; [exact Hc|reflexivity]|eapply st_lin; [exact Hc|reflexivity..]|reflexivity|eapply ok_move; [reflexivity|exact Ok|discriminate]].
    match goal with |- _ = Some (ahead ?t, _) => assert (Ew : at_writer s = at_writer t) end.
    { symmetry. eapply writer_same; [reflexivity..|]. eapply not_writer; [exact L|exact Hc|reflexivity]. }
    unfold ahead at 2. rewrite <- Ew. unfold ahead. apply adj_call; [|exact Hs].
    intros N. unfold at_writer in N. destruct (r_writer s) as [d|]; [|exact N]. destruct (r_ops s !! d) as [[q oq]|] eqn:Hd; [|exact N].
    cbn in N. pose proof (n_op _ HH _ _ _ Hd) as Od. destruct q, oq; try exact N; subst; [destruct Od; congruence|]. eapply (n_excl _ HH); eauto.
  - (* io *)
    eapply (Sim_io _ _ _ _ _ _ i); [exact M| |reflexivity|reflexivity|exact Ok]. cbn [step]. unfold ahead. cbn [r_world set_w]. rewrite <- adj_job. reflexivity.
  - (* return *)
    exists tr, rs, lin. destruct M as [M1 M2 M3 M4 M5]. split; auto.
    + rewrite M1. f_equal. f_equal. unfold ahead. cbn [r_world]. f_equal. unfold at_writer. cbn. destruct (r_writer s) as [d|] eqn:W; [|reflexivity].
      rewrite lookup_delete_ne; [reflexivity|]. intros <-. eapply (not_writer s c); [exact L|exact Hc|reflexivity|exact W].
    + cbn. eapply (HistR_return _ _ _ _ _ c o r); [exact M4|unfold st_of; rewrite Hc; destruct o; reflexivity|].
      intros d. unfold st_of. cbn. destruct (decide (d = c)) as [->|]; [rewrite lookup_delete|rewrite lookup_delete_ne by congruence]; reflexivity.
    + cbn. intros d h r' q Y Z. apply lookup_delete_Some in Y as [_ Y]. eauto.
Qed.

Lemma Sim_exec ls s : rexec E reg0 ls s -> ordinary E keyof (begun ls) -> apart canon ls -> exists tr rs lin, Sim ls s tr rs lin.
Proof.
  induction 1 as [|ls s1 a s2 X IH St]; intros O A; [exists [], [], []; apply Sim_0|].
  eapply Sim_step; eauto. apply IH; [eapply ordinary_begun_app, O|eapply apart_app, A].
Qed.

(** Every concurrent history of openings, closings and calls is a
    linearization of the map of Spec.v: there is one order of the calls,
    respecting real time, in which every call gives the specification's
    answer. *)
Theorem C60_linearizable ls s :
  rexec E reg0 ls s -> ordinary E keyof (begun ls) -> apart canon ls ->
  exists lin sp, linearizes ls lin /\
    spec_run canon spec0 (map (fun x => op_event x.1.1 x.1.2) lin) = Some (sp, map snd lin).
Proof.
  intros X O A. destruct (Sim_exec ls s X O A) as (tr & rs & lin & [M1 M2 M3 M4 M5]).
  pose proof (HistR_linearizes _ _ _ _ M4) as Z. pose proof (lin_any ls tr rs lin O Z M2) as HA.
  destruct (calm_answers E keyof tr _ _ HA M3 M1) as [(sp & Hsp) _].
  exists lin, sp. split; [exact Z|]. apply (proj2 (matches_spec _ _ _ M2)), Hsp.
Qed.

(** No directory has two live stores. *)
Theorem C60_one_store_per_directory ls s :
  rexec E reg0 ls s -> ordinary E keyof (begun ls) -> apart canon ls ->
  forall i j x y, w_insts (r_world s) !! i = Some x -> w_insts (r_world s) !! j = Some y -> i_dir x = i_dir y -> i = j.
Proof.
  intros X O A. destruct (Sim_exec ls s X O A) as (tr & rs & lin & [M1 M2 M3 M4 M5]).
  pose proof (HistR_linearizes _ _ _ _ M4) as Z. pose proof (lin_any ls tr rs lin O Z M2) as HA.
  destruct (calm_answers E keyof tr _ _ HA M3 M1) as [_ U]. exact U.
Qed.

End Sim.
