(** C60 for the whole concurrent model: every call returns. *)
From Verif Require Import Bytes Utf8 Proto ProtoFacts Value Codec Store StoreFacts Encrypt World Spec Hyps Refine WorldInv WorldStep Main Frames Reach Examples P_Map P_Store P_Fail P_Alias Looper P_Loop Conc P_Conc P_Live Reg P_Reg P_Reg2 P_Reg3 Full P_Full P_Full2 P_Full3.
From Coq Require Import ZifyBool ZifyNat ZifyN.
Local Open Scope N_scope.

(** ** Steps left *)

Definition fstage (x : rpc * rop) : nat := match x.2 with OCall _ _ => 0 | _ => 10 * qstage x.1 end%nat.
Definition ftodo (f : full) : nat := (mtotal fstage (r_ops (u_reg f)) + mtotal todo (u_stores f))%nat.

Lemma todo_plug st w n : todo (plug st w n) = todo st.
Proof. reflexivity. Qed.

Section Live.
Context (E : env) (keyof : bytes -> bytes).
Notation canon := (e_canon E).

Definition no_inv (a : rlabel) : Prop := forall c o, a <> RInv c o.

Lemma store_less f i st st' a : u_stores f !! i = Some st -> LInv (inner f st) -> cstep E i (inner f st) a st' -> (forall c h o, a <> HInv c h o) ->
  (mtotal todo (<[i := st']> (u_stores f)) < mtotal todo (u_stores f))%nat.
Proof.
  intros Hst L X Hn. pose proof (step_todo E i _ _ _ L X Hn) as M. unfold inner in M. rewrite todo_plug in M.
  pose proof (mtotal_change todo _ _ _ st' Hst). lia.
Qed.

Lemma step_ftodo f a f' s rem : fine E s -> FR E f s rem -> fstep E f a f' -> no_inv a -> (ftodo f' < ftodo f)%nat.
Proof.
  intros F R X Hn.
  assert (Cal : forall c p h o, r_ops (u_reg f) !! c = Some (p, OCall h o) -> p = QWant).
  { intros c p h o Y. pose proof (fr_ops _ _ _ _ R c) as O. unfold oprel in O. rewrite Y in O. apply O. }
  assert (Mv : forall c p o p' n, r_ops (u_reg f) !! c = Some (p, o) -> (forall h oo, o <> OCall h oo) -> (qstage p' < qstage p)%nat -> (n <= mtotal todo (u_stores f) + 1)%nat ->
    (mtotal fstage (<[c := (p', o)]> (r_ops (u_reg f))) + n < ftodo f)%nat).
  { intros c p o p' n Hc No Hl Hle. pose proof (mtotal_change fstage (r_ops (u_reg f)) c _ (p', o) Hc) as M.
    assert (fstage (p', o) + 2 <= fstage (p, o))%nat by (unfold fstage; cbn -[Nat.mul]; destruct o; [lia..|destruct (No h o eq_refl)]). unfold ftodo. lia. }
  destruct X as [f a s1 X [RI RJ RC]|f c path key w x Hc Ho|f h hd o st st' U Hh Hst X|f i st st' Hst X|f c h o hd st st' r Hc Hh Hst X|f c h hd r st l Hc Hh Hs Hst D|f c h hd r st b Hc Hh Hst J];
    unfold ftodo at 1; cbn [u_reg u_stores].
  - destruct f as [u stores]. cbn [u_reg u_stores] in *. 
    destruct X as [u path key|u h o U|u h U Nc|u c path key Hc Hw|u c path key Hc Hp|u c path key i Hc Hp Hf|u c path key Hc Hp Hf|u c o Hc Hw Hr|u c path key Hc Hp
    |u c path key i Hc Hp Hf|u c path key Hc Hp Hf|u c path key w x Hc Ho|u c path key w Hc Ho|u c path key i Hc|u c h hd Hc Hp Hh|u c h hd Hc Hp Hh|u c h hd last Hc Hh
    |u c o r Hc|u c h hd r Hc Hh Hs|u c h hd r Hc Hh Hs|u c h hd r x Hc Hh Hx Hq|u c h o w r Hc Hs|u i x Hx Hq Hi|u c o r Hc];
    try (exfalso; eapply Hn; reflexivity); cbn [set_op set_w set_lk set_dead r_ops r_world];
    try (eapply Mv; [exact Hc|discriminate|cbn; lia|lia]; fail).
    + eapply Mv; [exact Hc|intros h oo ->; apply Cal in Hc; discriminate Hc|cbn; lia|lia].
    + eapply Mv; [exact Hc|intros h oo ->; apply Cal in Hc; discriminate Hc|destruct o; cbn; lia|lia].
    + exfalso. assert (Y : r_ops u !! c = Some (QDone r, OCall h o)) by (apply RC; cbn; apply lookup_insert). congruence.
    + exfalso. exact (run_job_queue E _ _ _ Hx Hq Hi RI).
    + assert (No : forall h oo, o <> OCall h oo) by (intros h oo ->; apply Cal in Hc; discriminate Hc).
      pose proof (mtotal_delete fstage (r_ops u) c _ Hc) as M. assert (1 <= fstage (QDone r, o))%nat by (unfold fstage; destruct o; cbn; try lia; destruct (No h o eq_refl)).
      unfold ftodo. cbn [u_reg u_stores]. lia.
  - cbn [set_op set_w r_ops]. eapply Mv; [exact Hc|discriminate|cbn; lia|].
    assert (New : u_stores f !! w_next_inst w = None).
    { destruct (u_stores f !! w_next_inst w) as [st|] eqn:Hst; [|reflexivity]. destruct (fr_store _ _ _ _ R _ _ Hst) as (x' & y & _ & Hy & _).
      apply (n_ibound _ (fi_hn _ _ F)) in Hy. pose proof (v_inst _ _ _ _ (fr_world _ _ _ _ R)) as Vn. destruct (open_impl_sub E _ _ _ _ _ Ho) as (P1 & P2 & P3 & P4 & P5 & P6). lia. }
    rewrite mtotal_insert by exact New. change (todo (conc0 w x)) with 1%nat. lia.
  - exfalso. eapply Hn. reflexivity.
  - destruct (fr_store _ _ _ _ R _ _ Hst) as (x & y & _ & _ & L & _). pose proof (store_less f i st st' _ Hst L X ltac:(discriminate)). unfold ftodo, outer. cbn. lia.
  - destruct (fr_store _ _ _ _ R _ _ Hst) as (x & y & _ & _ & L & _). pose proof (store_less f _ st st' _ Hst L X ltac:(discriminate)) as M.
    cbn [r_ops]. pose proof (mtotal_delete fstage (r_ops (u_reg f)) c _ Hc) as M2. unfold ftodo. lia.
  - cbn [set_op set_dead r_ops]. eapply Mv; [exact Hc|discriminate|cbn; lia|]. pose proof (mtotal_change todo _ _ _ (set_loop st l) Hst) as M.
    assert (todo (set_loop st l) = todo st); [|lia]. destruct D as [[K D]|[(ok & K & ->)|[K ->]]]; [|destruct st; reflexivity|reflexivity].
    inversion K; subst; try reflexivity. exfalso. apply (f_equal length) in D. cbn in D. rewrite app_length in D. cbn in D. lia.
  - cbn [set_op set_dead set_w r_ops]. eapply Mv; [exact Hc|discriminate|cbn; lia|]. pose proof (mtotal_delete todo _ _ _ Hst). lia.
Qed.

(** ** A store being dropped *)

(** A store whose last Arc is gone has no calls and its looper is joining. *)
Definition JI (f : full) : Prop := forall i st, u_stores f !! i = Some st -> i ∈ r_dead (u_reg f) -> l_k (c_loop st) = KJoin /\ c_calls st = ∅.

Lemma joining_step i st st' : cstep E i st HTau st' -> l_k (c_loop st) = KJoin -> c_calls st = ∅ -> l_k (c_loop st') = KJoin /\ c_calls st' = ∅.
Proof.
  intros X K Em. inversion X; subst; cbn; try (rewrite Em, lookup_empty in *; discriminate).
  - match goal with H : pstep _ _ _ |- _ => apply pstep_tau in H as (-> & _) end. auto.
  - match goal with H : xstep _ _ _ _ |- _ => destruct (xstep_k _ _ _ _ H) as [-> _] end. auto.
Qed.

Lemma JI_step f a f' s rem : fine E s -> FR E f s rem -> JI f -> fstep E f a f' -> JI f'.
Proof.
  intros F R I X. pose proof (fi_hn _ _ F) as HH. pose proof (fr_world _ _ _ _ R) as V. pose proof (v_handles _ _ _ _ V) as VH. pose proof (fr_dead _ _ _ _ R) as RD.
  assert (NoCall : forall c p h o hd, r_ops (u_reg f) !! c = Some (p, OCall h o) -> w_handles (r_world (u_reg f)) !! h = Some hd -> h_inst hd ∉ r_dead (u_reg f)).
  { intros c p h o hd Hc Hh D. rewrite <- RD in D. destruct (n_dead _ HH _ D) as (c' & h' & r & hd' & C1 & C2 & C3).
    pose proof (n_op _ HH _ _ _ C1) as (hd2 & C4 & _ & Al & _). assert (h = h') as -> by (eapply Al; [rewrite <- VH; exact Hh|congruence]).
    eapply (FR_close E f s rem c' _ h' c); eauto. rewrite (FR_back E _ _ _ _ R), C1; [reflexivity|rewrite C1; exact Logic.I]. }
  destruct X as [f a s1 X [RI RJ RC]|f c path key w x Hc Ho|f h hd o st st' U Hh Hst X|f i st st' Hst X|f c h o hd st st' r Hc Hh Hst X|f c h hd r st l Hc Hh Hs Hst D|f c h hd r st b Hc Hh Hst J];
    intros j st0; cbn [u_reg u_stores outer].
  - intros Hj Hd. apply (I j st0 Hj). destruct X; cbn in Hd; try exact Hd; [|set_solver].
    exfalso. assert (Y : r_ops s0 !! c = Some (QJoin r, OClose h)) by (apply RJ; cbn; apply lookup_insert). congruence.
  - cbn. destruct (decide (j = w_next_inst w)) as [->|Hne]; [|rewrite lookup_insert_ne by congruence; apply I].
    intros _ D. exfalso. rewrite <- RD in D. destruct (n_dead _ HH _ D) as (c' & h' & r & hd' & C1 & C2 & C3).
    destruct (n_inst _ HH _ _ C2) as [_ B]. pose proof (v_inst _ _ _ _ V) as Vn. destruct (open_impl_sub E _ _ _ _ _ Ho) as (P1 & P2 & P3 & P4 & P5 & P6). lia.
  - cbn. destruct (decide (j = h_inst hd)) as [->|Hne]; [|rewrite lookup_insert_ne by congruence; apply I].
    intros _ D. exfalso. destruct U as (U1 & U2 & U3). rewrite <- RD in D. destruct (n_dead _ HH _ D) as (c' & h' & r & hd' & C1 & C2 & C3).
    pose proof (n_op _ HH _ _ _ C1) as (hd2 & C4 & _ & Al & _). assert (h = h') as -> by (eapply Al; [rewrite <- VH; exact Hh|congruence]).
    apply (U3 c' (QJoin r)). rewrite (FR_back E _ _ _ _ R), C1; [reflexivity|rewrite C1; exact Logic.I].
  - cbn. destruct (decide (j = i)) as [->|Hne]; [rewrite lookup_insert|rewrite lookup_insert_ne by congruence; apply I].
    intros [= <-] D. destruct (I i st Hst D) as [K Em]. exact (joining_step i _ _ X K Em).
  - cbn. destruct (decide (j = h_inst hd)) as [->|Hne]; [|rewrite lookup_insert_ne by congruence; apply I].
    intros _ D. destruct (NoCall _ _ _ _ _ Hc Hh D).
  - cbn. destruct (decide (j = h_inst hd)) as [->|Hne].
    + rewrite lookup_insert. intros [= <-] _.
      assert (Al : alone (w_handles (r_world (u_reg f))) h hd) by (eapply alone_strong; [exact Hh|rewrite Hs; reflexivity]).
      pose proof (FR_alone E f s rem c h hd _ _ st R F Hc Hst Al Hh) as Em. split; [|exact Em]. cbn.
      destruct D as [[K D]|[(ok & K & ->)|[K ->]]]; [inversion K; reflexivity| |reflexivity].
      exfalso. destruct (fr_store _ _ _ _ R _ _ Hst) as (x & y & Hx & Hy & L & S).
      destruct S as [af A1 A2 A3 A4 A5|c1 p h1 af pend A1 A2 A3 A4 A5 A6|A1 A2 A3 A4 A5]; [destruct A2 as [A2 _]; congruence|rewrite Em, lookup_empty in A1; discriminate A1|congruence].
    + rewrite lookup_insert_ne by congruence. intros Hj D'. apply (I j st0 Hj). set_solver.
  - cbn. rewrite lookup_delete_Some. intros [_ Hj] D. apply (I j st0 Hj). set_solver.
Qed.

(** ** Some step is possible *)

Lemma store_moves i st x y g : LInv st -> SR st x y g ->
  (forall c p h o, c_calls st !! c = Some (p, (h, o)) -> is_Some (w_handles (l_cb (c_loop st)) !! h)) ->
  moves E i st \/ c_calls st = ∅ /\ l_posts (c_loop st) = ∅ /\ l_buf (c_loop st) = [] /\ l_queue (c_loop st) = [] /\ (l_k (c_loop st) = Looper.KOpen \/ l_k (c_loop st) = KJoin /\ l_x (c_loop st) = XDone).
Proof.
  intros L S Hs. pose proof (k_loop _ L) as SI. destruct (move_posts E i st L) as [M|P]; [left; exact M|].
  destruct (decide (map_Forall (fun (_ : N) x => wants x) (c_calls st))) as [F|F].
  2:{ left. apply map_not_Forall in F; [|apply _]. destruct F as (c & [p [h o]] & Hc & Hn).
      assert (Ph : forall c0 p0 h0, c_calls st !! c0 = Some (p0, (h0, CClear)) -> phase (c_loop st) p0 -> owns p = true -> c = c0 /\ p = p0).
      { intros c0 p0 h0 H0 Hp Ho. destruct (decide (c = c0)) as [->|Hne]; [split; congruence|]. pose proof (late_others _ _ _ _ _ _ _ _ L H0 Hp Hc Hne). congruence. }
      destruct p as [| |j|lc| | | |r|r]; [destruct Hn; exact Logic.I|..].
      - destruct (body (c_front st) o) as [f [r|j|]] eqn:Hb; eapply moves_tau; [eapply c_body_ret|eapply c_body_job|eapply c_body_open]; eassumption.
      - assert (K : l_k (c_loop st) = Looper.KOpen).
        { destruct S as [af A1 A2 A3 A4 A5|c1 p h1 af pend A1 A2 A3 A4 A5 A6|A1 A2 A3 A4 A5]; [apply A2| |rewrite A2, lookup_empty in Hc; discriminate Hc].
          destruct (Ph _ _ _ A1 A2 eq_refl) as [_ <-]. destruct A2. }
        eapply moves_tau, c_post; [exact Hc|apply p_call, K].
      - destruct (k_wait _ L _ _ _ _ Hc) as [z Y]. rewrite P, lookup_empty in Y. discriminate Y.
      - assert (K : l_k (c_loop st) = Looper.KOpen).
        { destruct S as [af A1 A2 A3 A4 A5|c1 p h1 af pend A1 A2 A3 A4 A5 A6|A1 A2 A3 A4 A5]; [apply A2| |rewrite A2, lookup_empty in Hc; discriminate Hc].
          destruct (Ph _ _ _ A1 A2 eq_refl) as [_ <-]. exact A2. }
        destruct (alive (l_x (c_loop st))) eqn:Al.
        + eapply moves_tau, c_quit; [exact Hc|apply k_quit; assumption|reflexivity].
        + eapply moves_tau, c_quit_failed; [exact Hc|apply k_quit_failed; assumption].
      - assert (K : l_k (c_loop st) = KJoin).
        { destruct S as [af A1 A2 A3 A4 A5|c1 p h1 af pend A1 A2 A3 A4 A5 A6|A1 A2 A3 A4 A5]; [|..|rewrite A2, lookup_empty in Hc; discriminate Hc].
          - destruct A2 as [_ A2]. destruct (A2 _ _ _ _ Hc).
          - destruct (Ph _ _ _ A1 A2 eq_refl) as [_ <-]. exact A2. }
        destruct (alive (l_x (c_loop st))) eqn:Al.
        + destruct (move_x E i st L P Al) as [M|(_ & Sn & _)]; [exact M|]. destruct (s_closed _ SI) as [_ Sf]; congruence.
        + destruct (l_x (c_loop st)) eqn:Ex; try discriminate Al; eapply moves_tau.
          * apply (c_join E i st c h o true); [exact Hc|apply k_join_ok; assumption].
          * apply (c_join E i st c h o false); [exact Hc|apply k_join_err; assumption].
      - assert (K : l_k (c_loop st) = KClosed true).
        { destruct S as [af A1 A2 A3 A4 A5|c1 p h1 af pend A1 A2 A3 A4 A5 A6|A1 A2 A3 A4 A5]; [|..|rewrite A2, lookup_empty in Hc; discriminate Hc].
          - destruct A2 as [_ A2]. destruct (A2 _ _ _ _ Hc).
          - destruct (Ph _ _ _ A1 A2 eq_refl) as [_ <-]. exact A2. }
        destruct (Hs _ _ _ _ Hc) as [hd Hh]. destruct (open_impl E (l_cb (c_loop st)) (h_path hd) (h_key hd)) as [w1 [z|]] eqn:Ho; eapply moves_tau.
        + eapply c_reopen; eauto.
        + eapply c_reopen_failed; eauto.
      - eapply moves_tau, c_release, Hc.
      - eapply moves_1; [apply (c_return E i st c h o r Hc)|discriminate]. }
  assert (NC : forall c p h o, c_calls st !! c = Some (p, (h, o)) -> p = AWant).
  { intros c p h o Hc. apply F in Hc. destruct p; try contradiction. reflexivity. }
  assert (Hw : c_writer st = None).
  { destruct (c_writer st) as [c|] eqn:W; [|reflexivity]. destruct (k_writer _ L c W) as (p & h & o & Hc & Ho & _). rewrite (NC _ _ _ _ Hc) in Ho. discriminate Ho. }
  assert (Hr : c_readers st = ∅).
  { apply set_eq. intros c. split; [|set_solver]. intros Hin. destruct (k_readers _ L c Hin) as (p & h & o & Hc & Ho & _). rewrite (NC _ _ _ _ Hc) in Ho. discriminate Ho. }
  destruct (decide (c_calls st = ∅)) as [C|C].
  2:{ left. apply map_choose in C as (c & [p [h o]] & Hc). pose proof (NC _ _ _ _ Hc) as ->.
      destruct (exclusive o) eqn:He; eapply moves_tau; [eapply c_write|eapply c_read]; eassumption. }
  destruct S as [af A1 A2 A3 A4 A5|c1 p h1 af pend A1 A2 A3 A4 A5 A6|A1 A2 A3 A4 A5].
  - destruct A2 as [K _]. assert (alive (l_x (c_loop st)) = true) as Al'.
    { destruct (l_x (c_loop st)) eqn:Ex; try reflexivity; [|contradiction]. destruct (s_done _ SI Ex). contradiction. }
    destruct (move_x E i st L P Al') as [M|(I1 & I2 & I3)]; [left; exact M|right]. pose proof (s_buf _ SI) as SB. rewrite I3 in SB. split_and!; auto.
    destruct (l_queue (c_loop st)) as [|z q] eqn:Q; [reflexivity|]. exfalso.
    destruct (s_wake _ SI Al') as [(c & pc & j & Hp & _)|[Y|[Y|Y]]]; rewrite ?I1, ?I3 in *; try congruence.
    + rewrite P, lookup_empty in Hp. discriminate Hp.
    + inversion Y.
  - exfalso. rewrite C, lookup_empty in A1. discriminate A1.
  - destruct (alive (l_x (c_loop st))) eqn:Al.
    + left. destruct (move_x E i st L P Al) as [M|(_ & Sn & _)]; [exact M|]. destruct (s_closed _ SI) as [_ Sf]; congruence.
    + destruct (l_x (c_loop st)) eqn:Ex; try discriminate Al; [|contradiction]. right. pose proof (s_buf _ SI) as SB. rewrite Ex in SB. destruct (s_done _ SI Ex) as [_ Q]. split_and!; auto.
Qed.

(** If no store moves, the registry does. *)
Lemma full_moves f s rem : fine E s -> FR E f s rem -> JI f ->
  (exists a f', fstep E f a f' /\ no_inv a) \/
  r_ops (u_reg f) = ∅ /\ forall i st, u_stores f !! i = Some st -> l_buf (c_loop st) = [] /\ l_queue (c_loop st) = [].
Proof.
  intros F R I. pose proof (fi_hn _ _ F) as HH. pose proof (fi_lk _ _ F) as LL. pose proof (fr_world _ _ _ _ R) as V.
  pose proof (v_handles _ _ _ _ V) as VH. pose proof (v_poison _ _ _ _ V) as VP.
  set (mv := fun i st => moves E i (inner f st)).
  assert (St : forall i st, u_stores f !! i = Some st -> mv i st \/ c_calls st = ∅ /\ l_posts (c_loop st) = ∅ /\ l_buf (c_loop st) = [] /\ l_queue (c_loop st) = [] /\
     (l_k (c_loop st) = Looper.KOpen \/ l_k (c_loop st) = KJoin /\ l_x (c_loop st) = XDone)).
  { intros i st Hst. destruct (fr_store _ _ _ _ R _ _ Hst) as (x & y & Hx & Hy & L & S). unfold mv.
    eapply (store_moves i (inner f st)); [exact L|apply SR_plug; exact S|]. cbn. intros c p h o Hc.
    assert (Hs : status st c = Some ((h, o), linres (l_posts (c_loop st)) o p)) by (unfold status; rewrite Hc; reflexivity).
    destruct (fr_calls _ _ _ _ R _ _ _ _ _ Hst Hs) as (_ & hd & H1 & _). exists hd. exact H1. }
  destruct (decide (map_Forall (fun (i : N) (st : conc) => c_calls st = ∅ /\ l_posts (c_loop st) = ∅ /\ l_buf (c_loop st) = [] /\ l_queue (c_loop st) = [] /\
     (l_k (c_loop st) = Looper.KOpen \/ l_k (c_loop st) = KJoin /\ l_x (c_loop st) = XDone)) (u_stores f))) as [D|D].
  2:{ left. apply map_not_Forall in D; [|apply _]. destruct D as (i & st & Hst & Hn). destruct (St i st Hst) as [(a & st' & X & Ha)|Y]; [|contradiction].
      destruct a as [|c h o|c r]; [|destruct (Ha c h o eq_refl)|].
      - exists RTau. eexists. split; [eapply f_store; eassumption|intros ? ?; discriminate].
      - inversion X; subst. cbn in *.
        match goal with H : c_calls st !! c = Some (ADone r, (?h, ?o)) |- _ => assert (Hs : status st c = Some ((h, o), linres (l_posts (c_loop st)) o (ADone r))) by (unfold status; rewrite H; reflexivity) end.
        destruct (fr_calls _ _ _ _ R _ _ _ _ _ Hst Hs) as (Ho & hd & H1 & <-). cbn in Ho, H1.
        exists (RRet c r). eexists. split; [eapply f_return; eauto|intros ? ?; discriminate]. }
  destruct (decide (r_ops (u_reg f) = ∅)) as [Z|Z].
  { right. split; [exact Z|]. intros i st Hst. apply D in Hst. split; apply Hst. }
  left.
  assert (NoC : forall c p h o, r_ops (u_reg f) !! c = Some (p, OCall h o) -> False).
  { intros c p h o Hc. pose proof (fr_ops _ _ _ _ R c) as O. unfold oprel in O. rewrite Hc in O. destruct O as (_ & hd & st & ro & H1 & H2 & H3 & _).
    apply D in H2 as [Em _]. unfold status in H3. rewrite Em, lookup_empty in H3. discriminate H3. }
  assert (Ops : r_ops s = r_ops (u_reg f)).
  { apply map_eq. intros c. apply (FR_fwd E _ _ _ c R). destruct (r_ops (u_reg f) !! c) as [[p [| |h o]]|] eqn:Hc; try exact Logic.I. destruct (NoC _ _ _ _ Hc). }
  assert (Rgs : forall s', rstep E (u_reg f) RTau s' -> registry_only (u_reg f) s' -> exists a f', fstep E f a f' /\ no_inv a).
  { intros s' X Y. exists RTau, (Full s' (u_stores f)). split; [apply f_registry; assumption|intros ? ?; discriminate]. }
  assert (Ro : forall s1 c p o q, r_ops s1 = r_ops (u_reg f) -> w_insts (r_world s1) = w_insts (r_world (u_reg f)) -> r_ops (u_reg f) !! c = Some (q, o) ->
    (forall r, p <> QJoin r) -> registry_only (u_reg f) (set_op s1 c p o)).
  { intros s1 c p o q A B C Hp. eapply ro_set; eauto. intros h oo ->. eapply NoC, C. }
  assert (Can : forall c p o, r_ops (u_reg f) !! c = Some (p, o) -> waiting p = false -> exists a f', fstep E f a f' /\ no_inv a).
  { intros c p o Hc Hw. assert (Gc : r_ops s !! c = Some (p, o)) by (rewrite Ops; exact Hc). pose proof (n_op _ HH _ _ _ Gc) as Ok.
    unfold op_ok in Ok. rewrite <- VH in Ok.
    destruct p as [| | | | |i|last|r|r|r|r]; try discriminate Hw; destruct o as [path key|h|h o]; try (destruct Ok; fail); try (destruct (NoC _ _ _ _ Hc); fail).
    - destruct (w_poison (r_world (u_reg f))) eqn:P; [|destruct (find (u_reg f) path) eqn:Fi];
        (eapply Rgs; [first [eapply q_read_poisoned; eassumption|eapply q_hit; eassumption|eapply q_miss; eassumption]|eapply Ro; [reflexivity|reflexivity|exact Hc|discriminate]]).
    - destruct (w_poison (r_world (u_reg f))) eqn:P; [|destruct (find (u_reg f) path) eqn:Fi];
        (eapply Rgs; [first [eapply q_write_poisoned; eassumption|eapply q_again; eassumption|eapply q_absent; eassumption]|eapply Ro; [reflexivity|reflexivity|exact Hc|discriminate]]).
    - destruct Ok as (hd & Hh & Hu). destruct (w_poison (r_world (u_reg f))) eqn:P;
        (eapply Rgs; [first [eapply q_close_poisoned; eassumption|eapply q_count; eassumption]|eapply Ro; [reflexivity|reflexivity|exact Hc|discriminate]]).
    - destruct (open_impl E (r_world (u_reg f)) path key) as [w [x|]] eqn:Ho.
      + exists RTau. eexists. split; [eapply f_build; eassumption|intros ? ?; discriminate].
      + eapply Rgs; [eapply q_build_panic; eassumption|]. eapply Ro; [reflexivity| |exact Hc|discriminate]. cbn. apply open_impl_sub in Ho as (A & _). exact A.
    - eapply Rgs; [eapply q_insert; eassumption|eapply Ro; [reflexivity|reflexivity|exact Hc|discriminate]].
    - destruct Ok as (hd & Hh & Hu & _). eapply Rgs; [eapply q_remove; eassumption|eapply Ro; [reflexivity|destruct last; reflexivity|exact Hc|discriminate]].
    - eapply Rgs; [eapply q_release; eassumption|eapply Ro; [reflexivity|reflexivity|exact Hc|discriminate]].
    - eapply Rgs; [eapply q_release; eassumption|eapply Ro; [reflexivity|reflexivity|exact Hc|discriminate]].
    - destruct Ok as (hd & Hh & Hu). destruct (decide (strong (r_world (u_reg f)) (h_inst hd) = 1%nat)) as [S1|S1].
      + assert (exists st, u_stores f !! h_inst hd = Some st) as [st Hst].
        { destruct (u_stores f !! h_inst hd) as [st|] eqn:Hst; [eauto|]. destruct (fr_dom _ _ _ _ R _ Hst) as [_ Y]. rewrite VH in Hh. destruct (n_inst _ HH _ _ Hh) as [[y Hy] _]. congruence. }
        destruct (D _ _ Hst) as (Em & Po & _ & _ & [K|[K _]]).
        * exists RTau. eexists. split; [eapply f_arc_last; eauto; left; split; [apply k_drop; assumption|reflexivity]|intros ? ?; discriminate].
        * exfalso. pose proof (fr_gone _ _ _ _ R _ _ Hst K Em) as Dd. destruct (n_dead _ HH _ Dd) as (c' & h' & r' & hd' & C1 & C2 & C3).
          pose proof (n_op _ HH _ _ _ C1) as (hd2 & C4 & _ & Al & _). assert (h = h') as -> by (eapply Al; [rewrite <- VH; exact Hh|congruence]).
          pose proof (n_close _ HH _ _ _ _ _ Gc C1) as <-. congruence.
      + eapply Rgs; [eapply q_arc; eassumption|eapply Ro; [reflexivity|reflexivity|exact Hc|discriminate]].
    - destruct Ok as (hd & Hh & Hu & Al & Dd).
      assert (exists st, u_stores f !! h_inst hd = Some st) as [st Hst].
      { destruct (u_stores f !! h_inst hd) as [st|] eqn:Hst; [eauto|]. destruct (fr_dom _ _ _ _ R _ Hst) as [_ Y]. rewrite VH in Hh. destruct (n_inst _ HH _ _ Hh) as [[y Hy] _]. congruence. }
      rewrite (fr_dead _ _ _ _ R) in Dd. destruct (I _ _ Hst Dd) as [K Em]. destruct (D _ _ Hst) as (_ & _ & _ & _ & [K'|[_ Kx]]); [congruence|].
      exists RTau. eexists. split; [eapply f_joined; eauto; left; exists true; eexists; split; [apply k_join_ok; assumption|reflexivity]|intros ? ?; discriminate].
    - exists (RRet c r), (Full (Reg (r_world (u_reg f)) (r_readers (u_reg f)) (r_writer (u_reg f)) (delete c (r_ops (u_reg f))) (r_next (u_reg f)) (r_dead (u_reg f))) (u_stores f)).
      split; [|intros ? ?; discriminate]. apply f_registry; [eapply q_return, Hc|]. constructor; [reflexivity|..]; cbn; intros d; intros *; rewrite lookup_delete_Some; intros [_ X]; exact X.
    - exists (RRet c r), (Full (Reg (r_world (u_reg f)) (r_readers (u_reg f)) (r_writer (u_reg f)) (delete c (r_ops (u_reg f))) (r_next (u_reg f)) (r_dead (u_reg f))) (u_stores f)).
      split; [|intros ? ?; discriminate]. apply f_registry; [eapply q_return, Hc|]. constructor; [reflexivity|..]; cbn; intros d; intros *; rewrite lookup_delete_Some; intros [_ X]; exact X. }
  apply map_choose in Z as (c & [p o] & Hc). pose proof (fr_writer _ _ _ _ R) as RW. pose proof (fr_readers _ _ _ _ R) as RR.
  assert (W : (exists d, r_writer (u_reg f) = Some d) \/ r_writer (u_reg f) = None) by (destruct (r_writer (u_reg f)); eauto).
  destruct W as [[d W]|W].
  { rewrite <- RW in W. destruct (k_w _ LL _ W) as (q & oq & X & Y). rewrite Ops in X. eapply Can; [exact X|]. destruct q; (reflexivity || discriminate Y). }
  destruct (decide (r_readers (u_reg f) = ∅)) as [Rd|Rd].
  - destruct (waiting p) eqn:Wp; [|eapply Can; eassumption]. assert (Gc : r_ops s !! c = Some (p, o)) by (rewrite Ops; exact Hc). pose proof (n_op _ HH _ _ _ Gc) as Ok.
    destruct p; try discriminate Wp.
    + destruct o as [path key|h|h o]; [|destruct Ok|destruct (NoC _ _ _ _ Hc)].
      eapply Rgs; [eapply q_read; eassumption|eapply Ro; [reflexivity|reflexivity|exact Hc|discriminate]].
    + eapply Rgs; [eapply q_write; eassumption|eapply Ro; [reflexivity|reflexivity|exact Hc|discriminate]].
  - apply set_choose_L in Rd as [d Rd]. rewrite <- RR in Rd. destruct (k_r _ LL _ Rd) as (q & oq & X & Y). rewrite Ops in X. eapply Can; [exact X|].
    destruct Y as [-> |Y]; [reflexivity|]. destruct q; (reflexivity || discriminate Y).
Qed.

(** ** The theorems *)

Lemma live_exec ls f : fexec E full0 ls f -> ordinary E keyof (begun ls) -> apart canon ls -> (exists s rem, good E ls s /\ fine E s /\ FR E f s rem) /\ JI f.
Proof.
  induction 1 as [|ls f1 a f2 X IH Y]; intros O A.
  - split; [apply (FR_exec E keyof); [constructor|assumption..]|]. intros i st H. cbn in H. rewrite lookup_empty in H. discriminate H.
  - pose proof (ordinary_begun_app _ _ _ _ O) as O'. pose proof (apart_app _ _ _ A) as A'. destruct (IH O' A') as [(s & rem & G & F & R) I].
    split; [apply (FR_exec E keyof); [econstructor; eassumption|assumption..]|]. eapply JI_step; eassumption.
Qed.

Lemma full_began ls f : fexec E full0 ls f -> forall c o, RInv c o ∈ ls -> (exists r, RRet c r ∈ ls) \/ is_Some (r_ops (u_reg f) !! c).
Proof.
  induction 1 as [|ls f1 a f2 _ IH X]; intros c o Hi; [inversion Hi|].
  apply in_rsnoc in Hi as [Hi|<-].
  - destruct (IH c o Hi) as [[r Hr]|Hs]; [left; exists r; apply in_rsnoc; auto|].
    assert (I : forall (m : gmap N (rpc * rop)) d y, is_Some (m !! c) -> is_Some (<[d := y]> m !! c)).
    { intros m d y Hm. destruct (decide (c = d)) as [->|Hne]; [rewrite lookup_insert; eauto|rewrite lookup_insert_ne by congruence; exact Hm]. }
    assert (De : forall (m : gmap N (rpc * rop)) d r, is_Some (m !! c) -> (exists r', RRet c r' ∈ ls ++ [RRet d r]) \/ is_Some (delete d m !! c)).
    { intros m d r Hm. destruct (decide (c = d)) as [->|Hne]; [left; exists r; apply in_rsnoc; auto|right; rewrite lookup_delete_ne by congruence; exact Hm]. }
    destruct X as [f a s1 X RO|f d path key w x Hc Ho|f h hd o' st st' U Hh Hst X|f i st st' Hst X|f d h o' hd st st' r Hc Hh Hst X|f d h hd r st l Hc Hh Hs' Hst D|f d h hd r st b Hc Hh Hst J]; cbn; auto.
    destruct X; cbn; auto.
  - right. inversion X as [? ? s1 Y RO| |? ? ? ? ? ? ? ? ? Y| | | |]; subst; cbn; [inversion Y; subst; cbn|]; rewrite lookup_insert; eauto.
Qed.

Lemma begun_quiet ls ls' : (forall c o, RInv c o ∉ ls') -> begun (ls ++ ls') = begun ls.
Proof.
  intros Hn. unfold begun. rewrite flat_map_app. match goal with |- ?a ++ ?b = _ => assert (b = []) as -> end; [|apply app_nil_r].
  induction ls' as [|a ls' IH]; [reflexivity|]. cbn. rewrite IH; [|intros c o D; apply (Hn c o); right; exact D].
  destruct a as [|c o|]; try reflexivity. exfalso. apply (Hn c o). left.
Qed.

Lemma apart_quiet ls ls' : (forall c o, RInv c o ∉ ls') -> apart canon ls -> apart canon (ls ++ ls').
Proof.
  intros Hn A l1 l2 c path key c' h path' key' He [U1 U1'] [U2 U2'] H Ec.
  destruct (decide (length l1 <= length ls)%nat) as [Hl|Hl].
  - assert (exists l3, ls = l1 ++ l3) as [l3 ->].
    { exists (drop (length l1) ls). rewrite <- (take_drop (length l1) ls) at 1. f_equal. apply (f_equal (take (length l1))) in He. rewrite take_app_le, take_app in He by exact Hl. exact He. }
    apply (A l1 l3 c path key c' h path' key'); auto; split; auto.
  - assert (exists l3, l1 = ls ++ l3 /\ ls' = l3 ++ l2) as (l3 & -> & ->).
    { exists (drop (length ls) l1). assert (Hd : l1 = ls ++ drop (length ls) l1).
      { rewrite <- (take_drop (length ls) l1) at 1. f_equal. apply (f_equal (take (length ls))) in He. rewrite take_app, take_app_le in He by lia. congruence. }
      split; [exact Hd|]. rewrite Hd, <- app_assoc in He. apply app_inv_head in He. exact He. }
    assert (In : forall d o, RInv d o ∈ ls ++ l3 -> RInv d o ∈ ls).
    { intros d o D. apply elem_of_app in D as [D|D]; [exact D|]. exfalso. apply (Hn d o), elem_of_app. auto. }
    destruct (A ls [] c path key c' h path' key') as (h2 & key2 & O1 & (v & O2) & O3); auto.
    + rewrite app_nil_r. reflexivity.
    + split; [apply In, U1|]. intros r D. apply (U1' r), elem_of_app. auto.
    + split; [apply In, U2|]. intros r D. apply (U2' r), elem_of_app. auto.
    + exists h2, key2. split_and!; [apply elem_of_app; auto|exists v; apply elem_of_app; auto|]. intros d D. apply (O3 d), In, D.
Qed.

(** From every state the threads can reach: a continuation without new calls
    has at most [n] steps, and until every call has returned and every
    background thread has done its work some thread can take a step. *)
Theorem C60_full_calls_return ls f : fexec E full0 ls f -> ordinary E keyof (begun ls) -> apart canon ls ->
  exists n, forall ls' f', fexec E f ls' f' -> (forall c o, RInv c o ∉ ls') ->
    (length ls' <= n)%nat /\
    ((exists a f'', fstep E f' a f'' /\ forall c o, a <> RInv c o) \/
     (forall c o, RInv c o ∈ ls -> exists r, RRet c r ∈ ls ++ ls') /\
     forall i st, u_stores f' !! i = Some st -> l_buf (c_loop st) = [] /\ l_queue (c_loop st) = []).
Proof.
  intros X O A. exists (ftodo f). intros ls' f' Y Hn.
  assert (Q : forall l1 f1, fexec E f l1 f1 -> (forall c o, RInv c o ∉ l1) -> (exists s rem, good E (ls ++ l1) s /\ fine E s /\ FR E f1 s rem) /\ JI f1).
  { intros l1 f1 Z Hz. apply live_exec; [eapply fexec_app; eassumption|rewrite begun_quiet by exact Hz; exact O|apply apart_quiet; assumption]. }
  split.
  - assert (G : (length ls' + ftodo f' <= ftodo f)%nat); [|lia].
    induction Y as [|ls' f1 a f2 Y IH S]; [cbn; lia|].
    assert (Hn1 : forall c o, RInv c o ∉ ls') by (intros c o D; apply (Hn c o); apply elem_of_app; auto). specialize (IH Hn1).
    destruct (Q _ _ Y Hn1) as [(s & rem & _ & F & R) _]. rewrite app_length. cbn [length].
    assert (Ha : no_inv a) by (intros c o ->; apply (Hn c o), elem_of_app; right; left). pose proof (step_ftodo _ _ _ _ _ F R S Ha). lia.
  - destruct (Q _ _ Y Hn) as [(s & rem & _ & F & R) I]. destruct (full_moves _ _ _ F R I) as [(a & f2 & M & Ha)|[M1 M2]]; [left; eauto|right].
    split; [|exact M2]. intros c o D. destruct (full_began _ _ (fexec_app _ _ _ _ X _ _ Y) c o) as [W|[y Hy]]; [apply elem_of_app; auto|exact W|].
    rewrite M1, lookup_empty in Hy. discriminate Hy.
Qed.

(** So the threads, left alone, complete every call. *)
Theorem C60_full_every_call_completes ls f : fexec E full0 ls f -> ordinary E keyof (begun ls) -> apart canon ls ->
  exists ls' f', fexec E f ls' f' /\ (forall c o, RInv c o ∉ ls') /\ (forall c o, RInv c o ∈ ls -> exists r, RRet c r ∈ ls ++ ls') /\
    forall i st, u_stores f' !! i = Some st -> l_buf (c_loop st) = [] /\ l_queue (c_loop st) = [].
Proof.
  intros X O A. destruct (C60_full_calls_return ls f X O A) as (n & N).
  assert (G : forall m ls1 f1, fexec E f ls1 f1 -> (forall c o, RInv c o ∉ ls1) -> (n - length ls1 < m)%nat ->
            exists ls' f', fexec E f ls' f' /\ (forall c o, RInv c o ∉ ls') /\ (forall c o, RInv c o ∈ ls -> exists r, RRet c r ∈ ls ++ ls') /\
              forall i st, u_stores f' !! i = Some st -> l_buf (c_loop st) = [] /\ l_queue (c_loop st) = []).
  { induction m as [|m IH]; intros ls1 f1 Y Hn Hm; [lia|]. destruct (N ls1 f1 Y Hn) as [Hl [(a & f2 & S & Ha)|[D1 D2]]].
    - assert (Y2 : fexec E f (ls1 ++ [a]) f2) by (econstructor; eassumption).
      assert (Hn2 : forall c o, RInv c o ∉ ls1 ++ [a]).
      { intros c o D. apply elem_of_app in D as [D|D]; [eapply Hn, D|]. apply elem_of_list_singleton in D. eapply Ha. symmetry. exact D. }
      pose proof (N _ _ Y2 Hn2) as [Hl2 _]. rewrite app_length in Hl2. cbn in Hl2. eapply IH; [exact Y2|exact Hn2|rewrite app_length; cbn; lia].
    - exists ls1, f1. auto. }
  apply (G (Datatypes.S n) [] f); [constructor|intros c o D; inversion D|cbn; lia].
Qed.

End Live.

(** The hypotheses hold in the middle of the schedule of P_Full3.v, with a
    put, a get and another put under way on two stores. *)
Example C60_full_live_example : exists ls f,
  fexec (ex_env FPlain) full0 ls f /\ ordinary (ex_env FPlain) ex_keyof (begun ls) /\ apart (e_canon (ex_env FPlain)) ls /\
  under_way ls 3 (OCall 0 (CPut k1 (VI32 5))) /\ under_way ls 4 (OCall 2 (CPut k2 hello)) /\ under_way ls 5 (OCall 1 (CGet k1 TI32)).
Proof.
  assert (T : match fsched (ex_env FPlain) (take 33 ex_fsched) full0 with
              | Some (ls, f) => ordinaryb (ex_env FPlain) ex_keyof (begun ls) = true /\ apartb (e_canon (ex_env FPlain)) ls = true /\
                returns ls = [(0, ROk None); (1, ROk None); (2, ROk None)] /\ 
                List.filter (fun a => match a with RInv _ (OCall _ _) => true | _ => false end) ls =
                  [RInv 3 (OCall 0 (CPut k1 (VI32 5))); RInv 4 (OCall 2 (CPut k2 hello)); RInv 5 (OCall 1 (CGet k1 TI32))]
              | None => False end) by (vm_compute; repeat split).
  destruct (fsched (ex_env FPlain) (take 33 ex_fsched) full0) as [[ls f]|] eqn:X; [|contradiction]. destruct T as (A & B & C & D).
  assert (Rt : forall c r, RRet c r ∈ ls -> (c, r) ∈ returns ls).
  { intros c r H. unfold returns. apply elem_of_list_In, in_flat_map. exists (RRet c r). split; [apply elem_of_list_In, H|left; reflexivity]. }
  assert (Cl : forall a, In a [RInv 3 (OCall 0 (CPut k1 (VI32 5))); RInv 4 (OCall 2 (CPut k2 hello)); RInv 5 (OCall 1 (CGet k1 TI32))] -> a ∈ ls).
  { intros a. rewrite <- D. intros H. apply filter_In in H as [H _]. apply elem_of_list_In, H. }
  exists ls, f. split_and!; [eapply fsched_ok, X|apply ordinaryb_ok; [apply ex_env_ok; exact Logic.I|exact A]|apply apartb_ok, B|..];
    (split; [apply Cl; cbn; tauto|intros r H; apply Rt in H; rewrite C in H; apply elem_of_list_In in H; cbn in H; destruct H as [H|[H|[H|[]]]]; discriminate H]).
Qed.
