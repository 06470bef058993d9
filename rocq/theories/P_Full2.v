(** C60 for the whole concurrent model of Full.v, continued: the simulation. *)
From Verif Require Import Bytes Utf8 Proto ProtoFacts Value Codec Store StoreFacts Encrypt World Spec Hyps Refine WorldInv WorldStep Main Frames Reach Examples P_Map P_Store P_Fail P_Alias Looper P_Loop Conc P_Conc P_Live Reg P_Reg Full P_Full.
From Coq Require Import ZifyBool ZifyNat ZifyN.
Local Open Scope N_scope.

(** ** A store and the shared world *)

Lemma LInv_plug st w n w' n' : LInv (plug st w n) -> n <= n' -> LInv (plug st w' n').
Proof.
  intros [A1 A2 A3 A4 A5 A6 A7 A8 A9] Hn. split; auto.
  - intros c x H. apply A6 in H. cbn in *. lia.
  - destruct A9 as [B1 B2 B3 B4 B5 B6 B7 B8 B9 B10 B11 B12]. split; auto.
Qed.

Lemma SR_plug st w n x y g : SR st x y g -> SR (plug st w n) x y g.
Proof.
  intros [af A1 A2 A3 A4 A5|c p h af pend A1 A2 A3 A4 A5 A6|A1 A2 A3 A4 A5].
  - eapply sr_calm; [exact A1|exact A2|exact A3|exact A4|exact A5].
  - eapply sr_late; [exact A1| |exact A3|exact A4|exact A5|exact A6]. destruct p; exact A2.
  - apply sr_gone; [exact A1|exact A2|exact A3|exact A4|exact A5].
Qed.

Lemma status_plug st w n c : status (plug st w n) c = status st c.
Proof. reflexivity. Qed.

Lemma plug_self st : plug st (l_cb (c_loop st)) (c_next st) = st.
Proof. destruct st as [? ? ? [] ? ?]. reflexivity. Qed.

(** A store without calls whose looper is being dropped was so before, too. *)
Lemma gone_back E i st a st' x y g : SR st x y g -> cstep E i st a st' -> l_k (c_loop st') = KJoin -> c_calls st' = ∅ -> l_k (c_loop st) = KJoin /\ c_calls st = ∅.
Proof.
  intros R X K Em.
  assert (Ins : forall c (v : apc * (N * cop)) m, <[c := v]> m = (∅ : gmap N (apc * (N * cop))) -> False).
  { intros c v m H. apply (insert_non_empty m c v). exact H. }
  destruct X as [s h o|s c h o Hc He Hw|s c h o Hc He Hw Hr|s c h o f r Hc Hb|s c h o f j Hc Hb|s c h o f Hc Hb|s c h o j l Hc Hp|s l Hp|s c h o lc ok l Hc Hp
    |s c h o l Hc Hk Hch|s c h o l Hc Hk|s c h o ok l Hc Hk|s c h o hd w y' Hc Hh Ho Hk|s c h o hd w y' Hc Hh Ho Hk Ha|s c h o hd w Hc Hh Ho|s a l Hx|s c h o r Hc|s c h o r Hc];
    try (exfalso; eapply Ins, Em; fail).
  - apply pstep_tau in Hp as (P1 & _). cbn in *. rewrite <- P1. auto.
  - destruct (xstep_k _ _ _ _ Hx) as [Hkk _]. cbn in *. rewrite <- Hkk. auto.
  - cbn in *. exfalso. destruct R as [af A1 A2 A3 A4 A5|c1 p h1 af pend A1 A2 A3 A4 A5 A6|A1 A2 A3 A4 A5].
    + destruct A2 as [A2 _]. congruence.
    + destruct (decide (c1 = c)) as [->|Hne]; [rewrite Hc in A1; injection A1 as <- _ _; exact A2|].
      assert (H : delete c (c_calls s) !! c1 = None) by (rewrite Em; apply lookup_empty). rewrite lookup_delete_ne in H by congruence. congruence.
    + rewrite A2, lookup_empty in Hc. discriminate Hc.
Qed.

Lemma SR_dir st x y g : SR st x y g -> i_dir y = i_dir x.
Proof. intros H. apply SR_glue in H as (af & q & ->). reflexivity. Qed.

(** ** The simulation *)

Definition pc_of (ro : option result) : rpc := match ro with Some r => QDone r | None => QWant end.

Section Full.
Context (E : env) (keyof : bytes -> bytes).
Notation canon := (e_canon E).

Definition oprel (f : full) (s : reg) (c : N) : Prop :=
  match r_ops (u_reg f) !! c with
  | Some (p, OCall h o) => p = QWant /\ exists hd st ro, w_handles (r_world (u_reg f)) !! h = Some hd /\ u_stores f !! h_inst hd = Some st /\
      status st c = Some ((h, o), ro) /\ r_ops s !! c = Some (pc_of ro, OCall h o)
  | z => r_ops s !! c = z
  end.

Record FR (f : full) (s : reg) (rem : gset bytes) : Prop := {
  fr_readers : r_readers s = r_readers (u_reg f);
  fr_writer : r_writer s = r_writer (u_reg f);
  fr_next : r_next s = r_next (u_reg f);
  fr_dead : r_dead s = r_dead (u_reg f);
  fr_world : wrel E rem (r_world (u_reg f)) (r_world s);
  fr_ops : forall c, oprel f s c;
  fr_calls : forall i st c ho ro, u_stores f !! i = Some st -> status st c = Some (ho, ro) ->
    r_ops (u_reg f) !! c = Some (QWant, OCall ho.1 ho.2) /\ exists hd, w_handles (r_world (u_reg f)) !! ho.1 = Some hd /\ h_inst hd = i;
  fr_store : forall i st, u_stores f !! i = Some st -> exists x y,
    w_insts (r_world (u_reg f)) !! i = Some x /\ w_insts (r_world s) !! i = Some y /\ LInv (inner f st) /\ SR st x y (bool_decide (i_dir x ∈ rem));
  fr_dom : forall i, u_stores f !! i = None -> w_insts (r_world (u_reg f)) !! i = None /\ w_insts (r_world s) !! i = None;
  fr_gone : forall i st, u_stores f !! i = Some st -> l_k (c_loop st) = KJoin -> c_calls st = ∅ -> i ∈ r_dead s;
  fr_rem : forall d, d ∈ rem -> exists i x, w_insts (r_world (u_reg f)) !! i = Some x /\ i_dir x = d
}.

Lemma FR_0 : FR full0 reg0 ∅.
Proof.
  split; cbn; try reflexivity; try (intros; set_solver).
  - apply wrel_refl.
Qed.

(** The abstract state: some execution of Reg.v with the same history. *)
Definition good (ls : list rlabel) (s : reg) : Prop := exists la, rexec E reg0 la s /\ vis la = vis ls.

Lemma good_step ls s a s' : good ls s -> rstep E s a s' -> good (ls ++ [a]) s'.
Proof. intros (la & X & V) Y. exists (la ++ [a]). split; [eapply re_snoc; eassumption|]. rewrite !vis_app, V. reflexivity. Qed.
Lemma good_tau ls s : good ls s -> good (ls ++ [RTau]) s.
Proof. intros (la & X & V). exists la. split; [exact X|]. rewrite !vis_app, V. symmetry. apply app_nil_r. Qed.
Lemma good_fine ls s : good ls s -> ordinary E keyof (begun ls) -> apart canon ls -> fine E s.
Proof.
  intros (la & X & V) O A. eapply all_fine; [exact X| |].
  - rewrite (begun_same _ _ V). exact O.
  - eapply apart_same; eassumption.
Qed.

Lemma FR_dir f s rem i x y : FR f s rem -> w_insts (r_world (u_reg f)) !! i = Some x -> w_insts (r_world s) !! i = Some y -> i_dir y = i_dir x.
Proof.
  intros R Hx Hy. destruct (u_stores f !! i) as [st|] eqn:Hst.
  - destruct (fr_store _ _ _ R _ _ Hst) as (x' & y' & Hx' & Hy' & _ & S). rewrite Hx in Hx'. rewrite Hy in Hy'. injection Hx' as <-. injection Hy' as <-. apply (SR_dir _ _ _ _ S).
  - destruct (fr_dom _ _ _ R _ Hst) as [Z _]. congruence.
Qed.

Lemma FR_one f s rem i j x z : FR f s rem -> fine E s -> w_insts (r_world (u_reg f)) !! i = Some x -> w_insts (r_world (u_reg f)) !! j = Some z -> i_dir x = i_dir z -> i = j.
Proof.
  intros R F Hx Hz Hd. 
  assert (G : forall k u, w_insts (r_world (u_reg f)) !! k = Some u -> exists y, w_insts (r_world s) !! k = Some y /\ i_dir y = i_dir u).
  { intros k u Hu. destruct (u_stores f !! k) as [st|] eqn:Hst; [|destruct (fr_dom _ _ _ R _ Hst); congruence].
    destruct (fr_store _ _ _ R _ _ Hst) as (x' & y' & Hx' & Hy' & _). exists y'. split; [exact Hy'|]. eapply FR_dir; eassumption. }
  destruct (G _ _ Hx) as (y1 & Y1 & D1). destruct (G _ _ Hz) as (y2 & Y2 & D2). eapply (fi_one _ _ F i j); [exact Y1|exact Y2|congruence].
Qed.

(** A step of store [i]. *)
Lemma FR_outer f s rem i st st' x y x' y' s' rem' :
  FR f s rem -> fine E s -> u_stores f !! i = Some st -> w_insts (r_world (u_reg f)) !! i = Some x -> w_insts (r_world s) !! i = Some y ->
  LInv st' -> c_next st' = r_next (u_reg f) -> SR st' x' y' (bool_decide (i_dir x' ∈ rem')) -> i_dir x' = i_dir x ->
  (l_k (c_loop st') = KJoin -> c_calls st' = ∅ -> l_k (c_loop st) = KJoin /\ c_calls st = ∅) ->
  w_insts (l_cb (c_loop st')) = <[i := x']> (w_insts (r_world (u_reg f))) -> w_insts (r_world s') = <[i := y']> (w_insts (r_world s)) ->
  w_handles (l_cb (c_loop st')) = w_handles (r_world (u_reg f)) ->
  wrel E rem' (l_cb (c_loop st')) (r_world s') ->
  (forall d, d <> i_dir x -> d ∈ rem' <-> d ∈ rem) ->
  r_readers s' = r_readers s -> r_writer s' = r_writer s -> r_next s' = r_next s -> r_dead s' = r_dead s ->
  (forall d, (status st' d = status st d /\ r_ops s' !! d = r_ops s !! d) \/
     exists h o r0 r1, status st d = Some ((h, o), r0) /\ status st' d = Some ((h, o), r1) /\ r_ops s' !! d = Some (pc_of r1, OCall h o)) ->
  FR (outer f i st') s' rem'.
Proof.
  intros R F Hst Hx Hy L' Nx S' Dx Gb Wi WI Wh V Rm A1 A2 A3 A4 St. pose proof R as [R1 R2 R3 R4 R5 R6 R7 R8 R9 R10 R11].
  assert (Kept : forall d ho r, status st d = Some (ho, r) -> exists r', status st' d = Some (ho, r')).
  { intros d ho r H. destruct (St d) as [[G _]|(h & o & r0 & r1 & G1 & G2 & _)]; [rewrite G; eauto|]. rewrite H in G1. injection G1 as -> ->. eauto. }
  assert (Back : forall d ho r, status st' d = Some (ho, r) -> exists r', status st d = Some (ho, r')).
  { intros d ho r H. destruct (St d) as [[G _]|(h & o & r0 & r1 & G1 & G2 & _)]; [rewrite <- G; eauto|]. rewrite H in G2. injection G2 as -> ->. eauto. }
  split; cbn [outer u_reg u_stores set_w r_readers r_writer r_next r_dead r_ops r_world]; try congruence.
  - intros c. specialize (R6 c). unfold oprel in *. cbn [outer u_reg u_stores set_w r_ops r_world].
    destruct (r_ops (u_reg f) !! c) as [[p [pa ka|hc|h o]]|] eqn:Hc.
    1,2,4: (rewrite <- R6; destruct (St c) as [[_ G]|(h & o & r0 & r1 & G1 & _)]; [exact G|]; destruct (R7 _ _ _ _ _ Hst G1) as [G _]; congruence).
    destruct R6 as (-> & hd & st0 & ro & H1 & H2 & H3 & H4). split; [reflexivity|]. rewrite Wh.
    destruct (decide (h_inst hd = i)) as [<-|Hne].
    + rewrite Hst in H2. injection H2 as <-. exists hd, st'. destruct (St c) as [[G1 G2]|(h' & o' & r0 & r1 & G1 & G2 & G3)].
      * exists ro. rewrite lookup_insert. split_and!; congruence.
      * rewrite H3 in G1. injection G1 as <- <- <-. exists r1. rewrite lookup_insert. auto.
    + exists hd, st0, ro. rewrite lookup_insert_ne by congruence. split_and!; auto.
      destruct (St c) as [[G1 G2]|(h' & o' & r0 & r1 & G1 & G2 & G3)]; [congruence|]. exfalso.
      destruct (R7 _ _ _ _ _ Hst G1) as (Y & hd' & Y1 & Y2). rewrite Hc in Y. injection Y as <- <-. cbn in Y1. congruence.
  - intros j st0 c ho ro Hj Hs. rewrite Wh. destruct (decide (j = i)) as [->|Hne].
    + rewrite lookup_insert in Hj. injection Hj as <-. apply Back in Hs as [r' Hs]. eapply R7; eassumption.
    + rewrite lookup_insert_ne in Hj by congruence. eapply R7; eassumption.
  - intros j st0 Hj. destruct (decide (j = i)) as [->|Hne].
    + rewrite lookup_insert in Hj. injection Hj as <-. exists x', y'. rewrite Wi, WI, !lookup_insert. split_and!; auto.
      unfold inner. cbn. rewrite <- Nx, plug_self. exact L'.
    + rewrite lookup_insert_ne in Hj by congruence. destruct (R8 _ _ Hj) as (xj & yj & Hxj & Hyj & Lj & Sj). exists xj, yj.
      rewrite Wi, WI, !lookup_insert_ne by congruence. split_and!; auto.
      * eapply LInv_plug; [exact Lj|]. cbn. lia.
      * assert (Q : bool_decide (i_dir xj ∈ rem') = bool_decide (i_dir xj ∈ rem)).
        { apply bool_decide_ext, Rm. intros Hd. apply Hne. eapply FR_one; eassumption. }
        rewrite Q. exact Sj.
  - intros j Hj. destruct (decide (j = i)) as [->|Hne]; [rewrite lookup_insert in Hj; discriminate Hj|].
    rewrite lookup_insert_ne in Hj by congruence. rewrite Wi, WI, !lookup_insert_ne by congruence. apply R9, Hj.
  - intros j st0 Hj K Em. rewrite A4. destruct (decide (j = i)) as [->|Hne].
    + rewrite lookup_insert in Hj. injection Hj as <-. destruct (Gb K Em) as [G1 G2]. eapply R10; eassumption.
    + rewrite lookup_insert_ne in Hj by congruence. eapply R10; eassumption.
  - intros d Hd. rewrite Wi. destruct (decide (d = i_dir x)) as [->|Hne].
    + exists i, x'. rewrite lookup_insert. auto.
    + apply Rm in Hd; [|exact Hne]. destruct (R11 _ Hd) as (j & z & Hj & Dz). exists j, z. rewrite lookup_insert_ne; [auto|].
      intros <-. rewrite Hx in Hj. injection Hj as <-. congruence.
Qed.

Lemma clear_poisons w hd w' x : w_insts w !! h_inst hd = Some x -> do_clear E w hd = (w', RPanic) ->
  exists z, w_insts w' !! h_inst hd = Some z /\ i_poison z = true.
Proof.
  intros Hx. unfold do_clear. rewrite Hx. destruct (i_poison x); [discriminate|].
  destruct (impl_clear E w (h_inst hd) x) as [w1 r1] eqn:Ec. pose proof (benign_impl_clear _ _ _ _ _ _ Hx Ec) as B1.
  assert (Hr : r1 <> RPanic).
  { revert Ec. unfold impl_clear. destruct (negb (i_valid x)); [intros [= _ <-]; discriminate|].
    destruct (post (i_invalid x) JRemove) as [x1 rr] eqn:Ep.
    assert (rr <> RPanic) by (unfold post in Ep; destruct (i_sender (i_invalid x)), (i_io (i_invalid x)); injection Ep as _ <-; discriminate).
    destruct rr; [|intros [= _ <-]; assumption..].
    assert (Hi : is_Some (w_insts (drain E (set_inst w (h_inst hd) x1) (h_inst hd)) !! h_inst hd)).
    { apply (b_insts _ _ (benign_drain E (set_inst w (h_inst hd) x1) (h_inst hd))). cbn. rewrite lookup_insert. eauto. }
    destruct Hi as [x2 Hx2]. rewrite Hx2. destruct (i_io x2); intros [= _ <-]; discriminate. }
  destruct r1; [|intros [= _ <-]; discriminate|contradiction].
  destruct (open_impl E w1 (h_path hd) (h_key hd)) as [w2 o] eqn:Eo. pose proof (benign_trans _ _ _ B1 (benign_open _ _ _ _ _ _ Eo)) as B2.
  assert (Hi : exists y, w_insts w2 !! h_inst hd = Some y). { apply (b_insts _ _ B2). eauto. } destruct Hi as [y Hy].
  destruct o as [z|].
  - destruct (_ && _)%bool; intros [= <-]; eexists; cbn; rewrite lookup_insert; split; reflexivity.
  - rewrite Hy. intros [= <-]. eexists; cbn; rewrite lookup_insert; split; reflexivity.
Qed.

Lemma cstep_next i st a st' : cstep E i st a st' -> c_next st' = match a with HInv _ _ _ => c_next st + 1 | _ => c_next st end.
Proof. intros X. destruct X; reflexivity. Qed.

(** A call in a store that has not taken effect. *)
Lemma FR_pending f s rem i st c h o : FR f s rem -> fine E s -> u_stores f !! i = Some st -> status st c = Some ((h, o), None) ->
  r_ops s !! c = Some (QWant, OCall h o) /\ exists hd y, w_handles (r_world s) !! h = Some hd /\ h_inst hd = i /\ h_unreg hd = false /\
    w_insts (r_world s) !! i = Some y /\ i_dir y = canon (h_path hd).
Proof.
  intros R F Hst Hs. destruct (fr_calls _ _ _ R _ _ _ _ _ Hst Hs) as (Ho & hd & Hh & Hi). cbn in Ho, Hh.
  pose proof (fr_ops _ _ _ R c) as OR. unfold oprel in OR. rewrite Ho in OR. destruct OR as (_ & hd' & st0 & ro & H1 & H2 & H3 & H4).
  rewrite Hh in H1. injection H1 as <-. rewrite Hi, Hst in H2. injection H2 as <-. rewrite Hs in H3. injection H3 as <-.
  split; [exact H4|]. destruct (fr_store _ _ _ R _ _ Hst) as (x & y & Hx & Hy & _).
  rewrite (v_handles _ _ _ _ (fr_world _ _ _ R)) in Hh.
  destruct (fi_agree _ _ F c QWant h o hd y H4 eq_refl Hh) as [G1 G2]; [congruence|].
  exists hd, y. split_and!; auto.
Qed.

(** A step of a store with the answer [s'] of Reg.v. *)
Lemma FR_internal ls f s rem i st st' : good ls s -> fine E s -> (forall s', good (ls ++ [RTau]) s' -> fine E s') -> FR f s rem -> u_stores f !! i = Some st ->
  cstep E i (inner f st) HTau st' -> exists s' rem', good (ls ++ [RTau]) s' /\ FR (outer f i st') s' rem'.
Proof.
  intros G F F' R Hst X. destruct (fr_store _ _ _ R _ _ Hst) as (x & y & Hx & Hy & L & S).
  pose proof (fi_inst _ _ F _ _ Hy) as Ok. pose proof (fr_world _ _ _ R) as V.
  pose proof (cstep_next _ _ _ _ X) as Nx. cbn in Nx.
  assert (L' : LInv st') by (eapply LInv_step; eassumption).
  assert (Gb : l_k (c_loop st') = KJoin -> c_calls st' = ∅ -> l_k (c_loop st) = KJoin /\ c_calls st = ∅).
  { apply (gone_back E i _ _ _ _ _ _ (SR_plug _ _ _ _ _ _ S) X). }
  assert (Dy : i_dir y = i_dir x) by (apply (SR_dir _ _ _ _ S)).
  assert (Iw : forall (m : gmap N inst) (v : inst), m !! i = Some v -> m = <[i := v]> m) by (intros m v Hm; symmetry; apply insert_id, Hm).
  destruct (store_step E i (inner f st) HTau st' x y (bool_decide (i_dir x ∈ rem)) L Ok (SR_plug _ _ _ _ _ _ S) X)
    as [Q1 Q2 Q3|c h o af pend Q1 Q2 Q3 Q4 Q5 Q6 Q7|m dup af q ok Q1 Q2 Q3 Q4 Q5|af ok Q1 Q2 Q3 Q4 Q5 Q6|c h hd af w1 oz Q1 Q2 Q3 Q4 Q5 Q6 Q7];
    [intros; discriminate|..]; cbn [inner plug c_loop l_cb set_cb] in *.
  - (* nothing happens *)
    exists s, rem. split; [apply good_tau, G|].
    eapply (FR_outer f s rem i st st' x y x y); eauto; rewrite ?Q1; auto; try tauto.
  - (* a call takes effect *)
    destruct (FR_pending _ _ _ _ _ _ _ _ R F Hst Q5) as (Hc & hd & y0 & Hh & Hi & Hu & Hy0 & Dh). rewrite Hy in Hy0. injection Hy0 as <-.
    assert (Ix : i_io x = IoRun /\ i_sender x = true) by (rewrite Q4 in Ok; split; apply Ok). destruct Ix as [Iio Isn].
    pose proof (step_body E i (r_world s) x af pend h hd o Q2 Hh Hu Hi Isn Iio) as SB.
    assert (Same : set_inst (r_world s) i (i_glue x af pend) = r_world s) by (apply set_inst_same; congruence). rewrite Same in SB.
    match type of SB with _ = Some (?W, ?r) => set (W' := W) in *; set (r' := r) in * end.
    pose proof (q_do E s c h o W' r' Hc SB) as RS.
    exists (set_op (set_w s W') c (QDone r') (OCall h o)), rem. split; [eapply good_step; eassumption|].
    eapply (FR_outer f s rem i st st' x y x); eauto; rewrite ?Q3; auto; try tauto.
    + apply wrel_inst_r, V.
    + intros d. cbn. rewrite Q7. destruct (decide (d = c)) as [->|Hne].
      * right. exists h, o, None, (Some r'). rewrite lookup_insert. auto.
      * left. rewrite lookup_insert_ne by congruence. auto.
  - (* a job is run *)
    assert (Iio : i_io x = IoRun) by (rewrite Q2 in Ok; apply Ok).
    assert (HW : w_insts (r_world s) !! i = Some (i_glue x af (JWrite m dup :: q))) by congruence.
    destruct (wrel_write E rem _ _ i x af m dup q _ ok V Hx Iio HW Q3) as (x' & X1 & X2 & X3 & X4 & X5).
    assert (RS : rstep E s RTau (set_w s (run_job E (r_world s) i))) by (eapply q_io; [exact HW|discriminate|exact Iio]).
    pose proof (good_step _ _ _ _ G RS) as G'. pose proof (F' _ G') as FF.
    assert (Ho : ok = true). { apply X3. destruct (fi_inst _ _ FF i (i_glue x' af q)) as (Z & _); [cbn; rewrite X5; apply lookup_insert|exact Z]. }
    eexists _, rem. split; [exact G'|].
    eapply (FR_outer f s rem i st st' x y x' (i_glue x' af q)); eauto; try tauto.
    + rewrite X2. apply Q4, Ho.
    + rewrite (v_handles _ _ _ _ X4), (v_handles _ _ _ _ V). apply (b_handles _ _ (benign_job E (r_world s) i)).
  - (* the files are removed *)
    assert (Iio : i_io x = IoRun) by (rewrite Q2 in Ok; apply Ok). apply bool_decide_eq_false in Q3.
    destruct (wrel_remove E rem _ _ i x _ ok V Hx Iio Q3 Q4) as (x' & X1 & X2 & X3 & X4 & X5).
    exists s, ({[i_dir x]} ∪ rem). split; [apply good_tau, G|].
    eapply (FR_outer f s rem i st st' x y x' y); eauto; try tauto.
    + rewrite X2. rewrite bool_decide_eq_true_2 by set_solver. rewrite Q2, <- X5. apply Q5, X3.
    + rewrite (v_handles _ _ _ _ X4), (v_handles _ _ _ _ V). reflexivity.
    + set_solver.
  - (* the store is opened again *)
    assert (Ix : i_io x = IoRun /\ i_sender x = true /\ f_poison af = false /\ f_valid af = true) by (rewrite Q2 in Ok; split_and!; apply Ok). destruct Ix as (Iio & Isn & Fp & Fv).
    apply bool_decide_eq_true in Q3.
    destruct (FR_pending _ _ _ _ _ _ _ _ R F Hst Q6) as (Hc & hd' & y0 & Hh & Hi & Hu & Hy0 & Dh). rewrite Hy in Hy0. injection Hy0 as <-.
    rewrite (v_handles _ _ _ _ V), Hh in Q4. injection Q4 as ->.
    assert (HW : w_insts (r_world s) !! i = Some (i_glue x af [])) by congruence.
    destruct (wrel_clear E rem _ _ i x af h hd V HW Iio Isn Fp Fv Q3 Hh Hu Hi) as (W' & r & St & Out); [congruence|].
    rewrite Q5 in Out. cbn [fst snd] in Out.
    pose proof (q_do E s c h CClear W' r Hc St) as RS. pose proof (good_step _ _ _ _ G RS) as G'. pose proof (F' _ G') as FF.
    destruct oz as [z|].
    + destruct Out as (-> & O1 & O2). destruct (Q7 z eq_refl) as (Z1 & Z2 & Z3).
      destruct (open_impl_sub E _ _ _ _ _ Q5) as (P1 & P2 & _ & _ & _ & P3). destruct (P3 z eq_refl) as (Dz & _).
      exists (set_op (set_w s W') c (QDone (ROk None)) (OCall h CClear)), (rem ∖ {[i_dir x]}). split; [exact G'|].
      eapply (FR_outer f s rem i st st' x y z z); eauto; rewrite ?Z1; auto; try tauto.
      * rewrite bool_decide_eq_false_2; [exact Z2|]. rewrite Dz, <- Dh, Dy. set_solver.
      * congruence.
      * cbn. rewrite P1. reflexivity.
      * apply wrel_inst_l, O2.
      * set_solver.
      * intros d. cbn. rewrite Z3. destruct (decide (d = c)) as [->|Hne].
        -- right. exists h, CClear, None, (Some (ROk None)). rewrite lookup_insert. auto.
        -- left. rewrite lookup_insert_ne by congruence. auto.
    + exfalso. subst r. cbn [event_of step] in St. apply with_handle_Some in St as (hd0 & Hh0 & _ & St). rewrite Hh in Hh0. injection Hh0 as <-.
      apply (clear_poisons _ _ _ y) in St as (z & Z1 & Z2); [|congruence].
      destruct (fi_inst _ _ FF (h_inst hd) z Z1) as (_ & _ & Z3 & _). congruence.
Qed.

(** ** Steps that are not in a store *)

Definition no_call (z : option (rpc * rop)) : Prop := match z with Some (_, OCall _ _) => False | _ => True end.

Lemma FR_fwd f s rem c : FR f s rem -> no_call (r_ops (u_reg f) !! c) -> r_ops s !! c = r_ops (u_reg f) !! c.
Proof. intros R. pose proof (fr_ops _ _ _ R c) as O. unfold oprel in O. destruct (r_ops (u_reg f) !! c) as [[p []]|]; auto. intros []. Qed.
Lemma FR_back f s rem c : FR f s rem -> no_call (r_ops s !! c) -> r_ops (u_reg f) !! c = r_ops s !! c.
Proof.
  intros R N. pose proof (fr_ops _ _ _ R c) as O. unfold oprel in O. destruct (r_ops (u_reg f) !! c) as [[p []]|]; auto.
  destruct O as (_ & hd & st & ro & _ & _ & _ & O). rewrite O in N. destruct N.
Qed.
(** A call on a store, as Reg.v sees it. *)
Lemma FR_call f s rem c p h o : FR f s rem -> r_ops (u_reg f) !! c = Some (p, OCall h o) -> exists p', r_ops s !! c = Some (p', OCall h o).
Proof.
  intros R H. pose proof (fr_ops _ _ _ R c) as O. unfold oprel in O. rewrite H in O. destruct O as (_ & hd & st & ro & _ & _ & _ & O). eauto.
Qed.

Lemma FR_close f s rem c p h c' p' h' o : FR f s rem -> fine E s -> r_ops (u_reg f) !! c = Some (p, OClose h) -> r_ops (u_reg f) !! c' = Some (p', OCall h' o) -> h' <> h.
Proof.
  intros R F H H' ->. pose proof (FR_fwd _ _ _ c R) as Q. rewrite H in Q. specialize (Q Logic.I).
  apply (FR_call _ _ _ _ _ _ _ R) in H' as [p2 H']. eapply (n_excl _ (fi_hn _ _ F)); eassumption.
Qed.

Lemma FR_reg f s rem s1 s2 : FR f s rem ->
  r_readers s2 = r_readers s1 -> r_writer s2 = r_writer s1 -> r_next s2 = r_next s1 -> r_dead s2 = r_dead s1 ->
  r_next (u_reg f) <= r_next s1 -> r_dead s2 = r_dead s ->
  wrel E rem (r_world s1) (r_world s2) ->
  w_insts (r_world s1) = w_insts (r_world (u_reg f)) -> w_insts (r_world s2) = w_insts (r_world s) ->
  (forall c, (r_ops s1 !! c = r_ops (u_reg f) !! c /\ r_ops s2 !! c = r_ops s !! c) \/
             (no_call (r_ops (u_reg f) !! c) /\ no_call (r_ops s1 !! c) /\ r_ops s2 !! c = r_ops s1 !! c)) ->
  (forall c p h o hd, r_ops (u_reg f) !! c = Some (p, OCall h o) -> w_handles (r_world (u_reg f)) !! h = Some hd ->
    exists hd', w_handles (r_world s1) !! h = Some hd' /\ h_inst hd' = h_inst hd) ->
  FR (Full s1 (u_stores f)) s2 rem.
Proof.
  intros R A1 A2 A3 A4 Nx Dd V I1 I2 Op Hd. destruct R as [R1 R2 R3 R4 R5 R6 R7 R8 R9 R10 R11].
  split; cbn [u_reg u_stores]; auto.
  - intros c. specialize (R6 c). unfold oprel in *. cbn [u_reg u_stores]. destruct (Op c) as [[O1 O2]|(O1 & O2 & O3)].
    + rewrite O1, O2. destruct (r_ops (u_reg f) !! c) as [[p [pa ka|hc|h o]]|] eqn:Hc; auto.
      destruct R6 as (-> & hd & st & ro & H1 & H2 & H3 & H4). split; [reflexivity|].
      destruct (Hd _ _ _ _ _ Hc H1) as (hd' & Y1 & Y2). exists hd', st, ro. rewrite Y2. auto.
    + rewrite O3. destruct (r_ops s1 !! c) as [[p []]|]; auto. destruct O2.
  - intros i st c ho ro Hst Hs. destruct (R7 _ _ _ _ _ Hst Hs) as (H & hd & H1 & H2). split.
    + destruct (Op c) as [[O1 _]|(O1 & _)]; [congruence|]. rewrite H in O1. destruct O1.
    + destruct (Hd _ _ _ _ _ H H1) as (hd' & Y1 & Y2). exists hd'. split; [exact Y1|congruence].
  - intros i st Hst. rewrite I1, I2. destruct (R8 _ _ Hst) as (x & y & Hx & Hy & L & S). exists x, y. split_and!; auto.
    eapply LInv_plug; [exact L|exact Nx].
  - intros i Hi. rewrite I1, I2. apply R9, Hi.
  - intros i st Hst K Em. rewrite Dd. eapply R10; eassumption.
  - rewrite I1. exact R11.
Qed.

(** A step of a call that is not on a store. *)
Lemma FR_move f s rem c p o s1 s2 p' : FR f s rem -> fine E s -> r_ops (u_reg f) !! c = Some (p, o) -> (forall h oo, o <> OCall h oo) ->
  r_readers s2 = r_readers s1 -> r_writer s2 = r_writer s1 -> r_next s1 = r_next (u_reg f) -> r_next s2 = r_next s -> r_dead s1 = r_dead (u_reg f) -> r_dead s2 = r_dead s ->
  wrel E rem (r_world s1) (r_world s2) ->
  w_insts (r_world s1) = w_insts (r_world (u_reg f)) -> w_insts (r_world s2) = w_insts (r_world s) ->
  r_ops s1 = <[c := (p', o)]> (r_ops (u_reg f)) -> r_ops s2 = <[c := (p', o)]> (r_ops s) ->
  (forall h hd, (forall c' p'' , r_ops (u_reg f) !! c' <> Some (p'', OClose h)) -> w_handles (r_world (u_reg f)) !! h = Some hd ->
    exists hd', w_handles (r_world s1) !! h = Some hd' /\ h_inst hd' = h_inst hd) ->
  FR (Full s1 (u_stores f)) s2 rem.
Proof.
  intros R F Hc No A1 A2 N1 N2 D1 D2 V I1 I2 O1 O2 Hd. pose proof (fr_next _ _ _ R). pose proof (fr_dead _ _ _ R).
  eapply (FR_reg f s rem); eauto; try congruence; [lia| |].
  - intros d. rewrite O1, O2. destruct (decide (d = c)) as [->|Hne].
    + right. rewrite !lookup_insert, Hc. cbn. destruct o; auto. exfalso. eapply No. reflexivity.
    + left. rewrite !lookup_insert_ne by congruence. auto.
  - intros d q h oo hd Hq Hh. apply Hd; [|exact Hh]. intros c' p'' Hc'. eapply FR_close; eauto.
Qed.

Lemma FR_lookup f s rem p : FR f s rem -> lookup_reg (r_world s) p = lookup_reg (r_world (u_reg f)) p.
Proof.
  intros R. unfold lookup_reg. rewrite (v_reg _ _ _ _ (fr_world _ _ _ R)). destruct (w_reg (r_world s) !! p) as [i|]; [|reflexivity].
  destruct (u_stores f !! i) as [st|] eqn:Hst.
  - destruct (fr_store _ _ _ R _ _ Hst) as (x & y & -> & -> & _). reflexivity.
  - destruct (fr_dom _ _ _ R _ Hst) as [-> ->]. reflexivity.
Qed.
Lemma FR_find f s rem p : FR f s rem -> find s p = find (u_reg f) p.
Proof. intros R. unfold find. rewrite (FR_lookup _ _ _ _ R), (fr_dead _ _ _ R). reflexivity. Qed.

Lemma run_job_queue w i x : w_insts w !! i = Some x -> i_queue x <> [] -> i_io x = IoRun -> w_insts (run_job E w i) <> w_insts w.
Proof.
  intros Hx Hq Hi Eq. assert (Q : exists y, w_insts (run_job E w i) !! i = Some y /\ (length (i_queue y) < length (i_queue x))%nat).
  { unfold run_job. rewrite Hx, Hi. destruct (i_queue x) as [|[m dup|] q]; [contradiction|..].
    - destruct (write _ _ _ m dup) as [s ok]. eexists. cbn. rewrite lookup_insert. split; [reflexivity|]. cbn. lia.
    - eexists. cbn. rewrite lookup_insert. split; [reflexivity|]. cbn. lia. }
  destruct Q as (y & Q1 & Q2). rewrite Eq, Hx in Q1. injection Q1 as <-. lia.
Qed.

(** Building a store. *)
Lemma FR_open ls f s rem c path key : good ls s -> fine E s -> (forall s', good (ls ++ [RTau]) s' -> fine E s') -> FR f s rem ->
  r_ops s !! c = Some (QOpen, OOpen path key) ->
  canon path ∉ rem /\ exists w1 W1 x, open_impl E (r_world (u_reg f)) path key = (w1, Some x) /\ open_impl E (r_world s) path key = (W1, Some x) /\ wrel E rem w1 W1.
Proof.
  intros G F F' R Hc. destruct (open_impl E (r_world s) path key) as [W1 [x|]] eqn:Eo.
  2:{ exfalso. pose proof (good_step _ _ _ _ G (q_build_panic E s c path key W1 Hc Eo)) as G'. apply F' in G'. pose proof (fi_poison _ _ G') as P. discriminate P. }
  destruct (open_impl_sub E _ _ _ _ _ Eo) as (O1 & _ & _ & O2 & _ & O3). destruct (O3 x eq_refl) as (Dx & _).
  assert (N : canon path ∉ rem).
  { intros Hin. destruct (fr_rem _ _ _ R _ Hin) as (i & z & Hz & Dz).
    destruct (u_stores f !! i) as [st|] eqn:Hst; [|destruct (fr_dom _ _ _ R _ Hst); congruence].
    destruct (fr_store _ _ _ R _ _ Hst) as (z' & y & Hz' & Hy & _ & S). rewrite Hz in Hz'. injection Hz' as <-. apply SR_dir in S.
    pose proof (good_step _ _ _ _ G (q_build E s c path key W1 x Hc Eo)) as G'. apply F' in G'.
    pose proof (n_ibound _ (fi_hn _ _ F) _ _ Hy) as B. rewrite <- O2 in B.
    assert (i = w_next_inst W1); [|lia]. eapply (fi_one _ _ G'); cbn.
    - rewrite lookup_insert_ne by lia. rewrite O1. exact Hy.
    - apply lookup_insert.
    - congruence. }
  split; [exact N|]. destruct (wrel_open E rem _ _ path key (fr_world _ _ _ R) N) as [V1 V2]. rewrite Eo in V1, V2.
  destruct (open_impl E (r_world (u_reg f)) path key) as [w1 o]. cbn in V1, V2. subst o. eauto 10.
Qed.

Lemma FR_registry ls u stores s rem a s1 : good ls s -> fine E s -> (forall s', good (ls ++ [a]) s' -> fine E s') -> FR (Full u stores) s rem ->
  rstep E u a s1 -> registry_only u s1 -> exists s', good (ls ++ [a]) s' /\ FR (Full s1 stores) s' rem.
Proof.
  intros G F F' R X [RI RJ RC]. pose proof (fr_world _ _ _ R) as V.
  pose proof (fun c => FR_fwd _ _ _ c R) as Fwd. pose proof (fun c => FR_back _ _ _ c R) as Bck. pose proof (fun p => FR_find _ _ _ p R) as Fi.
  pose proof (v_poison _ _ _ _ V) as VP. pose proof (v_handles _ _ _ _ V) as VH. pose proof (v_reg _ _ _ _ V) as VR.
  pose proof (fr_next _ _ _ R) as RN. pose proof (fr_dead _ _ _ R) as RD. pose proof (fr_readers _ _ _ R) as RR. pose proof (fr_writer _ _ _ R) as RW.
  pose proof (fi_hn _ _ F) as HH. pose proof (fi_lk _ _ F) as LL. cbn [u_reg u_stores] in *.
  assert (Fresh : r_ops u !! r_next u = None).
  { destruct (r_ops u !! r_next u) as [[p o]|] eqn:Hn; [|reflexivity]. exfalso.
    assert (exists p', r_ops s !! r_next u = Some (p', o)) as [p' Q].
    { destruct o as [| |h o]; [rewrite Fwd; rewrite Hn; cbn; eauto..|eapply FR_call; eassumption]. }
    apply (k_nx _ LL) in Q. lia. }
  assert (Us : forall h, usable u h -> usable s h).
  { intros h (U1 & U2 & U3). split_and!.
    - rewrite <- VH. exact U1.
    - rewrite Fwd; [exact U2|rewrite U2; exact Logic.I].
    - intros c p Y. apply (U3 c p). rewrite Bck; [exact Y|rewrite Y; exact Logic.I]. }
  assert (Go : forall s', rstep E s a s' -> FR (Full s1 stores) s' rem -> exists s', good (ls ++ [a]) s' /\ FR (Full s1 stores) s' rem).
  { intros s' S1 S2. exists s'. split; [eapply good_step; eassumption|exact S2]. }
  assert (Get : forall c p o, r_ops u !! c = Some (p, o) -> (forall h oo, o <> OCall h oo) -> r_ops s !! c = Some (p, o)).
  { intros c p o Y No. rewrite Fwd, Y; [reflexivity|]. rewrite Y. destruct o; [exact Logic.I..|]. exfalso. eapply No. reflexivity. }
  assert (Cal : forall c p h o, r_ops u !! c = Some (p, OCall h o) -> p = QWant).
  { intros c p h o Y. pose proof (fr_ops _ _ _ R c) as O. unfold oprel in O. cbn in O. rewrite Y in O. apply O. }
  assert (Begin : forall p o, (forall h oo, o <> OCall h oo) -> FR (Full (begin u p o) stores) (begin s p o) rem).
  { intros p o No. eapply (FR_reg (Full u stores) s rem); eauto; cbn; try congruence.
    - lia.
    - intros d. rewrite RN. destruct (decide (d = r_next u)) as [->|Hne].
      + right. rewrite Fresh, !lookup_insert. cbn. split_and!; auto. destruct o; [exact Logic.I..|]. eapply No. reflexivity.
      + left. rewrite !lookup_insert_ne by congruence. auto. }
  assert (Mv : forall c p o p' s2, s1 = set_op s2 c p' o -> r_ops u !! c = Some (p, o) -> (forall h oo, o <> OCall h oo) -> r_next s2 = r_next u -> r_dead s2 = r_dead u -> r_ops s2 = r_ops u ->
    forall W, wrel E rem (r_world s2) W -> w_insts W = w_insts (r_world s) ->
    (forall h hd, (forall c' p'' , r_ops u !! c' <> Some (p'', OClose h)) -> w_handles (r_world u) !! h = Some hd ->
      exists hd', w_handles (r_world s2) !! h = Some hd' /\ h_inst hd' = h_inst hd) ->
    rstep E s a (set_op (set_lk (set_w s W) (r_readers s2) (r_writer s2)) c p' o) -> exists s', good (ls ++ [a]) s' /\ FR (Full s1 stores) s' rem).
  { intros c p o p' s2 -> Hc No N2 D2 O2 W VW IW Hd RS. eapply Go; [exact RS|].
    eapply (FR_move (Full u stores) s rem c p o (set_op s2 c p' o)); eauto; cbn; congruence. }
  assert (Adj : forall W, set_lk (set_w s W) (r_readers u) (r_writer u) = set_w s W).
  { intros W. unfold set_lk, set_w. cbn. rewrite <- RR, <- RW. reflexivity. }
  assert (Sam : set_w s (r_world s) = s) by (destruct s; reflexivity).
  assert (AddH : forall c path key i, r_ops s !! c = Some (QRead, OOpen path key) \/ r_ops s !! c = Some (QWrite, OOpen path key) \/ (exists j, r_ops s !! c = Some (QIns j, OOpen path key)) ->
    forall h hd, w_handles (r_world u) !! h = Some hd -> exists hd', <[c := Handle path key i false]> (w_handles (r_world u)) !! h = Some hd' /\ h_inst hd' = h_inst hd).
  { intros c path key i Hc h hd Hh. exists hd. split; [|reflexivity]. rewrite lookup_insert_ne; [exact Hh|]. intros <-. rewrite VH in Hh.
    destruct Hc as [Hc|[Hc|[j Hc]]]; apply (n_op _ HH) in Hc; cbn in Hc; [| |destruct Hc as [Hc _]]; congruence. }
  destruct X as [u path key|u h o U|u h U Nc|u c path key Hc Hw|u c path key Hc Hp|u c path key i Hc Hp Hf|u c path key Hc Hp Hf|u c o Hc Hw Hr|u c path key Hc Hp
    |u c path key i Hc Hp Hf|u c path key Hc Hp Hf|u c path key w x Hc Ho|u c path key w Hc Ho|u c path key i Hc|u c h hd Hc Hp Hh|u c h hd Hc Hp Hh|u c h hd last Hc Hh
    |u c o r Hc|u c h hd r Hc Hh Hs|u c h hd r Hc Hh Hs|u c h hd r x Hc Hh Hx Hq|u c h o w r Hc Hs|u i x Hx Hq Hi|u c o r Hc];
    match goal with
    | Hc : r_ops u !! c = Some (_, OOpen _ _) |- _ => pose proof (Get _ _ _ Hc ltac:(discriminate)) as Gc
    | Hc : r_ops u !! c = Some (_, OClose _) |- _ => pose proof (Get _ _ _ Hc ltac:(discriminate)) as Gc
    | _ => idtac
    end.
  - (* open *)
    apply (Go (begin s QWant (OOpen path key))); [rewrite <- RN; apply q_open|]. apply Begin. discriminate.
  - (* a call on a store: not here *)
    exfalso. specialize (RC (r_next u) QWant h o). cbn in RC. rewrite lookup_insert in RC. specialize (RC eq_refl). congruence.
  - (* close *)
    apply (Go (begin s QWantW (OClose h))); [rewrite <- RN; apply q_close; [apply Us, U|]|apply Begin; discriminate].
    intros c p o Y. pose proof (fr_ops _ _ _ R c) as O. unfold oprel in O. cbn in O.
    destruct (r_ops u !! c) as [[q [pa ka|hc|h' o']]|] eqn:Hq; try congruence. destruct O as (_ & hd & st & ro & _ & _ & _ & O). rewrite O in Y. injection Y as _ <- <-. eapply Nc, Hq.
  - (* read lock *)
    eapply (Mv c _ _ _ (set_lk u ({[c]} ∪ r_readers u) (r_writer u))); [reflexivity|exact Hc|discriminate|reflexivity..|exact V|reflexivity|eauto|].
    rewrite Sam. cbn. rewrite <- RR, <- RW. apply q_read; congruence.
  - (* poisoned *)
    eapply (Mv c _ _ _ u); [reflexivity|exact Hc|discriminate|reflexivity..|exact V|reflexivity|eauto|].
    rewrite Adj, Sam. apply q_read_poisoned; congruence.
  - (* found *)
    eapply (Mv c _ _ _ (set_w u _)); [reflexivity|exact Hc|discriminate|reflexivity..|cbn; unfold add_handle; rewrite VH; apply wrel_handles, V|reflexivity|cbn; eauto|].
    cbn. rewrite Adj. apply q_hit; congruence.
  - (* not found *)
    eapply (Mv c _ _ _ (set_lk u (r_readers u ∖ {[c]}) (r_writer u))); [reflexivity|exact Hc|discriminate|reflexivity..|exact V|reflexivity|eauto|].
    rewrite Sam. cbn. rewrite <- RR, <- RW. apply q_miss; congruence.
  - (* write lock *)
    assert (No : forall h oo, o <> OCall h oo) by (intros h oo ->; apply Cal in Hc; discriminate Hc).
    eapply (Mv c _ _ _ (set_lk u (r_readers u) (Some c))); [reflexivity|exact Hc|exact No|reflexivity..|exact V|reflexivity|eauto|].
    rewrite Sam. cbn. rewrite <- RR. apply q_write; [apply Get; assumption|congruence..].
  - eapply (Mv c _ _ _ u); [reflexivity|exact Hc|discriminate|reflexivity..|exact V|reflexivity|eauto|].
    rewrite Adj, Sam. apply q_write_poisoned; congruence.
  - eapply (Mv c _ _ _ (set_w u _)); [reflexivity|exact Hc|discriminate|reflexivity..|cbn; unfold add_handle; rewrite VH; apply wrel_handles, V|reflexivity|cbn; eauto|].
    cbn. rewrite Adj. apply q_again; congruence.
  - eapply (Mv c _ _ _ u); [reflexivity|exact Hc|discriminate|reflexivity..|exact V|reflexivity|eauto|].
    rewrite Adj, Sam. apply q_absent; congruence.
  - (* a new store: not here *)
    exfalso. cbn in RI. destruct (open_impl_sub E _ _ _ _ _ Ho) as (O1 & _ & _ & O2 & _). rewrite O1, O2 in RI.
    assert (Q : w_insts (r_world u) !! w_next_inst (r_world u) = Some x) by (rewrite <- RI; apply lookup_insert).
    destruct (stores !! w_next_inst (r_world u)) as [st|] eqn:Hst; [|destruct (fr_dom _ _ _ R _ Hst); cbn in *; congruence].
    destruct (fr_store _ _ _ R _ _ Hst) as (x' & y & _ & Hy & _). apply (n_ibound _ HH) in Hy. rewrite (v_inst _ _ _ _ V) in Hy. lia.
  - (* no store: not here *)
    exfalso. destruct (FR_open ls (Full u stores) s rem c path key G F F' R Gc) as (_ & w1 & W1 & x & O1 & _). cbn in O1. congruence.
  - (* insert *)
    eapply (Mv c _ _ _ (set_w u _)) with (W := set_reg (add_handle (r_world s) c path key i) (<[path := i]> (w_reg (r_world s))));
      [reflexivity|exact Hc|discriminate|reflexivity..| |reflexivity|cbn; eauto|].
    + cbn. unfold add_handle. rewrite VH, VR. apply wrel_reg, wrel_handles, V.
    + cbn. rewrite Adj. apply q_insert. exact Gc.
  - (* poisoned *)
    exfalso. rewrite VP, (fi_poison _ _ F) in Hp. discriminate Hp.
  - (* count *)
    eapply (Mv c _ _ _ u); [reflexivity|exact Hc|discriminate|reflexivity..|exact V|reflexivity|eauto|].
    rewrite Adj, Sam. unfold strong. rewrite VH. apply q_count; congruence.
  - (* remove *)
    eapply (Mv c _ _ _ (set_w u _)) with (W := flag_handle (if last then set_reg (r_world s) (delete (h_path hd) (w_reg (r_world s))) else r_world s) h hd);
      [reflexivity|exact Hc|discriminate|reflexivity..| | | |].
    + cbn. unfold flag_handle. destruct last; cbn; rewrite VH, ?VR; [apply wrel_handles, wrel_reg, V|apply wrel_handles, V].
    + destruct last; reflexivity.
    + intros h' hd' Nc Hh'. exists hd'. split; [|reflexivity]. assert (h <> h') by (intros <-; eapply Nc, Hc). destruct last; cbn; rewrite lookup_insert_ne by assumption; exact Hh'.
    + cbn. rewrite Adj. apply q_remove; congruence.
  - (* release *)
    assert (No : forall h oo, o <> OCall h oo) by (intros h oo ->; apply Cal in Hc; discriminate Hc).
    eapply (Mv c _ _ _ (set_lk u _ _)); [reflexivity|exact Hc|exact No|reflexivity..|exact V|reflexivity|eauto|].
    rewrite Sam. cbn. rewrite <- RR, <- RW. apply q_release. apply Get; assumption.
  - (* an Arc *)
    eapply (Mv c _ _ _ (set_w u _)); [reflexivity|exact Hc|discriminate|reflexivity..|cbn; rewrite VH; apply wrel_handles, V|reflexivity| |].
    + intros h' hd' Nc Hh'. exists hd'. split; [|reflexivity]. cbn. rewrite lookup_delete_ne; [exact Hh'|]. intros <-. eapply Nc, Hc.
    + cbn. rewrite Adj. apply (q_arc _ _ _ _ hd); [exact Gc|congruence|]. unfold strong. rewrite <- VH. exact Hs.
  - (* the last Arc: not here *)
    exfalso. specialize (RJ c r (OClose h)). cbn in RJ. rewrite lookup_insert in RJ. specialize (RJ eq_refl). congruence.
  - (* joined: not here *)
    exfalso. cbn in RI. assert (Q : w_insts (r_world u) !! h_inst hd = None) by (rewrite <- RI; apply lookup_delete). congruence.
  - exfalso. specialize (RC c (QDone r) h o). cbn in RC. rewrite lookup_insert in RC. specialize (RC eq_refl). congruence.
  - exfalso. eapply run_job_queue; [exact Hx|exact Hq|exact Hi|exact RI].
  - (* return *)
    assert (No : forall h oo, o <> OCall h oo) by (intros h oo ->; apply Cal in Hc; discriminate Hc).
    eapply Go; [eapply q_return, Get; eassumption|].
    eapply (FR_reg (Full u stores) s rem); eauto; cbn; try congruence; try lia.
    intros d. destruct (decide (d = c)) as [->|Hne].
    + right. rewrite !lookup_delete, Hc. cbn. split_and!; auto. destruct o; [exact Logic.I..|]. eapply No. reflexivity.
    + left. rewrite !lookup_delete_ne by congruence. auto.
Qed.

(** A new store. *)
Lemma FR_build ls f s rem c path key w x : good ls s -> fine E s -> (forall s', good (ls ++ [RTau]) s' -> fine E s') -> FR f s rem ->
  r_ops (u_reg f) !! c = Some (QOpen, OOpen path key) -> open_impl E (r_world (u_reg f)) path key = (w, Some x) ->
  exists s', good (ls ++ [RTau]) s' /\ FR (Full (set_op (set_w (u_reg f)
      (World (w_dirs w) (w_inodes w) (w_next_ino w) (<[w_next_inst w := x]> (w_insts w)) (w_next_inst w + 1)
             (w_handles w) (w_reg w) (w_poison w) (w_rng w) (w_seed w))) c (QIns (w_next_inst w)) (OOpen path key))
      (<[w_next_inst w := conc0 w x]> (u_stores f))) s' rem.
Proof.
  intros G F F' R Hc Ho. assert (Gc : r_ops s !! c = Some (QOpen, OOpen path key)) by (rewrite (FR_fwd _ _ _ c R), Hc; [reflexivity|rewrite Hc; exact Logic.I]).
  destruct (FR_open ls f s rem c path key G F F' R Gc) as (Nr & w1 & W1 & x1 & O1 & O2 & V1). rewrite Ho in O1. injection O1 as <- <-.
  pose proof (good_step _ _ _ _ G (q_build E s c path key W1 x Gc O2)) as G'. eexists. split; [exact G'|].
  destruct (open_impl_sub E _ _ _ _ _ Ho) as (P1 & P2 & P3 & P4 & P5 & P6). destruct (P6 x eq_refl) as (Dx & X1 & X2 & X3 & X4).
  destruct (open_impl_sub E _ _ _ _ _ O2) as (Q1 & Q2 & Q3 & Q4 & Q5 & _).
  pose proof (v_inst _ _ _ _ V1) as Vn.
  assert (New : u_stores f !! w_next_inst w = None).
  { destruct (u_stores f !! w_next_inst w) as [st|] eqn:Hst; [|reflexivity]. destruct (fr_store _ _ _ R _ _ Hst) as (x' & y & _ & Hy & _).
    apply (n_ibound _ (fi_hn _ _ F)) in Hy. lia. }
  destruct R as [R1 R2 R3 R4 R5 R6 R7 R8 R9 R10 R11].
  assert (Ops : forall d p h o, r_ops (u_reg f) !! d = Some (p, OCall h o) -> d <> c) by (intros d p h o Y ->; congruence).
  split; cbn [u_reg u_stores set_op set_w r_readers r_writer r_next r_dead r_world r_ops]; auto.
  - destruct V1 as [A1 A2 A3 A4 A5 A6 A7 A8 A9]. split; cbn; auto. lia.
  - intros d. specialize (R6 d). unfold oprel in *. cbn. destruct (decide (d = c)) as [->|Hne].
    + rewrite !lookup_insert. rewrite Vn. reflexivity.
    + rewrite !lookup_insert_ne by congruence. destruct (r_ops (u_reg f) !! d) as [[p [pa ka|hc|h o]]|] eqn:Hd; auto.
      destruct R6 as (-> & hd & st & ro & H1 & H2 & H3 & H4). split; [reflexivity|]. exists hd, st, ro. rewrite P2. split_and!; auto.
      rewrite lookup_insert_ne; [exact H2|congruence].
  - intros i st d ho ro Hi Hs. destruct (decide (i = w_next_inst w)) as [->|Hne].
    + rewrite lookup_insert in Hi. injection Hi as <-. unfold status in Hs. cbn in Hs. rewrite lookup_empty in Hs. discriminate Hs.
    + rewrite lookup_insert_ne in Hi by congruence. destruct (R7 _ _ _ _ _ Hi Hs) as [H1 H2]. cbn. rewrite P2. split; [|exact H2].
      rewrite lookup_insert_ne; [exact H1|]. intros <-. congruence.
  - intros i st Hi. cbn. rewrite P1, Q1, <- Vn. destruct (decide (i = w_next_inst w)) as [->|Hne].
    + rewrite lookup_insert in Hi. injection Hi as <-. exists x, x. rewrite !lookup_insert. split_and!; auto.
      * eapply (LInv_plug _ w 0); [|lia]. apply (LInv_0 w x).
      * eapply (sr_calm _ _ _ _ (Front (i_map x) (i_valid x) (i_poison x))).
        -- rewrite Dx. apply bool_decide_eq_false_2, Nr.
        -- split; [reflexivity|]. intros d p h o Y. cbn in Y. rewrite lookup_empty in Y. discriminate Y.
        -- right. split; [|reflexivity]. intros d p h Y. cbn in Y. rewrite lookup_empty in Y. discriminate Y.
        -- discriminate.
        -- destruct x; cbn in *. rewrite X4. reflexivity.
    + rewrite lookup_insert_ne in Hi by congruence. destruct (R8 _ _ Hi) as (x' & y & Hx & Hy & L & S). exists x', y.
      rewrite !lookup_insert_ne by congruence. split_and!; auto. eapply LInv_plug; [exact L|]. cbn. lia.
  - intros i Hi. cbn. rewrite P1, Q1, <- Vn. destruct (decide (i = w_next_inst w)) as [->|Hne]; [rewrite lookup_insert in Hi; discriminate Hi|].
    rewrite lookup_insert_ne in Hi by congruence. rewrite !lookup_insert_ne by congruence. apply R9, Hi.
  - intros i st Hi K Em. destruct (decide (i = w_next_inst w)) as [->|Hne].
    + rewrite lookup_insert in Hi. injection Hi as <-. discriminate K.
    + rewrite lookup_insert_ne in Hi by congruence. eapply R10; eassumption.
  - intros d Hd. destruct (R11 _ Hd) as (i & z & Hz & Dz). exists i, z. split; [|exact Dz]. cbn. rewrite P1, lookup_insert_ne; [exact Hz|].
    intros <-. destruct (R9 _ New). congruence.
Qed.

(** The handle of a store that is being closed for good is the only one. *)
Lemma FR_alone f s rem c h hd p i st : FR f s rem -> fine E s -> r_ops (u_reg f) !! c = Some (p, OClose h) -> u_stores f !! i = Some st ->
  (forall h' hd', w_handles (r_world (u_reg f)) !! h' = Some hd' -> h_inst hd' = i -> h' = h) -> w_handles (r_world (u_reg f)) !! h = Some hd -> c_calls st = ∅.
Proof.
  intros R F Hc Hst Al Hh. apply map_empty. intros d. destruct (c_calls st !! d) as [[q [h' o]]|] eqn:Hd; [|reflexivity]. exfalso.
  assert (Hs : status st d = Some ((h', o), linres (l_posts (c_loop st)) o q)) by (unfold status; rewrite Hd; reflexivity).
  destruct (fr_calls _ _ _ R _ _ _ _ _ Hst Hs) as (Ho & hd' & H1 & H2). cbn in *. assert (h' = h) as -> by (eapply Al; eassumption).
  eapply (FR_close f s rem c p h d); eauto.
Qed.

(** A call begins. *)
Lemma FR_begin ls f s rem h hd o st st' : good ls s -> fine E s -> FR f s rem ->
  usable (u_reg f) h -> w_handles (r_world (u_reg f)) !! h = Some hd -> u_stores f !! h_inst hd = Some st ->
  cstep E (h_inst hd) (inner f st) (HInv (r_next (u_reg f)) h o) st' ->
  exists s', good (ls ++ [RInv (r_next (u_reg f)) (OCall h o)]) s' /\
    FR (Full (begin (u_reg f) QWant (OCall h o)) (<[h_inst hd := st']> (u_stores f))) s' rem.
Proof.
  intros G F R U Hh Hst X. pose proof (fi_hn _ _ F) as HH. pose proof (fr_world _ _ _ R) as V. pose proof (v_handles _ _ _ _ V) as VH. pose proof (fr_next _ _ _ R) as RN.
  assert (Us : usable s h).
  { destruct U as (U1 & U2 & U3). split_and!.
    - rewrite <- VH. exact U1.
    - rewrite (FR_fwd _ _ _ h R); [exact U2|rewrite U2; exact Logic.I].
    - intros c p Y. apply (U3 c p). rewrite (FR_back _ _ _ c R); [exact Y|rewrite Y; exact Logic.I]. }
  destruct (fr_store _ _ _ R _ _ Hst) as (x & y & Hx & Hy & L & S). pose proof (fi_inst _ _ F _ _ Hy) as Ok.
  assert (Alive : l_k (c_loop st) = KJoin -> c_calls st = ∅ -> False).
  { intros K Em. pose proof (fr_gone _ _ _ R _ _ Hst K Em) as D. destruct (n_dead _ HH _ D) as (c & h' & r & hd' & C1 & C2 & C3).
    destruct (n_op _ HH _ _ _ C1) as (hd2 & C4 & _ & C5 & _). rewrite C2 in C4. injection C4 as <-. rewrite VH in Hh.
    assert (h = h') as <- by (eapply C5; [exact Hh|congruence]). destruct Us as (_ & _ & U3). eapply U3, C1. }
  pose proof (LInv_step E _ _ _ _ L X) as L'. pose proof (cstep_next _ _ _ _ X) as Nx. cbn in Nx.
  pose proof (gone_back E _ _ _ _ _ _ _ (SR_plug _ (r_world (u_reg f)) (r_next (u_reg f)) _ _ _ S) X) as Gb. cbn in Gb.
  destruct (store_step E _ (inner f st) _ st' x y (bool_decide (i_dir x ∈ rem)) L Ok (SR_plug _ _ _ _ _ _ S) X)
    as [Q1 Q2 Q3|? ? ? ? ? Q1 _ _ _ _ _ _|? ? ? ? ? Q1 _ _ _ _|? ? Q1 _ _ _ _ _|? ? ? ? ? ? Q1 _ _ _ _ _ _]; try discriminate Q1.
  { intros K Em. destruct (Alive K Em). }
  cbn [inner plug c_loop l_cb set_cb] in Q1. 
  assert (RS : rstep E s (RInv (r_next (u_reg f)) (OCall h o)) (begin s QWant (OCall h o))) by (rewrite <- RN; apply q_call, Us).
  exists (begin s QWant (OCall h o)). split; [eapply good_step; eassumption|].
  assert (Fr : forall p o', r_ops (u_reg f) !! r_next (u_reg f) = Some (p, o') -> False).
  { intros p o' Y. assert (exists p', r_ops s !! r_next (u_reg f) = Some (p', o')) as [p' Q].
    { destruct o' as [| |h' o']; [rewrite (FR_fwd _ _ _ _ R); rewrite Y; cbn; eauto..|eapply FR_call; eassumption]. }
    apply (k_nx _ (fi_lk _ _ F)) in Q. lia. }
  destruct R as [R1 R2 R3 R4 R5 R6 R7 R8 R9 R10 R11].
  split; cbn [u_reg u_stores begin r_readers r_writer r_next r_dead r_world r_ops]; auto; try congruence.
  - intros d. specialize (R6 d). unfold oprel in *. cbn. rewrite RN. destruct (decide (d = r_next (u_reg f))) as [->|Hne].
    + rewrite !lookup_insert. split; [reflexivity|]. exists hd, st', None. rewrite lookup_insert. split_and!; auto. rewrite Q3, decide_True by reflexivity. reflexivity.
    + rewrite !lookup_insert_ne by congruence. destruct (r_ops (u_reg f) !! d) as [[p [pa ka|hc|h' o']]|] eqn:Hd; auto.
      destruct R6 as (-> & hd' & st0 & ro & H1 & H2 & H3 & H4). split; [reflexivity|]. destruct (decide (h_inst hd' = h_inst hd)) as [Heq|Hi].
      * rewrite Heq in H2. rewrite Hst in H2. injection H2 as <-. exists hd', st', ro. rewrite Heq, lookup_insert. split_and!; auto. rewrite Q3, decide_False by exact Hne. exact H3.
      * exists hd', st0, ro. rewrite lookup_insert_ne by congruence. auto.
  - intros i st0 d ho ro Hi Hs. destruct (decide (i = h_inst hd)) as [->|Hne].
    + rewrite lookup_insert in Hi. injection Hi as <-. rewrite Q3 in Hs. destruct (decide (d = r_next (u_reg f))) as [->|Hne].
      * injection Hs as <- _. rewrite lookup_insert. cbn. split; [reflexivity|]. eauto.
      * destruct (R7 _ _ _ _ _ Hst Hs) as [H1 H2]. rewrite lookup_insert_ne by congruence. auto.
    + rewrite lookup_insert_ne in Hi by congruence. destruct (R7 _ _ _ _ _ Hi Hs) as [H1 H2]. split; [|exact H2].
      rewrite lookup_insert_ne; [exact H1|]. intros <-. eapply Fr, H1.
  - intros i st0 Hi. destruct (decide (i = h_inst hd)) as [->|Hne].
    + rewrite lookup_insert in Hi. injection Hi as <-. exists x, y. split_and!; auto. unfold inner. cbn. rewrite <- Nx, <- Q1, plug_self. exact L'.
    + rewrite lookup_insert_ne in Hi by congruence. destruct (R8 _ _ Hi) as (x' & y' & Hx' & Hy' & L0 & S0). exists x', y'. split_and!; auto.
      eapply LInv_plug; [exact L0|]. cbn. lia.
  - intros i Hi. destruct (decide (i = h_inst hd)) as [->|Hne]; [rewrite lookup_insert in Hi; discriminate Hi|].
    rewrite lookup_insert_ne in Hi by congruence. apply R9, Hi.
  - intros i st0 Hi K Em. destruct (decide (i = h_inst hd)) as [->|Hne].
    + rewrite lookup_insert in Hi. injection Hi as <-. destruct (Gb K Em) as [B1 B2]. destruct (Alive B1 B2).
    + rewrite lookup_insert_ne in Hi by congruence. eapply R10; eassumption.
Qed.

(** A call returns. *)
Lemma FR_return ls f s rem c h o hd st st' r : good ls s -> fine E s -> FR f s rem ->
  r_ops (u_reg f) !! c = Some (QWant, OCall h o) -> w_handles (r_world (u_reg f)) !! h = Some hd -> u_stores f !! h_inst hd = Some st ->
  cstep E (h_inst hd) (inner f st) (HRet c r) st' ->
  exists s', good (ls ++ [RRet c r]) s' /\
    FR (Full (Reg (r_world (u_reg f)) (r_readers (u_reg f)) (r_writer (u_reg f)) (delete c (r_ops (u_reg f))) (r_next (u_reg f)) (r_dead (u_reg f)))
            (<[h_inst hd := st']> (u_stores f))) s' rem.
Proof.
  intros G F R Hc Hh Hst X. pose proof (fr_world _ _ _ R) as V.
  destruct (fr_store _ _ _ R _ _ Hst) as (x & y & Hx & Hy & L & S). pose proof (fi_inst _ _ F _ _ Hy) as Ok.
  pose proof (LInv_step E _ _ _ _ L X) as L'. pose proof (cstep_next _ _ _ _ X) as Nx. cbn in Nx.
  pose proof (gone_back E _ _ _ _ _ _ _ (SR_plug _ (r_world (u_reg f)) (r_next (u_reg f)) _ _ _ S) X) as Gb. cbn in Gb.
  destruct (store_step E _ (inner f st) _ st' x y (bool_decide (i_dir x ∈ rem)) L Ok (SR_plug _ _ _ _ _ _ S) X)
    as [Q1 Q2 Q3|? ? ? ? ? Q1 _ _ _ _ _ _|? ? ? ? ? Q1 _ _ _ _|? ? Q1 _ _ _ _ _|? ? ? ? ? ? Q1 _ _ _ _ _ _]; try discriminate Q1; [intros; discriminate|].
  cbn [inner plug c_loop l_cb set_cb] in Q1. destruct Q3 as [(ho & Q3) Q4]. change (status (inner f st) c) with (status st c) in Q3.
  assert (Gc : r_ops s !! c = Some (QDone r, OCall h o)).
  { pose proof (fr_ops _ _ _ R c) as O. unfold oprel in O. rewrite Hc in O. destruct O as (_ & hd' & st0 & ro & H1 & H2 & H3 & H4).
    rewrite Hh in H1. injection H1 as <-. rewrite Hst in H2. injection H2 as <-. rewrite Q3 in H3. injection H3 as _ <-. exact H4. }
  eexists. split; [eapply good_step; [exact G|eapply q_return, Gc]|].
  destruct R as [R1 R2 R3 R4 R5 R6 R7 R8 R9 R10 R11].
  split; cbn [u_reg u_stores r_readers r_writer r_next r_dead r_world r_ops]; auto; try congruence.
  - intros d. specialize (R6 d). unfold oprel in *. cbn. destruct (decide (d = c)) as [->|Hne].
    + rewrite !lookup_delete. reflexivity.
    + rewrite !lookup_delete_ne by congruence. destruct (r_ops (u_reg f) !! d) as [[p [pa ka|hc|h' o']]|] eqn:Hd; auto.
      destruct R6 as (-> & hd' & st0 & ro & H1 & H2 & H3 & H4). split; [reflexivity|]. destruct (decide (h_inst hd' = h_inst hd)) as [Heq|Hi].
      * rewrite Heq in H2. rewrite Hst in H2. injection H2 as <-. exists hd', st', ro. rewrite Heq, lookup_insert. split_and!; auto. rewrite Q4, decide_False by exact Hne. exact H3.
      * exists hd', st0, ro. rewrite lookup_insert_ne by congruence. auto.
  - intros i st0 d ho' ro Hi Hs. destruct (decide (i = h_inst hd)) as [->|Hne].
    + rewrite lookup_insert in Hi. injection Hi as <-. rewrite Q4 in Hs. destruct (decide (d = c)) as [->|Hne]; [discriminate Hs|].
      destruct (R7 _ _ _ _ _ Hst Hs) as [H1 H2]. rewrite lookup_delete_ne by congruence. auto.
    + rewrite lookup_insert_ne in Hi by congruence. destruct (R7 _ _ _ _ _ Hi Hs) as [H1 H2]. split; [|exact H2].
      rewrite lookup_delete_ne; [exact H1|]. intros <-. rewrite Hc in H1. injection H1 as H1 _. rewrite <- H1, Hh in H2. destruct H2 as (hd' & [= <-] & Y). congruence.
  - intros i st0 Hi. destruct (decide (i = h_inst hd)) as [->|Hne].
    + rewrite lookup_insert in Hi. injection Hi as <-. exists x, y. split_and!; auto. unfold inner. cbn. rewrite <- Nx, <- Q1, plug_self. exact L'.
    + rewrite lookup_insert_ne in Hi by congruence. destruct (R8 _ _ Hi) as (x' & y' & Hx' & Hy' & L0 & S0). exists x', y'. split_and!; auto.
  - intros i Hi. destruct (decide (i = h_inst hd)) as [->|Hne]; [rewrite lookup_insert in Hi; discriminate Hi|].
    rewrite lookup_insert_ne in Hi by congruence. apply R9, Hi.
  - intros i st0 Hi K Em. destruct (decide (i = h_inst hd)) as [->|Hne].
    + rewrite lookup_insert in Hi. injection Hi as <-. destruct (Gb K Em) as [B1 B2]. eapply R10; eassumption.
    + rewrite lookup_insert_ne in Hi by congruence. eapply R10; eassumption.
Qed.

(** The last Arc of a store is dropped. *)
Lemma FR_arc_last ls f s rem c h hd r st l : good ls s -> fine E s -> FR f s rem ->
  r_ops (u_reg f) !! c = Some (QArc r, OClose h) -> w_handles (r_world (u_reg f)) !! h = Some hd ->
  strong (r_world (u_reg f)) (h_inst hd) = 1%nat -> u_stores f !! h_inst hd = Some st -> drops (c_loop st) l ->
  exists s', good (ls ++ [RTau]) s' /\ FR (Full (set_op (set_dead (u_reg f) ({[h_inst hd]} ∪ r_dead (u_reg f))) c (QJoin r) (OClose h))
                       (<[h_inst hd := set_loop st l]> (u_stores f))) s' rem.
Proof.
  intros G F R Hc Hh Hs Hst Dr. pose proof (fr_world _ _ _ R) as V. pose proof (v_handles _ _ _ _ V) as VH.
  assert (Al : alone (w_handles (r_world (u_reg f))) h hd) by (eapply alone_strong; [exact Hh|rewrite Hs; reflexivity]).
  pose proof (FR_alone f s rem c h hd _ _ st R F Hc Hst Al Hh) as Em.
  destruct (fr_store _ _ _ R _ _ Hst) as (x & y & Hx & Hy & L & S).
  assert (P : l_k (c_loop st) = KOpen /\ y = i_glue x (c_front st) (jobs_of st) /\ bool_decide (i_dir x ∈ rem) = false /\ l_x (c_loop st) <> XDead /\ l = set_k (c_loop st) false KJoin /\ l_posts (c_loop st) = ∅).
  { destruct S as [af A1 A2 A3 A4 A5|c1 p h1 af pend A1 A2 A3 A4 A5 A6|A1 A2 A3 A4 A5].
    - destruct A2 as [K _]. assert (af = c_front st) as ->.
      { destruct A3 as [(d & p & h' & o & j & X & _)|[_ X]]; [|exact X]. rewrite Em, lookup_empty in X. discriminate X. }
      destruct Dr as [[D1 D2]|[(ok & D & _)|[D _]]]; [|congruence..].
      inversion D1 as [? K1 K2 K3|? K1 K2 K3|? K1 K2|? K1 K2|? K1 K2]; subst.
      + cbn in D2. exfalso. assert (Y : length (l_chan (c_loop st) ++ [SQuit]) = length (l_chan (c_loop st))) by congruence. rewrite app_length in Y. cbn in Y. lia.
      + split_and!; auto.
    - rewrite Em, lookup_empty in A1. discriminate A1.
    - exfalso. destruct Dr as [[D1 D2]|[(ok & D & _)|[D _]]]; [|congruence..]. inversion D1; congruence. }
  destruct P as (K & Ey & Gf & Ax & -> & Po).
  assert (Gc : r_ops s !! c = Some (QArc r, OClose h)) by (rewrite (FR_fwd _ _ _ c R), Hc; [reflexivity|rewrite Hc; exact Logic.I]).
  assert (RS : rstep E s RTau (set_op (set_dead s ({[h_inst hd]} ∪ r_dead s)) c (QJoin r) (OClose h))).
  { eapply q_arc_last; [exact Gc|congruence|]. unfold strong. rewrite <- VH. exact Hs. }
  eexists. split; [eapply good_step; eassumption|].
  assert (L2 : LInv (plug (set_loop st (set_k (c_loop st) false KJoin)) (r_world (u_reg f)) (r_next (u_reg f)))).
  { destruct L as [A1 A2 A3 A4 A5 A6 A7 A8 A9]. split; auto.
    apply (SInv_k (set_cb (c_loop st) (r_world (u_reg f))) LClose); [exact A9|].
    change (kstep (set_cb (c_loop st) (r_world (u_reg f))) LClose (set_k (set_cb (c_loop st) (r_world (u_reg f))) false KJoin)). apply k_drop; [exact K|exact Po]. }
  destruct R as [R1 R2 R3 R4 R5 R6 R7 R8 R9 R10 R11].
  split; cbn [u_reg u_stores set_op set_dead r_readers r_writer r_next r_dead r_world r_ops]; auto; try congruence.
  - intros d. specialize (R6 d). unfold oprel in *. cbn. destruct (decide (d = c)) as [->|Hne].
    + rewrite !lookup_insert. reflexivity.
    + rewrite !lookup_insert_ne by congruence. destruct (r_ops (u_reg f) !! d) as [[p [pa ka|hc|h' o']]|] eqn:Hd; auto.
      destruct R6 as (-> & hd' & st0 & ro & H1 & H2 & H3 & H4). split; [reflexivity|]. exists hd', st0, ro. rewrite lookup_insert_ne; auto.
      intros Heq. rewrite <- Heq, Hst in H2. injection H2 as <-. unfold status in H3. rewrite Em, lookup_empty in H3. discriminate H3.
  - intros i st0 d ho ro Hi Hs0. destruct (decide (i = h_inst hd)) as [->|Hne].
    + rewrite lookup_insert in Hi. injection Hi as <-. unfold status in Hs0. cbn in Hs0. rewrite Em, lookup_empty in Hs0. discriminate Hs0.
    + rewrite lookup_insert_ne in Hi by congruence. destruct (R7 _ _ _ _ _ Hi Hs0) as [H1 H2]. split; [|exact H2].
      rewrite lookup_insert_ne; [exact H1|]. intros <-. congruence.
  - intros i st0 Hi. destruct (decide (i = h_inst hd)) as [->|Hne].
    + rewrite lookup_insert in Hi. injection Hi as <-. exists x, y. split_and!; auto. apply sr_gone; auto.
    + rewrite lookup_insert_ne in Hi by congruence. apply R8, Hi.
  - intros i Hi. destruct (decide (i = h_inst hd)) as [->|Hne]; [rewrite lookup_insert in Hi; discriminate Hi|].
    rewrite lookup_insert_ne in Hi by congruence. apply R9, Hi.
  - intros i st0 Hi K0 Em0. destruct (decide (i = h_inst hd)) as [->|Hne]; [set_solver|].
    rewrite lookup_insert_ne in Hi by congruence. apply elem_of_union_r. eapply R10; eassumption.
Qed.

(** Its thread is joined. *)
Lemma FR_joined ls f s rem c h hd r st b : good ls s -> fine E s -> FR f s rem ->
  r_ops (u_reg f) !! c = Some (QJoin r, OClose h) -> w_handles (r_world (u_reg f)) !! h = Some hd ->
  u_stores f !! h_inst hd = Some st -> joins (c_loop st) b ->
  exists s', good (ls ++ [RTau]) s' /\ FR (Full (set_op (set_dead (set_w (u_reg f)
        (set_handles (set_insts (r_world (u_reg f)) (delete (h_inst hd) (w_insts (r_world (u_reg f))))) (delete h (w_handles (r_world (u_reg f))))))
        (r_dead (u_reg f) ∖ {[h_inst hd]})) c (QDone (both r b)) (OClose h))
      (delete (h_inst hd) (u_stores f))) s' rem.
Proof.
  intros G F R Hc Hh Hst Jn. pose proof (fr_world _ _ _ R) as V. pose proof (v_handles _ _ _ _ V) as VH.
  assert (Gc : r_ops s !! c = Some (QJoin r, OClose h)) by (rewrite (FR_fwd _ _ _ c R), Hc; [reflexivity|rewrite Hc; exact Logic.I]).
  destruct (n_op _ (fi_hn _ _ F) _ _ _ Gc) as (hd' & Hh' & _ & Al & _). rewrite <- VH in Hh', Al. rewrite Hh in Hh'. injection Hh' as <-.
  pose proof (FR_alone f s rem c h hd _ _ st R F Hc Hst Al Hh) as Em.
  destruct (fr_store _ _ _ R _ _ Hst) as (x & y & Hx & Hy & L & S). pose proof (fi_inst _ _ F _ _ Hy) as (Yio & _ & _ & _ & Yj & _).
  assert (P : b = ROk None /\ i_queue y = [] /\ i_dir x ∉ rem).
  { destruct S as [af A1 A2 A3 A4 A5|c1 p h1 af pend A1 A2 A3 A4 A5 A6|A1 A2 A3 A4 A5].
    - exfalso. destruct A2 as [K _]. destruct Jn as [(ok & l & D & _)|(ok & D & _)]; [inversion D; congruence|congruence].
    - rewrite Em, lookup_empty in A1. discriminate A1.
    - apply bool_decide_eq_false in A1. split_and!; auto; destruct Jn as [(ok & l & D & Eb)|(ok & D & _)]; try congruence.
      + inversion D; subst; [reflexivity|congruence].
      + pose proof (k_loop _ L) as SI. cbn in SI. inversion D as [| | |? K1 K2|? K1 K2]; subst; [|congruence].
        destruct (s_done _ SI K2) as [_ Q]. pose proof (s_buf _ SI) as B. cbn in B, Q. rewrite K2 in B. cbn. unfold jobs_of. rewrite B, Q. reflexivity. }
  destruct P as (-> & Yq & Nr).
  pose proof (q_joined E s c h hd r y Gc) as RS. specialize (RS ltac:(congruence) Hy (or_introl Yq)). rewrite Yio, Yj in RS.
  eexists. split; [eapply good_step; [exact G|exact RS]|].
  pose proof (fun c' p' h' o => FR_close f s rem c _ h c' p' h' o R F Hc) as Ne.
  destruct R as [R1 R2 R3 R4 R5 R6 R7 R8 R9 R10 R11].
  split; cbn [u_reg u_stores set_op set_dead set_w r_readers r_writer r_next r_dead r_world r_ops]; auto; try congruence.
  - rewrite VH. apply wrel_handles, wrel_insts, V.
  - intros d. specialize (R6 d). unfold oprel in *. cbn. destruct (decide (d = c)) as [->|Hne].
    + rewrite !lookup_insert. reflexivity.
    + rewrite !lookup_insert_ne by congruence. destruct (r_ops (u_reg f) !! d) as [[p [pa ka|hc|h' o']]|] eqn:Hd; auto.
      destruct R6 as (-> & hd' & st0 & ro & H1 & H2 & H3 & H4). split; [reflexivity|]. exists hd', st0, ro. pose proof (Ne _ _ _ _ Hd).
      rewrite !lookup_delete_ne; auto. intros Heq. apply H. eapply Al; [exact H1|congruence].
  - intros i st0 d ho ro Hi Hs0. apply lookup_delete_Some in Hi as [Hne Hi]. destruct (R7 _ _ _ _ _ Hi Hs0) as (H1 & hd' & H2 & H3). cbn. split.
    + rewrite lookup_insert_ne; [exact H1|]. intros <-. congruence.
    + exists hd'. split; [|exact H3]. rewrite lookup_delete_ne; [exact H2|]. pose proof (Ne _ _ _ _ H1). congruence.
  - intros i st0 Hi. apply lookup_delete_Some in Hi as [Hne Hi]. destruct (R8 _ _ Hi) as (x' & y' & Hx' & Hy' & L0 & S0). exists x', y'. cbn.
    rewrite !lookup_delete_ne by congruence. split_and!; auto. eapply LInv_plug; [exact L0|]. cbn. lia.
  - intros i Hi. cbn. destruct (decide (i = h_inst hd)) as [->|Hne]; [rewrite !lookup_delete; auto|].
    rewrite lookup_delete_ne in Hi by congruence. rewrite !lookup_delete_ne by congruence. apply R9, Hi.
  - intros i st0 Hi K0 Em0. apply lookup_delete_Some in Hi as [Hne Hi]. apply elem_of_difference. split; [eapply R10; eassumption|set_solver].
  - intros d Hd. destruct (R11 _ Hd) as (i & z & Hz & Dz). exists i, z. cbn. rewrite lookup_delete_ne; [auto|]. intros <-. rewrite Hx in Hz. injection Hz as <-. congruence.
Qed.

Lemma FR_step ls f a f' s rem : good ls s -> fine E s -> (forall s', good (ls ++ [a]) s' -> fine E s') -> FR f s rem -> fstep E f a f' ->
  exists s' rem', good (ls ++ [a]) s' /\ FR f' s' rem'.
Proof.
  intros G F F' R X. destruct X as [f a s1 X RO|f c path key w x Hc Ho|f h hd o st st' U Hh Hst X|f i st st' Hst X|f c h o hd st st' r Hc Hh Hst X|f c h hd r st l Hc Hh Hs Hst D|f c h hd r st b Hc Hh Hst J].
  - destruct f as [u stores]. destruct (FR_registry ls u stores s rem a s1 G F F' R X RO) as (s' & G' & R'). eauto.
  - destruct (FR_build ls f s rem c path key w x G F F' R Hc Ho) as (s' & G' & R'). eauto.
  - destruct (FR_begin ls f s rem h hd o st st' G F R U Hh Hst X) as (s' & G' & R'). eauto.
  - destruct (FR_internal ls f s rem i st st' G F F' R Hst X) as (s' & rem' & G' & R'). eauto.
  - destruct (FR_return ls f s rem c h o hd st st' r G F R Hc Hh Hst X) as (s' & G' & R'). eauto.
  - destruct (FR_arc_last ls f s rem c h hd r st l G F R Hc Hh Hs Hst D) as (s' & G' & R'). eauto.
  - destruct (FR_joined ls f s rem c h hd r st b G F R Hc Hh Hst J) as (s' & G' & R'). eauto.
Qed.

Lemma FR_exec ls f : fexec E full0 ls f -> ordinary E keyof (begun ls) -> apart canon ls -> exists s rem, good ls s /\ fine E s /\ FR f s rem.
Proof.
  induction 1 as [|ls f1 a f2 X IH Y]; intros O A.
  - exists reg0, ∅. assert (G : good [] reg0) by (exists []; split; [constructor|reflexivity]). split_and!; [exact G| |apply FR_0].
    eapply good_fine; eassumption.
  - pose proof (ordinary_begun_app _ _ _ _ O) as O'. pose proof (apart_app _ _ _ A) as A'.
    destruct (IH O' A') as (s & rem & G & F & R).
    destruct (FR_step ls f1 a f2 s rem G F (fun s' G' => good_fine _ _ G' O A) R Y) as (s' & rem' & G' & R').
    exists s', rem'. split_and!; auto. eapply good_fine; eassumption.
Qed.

(** ** The theorems *)

(** Every history of the whole model is a history of Reg.v: treating each put,
    get, delete and clear_data as one step loses nothing.  When no store is
    open the files are the same, too. *)
Theorem C60_full_refines ls f : fexec E full0 ls f -> ordinary E keyof (begun ls) -> apart canon ls ->
  exists la s, rexec E reg0 la s /\ vis la = vis ls /\
    (w_insts (r_world (u_reg f)) = ∅ -> w_insts (r_world s) = ∅ /\ w_dirs (r_world s) = w_dirs (r_world (u_reg f)) /\ w_inodes (r_world s) = w_inodes (r_world (u_reg f))).
Proof.
  intros X O A. destruct (FR_exec ls f X O A) as (s & rem & (la & Y & Vi) & F & R). exists la, s. split_and!; auto.
  intros Hi.
  assert (St : forall i, u_stores f !! i = None).
  { intros i. destruct (u_stores f !! i) as [st|] eqn:Hst; [|reflexivity]. destruct (fr_store _ _ _ R _ _ Hst) as (x & y & Hx & _). rewrite Hi, lookup_empty in Hx. discriminate Hx. }
  split_and!.
  - apply map_empty. intros i. apply (fr_dom _ _ _ R), St.
  - apply map_eq. intros d. rewrite (v_dirs _ _ _ _ (fr_world _ _ _ R)), decide_False; [reflexivity|].
    intros Hd. destruct (fr_rem _ _ _ R _ Hd) as (i & x & Hx & _). rewrite Hi, lookup_empty in Hx. discriminate Hx.
  - symmetry. apply (v_inodes _ _ _ _ (fr_world _ _ _ R)).
Qed.

(** Linearizability of the whole. *)
Theorem C60_full_linearizable ls f :
  fexec E full0 ls f -> ordinary E keyof (begun ls) -> apart canon ls ->
  exists lin sp, linearizes ls lin /\
    spec_run canon spec0 (map (fun x => op_event x.1.1 x.1.2) lin) = Some (sp, map snd lin).
Proof.
  intros X O A. destruct (C60_full_refines ls f X O A) as (la & s & Y & V & _).
  destruct (C60_linearizable E keyof la s Y) as (lin & sp & Z1 & Z2).
  - rewrite (begun_same _ _ V). exact O.
  - eapply apart_same; eassumption.
  - exists lin, sp. split; [|exact Z2]. eapply linearizes_same; eassumption.
Qed.

(** No directory has two live stores. *)
Theorem C60_full_one_store_per_directory ls f :
  fexec E full0 ls f -> ordinary E keyof (begun ls) -> apart canon ls ->
  forall i j x y, w_insts (r_world (u_reg f)) !! i = Some x -> w_insts (r_world (u_reg f)) !! j = Some y -> i_dir x = i_dir y -> i = j.
Proof.
  intros X O A i j x y Hx Hy Hd. destruct (FR_exec ls f X O A) as (s & rem & _ & F & R). eapply FR_one; eassumption.
Qed.

(** No call panics, no lock is poisoned and no background thread dies. *)
Theorem C60_full_no_panic ls f :
  fexec E full0 ls f -> ordinary E keyof (begun ls) -> apart canon ls ->
  w_poison (r_world (u_reg f)) = false /\
  (forall i st, u_stores f !! i = Some st -> f_poison (c_front st) = false /\ l_x (c_loop st) <> XDead).
Proof.
  intros X O A. destruct (FR_exec ls f X O A) as (s & rem & _ & F & R). split.
  - rewrite (v_poison _ _ _ _ (fr_world _ _ _ R)). apply (fi_poison _ _ F).
  - intros i st Hst. destruct (fr_store _ _ _ R _ _ Hst) as (x & y & Hx & Hy & L & S). destruct (fi_inst _ _ F _ _ Hy) as (_ & _ & P & _).
    destruct S as [af A1 A2 A3 A4 A5|c1 p h1 af pend A1 A2 A3 A4 A5 A6|A1 A2 A3 A4 A5]; split; auto.
    + rewrite A5 in P. cbn in P. destruct A3 as [(d & q & h' & o & j & _ & _ & B)|[_ <-]]; [|exact P].
      unfold body in B. rewrite P in B. destruct o; cbn in B;
        repeat match type of B with context [match ?z with _ => _ end] => destruct z end; try discriminate B; injection B as <- _; cbn; first [reflexivity|assumption].
    + rewrite A5 in P. rewrite A3. exact P.
    + rewrite A5 in P. exact P.
Qed.

End Full.
