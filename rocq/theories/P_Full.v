(** C60 for the whole concurrent model of Full.v: every execution of it has
    the history of an execution of Reg.v, in which each call on a store is one
    step. *)
From Verif Require Import Bytes Utf8 Proto ProtoFacts Value Codec Store StoreFacts Encrypt World Spec Hyps Refine WorldInv WorldStep Main Frames Reach Examples P_Map P_Store P_Fail P_Alias Looper P_Loop Conc P_Conc P_Live Reg P_Reg Full.
From Coq Require Import ZifyBool ZifyNat ZifyN.
Local Open Scope N_scope.

(** ** Histories without silent steps *)

Lemma vis_app a b : vis (a ++ b) = vis a ++ vis b.
Proof. apply List.filter_app. Qed.

Lemma in_vis a ls : seen a = true -> a ∈ vis ls <-> a ∈ ls.
Proof. intros Ha. unfold vis. rewrite !elem_of_list_In, filter_In. tauto. Qed.

Lemma vis_split ls : forall a b, vis ls = a ++ b -> exists l1 l2, ls = l1 ++ l2 /\ vis l1 = a /\ vis l2 = b.
Proof.
  induction ls as [|x ls IH]; intros a b H; cbn in H.
  - symmetry in H. apply app_eq_nil in H as [-> ->]. exists [], []. auto.
  - destruct (seen x) eqn:Hx.
    + destruct a as [|y a]; cbn in H.
      * exists [], (x :: ls). split; [reflexivity|]. cbn. rewrite Hx. auto.
      * injection H as <- H. destruct (IH a b H) as (l1 & l2 & -> & <- & <-). exists (x :: l1), l2. cbn. rewrite Hx. auto.
    + destruct (IH a b H) as (l1 & l2 & -> & <- & <-). exists (x :: l1), l2. cbn. rewrite Hx. auto.
Qed.

Lemma earlier_vis ls a b : seen a = true -> seen b = true -> earlier ls a b -> earlier (vis ls) a b.
Proof.
  intros Ha Hb (l1 & l2 & -> & H1 & H2). exists (vis l1), (vis l2). rewrite vis_app. split_and!; [reflexivity|apply in_vis; assumption..].
Qed.
Lemma vis_earlier ls a b : seen a = true -> seen b = true -> earlier (vis ls) a b -> earlier ls a b.
Proof.
  intros Ha Hb (l1 & l2 & H & H1 & H2). destruct (vis_split _ _ _ H) as (m1 & m2 & -> & <- & <-).
  exists m1, m2. split_and!; [reflexivity|apply (in_vis a m1 Ha), H1|apply (in_vis b m2 Hb), H2].
Qed.

Lemma begun_vis ls : begun (vis ls) = begun ls.
Proof. unfold begun. induction ls as [|a ls IH]; [reflexivity|]. destruct a; cbn; [exact IH|f_equal; exact IH|exact IH]. Qed.
Lemma begun_same la lc : vis la = vis lc -> begun la = begun lc.
Proof. intros H. rewrite <- begun_vis, H, begun_vis. reflexivity. Qed.

Lemma in_same la lc a : vis la = vis lc -> seen a = true -> a ∈ la -> a ∈ lc.
Proof. intros H Ha X. apply in_vis; [exact Ha|]. rewrite <- H. apply in_vis; assumption. Qed.

Lemma under_way_same la lc c o : vis la = vis lc -> under_way la c o -> under_way lc c o.
Proof.
  intros H [A B]. split; [eapply in_same; [exact H|reflexivity|exact A]|]. intros r X. apply (B r). eapply in_same; [symmetry; exact H|reflexivity|exact X].
Qed.

Lemma apart_same canon la lc : vis la = vis lc -> apart canon lc -> apart canon la.
Proof.
  intros H A l1 l2 c path key c' h path' key' -> U1 U2 I Hc. rewrite vis_app in H. symmetry in H.
  destruct (vis_split _ _ _ H) as (m1 & m2 & -> & V1 & V2). symmetry in V1.
  destruct (A m1 m2 c path key c' h path' key' eq_refl) as (h2 & key2 & O1 & (v & O2) & O3); auto.
  - eapply under_way_same; eassumption.
  - eapply under_way_same; eassumption.
  - eapply in_same; [exact V1|reflexivity|exact I].
  - symmetry in V1. exists h2, key2. split_and!.
    + eapply in_same; [exact V1|reflexivity|exact O1].
    + exists v. eapply in_same; [exact V1|reflexivity|exact O2].
    + intros d X. apply (O3 d). eapply in_same; [symmetry; exact V1|reflexivity|exact X].
Qed.

Lemma linearizes_same la lc lin : vis la = vis lc -> linearizes la lin -> linearizes lc lin.
Proof.
  intros H [A1 A2 A3 A4]. split; auto.
  - intros c o r X. eapply in_same; [exact H|reflexivity|]. eapply A2, X.
  - intros c r X. apply (A3 c r). eapply in_same; [symmetry; exact H|reflexivity|exact X].
  - intros c r d o X. apply (A4 c r d o). apply vis_earlier; [reflexivity..|]. rewrite H. apply earlier_vis; [reflexivity..|exact X].
Qed.

(** ** What is known of Reg.v *)

Record fine (E : env) (s : reg) : Prop := {
  fi_lk : LK s;
  fi_hn : HN s;
  fi_poison : w_poison (r_world s) = false;
  fi_inst : forall i y, w_insts (r_world s) !! i = Some y -> i_io y = IoRun /\ i_sender y = true /\ i_poison y = false /\ i_valid y = true /\ i_join y = true /\ JRemove ∉ i_queue y;
  fi_one : forall i j x y, w_insts (r_world s) !! i = Some x -> w_insts (r_world s) !! j = Some y -> i_dir x = i_dir y -> i = j;
  fi_agree : forall c p h o hd y, r_ops s !! c = Some (p, OCall h o) -> p = QWant -> w_handles (r_world s) !! h = Some hd ->
    w_insts (r_world s) !! h_inst hd = Some y -> i_dir y = e_canon E (h_path hd) /\ h_unreg hd = false;
  fi_close : forall c h r p, r_ops s !! c = Some (p, OClose h) -> p = QRel r \/ p = QArc r \/ p = QJoin r -> r = ROk None
}.

Section Fine.
Context (E : env) (keyof : bytes -> bytes).
Notation canon := (e_canon E).

Lemma calm_insts es w rs : any_spelling E keyof (tidy es) -> P_Alias.calm canon ∅ es -> run E world0 es = Some (w, rs) ->
  forall i y, w_insts w !! i = Some y -> i_io y = IoRun /\ i_sender y = true /\ i_poison y = false /\ i_valid y = true /\ i_join y = true /\ JRemove ∉ i_queue y.
Proof.
  intros HA HC Hr. set (rep := first_spelling canon (paths es)).
  pose proof (norm_ordinary E keyof es HA) as HO. fold rep in HO.
  assert (Hc : forall p, canon (rep p) = canon p) by (intros p; apply first_canon).
  assert (Hd : forall p, In p (paths es) -> e_dir_ok E p = true /\ e_dir_ok E (rep p) = true).
  { assert (Hd : forall p, In p (paths es) -> e_dir_ok E p = true).
    { intros p Hp. rewrite <- paths_tidy in Hp. apply in_flat_map in Hp as (e & He & Hp). pose proof (as_calls _ _ _ HA) as B.
      rewrite List.Forall_forall in B. specialize (B e He). destruct e; cbn in Hp; try contradiction. destruct Hp as [<-|[]]. apply B. }
    intros p Hp. split; [apply Hd, Hp|apply Hd, first_in, Hp]. }
  destruct (gap_run E keyof (paths es) rep Hc Hd es (incl_refl _) HO HC w rs Hr) as (w' & Hr' & G).
  destruct (reach E keyof _ HO w' _ Hr') as (sp & Hsp & W). intros i y Hy.
  destruct (wi_insts _ _ _ _ _ _ _ W i y) as (_ & I & _); [rewrite (gap_insts _ _ _ _ _ G); exact Hy|].
  split_and!; [apply (io_run _ _ _ _ _ _ _ I)|apply (io_sender _ _ _ _ _ _ _ I)|apply (io_poison _ _ _ _ _ _ _ I)|apply (io_valid _ _ _ _ _ _ _ I)|apply (io_join _ _ _ _ _ _ _ I)|].
  destruct (io_state _ _ _ _ _ _ _ I) as (q & _ & _ & Eq & _). rewrite Eq. intros X. apply elem_of_list_In, in_map_iff in X as ([m b] & X & _). discriminate X.
Qed.

Lemma all_fine ls s : rexec E reg0 ls s -> ordinary E keyof (begun ls) -> apart canon ls -> fine E s.
Proof.
  intros X O A. destruct (Sim_exec E keyof ls s X O A) as (tr & rs & lin & S). pose proof S as [M1 M2 M3 M4 M5].
  destruct (Sim_fine E keyof ls s tr rs lin O S) as (F1 & _ & F3). destruct (R_exec E ls s X) as (L & HH & _ & _).
  pose proof (lin_any E keyof ls tr rs lin O (HistR_linearizes _ _ _ _ M4) M2) as HA.
  split; auto.
  - intros i y Hy. apply (calm_insts tr _ _ HA M3 M1 i y Hy).
  - apply (C60_one_store_per_directory E keyof ls s X O A).
  - intros c p h o hd y Hc -> Hh Hy. destruct (n_op _ HH _ _ _ Hc) as (hd' & Hh' & Hu). rewrite Hh in Hh'. injection Hh' as <-. split; [|exact Hu].
    eapply (da_handle _ _ F3 h hd y); [|exact Hy]. unfold ahead, adj. cbn. rewrite aH_lookup; [exact Hh|].
    intros Sb. unfold at_writer in Sb. destruct (r_writer s) as [d|]; [|exact Sb]. destruct (r_ops s !! d) as [[q od]|] eqn:Hd; [|exact Sb]. cbn in Sb.
    destruct q; try contradiction; destruct od; try contradiction; subst.
    + destruct (n_op _ HH _ _ _ Hd) as (Z & _). congruence.
    + eapply (n_excl _ HH); eassumption.
Qed.

End Fine.

(** ** The two worlds *)

(** The entry of a directory whose files have been removed (config.rs:55-57,
    mmkv_impl.rs:109-110). *)
Definition wiped (E : env) (W : world) (d : bytes) : dirst :=
  Dir None (if is_encrypted (e_feat E) then None else d_meta (dir_of W d)).

(** The world [w] of Full.v and the world [W] of Reg.v, apart from the open
    stores: they are the same, except that in the directories [rem], which
    are being cleared, the files are gone in [w] already. *)
Record wrel (E : env) (rem : gset bytes) (w W : world) : Prop := {
  v_dirs : forall d, w_dirs w !! d = if decide (d ∈ rem) then Some (wiped E W d) else w_dirs W !! d;
  v_inodes : w_inodes w = w_inodes W;
  v_ino : w_next_ino w = w_next_ino W;
  v_inst : w_next_inst w = w_next_inst W;
  v_handles : w_handles w = w_handles W;
  v_reg : w_reg w = w_reg W;
  v_poison : w_poison w = w_poison W;
  v_rng : w_rng w = w_rng W;
  v_seed : w_seed w = w_seed W
}.

Section Wrel.
Context (E : env).

Lemma wrel_refl w : wrel E ∅ w w.
Proof. split; reflexivity. Qed.

Lemma wrel_dir rem w W d : wrel E rem w W -> d ∉ rem -> dir_of w d = dir_of W d.
Proof. intros V H. unfold dir_of. rewrite (v_dirs _ _ _ _ V), decide_False by exact H. reflexivity. Qed.

(** Same changes on both sides. *)
Lemma wrel_insts rem w W a b : wrel E rem w W -> wrel E rem (set_insts w a) (set_insts W b).
Proof. intros [A1 A2 A3 A4 A5 A6 A7 A8 A9]. split; auto. Qed.
Lemma wrel_inst rem w W i a b : wrel E rem w W -> wrel E rem (set_inst w i a) (set_inst W i b).
Proof. apply wrel_insts. Qed.
Lemma wrel_inst_l rem w W i a : wrel E rem w W -> wrel E rem (set_inst w i a) W.
Proof. intros [A1 A2 A3 A4 A5 A6 A7 A8 A9]. split; auto. Qed.
Lemma wrel_inst_r rem w W i a : wrel E rem w W -> wrel E rem w (set_inst W i a).
Proof. intros [A1 A2 A3 A4 A5 A6 A7 A8 A9]. split; auto. Qed.
Lemma wrel_inode rem w W n b : wrel E rem w W -> wrel E rem (set_inode w n b) (set_inode W n b).
Proof. intros [A1 A2 A3 A4 A5 A6 A7 A8 A9]. split; auto. cbn. congruence. Qed.
Lemma wrel_seed rem w W n : wrel E rem w W -> wrel E rem (set_seed w n) (set_seed W n).
Proof. intros [A1 A2 A3 A4 A5 A6 A7 A8 A9]. split; auto. Qed.
Lemma wrel_handles rem w W m : wrel E rem w W -> wrel E rem (set_handles w m) (set_handles W m).
Proof. intros [A1 A2 A3 A4 A5 A6 A7 A8 A9]. split; auto. Qed.
Lemma wrel_reg rem w W m : wrel E rem w W -> wrel E rem (set_reg w m) (set_reg W m).
Proof. intros [A1 A2 A3 A4 A5 A6 A7 A8 A9]. split; auto. Qed.
Lemma wrel_poison rem w W : wrel E rem w W -> wrel E rem (set_poison w) (set_poison W).
Proof. intros [A1 A2 A3 A4 A5 A6 A7 A8 A9]. split; auto. Qed.

Lemma wrel_inode_at rem w W n : wrel E rem w W -> inode w n = inode W n.
Proof. intros V. unfold inode. rewrite (v_inodes _ _ _ _ V). reflexivity. Qed.

Lemma wrel_setdir rem w W d e ino nino rng :
  wrel E rem w W -> d ∉ rem -> 
  wrel E rem (World (<[d := e]> (w_dirs w)) ino nino (w_insts w) (w_next_inst w) (w_handles w) (w_reg w) (w_poison w) rng (w_seed w))
       (World (<[d := e]> (w_dirs W)) ino nino (w_insts W) (w_next_inst W) (w_handles W) (w_reg W) (w_poison W) rng (w_seed W)).
Proof.
  intros [A1 A2 A3 A4 A5 A6 A7 A8 A9] Hd. split; auto. cbn. intros d'. destruct (decide (d' = d)) as [->|Hne].
  - rewrite !lookup_insert, decide_False by exact Hd. reflexivity.
  - rewrite !lookup_insert_ne by congruence. rewrite A1. unfold wiped, dir_of. cbn. rewrite lookup_insert_ne by congruence. reflexivity.
Qed.

Lemma wrel_config rem w W d : wrel E rem w W -> d ∉ rem ->
  wrel E rem (open_config E w d).1 (open_config E W d).1 /\ (open_config E w d).2 = (open_config E W d).2.
Proof.
  intros V Hd. unfold open_config. rewrite (wrel_dir _ _ _ _ V Hd). destruct (d_data (dir_of W d)) as [n|]; cbn.
  - rewrite (wrel_inode_at _ _ _ n V). split; [|reflexivity]. apply wrel_inode, V.
  - split; [|apply V]. rewrite (v_ino _ _ _ _ V), (v_inodes _ _ _ _ V), (v_rng _ _ _ _ V). apply wrel_setdir; assumption.
Qed.

Lemma wrel_nonce rem w W d : wrel E rem w W -> d ∉ rem ->
  wrel E rem (open_nonce E w d).1 (open_nonce E W d).1 /\ (open_nonce E w d).2 = (open_nonce E W d).2.
Proof.
  intros V Hd. unfold open_nonce. rewrite (wrel_dir _ _ _ _ V Hd), (v_rng _ _ _ _ V). destruct (is_encrypted (e_feat E)); [|auto].
  destruct (init_nonce _ _) as [n m]. cbn. split; [|reflexivity].
  rewrite (v_ino _ _ _ _ V), (v_inodes _ _ _ _ V). apply wrel_setdir; assumption.
Qed.

(** Opening a directory that is not being cleared. *)
Lemma wrel_open rem w W p k : wrel E rem w W -> e_canon E p ∉ rem ->
  wrel E rem (open_impl E w p k).1 (open_impl E W p k).1 /\ (open_impl E w p k).2 = (open_impl E W p k).2.
Proof.
  intros V Hd. unfold open_impl. destruct (e_dir_ok E p); [|auto].
  destruct (wrel_config rem w W _ V Hd) as [V1 Hn].
  destruct (open_config E w _) as [w1 n], (open_config E W _) as [W1 n']. cbn in V1, Hn. subst n'.
  destruct (feature_key _ k) as [kk|]; [|auto].
  destruct (wrel_nonce rem w1 W1 _ V1 Hd) as [V2 Hn].
  destruct (open_nonce E w1 _) as [w2 nn], (open_nonce E W1 _) as [W2 nn']. cbn in V2, Hn. subst nn'.
  rewrite (v_seed _ _ _ _ V2), (wrel_inode_at _ _ _ n V2). destruct (open_file _ _ _ _) as [[s m]|]; auto.
Qed.

(** A background write. *)
Lemma wrel_write rem w W i x af m dup q w' ok : wrel E rem w W -> w_insts w !! i = Some x -> i_io x = IoRun ->
  w_insts W !! i = Some (i_glue x af (JWrite m dup :: q)) -> cexec E i (JWrite m dup) w = (w', ok) ->
  exists x', w_insts w' = <[i := x']> (w_insts w) /\ i_dir x' = i_dir x /\ (ok = true <-> i_io x' = IoRun) /\
    wrel E rem w' (run_job E W i) /\ w_insts (run_job E W i) = <[i := i_glue x' af q]> (w_insts W).
Proof.
  intros V Hx Hio HW. unfold cexec. rewrite Hx. unfold run_job. cbn [set_inst set_insts w_insts]. rewrite lookup_insert, HW.
  cbn [i_with_queue i_glue i_io i_queue]. rewrite Hio.
  change (i_codec E (i_glue x af (JWrite m dup :: q))) with (i_codec E x). change (i_codec E (i_with_queue x [JWrite m dup])) with (i_codec E x).
  change (i_st (set_inst w i (i_with_queue x [JWrite m dup])) (i_with_queue x [JWrite m dup])) with (i_st w x).
  assert (HS : i_st W (i_glue x af (JWrite m dup :: q)) = i_st w x).
  { unfold i_st. rewrite <- (v_seed _ _ _ _ V), <- (wrel_inode_at _ _ _ _ V). reflexivity. }
  cbn [i_glue] in HS |- *. fold (i_glue x af (JWrite m dup :: q)) in HS |- *. rewrite HS.
  destruct (write _ _ _ m dup) as [s b]. cbn [set_seed set_inode set_inst set_insts w_insts]. rewrite insert_insert, lookup_insert.
  intros [= <- <-]. eexists. split; [cbn; rewrite insert_insert; reflexivity|]. split_and!.
  - reflexivity.
  - cbn [i_after i_io]. destruct b; split; try reflexivity; discriminate.
  - apply wrel_seed, wrel_inode, wrel_inst, wrel_inst_l, V.
  - reflexivity.
Qed.

(** The removal of the files. *)
Lemma wrel_remove rem w W i x w' ok : wrel E rem w W -> w_insts w !! i = Some x -> i_io x = IoRun -> i_dir x ∉ rem -> cexec E i JRemove w = (w', ok) ->
  exists x', w_insts w' = <[i := x']> (w_insts w) /\ i_dir x' = i_dir x /\ ok = true /\ wrel E ({[i_dir x]} ∪ rem) w' W /\
    (forall af q, i_glue x' af q = i_glue x af q).
Proof.
  intros V Hx Hio Hd. unfold cexec. rewrite Hx. unfold run_job. cbn [set_inst set_insts w_insts]. rewrite lookup_insert.
  cbn [i_with_queue i_io i_queue]. rewrite Hio. cbn [set_dir set_inst set_insts w_insts]. rewrite insert_insert, lookup_insert. cbn [i_with_queue i_io]. rewrite Hio.
  intros [= <- <-]. eexists. split; [cbn; rewrite ?insert_insert; reflexivity|]. split_and!; [reflexivity|reflexivity| |intros; unfold i_glue; cbn; rewrite Hio; reflexivity].
  pose proof (wrel_dir _ _ _ _ V Hd) as Hdo.
  destruct V as [A1 A2 A3 A4 A5 A6 A7 A8 A9]. split; auto. intros d. cbn. destruct (decide (d = i_dir x)) as [->|Hne].
  - rewrite lookup_insert, decide_True by set_solver. unfold wiped. unfold dir_of in *. cbn in *. rewrite Hdo. reflexivity.
  - rewrite lookup_insert_ne by congruence. rewrite A1. destruct (decide (d ∈ rem)).
    + rewrite decide_True by set_solver. reflexivity.
    + rewrite decide_False by set_solver. reflexivity.
Qed.

(** clear_data in [W] when the files are gone in [w] already. *)
Lemma wrel_clear rem w W i x af h hd : wrel E rem w W -> w_insts W !! i = Some (i_glue x af []) -> i_io x = IoRun -> i_sender x = true ->
  f_poison af = false -> f_valid af = true -> i_dir x ∈ rem -> w_handles W !! h = Some hd -> h_unreg hd = false -> h_inst hd = i -> e_canon E (h_path hd) = i_dir x ->
  exists W' r, step E W (EClear h) = Some (W', r) /\
    match (open_impl E w (h_path hd) (h_key hd)).2 with
    | Some z => r = ROk None /\ w_insts W' = <[i := z]> (w_insts W) /\ wrel E (rem ∖ {[i_dir x]}) (open_impl E w (h_path hd) (h_key hd)).1 W'
    | None => r = RPanic
    end.
Proof.
  intros V HW Hio Hs Hp Hv Hd Hh Hu Hi Hc.
  set (t := set_dir W (i_dir x) (wiped E W (i_dir x))).
  assert (Same : W = set_inst W i (i_glue x af [])).
  { symmetry. apply set_inst_same. exact HW. }
  destruct (clear_glue E i W x af [] h hd 1 t x [] Hh Hu Hi Hs Hio Hp Hv) as (W' & r & St & _ & Run).
  { match goal with |- Nat.iter 1 _ ?a = _ => change (run_job E a i = set_inst t i (i_glue x (Front ∅ false (f_poison af)) [])) end. cbn [app]. unfold run_job. cbn [set_inst set_insts w_insts]. rewrite lookup_insert. cbn [i_glue i_io i_queue]. rewrite Hio.
    unfold t, set_dir, set_inst, set_insts. cbn. rewrite insert_insert. unfold i_glue. cbn. rewrite Hio. reflexivity. }
  { reflexivity. }
  rewrite <- Same in St. exists W', r. split; [exact St|]. specialize (Run Hio eq_refl).
  assert (V' : wrel E (rem ∖ {[i_dir x]}) w t).
  { destruct V as [A1 A2 A3 A4 A5 A6 A7 A8 A9]. split; auto. intros d. cbn. rewrite A1. destruct (decide (d = i_dir x)) as [->|Hne].
    - rewrite lookup_insert, decide_True by exact Hd. rewrite decide_False by set_solver. reflexivity.
    - rewrite lookup_insert_ne by congruence. unfold wiped, dir_of. cbn. rewrite lookup_insert_ne by congruence.
      destruct (decide (d ∈ rem)); [rewrite decide_True by set_solver|rewrite decide_False by set_solver]; reflexivity. }
  destruct (wrel_open _ _ _ (h_path hd) (h_key hd) V') as [V2 Ho]; [rewrite Hc; set_solver|].
  destruct (open_impl E t _ _) as [t1 o] eqn:Et. cbn in V2, Ho. rewrite Ho. destruct o as [z|]; [|exact Run].
  destruct Run as [-> ->]. split; [reflexivity|]. destruct (open_impl_sub E _ _ _ _ _ Et) as (O1 & _). split; [cbn; rewrite O1; reflexivity|].
  apply wrel_inst_r, V2.
Qed.

End Wrel.

(** ** One store *)

Definition jobs_of (st : conc) : list job := map snd (l_buf (c_loop st) ++ l_queue (c_loop st)).

(** The machine [st] of a store, its entry [x] in the world of Full.v, its
    entry [y] in the world of Reg.v, and whether its files are gone while
    clear_data is under way. *)
Inductive SR (st : conc) (x y : inst) (g : bool) : Prop :=
| sr_calm af : g = false -> calm st -> front_rel st af -> l_x (c_loop st) <> XDead -> y = i_glue x af (jobs_of st) -> SR st x y g
| sr_late c p h af pend : c_calls st !! c = Some (p, (h, CClear)) -> phase (c_loop st) p -> c_front st = cleared af -> l_x (c_loop st) <> XDead ->
    y = i_glue x af pend -> (g = false /\ jobs_of st = pend ++ [JRemove] \/ g = true /\ jobs_of st = [] /\ pend = []) -> SR st x y g
| sr_gone : g = false -> c_calls st = ∅ -> l_k (c_loop st) = KJoin -> l_x (c_loop st) <> XDead -> y = i_glue x (c_front st) (jobs_of st) -> SR st x y g.

Definition ok_inst (y : inst) : Prop :=
  i_io y = IoRun /\ i_sender y = true /\ i_poison y = false /\ i_valid y = true /\ i_join y = true /\ JRemove ∉ i_queue y.

(** What a step of a store amounts to. *)
Inductive outcome (E : env) (i : N) (st : conc) (w : world) (x y : inst) (g : bool) (a : clabel) (st' : conc) : Prop :=
| oc_quiet : l_cb (c_loop st') = w -> SR st' x y g ->
    match a with
    | HTau => forall d, status st' d = status st d
    | HInv c h o => forall d, status st' d = if decide (d = c) then Some ((h, o), None) else status st d
    | HRet c r => (exists ho, status st c = Some (ho, Some r)) /\ forall d, status st' d = if decide (d = c) then None else status st d
    end -> outcome E i st w x y g a st'
| oc_lin c h o af pend : a = HTau -> o <> CClear -> l_cb (c_loop st') = w -> y = i_glue x af pend -> status st c = Some ((h, o), None) ->
    SR st' x (i_glue x (body af o).1 (match (body af o).2 with NPost j => pend ++ [j] | _ => pend end)) g ->
    (forall d, status st' d = if decide (d = c) then Some ((h, o), Some (match (body af o).2 with NRet r => r | _ => ROk None end)) else status st d) ->
    outcome E i st w x y g a st'
| oc_write m dup af q ok : a = HTau -> y = i_glue x af (JWrite m dup :: q) -> cexec E i (JWrite m dup) w = (l_cb (c_loop st'), ok) ->
    (ok = true -> forall x', SR st' x' (i_glue x' af q) g) -> (forall d, status st' d = status st d) -> outcome E i st w x y g a st'
| oc_remove af ok : a = HTau -> y = i_glue x af [] -> g = false -> cexec E i JRemove w = (l_cb (c_loop st'), ok) ->
    (ok = true -> forall x', SR st' x' (i_glue x' af []) true) -> (forall d, status st' d = status st d) -> outcome E i st w x y g a st'
| oc_clear c h hd af w1 oz : a = HTau -> y = i_glue x af [] -> g = true -> w_handles w !! h = Some hd -> open_impl E w (h_path hd) (h_key hd) = (w1, oz) ->
    status st c = Some ((h, CClear), None) ->
    (forall z, oz = Some z -> l_cb (c_loop st') = set_inst w1 i z /\ SR st' z z false /\
       forall d, status st' d = if decide (d = c) then Some ((h, CClear), Some (ROk None)) else status st d) ->
    outcome E i st w x y g a st'.

Section Local.
Context (E : env) (i : N).

Lemma SR_glue st x y g : SR st x y g -> exists af q, y = i_glue x af q.
Proof. intros [af _ _ _ _ H|c p h af pend _ _ _ _ H _|_ _ _ _ H]; eauto. Qed.

(** A silent step of a calm store. *)
Lemma quiet_calm st st' x y g af w : l_cb (c_loop st') = w -> g = false -> y = i_glue x af (jobs_of st) -> jobs_of st' = jobs_of st ->
  l_x (c_loop st') <> XDead -> (forall c, status st' c = status st c) -> front_rel st' af -> calm st' -> outcome E i st w x y g HTau st'.
Proof. intros H1 H2 H3 H4 H5 H6 H7 H8. apply oc_quiet; auto. eapply sr_calm; eauto. congruence. Qed.

Lemma calm_step st a st' x y g af : LInv st -> ok_inst y -> g = false -> calm st -> front_rel st af -> l_x (c_loop st) <> XDead ->
  y = i_glue x af (jobs_of st) -> cstep E i st a st' -> outcome E i st (l_cb (c_loop st)) x y g a st'.
Proof.
  intros L Ok -> Ca Fr Al Ey X.
  assert (Fp : f_poison af = false) by (rewrite Ey in Ok; apply Ok). assert (Fv : f_valid af = true) by (rewrite Ey in Ok; apply Ok).
  assert (Nr : JRemove ∉ jobs_of st) by (rewrite Ey in Ok; apply Ok).
  destruct X as [s h o|s c h o Hc He Hw|s c h o Hc He Hw Hr|s c h o f r Hc Hb|s c h o f j Hc Hb|s c h o f Hc Hb|s c h o j l Hc Hp|s l Hp|s c h o lc ok l Hc Hp
    |s c h o l Hc Hk Hch|s c h o l Hc Hk|s c h o ok l Hc Hk|s c h o hd w y' Hc Hh Ho Hk|s c h o hd w y' Hc Hh Ho Hk Ha|s c h o hd w Hc Hh Ho|s a l Hx|s c h o r Hc|s c h o r Hc].
  - (* call *)
    apply oc_quiet; [reflexivity| |].
    + eapply sr_calm; eauto.
      * eapply calm_call; [exact Ca|reflexivity..|exact Logic.I].
      * destruct Fr as [(d & p' & h' & o' & j & X1 & X2 & X3)|[X1 X2]].
        -- left. exists d, p', h', o', j. cbn. rewrite lookup_insert_ne; auto. apply (k_next _ L) in X1. lia.
        -- right. cbn. split; [|exact X2]. intros d p' ho' X. destruct (decide (d = c_next s)) as [->|Hne].
           ++ rewrite lookup_insert in X. injection X as <- _. reflexivity.
           ++ rewrite lookup_insert_ne in X by congruence. eauto.
    + intros d. unfold status. cbn. destruct (decide (d = c_next s)) as [->|Hne]; [rewrite lookup_insert; reflexivity|].
      rewrite lookup_insert_ne by congruence. reflexivity.
  - (* read lock *)
    eapply quiet_calm; eauto.
    + eapply status_call_same; [exact Hc|reflexivity..].
    + eapply front_call_same; [exact Hc|reflexivity..|exact Fr].
    + eapply calm_call; [exact Ca|reflexivity..|exact Logic.I].
  - (* write lock *)
    eapply quiet_calm; eauto.
    + eapply status_call_same; [exact Hc|reflexivity..].
    + eapply front_call_same; [exact Hc|reflexivity..|exact Fr].
    + eapply calm_call; [exact Ca|reflexivity..|exact Logic.I].
  - (* body with a result *)
    destruct (front_alone s af c AHeld h o L Fr Hc eq_refl eq_refl) as [-> Al'].
    eapply (oc_lin _ _ _ _ _ _ _ _ _ c h o (c_front s) (jobs_of s)); auto; rewrite ?Hb; cbn [fst snd].
    + intros ->. unfold body in Hb. rewrite Fp, Fv in Hb. discriminate Hb.
    + unfold status. rewrite Hc. reflexivity.
    + eapply sr_calm; eauto; [|]; [eapply calm_call; [exact Ca|reflexivity..|exact Logic.I]|].
      right. cbn. split; [|reflexivity]. intros d p' ho' X. destruct (decide (d = c)) as [->|Hne].
      * rewrite lookup_insert in X. injection X as <- _. reflexivity.
      * rewrite lookup_insert_ne in X by congruence. eauto.
    + intros d. erewrite status_call; [|exact Hc|reflexivity..]. reflexivity.
  - (* body with a job *)
    destruct (front_alone s af c AHeld h o L Fr Hc eq_refl eq_refl) as [-> Al'].
    eapply quiet_calm; eauto.
    + eapply status_call_same; [exact Hc|reflexivity..].
    + left. exists c, (APost j), h, o, j. cbn. rewrite lookup_insert. auto.
    + eapply calm_call; [exact Ca|reflexivity..|exact Logic.I].
  - (* body, reopening: the store is valid *)
    exfalso. destruct (front_alone s af c AHeld h o L Fr Hc eq_refl eq_refl) as [-> Al'].
    unfold body in Hb. rewrite Fp, Fv in Hb. destruct o; [destruct (buffer_new _ _)|..|]; try discriminate Hb. destruct (f_map _ !! _); discriminate Hb.
  - (* post is entered *)
    apply pstep_call in Hp as (P1 & P2 & P3 & P4 & P5 & P6).
    eapply quiet_calm; eauto; cbn; try congruence.
    + unfold jobs_of. cbn. congruence.
    + intros d. unfold status. cbn. rewrite P1. destruct (decide (d = c)) as [->|Hne].
      * rewrite lookup_insert, Hc. cbn. rewrite lookup_insert. destruct o; reflexivity.
      * rewrite lookup_insert_ne by congruence. destruct (c_calls s !! d) as [[p' [h' o']]|] eqn:Hd; [|reflexivity]. do 2 f_equal.
        destruct p'; try reflexivity. cbn. destruct (k_wait _ L _ _ _ _ Hd) as [z Y]. rewrite lookup_insert_ne; [reflexivity|].
        apply (s_next _ (k_loop _ L)) in Y. lia.
    + left. exists c, (AWait (l_next (c_loop s))), h, o, j. cbn. rewrite lookup_insert, P1, lookup_insert. split_and!; auto.
      destruct Fr as [(d & p' & h' & o' & j' & X1 & X2 & X3)|[X1 X2]].
      * pose proof (behind_writer _ _ _ _ _ _ L X1 X2) as W1. pose proof (behind_writer _ _ _ _ _ _ L Hc eq_refl) as W2.
        assert (d = c) as -> by congruence. rewrite Hc in X1. injection X1 as <- <- <-. cbn in X2. injection X2 as <-. exact X3.
      * specialize (X1 _ _ _ Hc). discriminate X1.
    + destruct Ca as [K A]. split; [cbn; congruence|]. intros d p' h' o' Y. cbn in Y |- *. rewrite P1.
      destruct (decide (d = c)) as [->|Hne].
      * rewrite lookup_insert in Y. injection Y as <- <- <-. cbn. intros _ q' j'. rewrite lookup_insert. intros [= <- _]. reflexivity.
      * rewrite lookup_insert_ne in Y by congruence. pose proof (A _ _ _ _ Y) as B. destruct p'; try exact B. cbn in B |- *.
        intros Ho q' j'. destruct (k_wait _ L _ _ _ _ Y) as [z Z]. rewrite lookup_insert_ne; [eauto|]. apply (s_next _ (k_loop _ L)) in Z. lia.
  - (* inside post *)
    apply pstep_tau in Hp as (P1 & P2 & P3 & P4 & lc & p & q & j & P5 & P6 & P7).
    destruct (k_post _ L _ _ P5) as (c & h & o & Hc).
    assert (Hst : forall d, status (set_loop s l) d = if decide (d = c) then Some ((h, o), linres (l_posts l) o (AWait lc)) else status s d).
    { intros d. unfold status. cbn. destruct (decide (d = c)) as [->|Hne]; [rewrite Hc; reflexivity|].
      destruct (c_calls s !! d) as [[p' [h' o']]|] eqn:Hd; [|reflexivity]. do 2 f_equal. destruct p' as [| | |lc'| | | | |]; try reflexivity. cbn. rewrite P6.
      rewrite lookup_insert_ne; [reflexivity|]. intros <-. apply Hne.
      pose proof (k_own _ L _ _ _ _ Hd eq_refl) as W. rewrite (k_posting _ L _ _ _ _ Hd eq_refl) in W.
      pose proof (k_own _ L _ _ _ _ Hc eq_refl) as W'. rewrite (k_posting _ L _ _ _ _ Hc eq_refl) in W'. congruence. }
    assert (Hoth : forall d p' ho', c_calls s !! d = Some (p', ho') -> d <> c -> behind (l_posts l) p' = None /\ behind (l_posts (c_loop s)) p' = None).
    { intros d p' [h' o'] Hd Hne. assert (posting p' = false) as Hpp.
      { destruct (posting p') eqn:Hpp; [|reflexivity]. exfalso. apply Hne.
        pose proof (k_own _ L _ _ _ _ Hd) as W. rewrite (k_posting _ L _ _ _ _ Hd Hpp) in W. specialize (W ltac:(destruct p'; try discriminate Hpp; reflexivity)).
        pose proof (k_own _ L _ _ _ _ Hc eq_refl) as W'. rewrite (k_posting _ L _ _ _ _ Hc eq_refl) in W'. congruence. }
      destruct p'; try discriminate Hpp; auto. }
    assert (Hbeh : forall j', behind (l_posts (c_loop s)) (AWait lc) = Some j' -> body af o = (c_front s, NPost j')).
    { intros j' Hj. destruct Fr as [(d & p' & h' & o' & j2 & X1 & X2 & X3)|[X1 X2]].
      - pose proof (behind_writer _ _ _ _ _ _ L X1 X2) as W1. pose proof (behind_writer _ _ _ _ _ _ L Hc Hj) as W2.
        assert (d = c) as -> by congruence. rewrite Hc in X1. injection X1 as <- <- <-. congruence.
      - specialize (X1 _ _ _ Hc). congruence. }
    assert (Hcalm : (o = CClear -> pushed q = false) -> calm (set_loop s l)).
    { intros Hq. destruct Ca as [K A]. split; [cbn; congruence|]. intros d p' h' o' Y. cbn in Y |- *.
      pose proof (A _ _ _ _ Y) as B. destruct p' as [| | |lc'| | | | |]; try exact B. cbn in B |- *. intros Ho q' j'. rewrite P6.
      destruct (decide (lc' = lc)) as [->|Hne]; [|rewrite lookup_insert_ne by congruence; eauto].
      rewrite lookup_insert. intros [= <- _]. apply Hq.
      pose proof (k_own _ L _ _ _ _ Y eq_refl) as W. rewrite (k_posting _ L _ _ _ _ Y eq_refl) in W.
      pose proof (k_own _ L _ _ _ _ Hc eq_refl) as W'. rewrite (k_posting _ L _ _ _ _ Hc eq_refl) in W'.
      assert (d = c) as -> by congruence. rewrite Hc in Y. injection Y as <- <-. exact Ho. }
    destruct P7 as [(-> & -> & P7)|[(-> & -> & P7)|(-> & -> & P7)]].
    + eapply quiet_calm; eauto; cbn; try congruence.
      * unfold jobs_of. cbn. congruence.
      * intros d. rewrite Hst. destruct (decide (d = c)) as [->|]; [|reflexivity]. unfold status. rewrite Hc. cbn. rewrite P6, P5, lookup_insert. destruct o; reflexivity.
      * left. exists c, (AWait lc), h, o, j. cbn. rewrite P6, lookup_insert. split_and!; auto. apply Hbeh. cbn. rewrite P5. reflexivity.
    + assert (Hbody : body af o = (c_front s, NPost j)) by (apply Hbeh; cbn; rewrite P5; reflexivity).
      assert (o = CClear \/ o <> CClear) as [->|Hnc] by (destruct o; [right; discriminate..|left; reflexivity]).
      { (* the job of clear_data is queued *)
        unfold body in Hbody. rewrite Fp, Fv in Hbody. injection Hbody as Hf <-.
        apply oc_quiet; [exact P3| |].
        - eapply (sr_late _ _ _ _ c (AWait lc) h af (jobs_of s)); [exact Hc| |unfold cleared; cbn; congruence|cbn; congruence|exact Ey|].
          + cbn. rewrite P6, lookup_insert. split; [exists PRel, JRemove; auto|]. rewrite P1. apply Ca.
          + left. split; [reflexivity|]. unfold jobs_of. cbn. rewrite P4, P7, app_assoc, map_app. reflexivity.
        - intros d. rewrite Hst. destruct (decide (d = c)) as [->|]; [|reflexivity]. unfold status. rewrite Hc. reflexivity. }
      eapply (oc_lin _ _ _ _ _ _ _ _ _ c h o af (jobs_of s)); auto; rewrite ?Hbody; cbn [fst snd].
      * unfold status. rewrite Hc. cbn. rewrite P5. destruct o; reflexivity.
      * eapply sr_calm; [reflexivity| | |cbn; congruence|].
        -- apply Hcalm. intros ->. contradiction.
        -- right. cbn. split; [|reflexivity]. intros d p' ho' X. destruct (decide (d = c)) as [->|Hne].
           ++ rewrite Hc in X. injection X as <- _. cbn. rewrite P6, lookup_insert. reflexivity.
           ++ apply (Hoth d p' ho' X Hne).
        -- unfold jobs_of. cbn. rewrite P7, P4, app_assoc, (map_app snd _ [_]). reflexivity.
      * intros d. rewrite Hst. cbn. rewrite P6, lookup_insert. destruct o; [reflexivity..|contradiction].
    + eapply (quiet_calm _ _ _ _ _ af); eauto; cbn; try congruence.
      * unfold jobs_of. cbn. congruence.
      * intros d. rewrite Hst. destruct (decide (d = c)) as [->|]; [|reflexivity]. unfold status. rewrite Hc. cbn. rewrite P6, P5, lookup_insert. destruct o; reflexivity.
      * destruct (front_alone s af c (AWait lc) h o L Fr Hc eq_refl) as [-> Al']; [cbn; rewrite P5; reflexivity|].
        right. cbn. split; [|reflexivity]. intros d p' ho' X. destruct (decide (d = c)) as [->|Hne].
        -- rewrite Hc in X. injection X as <- _. cbn. rewrite P6, lookup_insert. reflexivity.
        -- apply (Hoth d p' ho' X Hne).
      * apply Hcalm. intros ->. destruct Ca as [K A]. specialize (A _ _ _ _ Hc eq_refl _ _ P5). discriminate A.
  - (* post returns *)
    apply pstep_ret in Hp as (j & P1 & P2 & P3 & P4 & P5 & P6 & P7 & P8).
    assert (ok = true) as ->.
    { destruct ok; [reflexivity|]. exfalso. pose proof (k_loop _ L) as SI. destruct (s_open _ SI (proj1 Ca)) as [Os _].
      destruct (P8 eq_refl) as [P|P]; [congruence|]. destruct (l_x (c_loop s)) eqn:Ex; try discriminate P.
      - apply (s_done _ SI Ex). apply Ca.
      - apply Al. reflexivity. }
    assert (Hnc : o <> CClear).
    { intros ->. destruct Ca as [K A]. specialize (A _ _ _ _ Hc eq_refl _ _ P1). discriminate A. }
    assert (Ho : match o with CClear => AQuit | _ => ARet (ROk None) end = ARet (ROk None)) by (destruct o; [reflexivity..|contradiction]).
    rewrite Ho. clear Ho.
    assert (Hone : forall d p' h' o', c_calls s !! d = Some (p', (h', o')) -> d <> c -> posting p' = false).
    { intros d p' h' o' Hd Hne. destruct (posting p') eqn:Hpp; [|reflexivity]. exfalso. apply Hne.
      pose proof (k_own _ L _ _ _ _ Hd) as W. rewrite (k_posting _ L _ _ _ _ Hd Hpp) in W. specialize (W ltac:(destruct p'; try discriminate Hpp; reflexivity)).
      pose proof (k_own _ L _ _ _ _ Hc eq_refl) as W'. rewrite (k_posting _ L _ _ _ _ Hc eq_refl) in W'. congruence. }
    eapply (quiet_calm _ _ _ _ _ af); eauto; cbn; try congruence.
    + unfold jobs_of. cbn. congruence.
    + intros d. unfold status. cbn. destruct (decide (d = c)) as [->|Hne].
      * rewrite lookup_insert, Hc. cbn. rewrite P1. destruct o; [reflexivity..|contradiction].
      * rewrite lookup_insert_ne by congruence. destruct (c_calls s !! d) as [[p' [h' o']]|] eqn:Hd; [|reflexivity]. do 2 f_equal.
        specialize (Hone _ _ _ _ Hd Hne). destruct p'; try discriminate Hone; reflexivity.
    + destruct (front_alone s af c (AWait lc) h o L Fr Hc eq_refl) as [-> Al']; [cbn; rewrite P1; reflexivity|].
      right. cbn. split; [|reflexivity]. intros d p' [h' o'] X. destruct (decide (d = c)) as [->|Hne].
      * rewrite lookup_insert in X. injection X as <- _ _. reflexivity.
      * rewrite lookup_insert_ne in X by congruence. specialize (Hone _ _ _ _ X Hne). destruct p'; try discriminate Hone; reflexivity.
    + destruct Ca as [K A]. split; [cbn; congruence|]. intros d p' h' o' Y. cbn in Y |- *. destruct (decide (d = c)) as [->|Hne].
      * rewrite lookup_insert in Y. injection Y as <- <- <-. exact Logic.I.
      * rewrite lookup_insert_ne in Y by congruence. pose proof (A _ _ _ _ Y) as B. specialize (Hone _ _ _ _ Y Hne). destruct p'; try discriminate Hone; exact B.
  - exfalso. apply (proj2 Ca) in Hc. exact Hc.
  - exfalso. apply (proj2 Ca) in Hc. exact Hc.
  - exfalso. apply (proj2 Ca) in Hc. exact Hc.
  - exfalso. apply (proj2 Ca) in Hc. exact Hc.
  - exfalso. apply (proj2 Ca) in Hc. exact Hc.
  - exfalso. apply (proj2 Ca) in Hc. exact Hc.
  - (* background *)
    destruct (xstep_k _ _ _ _ Hx) as [_ Hposts].
    pose proof (s_buf _ (k_loop _ L)) as SB.
    inversion Hx as [? ch Y1 Y2|? ch Y1 Y2|? Y1 Y2 Y3|? Y1 Y2|? Y1|? Y1|? c j b t Y1 Y2 Y3|? c j b t Y1 Y2 Y3|? Y1 Y2]; subst; rewrite Y1 in SB.
    1-6, 9: (eapply quiet_calm; [reflexivity|reflexivity|reflexivity|unfold jobs_of; first [reflexivity|cbn; rewrite SB, app_nil_r; reflexivity]|cbn; discriminate|apply status_loop; reflexivity
      |eapply front_loop; [..|exact Fr]; reflexivity|eapply calm_loop; [exact Ca|reflexivity..]]).
    + (* a job *)
      unfold jobs_of in Nr |- *. rewrite Y2 in Nr |- *. cbn [app map snd] in Nr |- *. destruct j as [m dup|]; [|exfalso; apply Nr; left].
      eapply oc_write; [reflexivity|reflexivity|exact Y3| |apply status_loop; reflexivity].
      intros _ x'. eapply sr_calm; [reflexivity|eapply calm_loop; [exact Ca|reflexivity..]|eapply front_loop; [..|exact Fr]; reflexivity|cbn; congruence|reflexivity].
    + unfold jobs_of in Nr |- *. rewrite Y2 in Nr |- *. cbn [app map snd] in Nr |- *. destruct j as [m dup|]; [|exfalso; apply Nr; left].
      eapply oc_write; [reflexivity|reflexivity|exact Y3|discriminate|apply status_loop; reflexivity].
  - (* release *)
    eapply quiet_calm; eauto.
    + eapply status_call_same; [exact Hc|reflexivity..].
    + eapply front_call_same; [exact Hc|reflexivity..|exact Fr].
    + eapply calm_call; [exact Ca|reflexivity..|exact Logic.I].
  - (* return *)
    apply oc_quiet; [reflexivity| |].
    + eapply sr_calm; eauto.
      * destruct Ca as [K A]. split; [exact K|]. intros d p' h' o' Y. cbn in Y |- *. apply lookup_delete_Some in Y as [_ Y]. eauto.
      * destruct Fr as [(d & p' & h' & o' & j & X1 & X2 & X3)|[X1 X2]].
        -- left. exists d, p', h', o', j. cbn. rewrite lookup_delete_ne; auto. intros <-. rewrite Hc in X1. injection X1 as <- _ _. discriminate X2.
        -- right. cbn. split; [|exact X2]. intros d p' ho' X. apply lookup_delete_Some in X as [_ X]. eauto.
    + split; [exists (h, o); unfold status; rewrite Hc; reflexivity|].
      intros d. unfold status. cbn. destruct (decide (d = c)) as [->|Hne]; [rewrite lookup_delete; reflexivity|].
      rewrite lookup_delete_ne by congruence. reflexivity.
Qed.

(** While a clear is in its late phase every other call waits for the lock or
    has released it. *)
Lemma late_others st c p h d p' h' o' : LInv st -> c_calls st !! c = Some (p, (h, CClear)) -> phase (c_loop st) p ->
  c_calls st !! d = Some (p', (h', o')) -> d <> c -> owns p' = false.
Proof.
  intros L Hc Hp Hd Hne. assert (Ho : owns p = true) by (destruct p; try contradiction; reflexivity).
  pose proof (k_own _ L _ _ _ _ Hc Ho) as W. cbn in W.
  destruct (owns p') eqn:O'; [|reflexivity]. exfalso. pose proof (k_own _ L _ _ _ _ Hd O') as W'. destruct (exclusive o'); [congruence|].
  rewrite (P_Conc.k_wr _ L) in W; [discriminate W|]. set_solver.
Qed.

Lemma late_step st a st' x y g c0 p0 h0 af pend : LInv st -> ok_inst y -> c_calls st !! c0 = Some (p0, (h0, CClear)) -> phase (c_loop st) p0 ->
  c_front st = cleared af -> l_x (c_loop st) <> XDead -> y = i_glue x af pend ->
  (g = false /\ jobs_of st = pend ++ [JRemove] \/ g = true /\ jobs_of st = [] /\ pend = []) ->
  cstep E i st a st' -> outcome E i st (l_cb (c_loop st)) x y g a st'.
Proof.
  intros L Ok Hc0 Ph Fr Al Ey Jo X.
  assert (Nr : JRemove ∉ pend) by (rewrite Ey in Ok; apply Ok).
  pose proof (fun d p' h' o' => late_others st c0 p0 h0 d p' h' o' L Hc0 Ph) as Oth.
  assert (Own : owns p0 = true) by (destruct p0; try contradiction; reflexivity).
  pose proof (k_own _ L _ _ _ _ Hc0 Own) as Wr. cbn in Wr.
  (* silent steps *)
  assert (Quiet : forall s', l_cb (c_loop s') = l_cb (c_loop st) -> jobs_of s' = jobs_of st -> c_front s' = c_front st -> l_x (c_loop s') <> XDead ->
    (forall d, status s' d = status st d) -> (exists p, c_calls s' !! c0 = Some (p, (h0, CClear)) /\ phase (c_loop s') p) ->
    outcome E i st (l_cb (c_loop st)) x y g HTau s').
  { intros s' B1 B2 B3 B4 B5 (p & B6 & B7). apply oc_quiet; auto. eapply (sr_late _ _ _ _ c0 p h0 af pend); auto; [congruence|]. rewrite B2. exact Jo. }
  destruct X as [s h o|s c h o Hc He Hw|s c h o Hc He Hw Hr|s c h o f r Hc Hb|s c h o f j Hc Hb|s c h o f Hc Hb|s c h o j l Hc Hp|s l Hp|s c h o lc ok l Hc Hp
    |s c h o l Hc Hk Hch|s c h o l Hc Hk|s c h o ok l Hc Hk|s c h o hd w y' Hc Hh Ho Hk|s c h o hd w y' Hc Hh Ho Hk Ha|s c h o hd w Hc Hh Ho|s a l Hx|s c h o r Hc|s c h o r Hc].
  - (* call *)
    apply oc_quiet; [reflexivity| |].
    + eapply (sr_late _ _ _ _ c0 p0 h0 af pend); eauto. cbn. rewrite lookup_insert_ne; [exact Hc0|]. apply (k_next _ L) in Hc0. lia.
    + intros d. unfold status. cbn. destruct (decide (d = c_next s)) as [->|Hne]; [rewrite lookup_insert; reflexivity|].
      rewrite lookup_insert_ne by congruence. reflexivity.
  - exfalso. congruence.
  - exfalso. congruence.
  - exfalso. destruct (decide (c = c0)) as [->|Hne]; [|discriminate (Oth _ _ _ _ Hc Hne)]. rewrite Hc in Hc0. injection Hc0 as <- _ _. exact Ph.
  - exfalso. destruct (decide (c = c0)) as [->|Hne]; [|discriminate (Oth _ _ _ _ Hc Hne)]. rewrite Hc in Hc0. injection Hc0 as <- _ _. exact Ph.
  - exfalso. destruct (decide (c = c0)) as [->|Hne]; [|discriminate (Oth _ _ _ _ Hc Hne)]. rewrite Hc in Hc0. injection Hc0 as <- _ _. exact Ph.
  - exfalso. destruct (decide (c = c0)) as [->|Hne]; [|discriminate (Oth _ _ _ _ Hc Hne)]. rewrite Hc in Hc0. injection Hc0 as <- _ _. exact Ph.
  - (* inside post *)
    apply pstep_tau in Hp as (P1 & P2 & P3 & P4 & lc & p & q & j & P5 & P6 & P7).
    destruct (k_post _ L _ _ P5) as (c & h & o & Hc).
    destruct (decide (c = c0)) as [->|Hne]; [|discriminate (Oth _ _ _ _ Hc Hne)].
    rewrite Hc in Hc0. injection Hc0 as <- -> ->. destruct Ph as [(q' & j' & Hq & Hpu) K]. rewrite P5 in Hq. injection Hq as -> ->.
    destruct P7 as [(-> & -> & P7)|[(-> & -> & P7)|(-> & -> & P7)]]; try discriminate Hpu.
    apply Quiet; cbn; try congruence.
    + unfold jobs_of. cbn. congruence.
    + intros d. unfold status. cbn. destruct (c_calls s !! d) as [[p' [h' o']]|] eqn:Hd; [|reflexivity]. do 2 f_equal. cbn [snd].
      destruct (decide (d = c0)) as [->|Hne].
      * rewrite Hc in Hd. injection Hd as <- <- <-. reflexivity.
      * specialize (Oth _ _ _ _ Hd Hne). destruct p'; try discriminate Oth; reflexivity.
    + exists (AWait lc). split; [exact Hc|]. cbn. rewrite P6, lookup_insert. split; [exists PSend, j'; auto|congruence].
  - (* post returns *)
    apply pstep_ret in Hp as (j & P1 & P2 & P3 & P4 & P5 & P6 & P7 & P8).
    destruct (decide (c = c0)) as [->|Hne]; [|discriminate (Oth _ _ _ _ Hc Hne)].
    rewrite Hc in Hc0. injection Hc0 as <- -> ->. destruct Ph as [_ K].
    assert (ok = true) as ->.
    { destruct ok; [reflexivity|]. exfalso. pose proof (k_loop _ L) as SI. destruct (s_open _ SI K) as [Os _].
      destruct (P8 eq_refl) as [P|P]; [congruence|]. destruct (l_x (c_loop s)) eqn:Ex; try discriminate P.
      - apply (s_done _ SI Ex). exact K.
      - apply Al. reflexivity. }
    apply Quiet; cbn; try congruence.
    + unfold jobs_of. cbn. congruence.
    + intros d. unfold status. cbn. destruct (decide (d = c0)) as [->|Hne].
      * rewrite lookup_insert, Hc. reflexivity.
      * rewrite lookup_insert_ne by congruence. destruct (c_calls s !! d) as [[p' [h' o']]|] eqn:Hd; [|reflexivity]. do 2 f_equal. cbn [snd].
        specialize (Oth _ _ _ _ Hd Hne). destruct p'; try discriminate Oth; reflexivity.
    + exists AQuit. rewrite lookup_insert. split; [reflexivity|]. cbn. congruence.
  - (* quit *)
    destruct (decide (c = c0)) as [->|Hne]; [|discriminate (Oth _ _ _ _ Hc Hne)].
    rewrite Hc in Hc0. injection Hc0 as <- -> ->. cbn in Ph.
    assert (P : l_posts l = l_posts (c_loop s) /\ l_x l = l_x (c_loop s) /\ l_cb l = l_cb (c_loop s) /\ l_buf l = l_buf (c_loop s) /\ l_queue l = l_queue (c_loop s) /\ l_k l = KJoin)
      by (inversion Hk; subst; cbn; auto 10).
    destruct P as (P1 & P2 & P3 & P4 & P5 & P6).
    apply Quiet; cbn; try congruence.
    + unfold jobs_of. cbn. congruence.
    + eapply status_call_same; [exact Hc|reflexivity|exact P1|reflexivity].
    + exists AJoin. rewrite lookup_insert. auto.
  - (* quit fails *)
    exfalso. destruct (decide (c = c0)) as [->|Hne]; [|discriminate (Oth _ _ _ _ Hc Hne)].
    rewrite Hc in Hc0. injection Hc0 as <- -> ->. cbn in Ph. inversion Hk as [|? K P Al'| | |]; subst. destruct (l_x (c_loop s)) eqn:Ex; try discriminate Al'.
    + apply (s_done _ (k_loop _ L) Ex). exact K.
    + apply Al. reflexivity.
  - (* join *)
    destruct (decide (c = c0)) as [->|Hne]; [|discriminate (Oth _ _ _ _ Hc Hne)].
    rewrite Hc in Hc0. injection Hc0 as <- -> ->. cbn in Ph.
    assert (P : l_posts l = l_posts (c_loop s) /\ l_x l = l_x (c_loop s) /\ l_cb l = l_cb (c_loop s) /\ l_buf l = l_buf (c_loop s) /\ l_queue l = l_queue (c_loop s) /\ l_k l = KClosed ok /\ (ok = false -> l_x (c_loop s) = XDead))
      by (inversion Hk; subst; cbn; split_and!; auto; discriminate).
    destruct P as (P1 & P2 & P3 & P4 & P5 & P6 & P7).
    destruct ok; [|exfalso; apply Al; auto].
    apply Quiet; cbn; try congruence.
    + unfold jobs_of. cbn. congruence.
    + eapply status_call_same; [exact Hc|reflexivity|exact P1|reflexivity].
    + exists AOpen. rewrite lookup_insert. auto.
  - (* reopen: here the call takes effect *)
    destruct (decide (c = c0)) as [->|Hne]; [|discriminate (Oth _ _ _ _ Hc Hne)].
    rewrite Hc in Hc0. injection Hc0 as <- -> ->. cbn in Ph.
    pose proof (k_loop _ L) as SI. pose proof (s_join _ SI true Ph) as J. destruct (s_done _ SI J) as [_ Q]. pose proof (s_buf _ SI) as SB. rewrite J in SB.
    assert (Jn : jobs_of s = []) by (unfold jobs_of; rewrite SB, Q; reflexivity). rewrite Jn in Jo.
    destruct Jo as [[_ Jo]|(-> & _ & ->)]; [destruct pend; discriminate Jo|].
    destruct (open_impl_sub E _ _ _ _ _ Ho) as (O1 & O2 & _ & _ & _ & O3).
    eapply (oc_clear _ _ _ _ _ _ _ _ _ c0 h0 hd af w (Some y')); auto.
    + unfold status. rewrite Hc. reflexivity.
    + intros z [= <-]. destruct (O3 y' eq_refl) as (Y1 & Y2 & Y3 & Y4 & Y5). split; [reflexivity|]. split.
      * eapply (sr_calm _ _ _ _ (Front (i_map y') (i_valid y') (i_poison y'))); [reflexivity| | |discriminate|].
        -- split; [reflexivity|]. cbn. intros d p' h' o' X. destruct (decide (d = c0)) as [->|Hne].
           ++ rewrite lookup_insert in X. injection X as <- _ _. exact Logic.I.
           ++ rewrite lookup_insert_ne in X by congruence. specialize (Oth _ _ _ _ X Hne). destruct p'; try discriminate Oth; exact Logic.I.
        -- right. cbn. split; [|reflexivity]. intros d p' [h' o'] X. destruct (decide (d = c0)) as [->|Hne].
           ++ rewrite lookup_insert in X. injection X as <- _ _. reflexivity.
           ++ rewrite lookup_insert_ne in X by congruence. specialize (Oth _ _ _ _ X Hne). destruct p'; try discriminate Oth; reflexivity.
        -- unfold jobs_of. cbn. destruct y'; cbn in *. rewrite Y5. reflexivity.
      * intros d. unfold status. cbn. destruct (decide (d = c0)) as [->|Hne].
        -- rewrite lookup_insert. reflexivity.
        -- rewrite lookup_insert_ne by congruence. destruct (c_calls s !! d) as [[p' [h' o']]|] eqn:Hd; [|reflexivity]. do 2 f_equal. cbn [snd].
           specialize (Oth _ _ _ _ Hd Hne). destruct p'; try discriminate Oth; reflexivity.
  - (* reopen without join *)
    exfalso. destruct (decide (c = c0)) as [->|Hne]; [|discriminate (Oth _ _ _ _ Hc Hne)].
    rewrite Hc in Hc0. injection Hc0 as <- -> ->. cbn in Ph. eapply Hk, Ph.
  - (* reopen fails *)
    destruct (decide (c = c0)) as [->|Hne]; [|discriminate (Oth _ _ _ _ Hc Hne)].
    rewrite Hc in Hc0. injection Hc0 as <- -> ->. cbn in Ph.
    pose proof (k_loop _ L) as SI. pose proof (s_join _ SI true Ph) as J. destruct (s_done _ SI J) as [_ Q]. pose proof (s_buf _ SI) as SB. rewrite J in SB.
    assert (Jn : jobs_of s = []) by (unfold jobs_of; rewrite SB, Q; reflexivity). rewrite Jn in Jo.
    destruct Jo as [[_ Jo]|(-> & _ & ->)]; [destruct pend; discriminate Jo|].
    eapply (oc_clear _ _ _ _ _ _ _ _ _ c0 h0 hd af w None); auto; [|discriminate].
    unfold status. rewrite Hc. reflexivity.
  - (* background *)
    destruct (xstep_k _ _ _ _ Hx) as [Hkk Hposts].
    pose proof (s_buf _ (k_loop _ L)) as SB.
    assert (Ph' : forall l', l_posts l' = l_posts (c_loop s) -> l_k l' = l_k (c_loop s) -> phase l' p0).
    { intros l' P K. destruct p0; cbn in *; rewrite ?P, ?K; auto. }
    inversion Hx as [? ch Y1 Y2|? ch Y1 Y2|? Y1 Y2 Y3|? Y1 Y2|? Y1|? Y1|? c j b t Y1 Y2 Y3|? c j b t Y1 Y2 Y3|? Y1 Y2]; subst; rewrite Y1 in SB.
    1-6, 9: (apply Quiet; [reflexivity|unfold jobs_of; first [reflexivity|cbn; rewrite SB, app_nil_r; reflexivity]|reflexivity|cbn; discriminate|apply status_loop; reflexivity
      |exists p0; split; [exact Hc0|apply Ph'; reflexivity]]).
    + (* a job *)
      assert (HJ : jobs_of s = j :: map snd (b ++ l_queue (c_loop s))) by (unfold jobs_of; rewrite Y2; reflexivity). rewrite HJ in Jo.
      destruct Jo as [[-> Jo]|(_ & Jo & _)]; [|discriminate Jo]. destruct pend as [|j' pend]; cbn in Jo; injection Jo as -> Jo.
      * eapply oc_remove; [reflexivity..|exact Y3| |apply status_loop; reflexivity].
        intros _ x'. eapply (sr_late _ _ _ _ c0 p0 h0 af []); [exact Hc0|apply Ph'; reflexivity|exact Fr|cbn; congruence|reflexivity|].
        right. split_and!; auto.
      * destruct j' as [m dup|]; [|exfalso; apply Nr; left].
        eapply oc_write; [reflexivity|reflexivity|exact Y3| |apply status_loop; reflexivity].
        intros _ x'. eapply (sr_late _ _ _ _ c0 p0 h0 af pend); [exact Hc0|apply Ph'; reflexivity|exact Fr|cbn; congruence|reflexivity|].
        left. split; [reflexivity|exact Jo].
    + assert (HJ : jobs_of s = j :: map snd (b ++ l_queue (c_loop s))) by (unfold jobs_of; rewrite Y2; reflexivity). rewrite HJ in Jo.
      destruct Jo as [[-> Jo]|(_ & Jo & _)]; [|discriminate Jo]. destruct pend as [|j' pend]; cbn in Jo; injection Jo as -> Jo.
      * eapply oc_remove; [reflexivity..|exact Y3|discriminate|apply status_loop; reflexivity].
      * destruct j' as [m dup|]; [|exfalso; apply Nr; left].
        eapply oc_write; [reflexivity|reflexivity|exact Y3|discriminate|apply status_loop; reflexivity].
  - (* release *)
    exfalso. destruct (decide (c = c0)) as [->|Hne]; [|discriminate (Oth _ _ _ _ Hc Hne)]. rewrite Hc in Hc0. injection Hc0 as <- _ _. exact Ph.
  - (* return *)
    assert (Hne : c <> c0) by (intros ->; rewrite Hc in Hc0; injection Hc0 as <- _ _; exact Ph).
    apply oc_quiet; [reflexivity| |].
    + eapply (sr_late _ _ _ _ c0 p0 h0 af pend); eauto. cbn. rewrite lookup_delete_ne; auto.
    + split; [exists (h, o); unfold status; rewrite Hc; reflexivity|].
      intros d. unfold status. cbn. destruct (decide (d = c)) as [->|Hne']; [rewrite lookup_delete; reflexivity|].
      rewrite lookup_delete_ne by congruence. reflexivity.
Qed.

(** A store whose last Arc is gone: only the background thread moves. *)
Lemma gone_step st st' x y g : LInv st -> ok_inst y -> g = false -> c_calls st = ∅ -> l_k (c_loop st) = KJoin -> l_x (c_loop st) <> XDead ->
  y = i_glue x (c_front st) (jobs_of st) -> forall a, cstep E i st a st' -> (forall c h o, a <> HInv c h o) -> outcome E i st (l_cb (c_loop st)) x y g a st'.
Proof.
  intros L Ok -> Em K Al Ey a X Na.
  assert (Nr : JRemove ∉ jobs_of st) by (rewrite Ey in Ok; apply Ok).
  destruct X as [s h o|s c h o Hc He Hw|s c h o Hc He Hw Hr|s c h o f r Hc Hb|s c h o f j Hc Hb|s c h o f Hc Hb|s c h o j l Hc Hp|s l Hp|s c h o lc ok l Hc Hp
    |s c h o l Hc Hk Hch|s c h o l Hc Hk|s c h o ok l Hc Hk|s c h o hd w y' Hc Hh Ho Hk|s c h o hd w y' Hc Hh Ho Hk Ha|s c h o hd w Hc Hh Ho|s a l Hx|s c h o r Hc|s c h o r Hc];
    try (exfalso; rewrite Em, lookup_empty in Hc; discriminate Hc).
  - exfalso. eapply Na. reflexivity.
  - exfalso. apply pstep_tau in Hp as (_ & _ & _ & _ & lc & p & q & j & P5 & _). destruct (k_post _ L _ _ P5) as (c & h & o & Hc).
    rewrite Em, lookup_empty in Hc. discriminate Hc.
  - destruct (xstep_k _ _ _ _ Hx) as [Hkk Hposts].
    pose proof (s_buf _ (k_loop _ L)) as SB.
    inversion Hx as [? ch Y1 Y2|? ch Y1 Y2|? Y1 Y2 Y3|? Y1 Y2|? Y1|? Y1|? c j b t Y1 Y2 Y3|? c j b t Y1 Y2 Y3|? Y1 Y2]; subst; rewrite Y1 in SB.
    1-6, 9: (apply oc_quiet; [reflexivity|apply sr_gone; [reflexivity|exact Em|exact K|cbn; discriminate|unfold jobs_of; first [reflexivity|cbn; rewrite SB, app_nil_r; reflexivity]]|apply status_loop; reflexivity]).
    + unfold jobs_of in Nr |- *. rewrite Y2 in Nr |- *. cbn [app map snd] in Nr |- *. destruct j as [m dup|]; [|exfalso; apply Nr; left].
      eapply oc_write; [reflexivity|reflexivity|exact Y3| |apply status_loop; reflexivity].
      intros _ x'. apply sr_gone; [reflexivity|exact Em|exact K|cbn; congruence|reflexivity].
    + unfold jobs_of in Nr |- *. rewrite Y2 in Nr |- *. cbn [app map snd] in Nr |- *. destruct j as [m dup|]; [|exfalso; apply Nr; left].
      eapply oc_write; [reflexivity|reflexivity|exact Y3|discriminate|apply status_loop; reflexivity].
Qed.

Lemma store_step st a st' x y g : LInv st -> ok_inst y -> SR st x y g -> cstep E i st a st' -> (l_k (c_loop st) = KJoin -> c_calls st = ∅ -> forall c h o, a <> HInv c h o) ->
  outcome E i st (l_cb (c_loop st)) x y g a st'.
Proof.
  intros L Ok [af A1 A2 A3 A4 A5|c p h af pend A1 A2 A3 A4 A5 A6|A1 A2 A3 A4 A5] X Na.
  - eapply calm_step; eassumption.
  - eapply late_step; eassumption.
  - eapply gone_step; eauto.
Qed.

End Local.
