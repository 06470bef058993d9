(** C85: a directory that becomes read-only while a store in it is open. *)
From Verif Require Import Bytes Utf8 Proto ProtoFacts Value Codec Store StoreFacts Encrypt World Spec Hyps Refine WorldInv WorldStep Main Frames Reach Examples P_Map P_Enc P_Kill P_Kill2 Beside P_Unlink.
From Coq Require Import ZifyBool ZifyNat ZifyN.
From Coq Require String. Import (notations) String.
Local Open Scope N_scope.

(** The environment once nobody may write to directory [d]: [resolve_file_path]
    (mmkv.rs:114-126) panics for every spelling of it.  The files in it are
    open, so reading and writing them goes on. *)
Definition locked (E : env) (d : bytes) : env :=
  Env (e_plat E) (e_feat E) (fun q => e_dir_ok E q && negb (bool_decide (e_canon E q = d))) (e_canon E) (e_rng E).

(** [clear_data] there: neither file can be removed (config.rs:55-57,
    mmkv_impl.rs:109-110), and the reopen (mmkv.rs:206-220) asks
    [resolve_file_path] again. *)
Definition clear_ro (E : env) (d : bytes) (w : world) (h : N) : option (world * result) :=
  with_handle w h (do_clear_r (locked E d) true true w).

Section ReadOnly.
Context (E : env) {Rp : rep E} {RL : rep_law E Rp} (HE : env_ok E) (keyof : bytes -> bytes) (U : bytes -> Prop).
Context (HU_dir : forall p, U p -> e_dir_ok E p = true).
Context (HU_key : forall p, U p -> feature_key (e_feat E) (keyof (e_canon E p)) <> None).
Context (HU_inj : forall p p', U p -> U p' -> e_canon E p = e_canon E p' -> p = p').

Notation P := (e_plat E).
Notation F := (e_feat E).
Notation canon := (e_canon E).
Notation WInv := (WInv E keyof U).

Lemma io_steps k i : forall w sp H n, WInv w sp H n -> room E n -> WInv (Nat.iter k (fun w => run_job E w i) w) sp H n.
Proof.
  induction k as [|k IH]; intros w sp H n W Hroom; [exact W|]. rewrite Nat.iter_succ.
  apply (io_step E HE keyof U HU_dir HU_key HU_inj); [apply IH; assumption|exact Hroom].
Qed.

(** What the queued writes do to the files does not depend on what is queued
    behind them, nor on the map. *)
Definition same_writer (x y : inst) : Prop :=
  i_io x = i_io y /\ i_ino x = i_ino y /\ i_key x = i_key y /\ i_nonce x = i_nonce y /\ i_ml x = i_ml y /\ i_pos x = i_pos y /\ i_trim x = i_trim y.

Lemma writes_same i q : forall w w' x x' tl tl', killed w = killed w' -> w_insts w !! i = Some x -> w_insts w' !! i = Some x' -> same_writer x x' ->
  i_queue x = map jw q ++ tl -> i_queue x' = map jw q ++ tl' ->
  killed (Nat.iter (length q) (fun w => run_job E w i) w) = killed (Nat.iter (length q) (fun w => run_job E w i) w').
Proof.
  induction q as [|[m dup] q IH]; intros w w' x x' tl tl' K Hx Hx' S Hq Hq'; [exact K|].
  cbn [length]. rewrite !Nat.iter_succ_r. cbn [map app] in Hq, Hq'.
  destruct S as (S1 & S2 & S3 & S4 & S5 & S6 & S7).
  assert (Ki : w_inodes w = w_inodes w' /\ w_seed w = w_seed w').
  { split; [exact (f_equal w_inodes K)|exact (f_equal w_seed K)]. }
  destruct Ki as [Ki Ks].
  assert (Est : i_st w x = i_st w' x').
  { unfold i_st, inode. rewrite Ki, Ks, S2, S5, S6, S7. reflexivity. }
  assert (Eco : i_codec E x = i_codec E x') by (unfold i_codec; rewrite S3, S4; reflexivity).
  destruct (i_io x) eqn:Hio.
  - assert (R : forall v y t, w_insts v !! i = Some y -> i_io y = IoRun -> i_queue y = jw (m, dup) :: map jw q ++ t ->
      run_job E v i = let '(s, ok) := write P (i_codec E y) (i_st v y) m dup in
        set_seed (set_inode (set_inst v i (i_after y (map jw q ++ t) (if ok then IoRun else IoDead) s)) (i_ino y) (s_file s)) (s_seed s)).
    { intros v y t Hy Hi Hqy. unfold run_job. rewrite Hy, Hi, Hqy. reflexivity. }
    rewrite (R w x tl Hx Hio Hq), (R w' x' tl' Hx' (eq_sym S1) Hq'). rewrite <- Est, <- Eco, <- S2.
    destruct (write P (i_codec E x) (i_st w x) m dup) as [s ok].
    eapply (IH _ _ _ _ tl tl').
    + unfold killed in *. cbn in *. injection K as -> -> -> -> ->. intros. congruence.
    + cbn. apply lookup_insert.
    + cbn. apply lookup_insert.
    + cbn. split_and!; auto.
    + reflexivity.
    + reflexivity.
  - assert (A : forall v y, w_insts v !! i = Some y -> i_io y = IoDead -> run_job E v i = v).
    { intros v y Hy Hi. unfold run_job. rewrite Hy, Hi. reflexivity. }
    assert (D : forall v, run_job E v i = v -> forall k, Nat.iter k (fun w => run_job E w i) v = v).
    { intros v Hv. induction k as [|k IHk]; [reflexivity|]. rewrite Nat.iter_succ, IHk. exact Hv. }
    pose proof (A w x Hx Hio) as A1. pose proof (A w' x' Hx' (eq_sym S1)) as A2. rewrite A1, A2, (D w A1), (D w' A2). exact K.
Qed.

Lemma world_parts (a b : world) : killed a = killed b -> w_insts a = w_insts b -> w_handles a = w_handles b -> w_reg a = w_reg b -> w_poison a = w_poison b -> a = b.
Proof. destruct a, b. unfold killed. cbn. intros K -> -> -> ->. injection K as -> -> -> -> -> ->. reflexivity. Qed.

Lemma locked_step w sp H n h hd :
  WInv w sp H n -> w_handles w !! h = Some hd -> room E n ->
  let d := canon (h_path hd) in
  exists w' w1 x1 x', clear_ro E d w h = Some (w', RPanic) /\ WInv w1 sp H n /\
    w_insts w1 !! h_inst hd = Some x1 /\ i_queue x1 = [] /\ i_dir x1 = d /\
    w' = set_inst w1 (h_inst hd) x' /\ i_queue x' = [] /\ i_dir x' = d /\ i_poison x' = true.
Proof.
  intros W Hh Hroom d. destruct (handle_cases E keyof U w sp H n h hd W Hh) as (Hsp & Hun & Up & Hk & Hr & x & Hx & Dx & I).
  fold d in Hsp, Hk, Dx.
  unfold clear_ro, with_handle. rewrite Hh, Hun. unfold do_clear_r. rewrite Hx, (io_poison _ _ _ _ _ _ _ I).
  unfold impl_clear_r. rewrite (io_valid _ _ _ _ _ _ _ I). cbn [negb].
  unfold post. cbn [i_invalid i_sender i_io i_queue].
  rewrite (io_sender _ _ _ _ _ _ _ I), (io_run _ _ _ _ _ _ _ I).
  pose proof (io_steps (length (i_queue x)) (h_inst hd) w sp H n W Hroom) as W1.
  destruct (io_state _ _ _ _ _ _ _ I) as (q & rs & c & B1 & B2 & B3 & B4 & B5 & B6 & B7).
  set (x1 := i_with_queue (i_invalid x) (i_queue x ++ [JRemove])).
  set (w1 := set_inst w (h_inst hd) x1).
  assert (Hx1 : w_insts w1 !! h_inst hd = Some x1) by apply lookup_insert.
  assert (Hq1 : i_queue x1 = map jw q ++ [JRemove]) by (cbn; rewrite B1; reflexivity).
  assert (Hrun1 : i_io x1 = IoRun) by exact (io_run _ _ _ _ _ _ _ I).
  assert (B3' : r_ok (i_codec E x1) (i_st w1 x1) rs c) by (eapply r_ext; [..|exact B3]; reflexivity).
  assert (Hroom' : room E (c + N.of_nat (length q))) by (eapply room_mono; [|exact Hroom]; lia).
  destruct (run_writes E HE q w1 (h_inst hd) x1 rs c [JRemove] Hx1 Hrun1 Hq1 B2 B3' Hroom') as (s & rs' & Er & Ws & Rs & _).
  assert (B1' : i_queue x = map jw q ++ []) by (rewrite app_nil_r; exact B1).
  destruct (run_writes E HE q w (h_inst hd) x rs c [] Hx (io_run _ _ _ _ _ _ _ I) B1' B2 B3 Hroom') as (s0 & rs0 & Er0 & Ws0 & Rs0 & _).
  rewrite B1, map_length in W1.
  assert (K : killed (Nat.iter (length q) (fun w => run_job E w (h_inst hd)) w1) = killed (Nat.iter (length q) (fun w => run_job E w (h_inst hd)) w)).
  { eapply (writes_same (h_inst hd) q w1 w x1 x [JRemove] []); [reflexivity|exact Hx1|exact Hx|split_and!; reflexivity|exact Hq1|exact B1']. }
  rewrite Er, Er0 in K. rewrite Er0 in W1.
  unfold drain_r. rewrite Hx1, Hq1, app_length, map_length. cbn [length].
  rewrite Nat.add_1_r. rewrite Nat.iter_succ.
  rewrite (run_writes_r (locked E d) true true q w1 (h_inst hd) x1 _ Hx1 Hq1).
  change (fun w => run_job (locked E d) w (h_inst hd)) with (fun w => run_job E w (h_inst hd)). rewrite Er.
  set (w2 := set_seed _ _).
  match type of K with _ = killed ?a => set (w0 := a) in * end. fold w2 in K.
  set (dd2 := Dir (d_data (dir_of w2 (i_dir x1))) (d_meta (dir_of w2 (i_dir x1)))).
  set (y2 := i_with_queue (i_after x1 [JRemove] IoRun s) []).
  assert (Erm : run_job_r (locked E d) true true w2 (h_inst hd) = set_inst (set_dir w2 (i_dir x1) dd2) (h_inst hd) y2).
  { unfold run_job_r. unfold w2 at 1. cbn [set_seed set_inode set_inst set_insts w_insts]. rewrite lookup_insert. cbn [negb]. rewrite andb_false_r. reflexivity. }
  rewrite Erm.
  change (w_insts (set_inst (set_dir w2 (i_dir x1) dd2) (h_inst hd) y2)) with (<[h_inst hd := y2]> (w_insts w2)).
  rewrite lookup_insert. cbn [y2 i_with_queue i_after i_io]. fold y2.
  assert (Hno : e_dir_ok (locked E d) (h_path hd) = false).
  { cbn. unfold d. rewrite bool_decide_eq_true_2 by reflexivity. apply andb_false_r. }
  unfold open_impl. rewrite Hno.
  match goal with |- context [set_inst ?wa (h_inst hd) (i_quit y2)] => set (w3 := set_inst wa (h_inst hd) (i_quit y2)) end.
  assert (Hx3 : w_insts w3 !! h_inst hd = Some (i_quit y2)) by apply lookup_insert.
  rewrite Hx3.
  do 3 eexists. exists (i_with_poison (i_quit y2)). split; [reflexivity|]. split; [exact W1|].
  split; [cbn; apply lookup_insert|]. split; [reflexivity|]. split; [exact Dx|]. split; [|split; [|split; [|reflexivity]]]; [|reflexivity|exact Dx].
  - apply world_parts; [| |reflexivity|reflexivity|reflexivity].
    2:{ unfold w3, w2, w0. cbn. rewrite !insert_insert. reflexivity. }
    match goal with |- _ = killed (set_inst w0 ?a ?b) => change (killed (set_inst w0 a b)) with (killed w0) end. rewrite <- K. unfold w3, killed. cbn. rewrite insert_id; [reflexivity|].
    pose proof (io_data _ _ _ _ _ _ _ I) as Hd. rewrite Dx in *. unfold dd2, dir_of in *. cbn. change (i_dir x1) with (i_dir x). rewrite Dx.
    destruct (w_dirs w !! d) as [[a b]|]; [reflexivity|discriminate Hd].
Qed.

End ReadOnly.

(** * C85 *)

(** A call that reads or writes the store of handle [h]. *)
Definition call_on (h : N) (e : event) : Prop :=
  match e with EPut h' _ _ | EGet h' _ _ | EDelete h' _ | EClear h' => h' = h | _ => False end.

Lemma hist_app E sp H a b sp' rs : spec_run (e_canon E) sp a = Some (sp', rs) -> hist E sp H (a ++ b) = hist E sp' (hist E sp H a) b.
Proof.
  revert sp H sp' rs. induction a as [|e a IH]; intros sp H sp' rs Hs; cbn [app hist spec_run] in *; [injection Hs as <- _; reflexivity|].
  destruct (spec_step (e_canon E) sp e) as [[s1 r]|]; [|discriminate]. destruct (spec_run (e_canon E) s1 a) as [[s2 r2]|] eqn:Es; [|discriminate].
  injection Hs as <- _. eapply IH. exact Es.
Qed.

(** Beside the locked directory everything is as it was. *)
Lemma locked_open E d w p key : e_canon E p <> d -> open_impl (locked E d) w p key = open_impl E w p key.
Proof. intros Hp. unfold open_impl. cbn [locked e_dir_ok]. rewrite bool_decide_eq_false_2 by exact Hp. cbn [negb]. rewrite andb_true_r. reflexivity. Qed.

Lemma locked_steps E d e w : (forall h p key, e = ENew h p key -> e_canon E p <> d) ->
  (forall h hd, e = EClear h -> w_handles w !! h = Some hd -> e_canon E (h_path hd) <> d) -> step (locked E d) w e = step E w e.
Proof.
  intros H1 H2. destruct e; try reflexivity.
  - cbn [step]. unfold do_new. rewrite (locked_open E d) by (eapply H1; reflexivity). reflexivity.
  - cbn [step]. unfold with_handle. destruct (w_handles w !! h) as [hd|] eqn:Hh; [|reflexivity]. destruct (h_unreg hd); [reflexivity|].
    unfold do_clear. destruct (w_insts w !! h_inst hd) as [x|]; [|reflexivity]. destruct (i_poison x); [reflexivity|].
    change (impl_clear (locked E d) w (h_inst hd) x) with (impl_clear E w (h_inst hd) x). destruct (impl_clear E w (h_inst hd) x) as [w1 [| |]]; try reflexivity.
    rewrite (locked_open E d) by (eapply H2; eauto). reflexivity.
Qed.

Lemma locked_run E keyof (U : bytes -> Prop) d (HE : env_ok E) (U1 : forall p, U p -> e_dir_ok E p = true)
  (U2 : forall p, U p -> feature_key (e_feat E) (keyof (e_canon E p)) <> None) (U3 : forall p p', U p -> U p' -> e_canon E p = e_canon E p' -> p = p') i x z es :
  forall v sp H n, WInv E keyof U v sp H n -> w_insts v !! i = Some x -> i_dir x = d -> i_queue x = [] -> i_queue z = [] ->
  away (e_canon E) d sp es -> Forall (call_ok E keyof) es -> Forall (in_U U) es -> room E (n + writes es) ->
  option_map snd (run (locked E d) (set_inst v i z) es) = option_map snd (spec_run (e_canon E) sp es) /\
  forall w2 rs2, run (locked E d) (set_inst v i z) es = Some (w2, rs2) -> exists v2, w2 = set_inst v2 i z /\ run E v es = Some (v2, rs2) /\ w_insts v2 !! i = Some x.
Proof.
  induction es as [|e es IH]; intros v sp H n W Hx Dx Q1 Q2 HA HF HU Hroom.
  { split; [reflexivity|]. intros w2 rs2 Hr. injection Hr as <- <-. exists v. auto. }
  cbn [run away spec_run] in *. destruct HA as [He HA]. inversion HF as [|? ? Hf HF']; subst. inversion HU as [|? ? Hu HU']; subst. rewrite writes_cons in Hroom.
  pose proof (step_ok E HE keyof U U1 U2 U3 v sp H n e W Hf Hu ltac:(eapply room_mono; [|exact Hroom]; unfold wcount; lia)) as G.
  assert (L : forall y, step (locked E (i_dir x)) (set_inst v i y) e = step E (set_inst v i y) e).
  { intros y. apply locked_steps; [intros h p key ->; exact He|]. intros h hd -> Hhd Hc.
    destruct (handle_cases E keyof U v sp H n h hd W Hhd) as (Hsp & _). apply He. rewrite Hsp. congruence. }
  rewrite L. destruct (wi_insts _ _ _ _ _ _ _ W i x Hx) as (Hlt & _).
  assert (NO : not_on i v e).
  { unfold not_on. destruct e; try contradiction; try exact Logic.I; intros hd Hhd Hi; subst i;
      destruct (handle_cases E keyof U v sp H n h hd W Hhd) as (Hsp & _ & _ & _ & _ & y & Hy & Dy & _); apply He; rewrite Hsp; congruence. }
  assert (S : match step E v e with Some (v1, r) => step E (set_inst v i z) e = Some (set_inst v1 i z, r) /\ w_insts v1 !! i = Some x | None => True end).
  { destruct (step E v e) as [[v1 r]|] eqn:Es; [|exact Logic.I].
    assert (D : e = EIo i \/ e <> EIo i).
    { destruct e as [| | | | | | | | | |j|]; try (right; discriminate). destruct (decide (j = i)) as [->|Hj]; [left; reflexivity|right; congruence]. }
    destruct D as [->|Hne].
    - cbn [step] in *. injection Es as <- <-. unfold run_job. cbn [set_inst set_insts w_insts]. rewrite lookup_insert, Hx, Q1, Q2.
      destruct (i_io z), (i_io x); auto.
    - apply (step_beside E i z v x e v1 r Hx Hlt NO); [|exact Es]. intros j -> ->. apply Hne. reflexivity. }
  destruct (step E v e) as [[v1 r]|] eqn:Es, (spec_step (e_canon E) sp e) as [[sp1 r']|] eqn:Ep; try contradiction.
  - destruct G as [-> W1], S as [S1 S2]. rewrite S1.
    destruct (IH v1 sp1 _ _ W1 S2 eq_refl Q1 Q2 HA HF' HU' ltac:(rewrite <- N.add_assoc; exact Hroom)) as [A B].
    destruct (run (locked E (i_dir x)) (set_inst v1 i z) es) as [[w3 rs3]|], (spec_run (e_canon E) sp1 es) as [[sp3 rs4]|]; cbn [option_map snd] in *; try discriminate A.
    + injection A as ->. split; [reflexivity|]. intros w2 rs2 Hr. injection Hr as <- <-. destruct (B _ _ eq_refl) as (v2 & B1 & B2 & B3). exists v2. rewrite B2. auto.
    + split; [reflexivity|]. intros w2 rs2 Hr. discriminate Hr.
  - enough (step E (set_inst v i z) e = None) as -> by (split; [reflexivity|intros; discriminate]).
    clear -Es Hf. destruct e; cbn [step call_ok] in *; try contradiction; try discriminate Es; unfold with_handle in *; cbn [set_inst set_insts w_handles] in *;
      match goal with |- context [w_handles v !! ?k] => destruct (w_handles v !! k) as [hd|] end; try discriminate; try reflexivity; destruct (h_unreg hd); try discriminate; reflexivity.
Qed.

(** [clear_data] on a store whose directory became read-only panics.
    Every later call on that store, on any of its handles and whatever
    was done with other stores in between, answers LockError; calls on the other stores ([es2])
    answer as ever.  No entry is lost: once the process has ended (and the
    directory may be written again) everything is found, what had
    still been waiting for the background thread included; the other stores
    are as after any kill. *)
Theorem C85_clear_in_a_read_only_directory_partial E keyof es es2 es3 w rs sp h d :
  ordinary E keyof (es ++ es2 ++ es3) -> run E world0 es = Some (w, rs) -> spec_run (e_canon E) spec0 es = Some (sp, rs) ->
  sp_handles sp !! h = Some d -> away (e_canon E) d sp es2 ->
  exists w', clear_ro E d w h = Some (w', RPanic) /\
    option_map snd (run (locked E d) w' es2) = option_map snd (spec_run (e_canon E) sp es2) /\
    forall w2 rs2, run (locked E d) w' es2 = Some (w2, rs2) ->
      (forall h' e, sp_handles sp !! h' = Some d -> call_on h' e -> option_map snd (step (locked E d) w2 e) = Some (RErr LockError)) /\
      exists s', sp_handles s' = ∅ /\ contents s' d = contents sp d /\
        (forall d', d' <> d -> exists es1 es1' s1 rs1, es ++ es2 = es1 ++ es1' /\ spec_run (e_canon E) spec0 es1 = Some (s1, rs1) /\
           contents s' d' = contents s1 d' /\ jobs_left w2 d' (mutations (e_canon E) s1 d' es1')) /\
        (forall w3 rs3, run E (killed w2) es3 = Some (w3, rs3) -> exists s3, spec_run (e_canon E) s' es3 = Some (s3, rs3)).
Proof.
  intros HO Hr Hsp Hh HA. destruct (reach_prefix E keyof _ HO es (es2 ++ es3) w rs eq_refl Hr) as (sp' & Hsp' & W).
  rewrite Hsp in Hsp'. injection Hsp' as <-.
  pose proof (PU_dir E keyof _ HO) as U1. pose proof (PU_key E keyof _ HO) as U2. pose proof (PU_inj E keyof _ HO) as U3.
  assert (HE := or_env _ _ _ HO). pose proof (or_room _ _ _ HO) as HR. rewrite !writes_app in HR.
  pose proof (or_calls _ _ _ HO) as HF. apply Forall_app in HF as [_ HF]. apply Forall_app in HF as [HF2 HF3].
  assert (Hroom : room E (writes es)) by (eapply room_mono; [|exact HR]; lia).
  assert (HU2 : Forall (in_U (PU (es ++ es2 ++ es3))) es2) by (apply (in_U_all (es ++ es2 ++ es3) es es2 es3); reflexivity).
  assert (HU3 : Forall (in_U (PU (es ++ es2 ++ es3))) es3) by (apply (in_U_all (es ++ es2 ++ es3) (es ++ es2) es3 []); rewrite app_nil_r, app_assoc; reflexivity).
  assert (HH : forall v s H n, WInv E keyof (PU (es ++ es2 ++ es3)) v s H n -> forall h' d', sp_handles s !! h' = Some d' ->
    exists hd', w_handles v !! h' = Some hd' /\ h_unreg hd' = false /\ e_canon E (h_path hd') = d').
  { intros v s H n V h' d' Hh'. pose proof (wi_handles _ _ _ _ _ _ _ V h') as G. rewrite Hh' in G. unfold handle_ok in G.
    destruct (w_handles v !! h') as [hd'|]; [|contradiction]. destruct G as (A & _ & -> & _). exists hd'. auto. }
  destruct (HH _ _ _ _ W h d Hh) as (hd & Hhd & Hun & Hd).
  destruct (locked_step E HE keyof _ U1 U2 U3 w sp _ _ h hd W Hhd Hroom) as (w' & w1 & x1 & x' & A1 & W1 & A2 & A3 & A4 & A5 & A6 & Adir & A7).
  cbn zeta in *. rewrite Hd in *. exists w'. split; [exact A1|]. subst w'.
  destruct (locked_run E keyof _ d HE U1 U2 U3 (h_inst hd) x1 x' es2 w1 sp _ _ W1 A2 A4 A3 A6 HA HF2 HU2
    ltac:(eapply room_mono; [|exact HR]; lia)) as [B1 B2]. split; [exact B1|].
  intros w2 rs2 Hr2. destruct (B2 w2 rs2 Hr2) as (v2 & -> & Rv & C1). clear B1 B2 Hr2.
  pose proof (run_ok E HE keyof _ U1 U2 U3 es2 w1 sp _ _ W1 HF2 HU2 ltac:(eapply room_mono; [|exact HR]; lia)) as G.
  rewrite Rv in G. destruct (spec_run (e_canon E) sp es2) as [[s2 r2]|] eqn:Hs2; [|contradiction]. destruct G as [<- W2].
  destruct (away_contents _ d es2 sp s2 rs2 HA Hs2) as [D1 D2]. split.
  - intros h' e Hh' He. destruct (HH _ _ _ _ W2 h' d (D2 _ Hh')) as (hd' & Hhd' & Hun' & Hd').
    assert (Hi : h_inst hd' = h_inst hd).
    { destruct (handle_cases E keyof _ v2 s2 _ _ h' hd' W2 Hhd') as (_ & _ & _ & _ & _ & y & Hy & Dy & _).
      eapply (inst_unique E keyof _ U3 v2 s2 _ _ _ _ y x1 W2 Hy C1). congruence. }
    assert (L : with_handle (set_inst v2 (h_inst hd) x') h' = fun f => Some (f hd')).
    { unfold with_handle. cbn [set_inst set_insts w_handles]. rewrite Hhd', Hun'. reflexivity. }
    assert (A8 : w_insts (set_inst v2 (h_inst hd) x') !! h_inst hd = Some x') by apply lookup_insert.
    destruct e; cbn [call_on] in He; try contradiction; subst; cbn [step]; rewrite L; unfold on_inst, do_clear; rewrite Hi, A8.
    + unfold inst_put. rewrite A7. reflexivity.
    + unfold inst_get. rewrite A7. reflexivity.
    + unfold inst_delete. rewrite A7. reflexivity.
    + rewrite A7. reflexivity.
  - destruct (kill_ok E keyof _ U3 v2 s2 _ _ W2) as (s' & E1 & E2 & E3).
    assert (Hall : spec_run (e_canon E) spec0 (es ++ es2) = Some (s2, rs ++ rs2)) by (rewrite spec_run_app, Hsp, Hs2; reflexivity).
    assert (E4 : forall d', exists k es1 es1' s1 rs1, jobs_left v2 d' k /\ es ++ es2 = es1 ++ es1' /\ spec_run (e_canon E) spec0 es1 = Some (s1, rs1) /\
      contents s1 d' = contents s' d' /\ mutations (e_canon E) s1 d' es1' = k).
    { intros d'. destruct (E3 d') as (k & Hk & HHd). rewrite <- (hist_app E spec0 _ es es2 sp rs Hsp) in HHd.
      destruct (hist0_sound E keyof _ U1 U2 U3 spec0 (es ++ es2) d' k _ s2 (rs ++ rs2) Hall HHd) as (es1 & es1' & s1 & rs1 & F1 & F2 & F3 & F4).
      exists k, es1, es1', s1, rs1. auto. }
    exists s'. split; [exact E1|]. split; [|split].
    + destruct (E4 d) as (k & es1 & es1' & s1 & rs1 & F0 & F1 & F2 & F3 & F4). rewrite <- F3, <- D1.
      rewrite F1, spec_run_app, F2 in Hall. destruct (spec_run (e_canon E) s1 es1') as [[s4 rb]|] eqn:E5; [|discriminate Hall].
      injection Hall as <- _. symmetry. eapply no_mutations; [exact E5|]. rewrite F4.
      destruct F0 as [(j & y & Hy & Dy & ->)|[_ ->]]; [|reflexivity].
      assert (j = h_inst hd) as -> by (eapply (inst_unique E keyof _ U3 v2 _ _ _ _ _ y x1 W2 Hy C1); congruence).
      rewrite C1 in Hy. injection Hy as <-. rewrite A3. reflexivity.
    + intros d' Hne. destruct (E4 d') as (k & es1 & es1' & s1 & rs1 & F0 & F1 & F2 & F3 & F4). exists es1, es1', s1, rs1. split_and!; auto. rewrite F4.
      destruct F0 as [(j & y & Hy & Dy & ->)|[Hk ->]].
      * left. exists j, y. split; [|auto]. cbn. rewrite lookup_insert_ne; [exact Hy|]. intros <-. rewrite C1 in Hy. congruence.
      * right. split; [|reflexivity]. intros j y Hy. cbn in Hy. destruct (decide (h_inst hd = j)) as [<-|Hj].
        -- rewrite lookup_insert in Hy. injection Hy as <-. intros Hd2. congruence.
        -- rewrite lookup_insert_ne in Hy by exact Hj. exact (Hk j y Hy).
    + intros w3 rs3 Hrun. change (killed (set_inst v2 (h_inst hd) x')) with (killed v2) in Hrun.
      pose proof (run_ok E HE keyof _ U1 U2 U3 es3 (killed v2) s' (hist0 s') _ E2 HF3 HU3 ltac:(rewrite <- N.add_assoc; exact HR)) as G.
      rewrite Hrun in G. destruct (spec_run (e_canon E) s' es3) as [[s'' r]|]; [|contradiction]. destruct G as [-> _]. eauto.
Qed.

(** A put that still waits for the background thread when the directory is
    found to be read-only; both builds. *)
Definition ex_before : list event := [ENew 0 dir_d ex_key; EPut 0 k1 (VI32 5); EIo 0; ENew 1 dir_d ex_key; ENew 2 dir_e ex_key; EPut 2 k1 (VI32 7); EPut 1 k2 hello].
Definition ex_after : list event := [ENew 3 dir_d ex_key; EGet 3 k1 TI32; EGet 3 k2 TStr; ENew 4 dir_e ex_key; EGet 4 k1 TI32].

(** The other store goes on meanwhile. *)
Definition ex_beside : list event := [EPut 2 k2 hello; EIo 0; EIo 1; EGet 2 k2 TStr; EDelete 2 k1; EGet 2 k1 TI32].

Lemma C85_clear_in_a_read_only_directory_example : forall F, F = FPlain \/ F = FEncrypted toy_aead ->
  ordinary (ex_env F) ex_keyof (ex_before ++ ex_beside ++ ex_after) /\
  exists w rs sp, run (ex_env F) world0 ex_before = Some (w, rs) /\ spec_run (e_canon (ex_env F)) spec0 ex_before = Some (sp, rs) /\
    sp_handles sp !! 0 = Some dir_d /\ sp_handles sp !! 1 = Some dir_d /\ sp_handles sp !! 2 = Some dir_e /\ away (e_canon (ex_env F)) dir_d sp ex_beside /\
    exists w', clear_ro (ex_env F) dir_d w 0 = Some (w', RPanic) /\
      option_map snd (step (locked (ex_env F) dir_d) w' (EGet 1 k1 TI32)) = Some (RErr LockError) /\
      option_map snd (step (locked (ex_env F) dir_d) w' (EGet 2 k1 TI32)) = Some (ROk (Some (VI32 7))) /\
      option_map snd (run (locked (ex_env F) dir_d) w' ex_beside) = Some [ROk None; ROk None; ROk None; ROk (Some hello); ROk None; RErr KeyNotFound] /\
      option_map snd (run (ex_env F) (killed w') ex_after) =
        Some [ROk None; ROk (Some (VI32 5)); ROk (Some hello); ROk None; RErr KeyNotFound] /\
      (* in the same process: once all handles are dropped and the directory may be written again, it can be opened anew *)
      option_map snd (run (ex_env F) w' (EDrop 0 :: EDrop 1 :: ex_after)) =
        Some [ROk None; ROk None; ROk None; ROk (Some (VI32 5)); ROk (Some hello); ROk None; ROk (Some (VI32 7))].
Proof.
  intros F HF.
  assert (HO : ordinary (ex_env F) ex_keyof (ex_before ++ ex_beside ++ ex_after)).
  { destruct HF as [-> | ->]; (apply ordinaryb_ok; [apply ex_env_ok; first [exact Logic.I | exact toy_aead_correct]|vm_compute; reflexivity]). }
  split; [exact HO|].
  assert (T : match run (ex_env F) world0 ex_before with
    | Some (w, _) => match clear_ro (ex_env F) dir_d w 0 with
      | Some (w', r) => (r, option_map snd (step (locked (ex_env F) dir_d) w' (EGet 1 k1 TI32)), option_map snd (step (locked (ex_env F) dir_d) w' (EGet 2 k1 TI32)),
          option_map snd (run (locked (ex_env F) dir_d) w' ex_beside), option_map snd (run (ex_env F) (killed w') ex_after), option_map snd (run (ex_env F) w' (EDrop 0 :: EDrop 1 :: ex_after)))
      | None => (RErr IOError, None, None, None, None, None) end
    | None => (RErr IOError, None, None, None, None, None) end =
    (RPanic, Some (RErr LockError), Some (ROk (Some (VI32 7))), Some [ROk None; ROk None; ROk None; ROk (Some hello); ROk None; RErr KeyNotFound], Some [ROk None; ROk (Some (VI32 5)); ROk (Some hello); ROk None; RErr KeyNotFound],
     Some [ROk None; ROk None; ROk None; ROk (Some (VI32 5)); ROk (Some hello); ROk None; ROk (Some (VI32 7))])).
  { destruct HF as [-> | ->]; vm_compute; reflexivity. }
  assert (Hs : option_map (fun y => (sp_handles y.1 !! 0, sp_handles y.1 !! 1, sp_handles y.1 !! 2)) (spec_run (e_canon (ex_env F)) spec0 ex_before) = Some (Some dir_d, Some dir_d, Some dir_e))
    by (vm_compute; reflexivity).
  destruct (run (ex_env F) world0 ex_before) as [[w rs]|] eqn:Hr; [|discriminate T].
  destruct (reach _ ex_keyof ex_before (ordinary_app_l _ _ _ _ HO) w rs Hr) as (sp & Hsp & _).
  rewrite Hsp in Hs. cbn [option_map fst] in Hs. injection Hs as H0 H1 H2.
  exists w, rs, sp. split; [reflexivity|]. split; [exact Hsp|]. split; [exact H0|]. split; [exact H1|]. split; [exact H2|]. split.
  { clear -H0 H1 H2. cbn [away ex_beside]. rewrite H2. unfold spec_step. cbn [sp_handles set_contents]. rewrite H2.
    repeat first [rewrite H2 | rewrite (H2 : sp_handles (set_contents _ _ _) !! 2 = _) | progress cbn [sp_handles set_contents]].
    repeat first [split | discriminate]. }
  destruct (clear_ro (ex_env F) dir_d w 0) as [[w' r]|]; [|discriminate T]. injection T as -> T1 T2 T3 T4 T5. exists w'. split_and!; [reflexivity|exact T1|exact T2|exact T3|exact T4|exact T5].
Qed.

(** False of the code: "[clear_data] reports it (or does nothing), and the store stays usable". *)
Theorem C85_store_stays_usable_refuted : ~ (forall E keyof es w rs sp h d w' r,
  ordinary E keyof es -> run E world0 es = Some (w, rs) -> spec_run (e_canon E) spec0 es = Some (sp, rs) -> sp_handles sp !! h = Some d ->
  clear_ro E d w h = Some (w', r) ->
  r <> RPanic /\ forall key t, option_map snd (step (locked E d) w' (EGet h key t)) <> Some (RErr LockError)).
Proof.
  intros A. destruct (C85_clear_in_a_read_only_directory_example FPlain (or_introl eq_refl)) as (HO & w & rs & sp & H1 & H2 & H3 & _ & _ & _ & w' & H4 & _).
  destruct (A _ _ _ _ _ _ _ _ _ _ (ordinary_app_l _ _ _ _ HO) H1 H2 H3 H4) as [G _]. apply G. reflexivity.
Qed.
