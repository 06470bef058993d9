(** C21, C22, C23, C24, C15: kills of the process. *)
From Verif Require Import Bytes Utf8 Proto ProtoFacts Crc8 Value Codec Store StoreFacts Encrypt World Spec Hyps Refine WorldInv WorldStep Main Frames Reach Examples P_Store Slots Crash.
From Coq Require Import ZifyBool ZifyNat ZifyN.
From Coq Require String. Import (notations) String.
Local Open Scope N_scope.

(** * C21 *)

(** Ordinary calls with any number of kills in between (kills fall between
    background jobs: every [EIo] is one job). *)
Record ordinary_with_kills (E : env) (keyof : bytes -> bytes) (es : list event) : Prop := {
  ok_env : env_ok E;
  ok_calls : Forall (fun e => e = EKill \/ call_ok E keyof e) es;
  ok_paths : one_spelling E es;
  ok_room : room E (writes es)
}.

(** Whatever the kills, every answer is that of the specification where each
    kill takes every directory back to a prefix of the calls made since the
    previous kill ([sessions], Spec.v). *)
Theorem C21_kills_between_jobs E keyof es w rs :
  ordinary_with_kills E keyof es -> run E world0 es = Some (w, rs) -> sessions (e_canon E) spec0 es rs.
Proof.
  intros [HE HC HP HR] Hrun.
  assert (HU : forall p, PU es p -> e_dir_ok E p = true /\ feature_key (e_feat E) (keyof (e_canon E p)) <> None).
  { intros p Hp. apply in_flat_map in Hp as (e & He & Hp). destruct e; cbn in Hp; try contradiction.
    destruct Hp as [<-|[]]. rewrite List.Forall_forall in HC. destruct (HC _ He) as [?|G]; [discriminate|].
    cbn in G. destruct G as (A & -> & B). auto. }
  eapply (sessions_ok_len E HE keyof (PU es) (fun p H => proj1 (HU p H)) (fun p H => proj2 (HU p H)) HP (length es) es);
    [lia|apply (WInv_init E keyof)|exact HC| |rewrite N.add_0_l; exact HR|exact Hrun].
  apply List.Forall_forall. intros e He. destruct e; cbn; auto. unfold PU. apply in_flat_map. eexists. split; [exact He|]. left. reflexivity.
Qed.

(** The state found after the kill, exactly: in every directory the mutations
    of which no background job is left.  [killed_to E es w s'] says that [s']
    has no open handles and for every directory [d] it holds what [d] held
    after a prefix [es1] of the calls, where the calls after [es1] that change
    [d] are as many as the jobs still queued for [d]. *)
Definition killed_to (E : env) (es : list event) (w : world) (s' : spec) : Prop :=
  sp_handles s' = ∅ /\
  forall d, exists es1 es2 s1 rs1, es = es1 ++ es2 /\ spec_run (e_canon E) spec0 es1 = Some (s1, rs1) /\
    contents s' d = contents s1 d /\ jobs_left w d (mutations (e_canon E) s1 d es2).

Lemma kill_general E keyof es es' w w2 rs sp n :
  ordinary E keyof (es ++ es') -> room E (n + writes es') -> run E world0 es = Some (w, rs) -> spec_run (e_canon E) spec0 es = Some (sp, rs) ->
  WInv E keyof (PU (es ++ es')) w2 sp (hist E spec0 (hist0 spec0) es) n -> (forall d k, jobs_left w2 d k -> jobs_left w d k) ->
  exists s', killed_to E es w s' /\
  forall w' rs', run E (killed w2) es' = Some (w', rs') -> exists s'', spec_run (e_canon E) s' es' = Some (s'', rs').
Proof.
  intros HO Hroom Hr Hsp W Hj.
  destruct (kill_ok E keyof _ (PU_inj E keyof _ HO) w2 sp _ _ W) as (s' & Hh & W' & Hd).
  exists s'. split.
  - split; [exact Hh|]. intros d. destruct (Hd d) as (k & Hk & HH).
    destruct (hist0_sound E keyof _ (PU_dir E keyof _ HO) (PU_key E keyof _ HO) (PU_inj E keyof _ HO) spec0 es d k _ sp rs Hsp HH) as (es1 & es2 & s1 & rs1 & A & B & C & D).
    exists es1, es2, s1, rs1. split_and!; auto. rewrite D. apply Hj, Hk.
  - intros w' rs' Hrun'. pose proof (or_calls _ _ _ HO) as HF. apply Forall_app in HF as [_ HF].
    pose proof (run_ok E (or_env _ _ _ HO) keyof _ (PU_dir E keyof _ HO) (PU_key E keyof _ HO) (PU_inj E keyof _ HO) es' (killed w2) s' (hist0 s')
      n W' HF) as G.
    specialize (G (in_U_all (es ++ es') es es' [] ltac:(rewrite app_nil_r; reflexivity)) Hroom).
    rewrite Hrun' in G. destruct (spec_run (e_canon E) s' es') as [[s'' r]|]; [|contradiction]. destruct G as [-> _]. eauto.
Qed.

Theorem C21_exactly_the_completed_jobs_survive E keyof es es' w rs :
  ordinary E keyof (es ++ es') -> run E world0 es = Some (w, rs) ->
  exists s', killed_to E es w s' /\
  forall w' rs', run E w (EKill :: es') = Some (w', ROk None :: rs') -> exists s'', spec_run (e_canon E) s' es' = Some (s'', rs').
Proof.
  intros HO Hr. destruct (reach_prefix E keyof _ HO es es' w rs eq_refl Hr) as (sp & Hsp & W).
  destruct (kill_general E keyof es es' w w rs sp (writes es) HO) as (s' & A & B); auto.
  { rewrite <- writes_app. apply (or_room _ _ _ HO). }
  exists s'. split; [exact A|]. intros w' rs' Hrun. cbn [run step] in Hrun. fold (killed w) in Hrun.
  destruct (run E (killed w) es') as [[w2 r2]|] eqn:E2; [|discriminate]. injection Hrun as <- <-. eapply B. reflexivity.
Qed.

(** A kill right after the file was enlarged (before anything of the record is
    stored): the same, with the interrupted job counted as not done. *)
Lemma grown_WInv E keyof (U : bytes -> Prop) (HUd : forall p, U p -> e_dir_ok E p = true)
  (HUk : forall p, U p -> feature_key (e_feat E) (keyof (e_canon E p)) <> None)
  (HUi : forall p p', U p -> U p' -> e_canon E p = e_canon E p' -> p = p') w sp H n i x :
  env_ok E -> WInv E keyof U w sp H n -> w_insts w !! i = Some x -> room E (n + 1) ->
  exists w2, WInv E keyof U w2 sp H (n + 1) /\ killed w2 = crashed w i (inode w (i_ino x) ++ zeros (page (e_plat E))) /\
    forall d k, jobs_left w2 d k -> jobs_left w d k.
Proof.
  intros HE W Hx Hroom. set (f := inode w (i_ino x)). set (f' := f ++ zeros (page (e_plat E))).
  set (y := Inst (i_map x) (i_valid x) (i_poison x) (i_queue x) (i_io x) (i_sender x) (i_join x) (i_dir x) (i_ino x) (i_key x) (i_nonce x)
    (len f') (i_pos x) (i_trim x)).
  exists (set_inst (set_inode w (i_ino x) f') i y).
  destruct (wi_insts _ _ _ _ _ _ _ W i x Hx) as (_ & I & _).
  destruct (io_state _ _ _ _ _ _ _ I) as (q & rs & c & B1 & B2 & B3 & B4 & B5 & B6 & B7).
  split; [|split].
  - eapply (WInv_update E keyof U HUd HUk HUi w _ sp sp H H n (n + 1) i x y W Hx); try reflexivity; auto.
    + apply (wi_poison _ _ _ _ _ _ _ W).
    + intros j _ Hj. unfold inode. cbn. rewrite lookup_insert_ne by congruence. reflexivity.
    + apply (wi_hist _ _ _ _ _ _ _ W).
    + lia.
    + destruct I as [A1 A2 A3 A4 A5 A6 A7 A8 _]. split; auto.
      exists q, rs, (c + 1). split_and!; auto; [|lia].
      destruct B3 as (Ii & HG & HL & HS & HD). destruct (eo_plat _ HE) as [H64 Hpage Hmax Hhord].
      cbn [i_st s_file] in HS, HD. fold f in HS, HD.
      assert (Hb : page (e_plat E) * (1 + (c + 1) * (1 + page (e_plat E))) <= maxfile (e_plat E)).
      { destruct Hroom as [Hr _]. etransitivity; [|exact Hr]. apply N.mul_le_mono_l, N.add_le_mono_l, N.mul_le_mono_r. lia. }
      assert (HS' : len f + page (e_plat E) <= page (e_plat E) * (1 + (c + 1) * (1 + page (e_plat E)))) by nia.
      destruct (expand_inv (e_plat E) (i_codec E x) (record_pos (e_feat E)) (record_size (e_feat E)) H64 Hmax (i_st w x) rs Ii)
        as (s' & _ & I' & F' & L' & M' & P' & _); [cbn [i_st s_file]; fold f; lia|].
      assert (Hlen : len f' = len f + page (e_plat E)).
      { unfold f'. rewrite len_app. unfold zeros. rewrite len_replicate. lia. }
      assert (G : WOk E (i_codec E x) s' rs (c + 1)).
      { cbn [i_st s_file] in F', L'. fold f in F', L'. split_and!; auto; [lia| |].
        - rewrite L'. exact HS'.
        - rewrite L'. apply N.divide_add_r; [exact HD|apply N.divide_refl]. }
      eapply WOk_ext; [..|exact G].
      * cbn [i_st s_file i_ino y]. rewrite F'. unfold inode. cbn. rewrite lookup_insert. reflexivity.
      * cbn [i_st s_ml i_ml y]. rewrite M', Hlen. reflexivity.
      * cbn [i_st s_pos i_pos y]. rewrite P'. reflexivity.
  - unfold crashed. rewrite Hx. reflexivity.
  - intros d k [(j & z & Hz & Dz & ->)|[Hno ->]].
    + left. cbn in Hz. destruct (decide (i = j)) as [<-|Hne].
      * rewrite lookup_insert in Hz. injection Hz as <-. exists i, x. auto.
      * rewrite lookup_insert_ne in Hz by exact Hne. eauto.
    + right. split; [|reflexivity]. intros j z Hz Dz. destruct (decide (i = j)) as [<-|Hne].
      * apply (Hno i y); [cbn; apply lookup_insert|]. rewrite Hx in Hz. injection Hz as ->. exact Dz.
      * apply (Hno j z); [cbn; rewrite lookup_insert_ne by exact Hne; exact Hz|exact Dz].
Qed.

Theorem C21_kill_while_growing E keyof es es' w rs i n rest :
  ordinary E keyof (es ++ es') -> room E (writes (es ++ es') + 1) -> run E world0 es = Some (w, rs) ->
  job_effects E w i = FExtend n :: rest ->
  exists s', killed_to E es w s' /\
  forall w' rs', run E (crash_after E w i 1) es' = Some (w', rs') -> exists s'', spec_run (e_canon E) s' es' = Some (s'', rs').
Proof.
  intros HO Hroom Hr Heff. pose proof (job_extend _ _ _ _ _ Heff) as ->.
  destruct (reach_prefix E keyof _ HO es es' w rs eq_refl Hr) as (sp & Hsp & W).
  destruct (w_insts w !! i) as [x|] eqn:Hx; [|unfold job_effects in Heff; rewrite Hx in Heff; discriminate Heff].
  rewrite writes_app in Hroom.
  destruct (grown_WInv E keyof _ (PU_dir E keyof _ HO) (PU_key E keyof _ HO) (PU_inj E keyof _ HO) w sp _ _ i x (or_env _ _ _ HO) W Hx)
    as (w2 & W2 & Hk & Hj).
  { eapply room_mono; [|exact Hroom]. lia. }
  destruct (kill_general E keyof es es' w w2 rs sp (writes es + 1) HO) as (s' & A & B); auto.
  { eapply room_mono; [|exact Hroom]. lia. }
  exists s'. split; [exact A|]. intros w' rs' Hrun. eapply B. rewrite Hk.
  unfold crash_after in Hrun. rewrite Hx, Heff in Hrun. exact Hrun.
Qed.

(** * Reopening after a kill in the middle of a job *)

(** The handle [h] answers every get as the map [S]. *)
Definition answers_as (E : env) (w : world) (h : N) (S : smap) : Prop :=
  forall k t, get_ok t -> step E w (EGet h k t) = Some (w, spec_get S k t).

(** The job at the head of the queue in a reachable world. *)
Lemma reach_job E keyof es w rs0 i x m dup q :
  ordinary E keyof es -> run E world0 es = Some (w, rs0) -> w_insts w !! i = Some x -> i_queue x = JWrite m dup :: q ->
  exists s' rs rs' c, write (e_plat E) (i_codec E x) (i_st w x) m dup = (s', true) /\ job_effects E w i = s_eff s' /\
    WOk E (i_codec E x) (i_st w x) rs c /\ good E m /\ room E (c + 1) /\ WOk E (i_codec E x) s' rs' (c + 1) /\
    replay rs' = apply_kv (replay rs) m /\
    write_kind (e_plat E) (i_codec E x) (record_size (e_feat E)) (i_st w x) rs m dup s' rs'.
Proof.
  intros HO Hr Hx Hq. destruct (reach_inst E keyof es w rs0 i x HO Hr Hx) as (Hrun & Hc & Hf & q' & rs & c & Q & HF & HW & Hn & _).
  destruct q' as [|[m' dup'] q']; [rewrite Q in Hq; discriminate|]. rewrite Q in Hq. cbn [map jw fst snd] in Hq.
  injection Hq as -> -> <-. inversion HF as [|? ? Hm _]; subst. cbn [fst] in Hm.
  assert (Hroom : room E (c + 1)).
  { eapply room_mono; [|apply (or_room _ _ _ HO)]. cbn [length] in Hn. lia. }
  destruct (write_WOk E (or_env _ _ _ HO) (i_codec E x) (i_st w x) rs c m dup) as (s' & rs' & Ew & HW' & Hrep & Hk); auto.
  { apply feature_law, (eo_feat _ (or_env _ _ _ HO)). }
  exists s', rs, rs', c. split_and!; auto. unfold job_effects. rewrite Hx, Q. cbn [map jw fst snd]. rewrite Ew. reflexivity.
Qed.

(** What was persisted at the time of a kill. *)
Lemma persisted E keyof es w rs0 i x rs c :
  ordinary E keyof es -> run E world0 es = Some (w, rs0) -> w_insts w !! i = Some x -> WOk E (i_codec E x) (i_st w x) rs c ->
  exists s', killed_to E es w s' /\ rel E (replay rs) (contents s' (i_dir x)).
Proof.
  intros HO Hr Hx HW. destruct (reach E keyof es HO w rs0 Hr) as (sp & Hsp & W).
  destruct (kill_ok E keyof _ (PU_inj E keyof _ HO) w sp _ _ W) as (s' & Hh & W' & Hd).
  exists s'. split.
  - split; [exact Hh|]. intros d. destruct (Hd d) as (k & Hk & HH).
    destruct (hist0_sound E keyof _ (PU_dir E keyof _ HO) (PU_key E keyof _ HO) (PU_inj E keyof _ HO) spec0 es d k _ sp rs0 Hsp HH)
      as (es1 & es2 & s1 & rs1 & A & B & C & D).
    exists es1, es2, s1, rs1. split_and!; auto. rewrite D. exact Hk.
  - destruct (wi_insts _ _ _ _ _ _ _ W i x Hx) as (_ & I & _).
    pose proof (fun Hn => dir_ok_clean _ _ _ _ _ _ (wi_dirs _ _ _ _ _ _ _ W' (i_dir x) Hn)) as G.
    change (dir_of (killed w) (i_dir x)) with (dir_of w (i_dir x)) in G.
    rewrite (io_data _ _ _ _ _ _ _ I) in G. destruct G as (rs2 & nonce & M & HW2 & R).
    { intros j z Hz. unfold killed in Hz. cbn in Hz. rewrite lookup_empty in Hz. discriminate Hz. }
    assert (replay rs = replay rs2) as ->; [|exact R].
    assert (HC : feature_codec (e_feat E) (kof E keyof (i_dir x)) nonce = i_codec E x).
    { unfold i_codec. rewrite (io_key _ _ _ _ _ _ _ I). pose proof (io_meta _ _ _ _ _ _ _ I) as M'. unfold meta_ok in *.
      change (dir_of (killed w) (i_dir x)) with (dir_of w (i_dir x)) in M.
      destruct (e_feat E); [reflexivity|]. destruct M as [M _], M' as [M' _]. rewrite M in M'. injection M' as ->. reflexivity. }
    rewrite HC in HW2. pose proof HW as (I1 & _). pose proof HW2 as (I2 & _).
    pose proof (law_of E (or_env _ _ _ HO) _ x eq_refl) as Hlaw. destruct (eo_plat _ (or_env _ _ _ HO)) as [H64 Hpage Hmax Hhord].
    pose proof (inv_read_all _ _ _ _ H64 Hlaw Hmax _ _ I1) as R1. pose proof (inv_read_all _ _ _ _ H64 Hlaw Hmax _ _ I2) as R2.
    rewrite (view_full _ (inv_ml _ _ _ _ _ I1)) in R1. rewrite (view_full _ (inv_ml _ _ _ _ _ I2)) in R2.
    cbn [i_st s_file closed_st] in R1, R2. change (inode (killed w) (i_ino x)) with (inode w (i_ino x)) in R2.
    rewrite R1 in R2. injection R2 as R2 _. exact R2.
Qed.

(** Reopening the directory of a killed store whose file is [f]. *)
Lemma reopen_crashed E keyof es w rs0 i x f h p :
  ordinary E keyof es -> run E world0 es = Some (w, rs0) -> w_insts w !! i = Some x -> f <> [] ->
  In p (paths es) -> e_canon E p = i_dir x ->
  match read_all (e_plat E) (i_codec E x) f with
  | IDone M _ => exists w', step E (crashed w i f) (ENew h p (keyof (i_dir x))) = Some (w', ROk None) /\
      forall k t, step E w' (EGet h k t) = Some (w', get_answer M k t)
  | _ => exists w', step E (crashed w i f) (ENew h p (keyof (i_dir x))) = Some (w', RPanic)
  end.
Proof.
  intros HO Hr Hx Hf Hp Hcp. destruct (reach E keyof es HO w rs0 Hr) as (sp & Hsp & W).
  destruct (wi_insts _ _ _ _ _ _ _ W i x Hx) as (_ & I & _).
  destruct (PU_call E keyof es HO p Hp) as [Hdo Hkey]. rewrite Hcp in Hkey.
  destruct (feature_key (e_feat E) (keyof (i_dir x))) as [ky|] eqn:Hky; [|contradiction].
  unfold crashed. rewrite Hx. set (wc := killed (set_inode w (i_ino x) f)).
  assert (HC : feature_codec (e_feat E) ky (if is_encrypted (e_feat E) then i_nonce x else []) = i_codec E x).
  { unfold i_codec. rewrite (io_key _ _ _ _ _ _ _ I). unfold kof. rewrite Hky. destruct (e_feat E); reflexivity. }
  rewrite <- HC. apply open_answers with (ino := i_ino x).
  - reflexivity.
  - apply lookup_empty.
  - unfold lookup_reg, wc, killed. cbn [w_reg]. rewrite lookup_empty. reflexivity.
  - exact Hdo.
  - rewrite Hcp. exact (io_data _ _ _ _ _ _ _ I).
  - unfold wc, inode. cbn. rewrite lookup_insert. reflexivity.
  - exact Hf.
  - exact Hky.
  - pose proof (io_meta _ _ _ _ _ _ _ I) as M. unfold meta_ok in M. rewrite Hcp. destruct (e_feat E); [reflexivity|]. exact M.
Qed.

(** * C22 *)

(** The job at the head of the queue of store [i] compacts: it starts by
    setting the content length to 0. *)
Definition compacts (E : env) (w : world) (i : N) : Prop := exists rest, job_effects E w i = FStore 0 (be 8 0) :: rest.

(** The files a kill during an append can leave behind. *)
Lemma mixture_old old new : (length new <= length old)%nat -> mixture old new (take (length new) old).
Proof.
  intros H. split; [rewrite take_length; lia|]. intros j b Hj. right. apply lookup_take_Some in Hj as [Hj _]. exact Hj.
Qed.

Lemma mixture_new old new : mixture old new new.
Proof. split; auto. Qed.

Lemma append_images2 c sl b f' : len b <= len sl ->
  crash_image [FStore 0 (be 8 (len (c ++ b))); FStore (8 + len c) b] (shape c sl) f' ->
  f' = shape c sl \/ exists d, mixture sl b d /\ f' = be 8 (len (c ++ b)) ++ c ++ d ++ drop (length b) sl.
Proof.
  intros Hl (j & Hj & H).
  assert (E1 : apply_eff (FStore 0 (be 8 (len (c ++ b)))) (shape c sl) = be 8 (len (c ++ b)) ++ c ++ sl).
  { unfold shape. change (be 8 (len c) ++ c ++ sl) with ([] ++ be 8 (len c) ++ (c ++ sl)).
    rewrite apply_store_mid; [reflexivity|reflexivity|]. rewrite !len_be. reflexivity. }
  assert (E2 : forall d, len d = len b -> apply_eff (FStore (8 + len c) d) (be 8 (len (c ++ b)) ++ c ++ sl)
    = be 8 (len (c ++ b)) ++ c ++ d ++ drop (length b) sl).
  { intros d Hd. rewrite <- (take_drop (length b) sl) at 1.
    rewrite !app_assoc. rewrite <- (app_assoc _ (take _ sl)). rewrite apply_store_mid.
    - rewrite <- !app_assoc. reflexivity.
    - rewrite len_app, len_be. reflexivity.
    - rewrite len_take. unfold len in *. lia. }
  assert (Hnat : (length b <= length sl)%nat) by (unfold len in Hl; lia).
  destruct j as [|[|[|j]]]; cbn [firstn apply_effs fold_left nth_error] in H; [| | |cbn in Hj; lia].
  - destruct H as [->|(e & [= <-] & Ht)]; [left; reflexivity|]. inversion Ht; subst. lia.
  - rewrite E1 in H. right. destruct H as [->|(e & [= <-] & Ht)].
    + exists (take (length b) sl). split; [apply mixture_old, Hnat|]. rewrite take_drop. reflexivity.
    + inversion Ht as [a d d' f Ha Hm]; subst. exists d'. split.
      * assert (Hd : drop (N.to_nat (8 + len c)) (be 8 (len (c ++ b)) ++ c ++ sl) = sl).
        { rewrite app_assoc. apply drop_app_alt. rewrite app_length, be_length. unfold len. lia. }
        rewrite Hd in Hm. exact Hm.
      * apply E2. destruct Hm as [Hm _]. unfold len. lia.
  - rewrite E1, E2 in H by reflexivity. right. destruct H as [->|(e & H & _)]; [|discriminate H].
    exists b. split; [apply mixture_new|reflexivity].
Qed.

Lemma append_images c sl b n f' : len b <= len sl + n ->
  crash_image [FExtend n; FStore 0 (be 8 (len (c ++ b))); FStore (8 + len c) b] (shape c sl) f' ->
  f' = shape c sl \/ f' = shape c (sl ++ zeros n) \/
  exists d, mixture (sl ++ zeros n) b d /\ f' = be 8 (len (c ++ b)) ++ c ++ d ++ drop (length b) (sl ++ zeros n).
Proof.
  intros Hl (j & Hj & H). destruct j as [|j].
  - cbn [firstn apply_effs fold_left nth_error] in H. left. destruct H as [->|(e & [= <-] & Ht)]; [reflexivity|inversion Ht].
  - right. apply (append_images2 c (sl ++ zeros n) b f').
    + rewrite len_app. unfold zeros. rewrite len_replicate. lia.
    + exists j. cbn [length] in *. split; [lia|]. cbn [firstn nth_error] in H. unfold apply_effs in *. cbn [fold_left] in H.
      assert (Hx : apply_eff (FExtend n) (shape c sl) = shape c (sl ++ zeros n)).
      { cbn [apply_eff]. unfold shape. rewrite <- !app_assoc. reflexivity. }
      rewrite Hx in H. exact H.
Qed.

(** A job that does not compact: the file it starts from and its effects. *)
Lemma append_job E keyof es w rs0 i x m dup q :
  ordinary E keyof es -> run E world0 es = Some (w, rs0) -> w_insts w !! i = Some x -> i_queue x = JWrite m dup :: q ->
  ~ compacts E w i ->
  exists rs c0, WOk E (i_codec E x) (i_st w x) rs c0 /\ good E m /\ room E (c0 + 1) /\
  exists c sl n b0, inode w (i_ino x) = shape c sl /\ enc_list (i_codec E x) 0 rs = Some c /\
    enc (i_codec E x) m (i_pos x) = ROk b0 /\ len b0 <= len sl + n /\ len c = total (record_size (e_feat E)) rs /\
    8 + len c + len sl + n < 2 ^ 63 /\
    (job_effects E w i = [FStore 0 (be 8 (len (c ++ b0))); FStore (8 + len c) b0] /\ n = 0 \/
     job_effects E w i = [FExtend n; FStore 0 (be 8 (len (c ++ b0))); FStore (8 + len c) b0]).
Proof.
  intros HO Hr Hx Hq Hnc.
  destruct (reach_job E keyof es w rs0 i x m dup q HO Hr Hx Hq) as (s1 & rs & rs1 & c0 & Ew & Heff & HW & Hm & Hroom & HW1 & Hrep & Hk).
  destruct (eo_plat _ (or_env _ _ _ HO)) as [H64 Hpage Hmax Hhord]. pose proof (law_of E (or_env _ _ _ HO) _ x eq_refl) as Hlaw.
  pose proof HW as (I & HG & HL & HS & HD). pose proof HW1 as (I1 & _).
  pose proof (inv_size _ _ _ _ _ I1) as Hsz1.
  exists rs, c0. split; [exact HW|]. split; [exact Hm|]. split; [exact Hroom|].
 destruct (inv_content _ _ _ _ H64 Hlaw Hmax _ _ I) as (c1 & sl1 & Ec & Ef & Elc). cbn [i_st s_file] in Ef.
    destruct Hk as [Hfit -> Hlen Htrim (c & sl & b0 & F1 & F2 & F3 & F4 & F5)|Hover Htr -> Hlen Htrim (c & sl & b0 & F1 & F2 & F3 & F4 & F5)|Hover Htr Hperm Hlen Hg Htrim].
    - cbn [i_st s_file s_pos s_eff] in *. assert (c = c1 /\ sl = sl1) as [-> ->].
      { rewrite Ef in F1. unfold shape in F1. assert (len c1 = len c) as Hcc by congruence.
        apply app_inj_1 in F1 as [_ F1]; [|rewrite !be_length; reflexivity]. apply app_inj_1 in F1 as [-> ->]; [auto|unfold len in Hcc; lia]. }
      exists c1, sl1, 0, b0. rewrite Heff, F5. split_and!; auto.
      + rewrite F1, shape_len in Hfit. unfold used in Hfit.
        assert (len b0 = record_size (e_feat E) m).
        { destruct (inv_encode _ _ _ _ H64 Hlaw Hmax _ _ _ I (good_rec E (or_env _ _ _ HO) m Hm)) as (b' & Eb' & Lb').
          - eapply positions_mono; [|apply (room_positions E), Hroom]. lia.
          - cbn [i_st s_pos] in Eb'. congruence. }
        lia.
      + pose proof (inv_size _ _ _ _ _ I) as Hz. cbn [i_st s_file] in Hz. rewrite Ef, shape_len in Hz. lia.
    - cbn [i_st s_file s_pos s_eff] in *. assert (c = c1 /\ sl = sl1) as [-> ->].
      { rewrite Ef in F1. unfold shape in F1. assert (len c1 = len c) as Hcc by congruence.
        apply app_inj_1 in F1 as [_ F1]; [|rewrite !be_length; reflexivity]. apply app_inj_1 in F1 as [-> ->]; [auto|unfold len in Hcc; lia]. }
      exists c1, sl1, (page (e_plat E)), b0. rewrite Heff, F5. split_and!; auto.
      + assert (len b0 = record_size (e_feat E) m).
        { destruct (inv_encode _ _ _ _ H64 Hlaw Hmax _ _ _ I (good_rec E (or_env _ _ _ HO) m Hm)) as (b' & Eb' & Lb').
          - eapply positions_mono; [|apply (room_positions E), Hroom]. lia.
          - cbn [i_st s_pos] in Eb'. congruence. }
        destruct Hm as [_ Hm]. lia.
      + rewrite Hlen, Ef, shape_len in Hsz1. lia.
    - exfalso. apply Hnc. unfold compacts. rewrite Heff. clear - Ew Hover Htr I H64 Hlaw Hmax Hm HO Hroom HL.
      unfold write in Ew.
      destruct (inv_encode _ _ _ _ H64 Hlaw Hmax _ _ _ I (good_rec E (or_env _ _ _ HO) m Hm)) as (b' & Eb' & Lb').
      { eapply positions_mono; [|apply (room_positions E), Hroom]. lia. }
      rewrite Eb', (inv_write_offset _ _ _ _ H64 Hlaw Hmax _ _ I) in Ew. cbv zeta in Ew.
      assert (Htr' : s_trim (if dup then with_trim (i_st w x) true else i_st w x) = true) by (destruct dup; [reflexivity|exact Htr]).
      assert (Hml : s_ml (if dup then with_trim (i_st w x) true else i_st w x) = len (inode w (i_ino x))).
      { destruct dup; apply (inv_ml _ _ _ _ _ I). }
      rewrite Htr', Hml in Ew.
      pose proof (inv_size _ _ _ _ _ I) as Hz. pose proof (inv_used _ _ _ _ H64 Hlaw Hmax _ _ I) as Hu. cbn [i_st s_file] in Hz, Hu, Hover.
      destruct Hm as [_ Hm]. pose proof (po_page _ (eo_plat _ (or_env _ _ _ HO))) as Hpg.
      rewrite (modulus_64 _ H64), N.mod_small in Ew by lia.
      destruct (N.leb_spec (len b' + used (record_size (e_feat E)) rs) (len (inode w (i_ino x)))) as [?|_]; [lia|].
      unfold trim in Ew. destruct (read_all _ _ _) as [M n| |]; try (injection Ew; discriminate).
      unfold reset, store_len in Ew. destruct (_ && _); [|injection Ew; discriminate].
      destruct (rewrite _ _ _ _ _) as [s3 ok3] eqn:E3. apply rewrite_log in E3 as (effs & L3 & _).
      destruct ok3; [|injection Ew; discriminate]. injection Ew as <-. cbn [with_trim s_eff]. rewrite L3.
      cbn [with_pos with_seed do_eff s_eff]. rewrite H64.
      assert (s_eff (if dup then with_trim (i_st w x) true else i_st w x) = []) as -> by (destruct dup; reflexivity).
      eexists. reflexivity. 
Qed.

(** The wished-for property: whatever an interrupted append leaves behind, the
    directory can be opened and every key persisted before, except the one
    being written, is there. *)
Definition append_kill_safe (E : env) : Prop :=
  forall keyof es w rs0 i x m dup q f' h p,
  ordinary E keyof es -> run E world0 es = Some (w, rs0) -> w_insts w !! i = Some x -> i_queue x = JWrite m dup :: q ->
  ~ compacts E w i -> In p (paths es) -> e_canon E p = i_dir x ->
  crash_image (job_effects E w i) (inode w (i_ino x)) f' ->
  exists s' w', killed_to E es w s' /\ step E (crashed w i f') (ENew h p (keyof (i_dir x))) = Some (w', ROk None) /\
    forall k t, get_ok t -> k <> kv_key m -> step E w' (EGet h k t) = Some (w', spec_get (contents s' (i_dir x)) k t).

(** What holds: if the content length has not been stored yet, or the length
    bytes of the record have been stored too, the directory can be opened and
    only the torn record itself ([o], what its bytes decode to, usually
    nothing) can differ from the persisted state.  Missing: kills between
    the store of the content length and the store of the record's own length
    bytes. *)
Theorem C22_kill_in_append_partial E keyof es w rs0 i x m dup q f' a b h p :
  ordinary E keyof es -> run E world0 es = Some (w, rs0) -> w_insts w !! i = Some x -> i_queue x = JWrite m dup :: q ->
  ~ compacts E w i -> In p (paths es) -> e_canon E p = i_dir x ->
  crash_image (job_effects E w i) (inode w (i_ino x)) f' ->
  last (job_effects E w i) = Some (FStore a b) ->
  take 8 f' = take 8 (inode w (i_ino x)) \/ take 4 (drop (N.to_nat a) f') = take 4 b ->
  exists s' w' o, killed_to E es w s' /\ step E (crashed w i f') (ENew h p (keyof (i_dir x))) = Some (w', ROk None) /\
    (forall k t, get_ok t -> (forall r, o = Some r -> kv_key r <> k) ->
       step E w' (EGet h k t) = Some (w', spec_get (contents s' (i_dir x)) k t)) /\
    (take 8 f' = take 8 (inode w (i_ino x)) -> o = None) /\
    (take 8 f' <> take 8 (inode w (i_ino x)) ->
       dec (i_codec E x) (drop (N.to_nat a) f') (i_pos x) = ROk (o, len b)).
Proof.
  intros HO Hr Hx Hq Hnc Hp Hcp Hcr Hlast Hcond.
  destruct (append_job E keyof es w rs0 i x m dup q HO Hr Hx Hq Hnc)
    as (rs & c0 & HW & Hm & Hroom & c & sl & n & b0 & Hf & Hc & Hb0 & Hlb & Hlc & Hlim & Hef).
  destruct (persisted E keyof es w rs0 i x rs c0 HO Hr Hx HW) as (s' & Hkt & HR). exists s'.
  destruct (eo_plat _ (or_env _ _ _ HO)) as [H64 Hpage Hmax Hhord]. pose proof (law_of E (or_env _ _ _ HO) _ x eq_refl) as Hlaw.
  pose proof HW as (I & HG & HL & HS & HD).
  assert (Hab : a = 8 + len c /\ b = b0).
  { destruct Hef as [[Hef _]|Hef]; rewrite Hef in Hlast; cbn in Hlast; injection Hlast as <- <-; auto. }
  destruct Hab as [-> ->].
  (* the possible files *)
  assert (Him : (exists sl0, f' = shape c sl0 /\ len sl0 <= len sl + n) \/
     exists d rest, length d = length b0 /\ f' = be 8 (len (c ++ b0)) ++ c ++ d ++ rest).
  { rewrite Hf in Hcr. destruct Hef as [[Hef ->]|Hef]; rewrite Hef in Hcr.
    - apply append_images2 in Hcr; [|lia]. destruct Hcr as [->|(d & [Hd _] & ->)]; [left; exists sl; split; [reflexivity|lia]|right; eauto].
    - apply append_images in Hcr; [|lia]. destruct Hcr as [->|[->|(d & [Hd _] & ->)]].
      + left. exists sl. split; [reflexivity|lia].
      + left. eexists. split; [reflexivity|]. rewrite len_app. unfold zeros. rewrite len_replicate. lia.
      + right. eauto. }
  assert (Hne : f' <> []).
  { destruct Him as [(sl0 & -> & _)|(d & rest & _ & ->)]; intros H; apply (f_equal (length (A:=byte))) in H; rewrite ?app_length in H;
      unfold shape in H; rewrite ?app_length, be_length in H; cbn in H; lia. }
  destruct (enc_slots _ _ _ rs Hlaw 0 c (inv_ok _ _ _ _ _ I) (inv_pos_ok _ _ _ _ _ I) Hc) as (sl1 & Hsl1 & Hsb & Hsm).
  pose proof (reopen_crashed E keyof es w rs0 i x f' h p HO Hr Hx Hne Hp Hcp) as Hopen.
  assert (Hhdr : forall n m : N, n < 2 ^ 64 -> m < 2 ^ 64 -> be 8 n = be 8 m -> n = m).
  { intros n1 n2 H1 H2 H. apply (f_equal unbe) in H. rewrite !unbe_be_small in H; auto. }
  assert (Hb5 : 5 <= len b0).
  { destruct (inv_encode _ _ _ _ H64 Hlaw Hmax _ _ _ I (good_rec E (or_env _ _ _ HO) m Hm)) as (b' & Eb' & Lb').
    - eapply positions_mono; [|apply (room_positions E), Hroom]. lia.
    - cbn [i_st s_pos] in Eb'. rewrite Hb0 in Eb'. injection Eb' as <-. rewrite Lb'. apply (law_min _ _ _ Hlaw). }
  destruct Him as [(sl0 & -> & Hsl0)|(d & rest & Hd & Hfd)].
  - assert (Hread : read_all (e_plat E) (i_codec E x) (shape c sl0) = IDone (replay rs) (N.of_nat (length sl1) mod 2 ^ 32)).
    { unfold shape. rewrite <- Hsb. rewrite read_slots; [|exact H64|exact Hsl1|rewrite Hsb; lia].
      rewrite (slot_map_some _ rs _ Hsm). reflexivity. }
    rewrite Hread in Hopen. destruct Hopen as (w' & Hst & Hget). exists w', None. split_and!; auto.
    + intros k t Ht _. rewrite Hget. unfold get_answer. rewrite (get_refines E (replay rs) _ k t HR Ht). reflexivity.
    + intros Hdiff. destruct Hdiff. rewrite Hf. unfold shape. rewrite !(take_app_alt (be 8 (len c))) by (rewrite be_length; reflexivity). reflexivity.
  - assert (Hhd : take 8 f' <> take 8 (inode w (i_ino x))).
    { rewrite Hf, Hfd. unfold shape. rewrite !(take_app_alt (be 8 _)) by (rewrite be_length; reflexivity). intros H.
      apply Hhdr in H; rewrite ?len_app in *; lia. }
    destruct Hcond as [Hcond|Hcond]; [contradiction|].
    assert (Hdrop : drop (N.to_nat (8 + len c)) f' = d ++ rest).
    { rewrite Hfd, app_assoc. apply drop_app_alt. rewrite app_length, be_length. unfold len. lia. }
    rewrite Hdrop in Hcond |- *. rewrite take_app_le in Hcond by (unfold len in Hb5; lia).
    set (o := body_entry (e_feat E) (i_key x) (i_nonce x) (i_pos x) (drop 4 d)).
    assert (Hdec : forall tail, dec (i_codec E x) (d ++ tail) (i_pos x) = ROk (o, len b0)).
    { apply (frame_slot _ _ _ m); auto; [apply (eo_feat _ (or_env _ _ _ HO))|apply Hm|destruct Hm as [_ Hm]; lia|].
      pose proof (inv_pos _ _ _ _ _ I) as Hpos. cbn [i_st s_pos] in Hpos. rewrite Hpos.
      apply (room_positions E _ Hroom). lia. }
    assert (Hlend : len d = len b0) by (unfold len; lia).
    assert (Hsl2 : slots (i_codec E x) 0 (sl1 ++ [(d, o)])).
    { apply slots_app. split; [exact Hsl1|]. constructor; [lia| |constructor].
      pose proof (inv_pos _ _ _ _ _ I) as Hpos. cbn [i_st s_pos] in Hpos.
      assert (length sl1 = length rs) as ->. { apply (f_equal (length (A:=option kv))) in Hsm. rewrite !map_length in Hsm. exact Hsm. }
      rewrite N.add_0_l, <- Hpos, Hlend. exact Hdec. }
    assert (Hread : exists cnt, read_all (e_plat E) (i_codec E x) f' = IDone (apply_opt (replay rs) o) cnt).
    { eexists. rewrite Hfd.
      assert (Hbb : len (c ++ b0) = len (slot_bytes (sl1 ++ [(d, o)]))).
      { rewrite slot_bytes_app, Hsb. unfold slot_bytes. cbn [map concat fst]. rewrite app_nil_r, !len_app. lia. }
      assert (Hcd : c ++ d ++ rest = slot_bytes (sl1 ++ [(d, o)]) ++ rest).
      { rewrite slot_bytes_app, Hsb. unfold slot_bytes. cbn [map concat fst]. rewrite app_nil_r, <- app_assoc. reflexivity. }
      rewrite Hbb, Hcd. rewrite read_slots; [|exact H64|exact Hsl2|rewrite <- Hbb, len_app; lia].
      rewrite slot_map_app, (slot_map_some _ rs _ Hsm). reflexivity. }
    destruct Hread as (cnt & Hread). rewrite Hread in Hopen. destruct Hopen as (w' & Hst & Hget). exists w', o. split_and!; auto.
    + intros k t Ht Hk'. rewrite Hget. unfold get_answer.
      assert (apply_opt (replay rs) o !! k = replay rs !! k) as ->.
      { destruct o as [r|]; [|reflexivity]. specialize (Hk' r eq_refl). unfold apply_opt, apply_kv.
        destruct (is_deleting r); [apply lookup_delete_ne|apply lookup_insert_ne]; exact Hk'. }
      rewrite (get_refines E (replay rs) _ k t HR Ht). reflexivity.
    + intros H. contradiction.
Qed.

(** The failure in general (plain build): if a kill hits after the content
    length of an append was stored and before the record is, and the free
    space held zeros there, the directory can never be opened again. *)
Theorem C22_length_without_record_unopenable E keyof es w rs0 i x m dup q a b h p :
  ordinary E keyof es -> run E world0 es = Some (w, rs0) -> w_insts w !! i = Some x -> i_queue x = JWrite m dup :: q ->
  e_feat E = FPlain -> ~ compacts E w i -> In p (paths es) -> e_canon E p = i_dir x ->
  last (job_effects E w i) = Some (FStore a b) ->
  let f' := apply_effs (removelast (job_effects E w i)) (inode w (i_ino x)) in
  take 4 (drop (N.to_nat a) f') = [x00; x00; x00; x00] ->
  exists w', step E (crashed w i f') (ENew h p (keyof (i_dir x))) = Some (w', RPanic).
Proof.
  intros HO Hr Hx Hq HF Hnc Hp Hcp Hlast f' Hz.
  destruct (append_job E keyof es w rs0 i x m dup q HO Hr Hx Hq Hnc)
    as (rs & c0 & HW & Hm & Hroom & c & sl & n & b0 & Hf & Hc & Hb0 & Hlb & Hlc & Hlim & Hef).
  destruct (eo_plat _ (or_env _ _ _ HO)) as [H64 Hpage Hmax Hhord]. pose proof (law_of E (or_env _ _ _ HO) _ x eq_refl) as Hlaw.
  pose proof HW as (I & HG & HL & HS & HD).
  assert (Hab : a = 8 + len c /\ b = b0).
  { destruct Hef as [[Hef _]|Hef]; rewrite Hef in Hlast; cbn in Hlast; injection Hlast as <- <-; auto. }
  destruct Hab as [-> ->].
  assert (Hb5 : 5 <= len b0).
  { destruct (inv_encode _ _ _ _ H64 Hlaw Hmax _ _ _ I (good_rec E (or_env _ _ _ HO) m Hm)) as (b' & Eb' & Lb').
    - eapply positions_mono; [|apply (room_positions E), Hroom]. lia.
    - cbn [i_st s_pos] in Eb'. rewrite Hb0 in Eb'. injection Eb' as <-. rewrite Lb'. apply (law_min _ _ _ Hlaw). }
  assert (Hf' : f' = be 8 (len (c ++ b0)) ++ c ++ sl ++ zeros n).
  { assert (G : forall sl', apply_eff (FStore 0 (be 8 (len (c ++ b0)))) (shape c sl') = be 8 (len (c ++ b0)) ++ c ++ sl').
    { intros sl'. unfold shape. change (be 8 (len c) ++ c ++ sl') with ([] ++ be 8 (len c) ++ (c ++ sl')).
      rewrite apply_store_mid; [reflexivity|reflexivity|]. rewrite !len_be. reflexivity. }
    unfold f'. rewrite Hf. destruct Hef as [[Hef ->]|Hef]; rewrite Hef; cbn [removelast apply_effs fold_left].
    - rewrite G. change (zeros 0) with (@nil byte). rewrite app_nil_r. reflexivity.
    - assert (Hxx : apply_eff (FExtend n) (shape c sl) = shape c (sl ++ zeros n)).
      { cbn [apply_eff]. unfold shape. rewrite <- !app_assoc. reflexivity. }
      rewrite Hxx. apply G. }
  assert (Hdrop : drop (N.to_nat (8 + len c)) f' = sl ++ zeros n).
  { rewrite Hf', app_assoc. apply drop_app_alt. rewrite app_length, be_length. unfold len. lia. }
  rewrite Hdrop in Hz. set (s1 := sl ++ zeros n) in *.
  assert (Hs1 : len s1 = len sl + n) by (unfold s1, zeros; rewrite len_app, len_replicate; lia).
  set (r := take (length b0) s1).
  assert (Hr1 : len r = len b0) by (unfold r; rewrite len_take; unfold len in *; lia).
  assert (Hz' : exists r', r = x00 :: x00 :: x00 :: x00 :: r').
  { exists (drop 4 r). rewrite <- (take_drop 4 r) at 1. unfold r. rewrite take_take, Nat.min_l by (unfold len in Hb5; lia). rewrite Hz. reflexivity. }
  destruct (enc_slots _ _ _ rs Hlaw 0 c (inv_ok _ _ _ _ _ I) (inv_pos_ok _ _ _ _ _ I) Hc) as (sl1 & Hsl1 & Hsb & Hsm).
  assert (Hne : f' <> []).
  { rewrite Hf'. intros G. apply (f_equal (length (A:=byte))) in G. rewrite app_length, be_length in G. cbn in G. lia. }
  pose proof (reopen_crashed E keyof es w rs0 i x f' h p HO Hr Hx Hne Hp Hcp) as Hopen.
  assert (Hread : read_all (e_plat E) (i_codec E x) f' = IPanic).
  { rewrite Hf'. replace (len (c ++ b0)) with (len (slot_bytes sl1 ++ r)) by (rewrite Hsb, !len_app; lia).
    rewrite <- (take_drop (length b0) s1), <- Hsb. fold r. apply read_slots_panic.
    - exact H64.
    - exact Hsl1.
    - rewrite Hsb. lia.
    - destruct Hz' as (r' & ->). discriminate.
    - destruct Hz' as (r' & Hz'). unfold i_codec. rewrite HF, Hz'. cbn [feature_codec dec crc_codec]. unfold crc_dec.
      change (slice 0 4 (x00 :: x00 :: x00 :: x00 :: r')) with (slice 0 (len [x00; x00; x00; x00]) ([x00; x00; x00; x00] ++ r')).
      rewrite slice_head. reflexivity. }
  rewrite Hread in Hopen. exact Hopen.
Qed.

(** So the property as wished for is false. *)
Definition ex_put1 : list event := [ENew 0 dir_d ex_key; EPut 0 k1 (VI32 5); EIo 0; EPut 0 k2 hello].

Theorem C22_kill_in_append_refuted : ~ append_kill_safe (ex_env FPlain).
Proof.
  intros H.
  assert (T : match run (ex_env FPlain) world0 ex_put1 with
    | Some (w, _) => match w_insts w !! 0 with
       | Some x => match i_queue x with
          | [JWrite m dup] => bool_decide (i_dir x = dir_d) && Nat.eqb (length (job_effects (ex_env FPlain) w 0)) 2 &&
              match job_effects (ex_env FPlain) w 0 with FStore _ h :: _ => negb (bool_decide (h = be 8 0)) | _ => false end &&
              match last (job_effects (ex_env FPlain) w 0) with
              | Some (FStore a b) => bool_decide (take 4 (drop (N.to_nat a) (apply_effs (removelast (job_effects (ex_env FPlain) w 0)) (inode w (i_ino x)))) = [x00; x00; x00; x00])
              | _ => false end
          | _ => false end
       | None => false end
    | None => false end = true) by (vm_compute; reflexivity).
  destruct (run (ex_env FPlain) world0 ex_put1) as [[w rs0]|] eqn:Hr; [|discriminate T].
  destruct (w_insts w !! 0) as [x|] eqn:Hx; [|discriminate T].
  destruct (i_queue x) as [|[m dup|] [|]] eqn:Hq; try discriminate T.
  apply andb_true_iff in T as [T1 T2]. apply andb_true_iff in T1 as [T1 Tn]. apply andb_true_iff in T1 as [Td Tl].
  apply bool_decide_eq_true in Td. apply Nat.eqb_eq in Tl.
  destruct (last (job_effects (ex_env FPlain) w 0)) as [[a b|]|] eqn:Hlast; try discriminate T2. apply bool_decide_eq_true in T2.
  assert (HO : ordinary (ex_env FPlain) ex_keyof ex_put1).
  { apply ordinaryb_ok; [apply ex_env_ok; exact Logic.I|vm_compute; reflexivity]. }
  assert (Hnc : ~ compacts (ex_env FPlain) w 0). { intros (rest & Hrest). rewrite Hrest in Tn. vm_compute in Tn. discriminate Tn. }
  assert (Hin : In dir_d (paths ex_put1)) by (left; reflexivity).
  assert (Hcn : e_canon (ex_env FPlain) dir_d = i_dir x) by (rewrite Td; vm_compute; reflexivity).
  destruct (C22_length_without_record_unopenable _ _ _ _ _ 0 x m dup [] a b 1 dir_d HO Hr Hx Hq eq_refl Hnc Hin Hcn Hlast T2) as (w' & Hbad).
  destruct (H ex_keyof ex_put1 w rs0 0 x m dup [] (apply_effs (removelast (job_effects (ex_env FPlain) w 0)) (inode w (i_ino x))) 1 dir_d HO Hr Hx Hq Hnc Hin Hcn)
    as (s' & w2 & _ & Hgood & _).
  { exists 1%nat. split; [rewrite Tl; lia|]. left. f_equal.
    destruct (job_effects (ex_env FPlain) w 0) as [|e1 [|e2 [|]]]; try discriminate Tl. reflexivity. }
  rewrite Hbad in Hgood. discriminate Hgood.
Qed.
