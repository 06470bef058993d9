(** C75, C76, C77: power failures. *)
From Verif Require Import Bytes Utf8 Proto ProtoFacts Crc8 Value Codec Store StoreFacts Encrypt World Spec Hyps Refine WorldInv WorldStep Main Frames Reach Examples P_Store Slots Crash P_Kill P_Enc2 Power.
From Coq Require Import ZifyBool ZifyNat ZifyN.
From Coq Require String. Import (notations) String.
Local Open Scope N_scope.

(** * The log knows the file *)

(** The last content logged is [f]. *)
Definition now (l : list dev) (f : bytes) : Prop :=
  exists l1 l2, l = l1 ++ DVer f :: l2 /\ Forall (fun x => is_sync x = true) l2.

(** ... and since then the used part was synced. *)
Definition flushed (P : plat) (l : list dev) (f : bytes) : Prop :=
  exists l1 l2 n, l = l1 ++ DVer f :: l2 /\ Forall (fun x => is_sync x = true) l2 /\ In (DSync n) l2 /\ map_flush P f <= n.

Lemma flushed_now P l f : flushed P l f -> now l f.
Proof. intros (l1 & l2 & n & A & B & _). exists l1, l2. auto. Qed.

Lemma now_ver l f : now (l ++ [DVer f]) f.
Proof. exists l, []. auto. Qed.

Lemma now_sync l f n : now l f -> now (l ++ [DSync n]) f.
Proof.
  intros (l1 & l2 & -> & B). exists l1, (l2 ++ [DSync n]). split; [rewrite <- app_assoc; reflexivity|].
  apply Forall_app. split; [exact B|]. repeat constructor.
Qed.

Lemma flush_sync P l f n : now l f -> map_flush P f <= n -> flushed P (l ++ [DSync n]) f.
Proof.
  intros (l1 & l2 & -> & B) Hn. exists l1, (l2 ++ [DSync n]), n. split_and!; auto.
  - rewrite <- app_assoc. reflexivity.
  - apply Forall_app. split; [exact B|]. repeat constructor.
  - apply in_or_app. right. left. reflexivity.
Qed.

Lemma now_eff P es : forall l f, now l f -> now (l ++ eff_log P es f) (apply_effs es f).
Proof.
  induction es as [|[a d|n] es IH]; intros l f Hl; cbn [eff_log].
  - rewrite app_nil_r. exact Hl.
  - change (apply_effs (FStore a d :: es) f) with (apply_effs es (apply_eff (FStore a d) f)).
    match goal with |- now (l ++ ?x :: ?t) _ => change (x :: t) with ([x] ++ t) end. rewrite app_assoc. apply IH, now_ver.
  - change (apply_effs (FExtend n :: es) f) with (apply_effs es (apply_eff (FExtend n) f)).
    match goal with |- now (l ++ ?x :: ?y :: ?z :: ?t) _ => change (x :: y :: z :: t) with ([x] ++ [y] ++ [z] ++ t) end.
    rewrite !(app_assoc l), !app_assoc. apply IH, now_sync, now_ver.
Qed.

Lemma now_job E w i x l : w_insts w !! i = Some x -> now l (inode w (i_ino x)) -> now (l ++ job_log E w i) (inode (run_job E w i) (i_ino x)).
Proof.
  intros Hx Hl. unfold job_log. rewrite Hx. destruct (i_io x) eqn:Hio.
  - destruct (i_queue x) as [|[m dup|] q] eqn:Hq.
    + unfold job_effects, run_job. rewrite Hx, Hio, Hq. cbn [eff_log]. rewrite app_nil_r. exact Hl.
    + rewrite (job_effects_complete E w i x m dup q Hx Hio Hq). apply now_eff, Hl.
    + unfold job_effects, run_job. rewrite Hx, Hio, Hq. cbn [eff_log]. rewrite app_nil_r. exact Hl.
  - unfold run_job. rewrite Hx, Hio, app_nil_r. exact Hl.
Qed.

Lemma now_jobs E i n : forall w x l, w_insts w !! i = Some x -> now l (inode w (i_ino x)) ->
  now (l ++ jobs_log E n w i) (inode (Nat.iter n (fun w => run_job E w i) w) (i_ino x)).
Proof.
  induction n as [|n IH]; intros w x l Hx Hl; cbn [jobs_log].
  - rewrite app_nil_r. exact Hl.
  - rewrite Nat.iter_succ_r, app_assoc. destruct (run_job_frame E w i x Hx) as ((y & Y1 & Y2 & Y3) & _).
    rewrite <- Y3. apply IH; [rewrite Y1; apply lookup_insert|]. rewrite Y3. apply now_job; assumption.
Qed.

Lemma run_log_app E log d a b : forall w w' rs, run E w a = Some (w', rs) ->
  run_log E log w (a ++ b) d = run_log E log w a d ++ run_log E log w' b d.
Proof.
  induction a as [|e a IH]; intros w w' rs Hr; cbn [run run_log app] in *.
  - injection Hr as <- _. reflexivity.
  - destruct (step E w e) as [[w1 r]|]; [|discriminate]. destruct (run E w1 a) as [[w2 r2]|] eqn:E2; [|discriminate].
    injection Hr as <- _. rewrite <- app_assoc. f_equal. eapply IH, E2.
Qed.

(** * One event *)

(** Background jobs do not look at handles or the registry. *)
Definition same_core (w1 w : world) : Prop :=
  w_dirs w1 = w_dirs w /\ w_inodes w1 = w_inodes w /\ w_insts w1 = w_insts w /\ w_seed w1 = w_seed w.

Lemma run_job_core E w1 w i : same_core w1 w -> same_core (run_job E w1 i) (run_job E w i).
Proof.
  intros S. pose proof S as (A & B & C & D). unfold run_job. rewrite C. destruct (w_insts w !! i) as [x|]; [|exact S].
  assert (Hst : i_st w1 x = i_st w x) by (unfold i_st, inode; rewrite B, D; reflexivity). rewrite Hst.
  destruct (i_io x); [|exact S]. destruct (i_queue x) as [|[m dup|] q]; [exact S| |].
  - destruct (write _ _ _ _ _) as [s ok]. split_and!; cbn; congruence.
  - split_and!; cbn; try congruence. unfold dir_of. rewrite A. reflexivity.
Qed.

Lemma drain_core E w1 w i : same_core w1 w -> same_core (drain E w1 i) (drain E w i).
Proof.
  intros S. pose proof S as (A & B & C & D). unfold drain. rewrite C. destruct (w_insts w !! i) as [x|]; [|exact S].
  generalize (length (i_queue x)). intros n. induction n as [|n IH]; [exact S|]. apply run_job_core, IH.
Qed.

Lemma core_file w1 w d : same_core w1 w -> file_at w1 d = file_at w d.
Proof. intros (A & B & _). unfold file_at, dir_of, inode. rewrite A, B. reflexivity. Qed.

(** No handle is open on [d]. *)
Definition no_handle (sp : spec) (d : bytes) : Prop := forall h, sp_handles sp !! h <> Some d.

Section Step.
Context (E : env) (HE : env_ok E) (keyof : bytes -> bytes) (U : bytes -> Prop).
Context (HU_dir : forall p, U p -> e_dir_ok E p = true).
Context (HU_key : forall p, U p -> feature_key (e_feat E) (keyof (e_canon E p)) <> None).
Context (HU_inj : forall p p', U p -> U p' -> e_canon E p = e_canon E p' -> p = p').
Notation canon := (e_canon E).
Notation P := (e_plat E).
Notation WInv := (WInv E keyof U).

(** What a data file holds at any time. *)
Lemma file_WOk w sp H n d f : WInv w sp H n -> file_at w d = Some f ->
  exists s' rs nonce, sp_handles s' = ∅ /\ (forall d', exists k, jobs_left w d' k /\ H d' k (contents s' d')) /\ meta_ok E w d nonce /\
    WOk E (feature_codec (e_feat E) (kof E keyof d) nonce) (closed_st f rs) rs n /\ rel E (replay rs) (contents s' d).
Proof using HU_inj.
  intros W Hf. destruct (kill_ok E keyof U HU_inj w sp H n W) as (s' & Hh & W' & Hd). exists s'.
  assert (Hno : forall i x, w_insts (killed w) !! i = Some x -> i_dir x <> d).
  { intros j z Hz. unfold killed in Hz. cbn in Hz. rewrite lookup_empty in Hz. discriminate Hz. }
  pose proof (dir_ok_clean _ _ _ _ _ _ (wi_dirs _ _ _ _ _ _ _ W' d Hno)) as G.
  change (dir_of (killed w) d) with (dir_of w d) in G. unfold file_at in Hf.
  destruct (d_data (dir_of w d)) as [ino|]; [|discriminate Hf]. injection Hf as <-. destruct G as (rs & nonce & M & HW & R).
  exists rs, nonce. split_and!; auto.
Qed.

Lemma file_flush w sp H n d f : WInv w sp H n -> file_at w d = Some f -> map_flush P f <= len f.
Proof using HE HU_inj.
  intros W Hf. destruct (file_WOk w sp H n d f W Hf) as (s' & rs & nonce & _ & _ & _ & (I & _) & _).
  destruct (eo_plat _ HE) as [H64 Hpage Hmax Hhord].
  assert (Hlaw : codec_law (feature_codec (e_feat E) (kof E keyof d) nonce) (record_pos (e_feat E)) (record_size (e_feat E))).
  { apply feature_law, (eo_feat _ HE). }
  pose proof (inv_write_offset _ _ _ _ H64 Hlaw Hmax _ _ I) as Ho. rewrite (view_full _ (inv_ml _ _ _ _ _ I)) in Ho.
  pose proof (inv_used _ _ _ _ H64 Hlaw Hmax _ _ I) as Hu. cbn [closed_st s_file] in *. unfold map_flush. rewrite Ho. exact Hu.
Qed.

(** What opening does to the file. *)
Lemma open_impl_file w p key w1 y : open_impl E w p key = (w1, Some y) ->
  file_at w1 (canon p) = Some (config_new P (default [] (file_at w (canon p)))).
Proof using Type.
  unfold open_impl. destruct (e_dir_ok E p); [|discriminate]. cbv zeta. set (d := canon p).
  destruct (open_config E w d) as [w2 ino] eqn:Ho.
  assert (H2 : file_at w2 d = Some (config_new P (default [] (file_at w d)))).
  { unfold open_config in Ho. unfold file_at at 2. destruct (d_data (dir_of w d)) as [i|] eqn:Hd.
    - injection Ho as <- <-. unfold file_at. change (dir_of (set_inode w i (config_new P (inode w i))) d) with (dir_of w d).
      rewrite Hd. cbn [option_map default]. unfold inode. cbn. rewrite lookup_insert. reflexivity.
    - injection Ho as <- <-. unfold file_at, dir_of, inode. cbn. rewrite lookup_insert. cbn. rewrite lookup_insert. reflexivity. }
  destruct (feature_key (e_feat E) key) as [k|]; [|discriminate].
  destruct (open_nonce E w2 d) as [w3 nonce] eqn:Hn.
  assert (H3 : file_at w3 d = file_at w2 d).
  { unfold open_nonce in Hn. destruct (is_encrypted (e_feat E)); [|injection Hn as <- _; reflexivity].
    destruct (init_nonce _ _) as [n m]. injection Hn as <- _. unfold file_at, dir_of, inode. cbn. rewrite lookup_insert. reflexivity. }
  destruct (open_file _ _ _ _) as [[s m]|]; [|discriminate]. intros [= <- _]. rewrite H3. exact H2.
Qed.

Lemma open_log_now w d l : exists l0, open_log E w d = l0 ++ [DSync (len (config_new P (default [] (file_at w d))))] /\
  now (l ++ l0) (config_new P (default [] (file_at w d))).
Proof using Type.
  unfold open_log. destruct (file_at w d) as [f|]; cbn [default].
  - exists [DVer (config_new P f)]. split; [reflexivity|]. apply now_ver.
  - exists [DNew; DVer []; DVer (config_new P [])]. split; [reflexivity|].
    change ([DNew; DVer []; DVer (config_new P [])]) with ([DNew; DVer []] ++ [DVer (config_new P [])]). rewrite app_assoc. apply now_ver.
Qed.

(** An event either leaves the directory's file alone, or is a background job
    of it, or ends with a sync of the part in use. *)
Lemma step_log w sp H n e w' r d :
  WInv w sp H n -> call_ok E keyof e -> in_U U e -> room E (n + wcount e) -> step E w e = Some (w', r) ->
  exists sp', spec_step canon sp e = Some (sp', r) /\ WInv w' sp' (upd H sp e sp') (n + wcount e) /\
  ((data_log E w e d = [] /\ file_at w' d = file_at w d /\ (no_handle sp' d -> no_handle sp d)) \/
  (exists i f, e = EIo i /\ ~ no_handle sp' d /\ file_at w d = Some f /\
     data_log E w e d = eff_log P (job_effects E w i) f /\ file_at w' d = Some (apply_effs (job_effects E w i) f)) \/
  (exists f l0 m, file_at w' d = Some f /\ data_log E w e d = l0 ++ [DSync m] /\ map_flush P f <= m /\
     forall l, (forall f0, file_at w d = Some f0 -> now l f0) -> now (l ++ l0) f)).
Proof.
  intros W Hc HUe Hroom Hs. pose proof (step_ok E HE keyof U HU_dir HU_key HU_inj w sp H n e W Hc HUe Hroom) as Hok. rewrite Hs in Hok.
  destruct (spec_step canon sp e) as [[sp' r']|] eqn:Hsp; [|contradiction]. destruct Hok as [<- W'].
  exists sp'. split; [reflexivity|]. split; [exact W'|].
  assert (Hroom0 : room E n) by (eapply room_mono; [|exact Hroom]; lia).
  destruct (decide (works_on E w e = Some d)) as [Hon|Hoff]; cycle 1.
  { left. destruct (step_frame E HE keyof U HU_dir HU_key HU_inj w sp H n e w' r d W Hc Hroom0 Hs Hoff) as [Hf _]. split_and!.
    - unfold data_log. destruct e as [h path key|h key v|h key|h key t|h key t|h key|h|h|h|h|i|]; cbn [call_ok] in Hc; try contradiction;
        cbn [works_on opens] in *; try reflexivity.
      + destruct (w_poison w); [reflexivity|]. destruct (lookup_reg w path); [reflexivity|].
        destruct (e_dir_ok E path); [|reflexivity]. rewrite decide_False by congruence. reflexivity.
      + destruct (w_handles w !! h) as [hd|]; [|reflexivity]. destruct (w_insts w !! h_inst hd) as [x|]; [|reflexivity].
        destruct (i_poison x); [reflexivity|]. destruct (impl_clear E w (h_inst hd) x) as [w1 [o| |]]; try reflexivity.
        destruct (e_dir_ok E (h_path hd)); [|reflexivity]. cbn [option_map] in Hoff. rewrite decide_False by congruence. reflexivity.
      + destruct (w_handles w !! h) as [hd|] eqn:Hh; [|reflexivity].
        destruct (handle_cases E keyof U w sp H n h hd W Hh) as (_ & _ & _ & _ & _ & x & Hx & Dx & _).
        rewrite Hx. cbn [option_map] in Hoff. rewrite decide_False by congruence. reflexivity.
      + destruct (w_insts w !! i) as [x|]; [|reflexivity]. cbn [option_map] in Hoff. rewrite decide_False by congruence. reflexivity.
    - exact Hf.
    - intros Hcl h Hh. apply (Hcl h). destruct e as [h0 path key|h0 key v|h0 key|h0 key t|h0 key t|h0 key|h0|h0|h0|h0|i|];
        cbn [call_ok] in Hc; try contradiction; cbn [works_on spec_step] in *.
      + destruct (sp_handles sp !! h0) eqn:H0; [discriminate|]. injection Hsp as <- _. cbn. rewrite lookup_insert_ne by congruence. exact Hh.
      + destruct (sp_handles sp !! h0); [|discriminate]. injection Hsp as <- _. exact Hh.
      + destruct (sp_handles sp !! h0); [|discriminate]. injection Hsp as <- _. exact Hh.
      + destruct (sp_handles sp !! h0); [|discriminate]. injection Hsp as <- _. exact Hh.
      + destruct (sp_handles sp !! h0); [|discriminate]. injection Hsp as <- _. exact Hh.
      + destruct (sp_handles sp !! h0) as [d0|] eqn:H0; [|discriminate]. injection Hsp as <- _. cbn. rewrite lookup_delete_ne; [exact Hh|].
        intros ->. rewrite H0 in Hh. injection Hh as ->. pose proof (wi_handles _ _ _ _ _ _ _ W h) as G. unfold handle_ok in G. rewrite H0 in G.
        destruct (w_handles w !! h) as [hd|]; [|contradiction]. destruct G as (_ & _ & -> & _). apply Hoff. reflexivity.
      + injection Hsp as <- _. exact Hh. }
  destruct e as [h path key|h key v|h key|h key t|h key t|h key|h|h|h|h|i|]; cbn [call_ok] in Hc; try contradiction;
    cbn [works_on] in Hon.
  - (* new *)
    injection Hon as Hon. cbn [step] in Hs. destruct (w_handles w !! h) eqn:Hh; [discriminate|]. injection Hs as Hs.
    cbn [spec_step] in Hsp. destruct (sp_handles sp !! h) eqn:Hsh; [discriminate|]. injection Hsp as <- Hr.
    unfold do_new in Hs. unfold data_log. cbn [opens]. destruct Hc as (Hdo & -> & _).
    rewrite (wi_poison _ _ _ _ _ _ _ W) in *. destruct (lookup_reg w path) as [i|].
    + injection Hs as <- _. left. split_and!; [reflexivity|reflexivity|]. intros Hcl. exfalso. apply (Hcl h). cbn. rewrite lookup_insert. congruence.
    + right. right. rewrite Hdo, Hon, decide_True by reflexivity.
      destruct (open_impl E w path (keyof (canon path))) as [w1 [y|]] eqn:Ho; [|injection Hs as _ <-; discriminate Hr].
      apply open_impl_file in Ho. rewrite Hon in Ho. injection Hs as <- _.
      match goal with |- context [file_at ?w0 d] => change (file_at w0 d) with (file_at w1 d) in * end.
      destruct (open_log_now w d []) as (l0 & E0 & _).
      eexists _, l0, _. split; [exact Ho|]. split; [exact E0|]. split.
      * eapply (file_flush _ _ _ _ d _ W'). exact Ho.
      * intros l _. destruct (open_log_now w d l) as (l1 & E1 & N1). rewrite E0 in E1. apply app_inj_tail in E1 as [-> _]. exact N1.
  - (* put *)
    left. cbn [step spec_step] in *. unfold with_handle, on_inst in Hs.
    destruct (sp_handles sp !! h); [|discriminate]. injection Hsp as <- _. split_and!; [reflexivity| |auto].
    destruct (w_handles w !! h) as [hd|]; [|discriminate]. destruct (h_unreg hd); [discriminate|]. injection Hs as Hs.
    destruct (w_insts w !! h_inst hd) as [x|]; [|injection Hs as <- _; reflexivity].
    destruct (inst_put x key v). injection Hs as <- _. reflexivity.
  - left. cbn [step spec_step] in *. unfold with_handle, on_inst in Hs.
    destruct (sp_handles sp !! h); [|discriminate]. injection Hsp as <- _. split_and!; [reflexivity| |auto].
    destruct (w_handles w !! h) as [hd|]; [|discriminate]. destruct (h_unreg hd); [discriminate|]. injection Hs as Hs.
    destruct (w_insts w !! h_inst hd) as [x|]; injection Hs as <- _; reflexivity.
  - left. cbn [step spec_step] in *. unfold with_handle, on_inst in Hs.
    destruct (sp_handles sp !! h); [|discriminate]. injection Hsp as <- _. split_and!; [reflexivity| |auto].
    destruct (w_handles w !! h) as [hd|]; [|discriminate]. destruct (h_unreg hd); [discriminate|]. injection Hs as Hs.
    destruct (w_insts w !! h_inst hd) as [x|]; [|injection Hs as <- _; reflexivity].
    destruct (inst_delete x key). injection Hs as <- _. reflexivity.
  - (* clear *)
    right. right. cbn [step] in Hs. unfold with_handle in Hs. unfold data_log. cbn [opens].
    destruct (w_handles w !! h) as [hd|] eqn:Hh; [|discriminate]. cbn [option_map] in Hon. injection Hon as Hon.
    destruct (h_unreg hd); [discriminate|]. injection Hs as Hs.
    destruct (clear_step E HE keyof U HU_dir HU_key HU_inj w sp H n h hd W Hh Hroom0) as (w2 & E2 & _ & Hf & _).
    rewrite Hon in Hf. rewrite E2 in Hs. injection Hs as <- _. unfold do_clear in E2.
    destruct (handle_cases E keyof U w sp H n h hd W Hh) as (_ & _ & Up & _ & _ & x & Hx & Dx & _). rewrite Hx in *.
    destruct (i_poison x); [discriminate|]. destruct (impl_clear E w (h_inst hd) x) as [w1 [o| |]]; try discriminate.
    rewrite (HU_dir _ Up), Hon, decide_True by reflexivity.
    destruct (open_impl E w1 (h_path hd) (h_key hd)) as [w3 [y|]] eqn:Ho; [|destruct (w_insts w3 !! h_inst hd); discriminate].
    apply open_impl_file in Ho. rewrite Hon in Ho.
    assert (Hw : file_at w2 d = file_at w3 d).
    { destruct (_ && _); injection E2 as <-; reflexivity. }
    rewrite <- Hw in Ho. destruct (open_log_now w1 d []) as (l0 & E0 & _).
    eexists _, l0, _. split; [exact Ho|]. split; [exact E0|]. split.
    + eapply (file_flush _ _ _ _ d _ W'). exact Ho.
    + intros l _. destruct (open_log_now w1 d l) as (l1 & E1 & N1). rewrite E0 in E1. apply app_inj_tail in E1 as [-> _]. exact N1.
  - (* drop *)
    cbn [step] in Hs. unfold with_handle in Hs. unfold data_log.
    destruct (w_handles w !! h) as [hd|] eqn:Hh; [|discriminate]. cbn [option_map] in Hon. injection Hon as Hon.
    destruct (handle_cases E keyof U w sp H n h hd W Hh) as (Hsh & Hun & Up & _ & _ & x & Hx & Dx & I). rewrite Hun in Hs.
    rewrite Hx, decide_True by congruence. cbn [spec_step] in Hsp. rewrite Hsh in Hsp. injection Hsp as <- _.
    injection Hs as Hs. destruct (do_drop_reg w h hd) as [w1 r1] eqn:E1.
    assert (S1 : same_core w1 w /\ strong w1 (h_inst hd) = strong w (h_inst hd)).
    { clear Hs. unfold do_drop_reg in E1. rewrite (wi_poison _ _ _ _ _ _ _ W) in E1. injection E1 as <- _. split.
      - unfold same_core. destruct (Nat.eqb _ _); split_and!; reflexivity.
      - unfold strong. 
        assert (Pm : Permutation (map_to_list (w_handles w)) ((h, hd) :: map_to_list (delete h (w_handles w)))).
        { rewrite <- map_to_list_insert by apply lookup_delete. rewrite insert_delete by exact Hh. reflexivity. }
        assert (Pm' : forall w0 hd', w_handles w0 = w_handles w -> Permutation (map_to_list (<[h := hd']> (w_handles w0))) ((h, hd') :: map_to_list (delete h (w_handles w)))).
        { intros w0 hd' ->. rewrite <- insert_delete_insert. rewrite map_to_list_insert by apply lookup_delete. reflexivity. }
        cbn [set_handles w_handles]. rewrite Pm' by (destruct (Nat.eqb _ _); reflexivity). rewrite Pm.
        rewrite !filter_cons_True by reflexivity. reflexivity. }
    destruct S1 as [S1 S2]. destruct (do_drop_arc E w1 h hd) as [w2 r2] eqn:E2. injection Hs as <- _.
    unfold do_drop_arc in E2. rewrite S2 in E2. destruct (Nat.eqb_spec (strong w (h_inst hd)) 1) as [H1|H1].
    + right. right. injection E2 as <- _.
      match goal with |- context [file_at ?w0 d] => change (file_at w0 d) with (file_at (drain E w1 (h_inst hd)) d) in * end.
      assert (Hfd : file_at (drain E w1 (h_inst hd)) d = Some (inode (drain E w (h_inst hd)) (i_ino x))).
      { rewrite (core_file _ _ d (drain_core E w1 w (h_inst hd) S1)). unfold file_at.
        assert (Hdd : dir_of (drain E w (h_inst hd)) d = dir_of w d); [|rewrite Hdd, <- Hon, <- Dx, (io_data _ _ _ _ _ _ _ I); reflexivity].
        destruct (io_state _ _ _ _ _ _ _ I) as (q & rs & c & B1 & B2 & B3 & B4 & B5 & B6 & B7).
        unfold drain. rewrite Hx, B1, map_length.
        destruct (run_writes E HE q w (h_inst hd) x rs c [] Hx (io_run _ _ _ _ _ _ _ I)) as (s & rs' & Es & _); auto.
        - rewrite app_nil_r. exact B1.
        - eapply room_mono; [|exact Hroom0]. lia.
        - rewrite Es. reflexivity. }
      unfold close_log. rewrite Hx. eexists _, _, _. split; [exact Hfd|]. split; [reflexivity|]. split; [reflexivity|].
      intros l Hl. unfold drain. rewrite Hx. apply now_jobs; [exact Hx|]. apply Hl.
      unfold file_at. rewrite <- Hon, <- Dx, (io_data _ _ _ _ _ _ _ I). reflexivity.
    + left. injection E2 as <- _. split_and!; [reflexivity|apply (core_file _ _ d S1)|].
      intros Hcl. exfalso. apply H1. apply (strong_1 w h hd Hh). intros h' hd' Hh' Hi.
      destruct (decide (h' = h)) as [->|Hne]; [reflexivity|]. exfalso. apply (Hcl h'). cbn. rewrite lookup_delete_ne by congruence.
      destruct (handle_cases E keyof U w sp H n h' hd' W Hh') as (Hsh' & _ & _ & _ & _ & x' & Hx' & Dx' & _).
      rewrite Hsh'. f_equal. rewrite Hi, Hx in Hx'. injection Hx' as <-. congruence.
  - (* background *)
    right. left. cbn [step] in Hs. injection Hs as <- _. cbn [spec_step] in Hsp. injection Hsp as <- _.
    destruct (w_insts w !! i) as [x|] eqn:Hx; [|discriminate]. cbn [option_map] in Hon. injection Hon as Hon.
    destruct (wi_insts _ _ _ _ _ _ _ W i x Hx) as (_ & I & _ & h & hd & Hh & Hi).
    destruct (handle_cases E keyof U w sp H n h hd W Hh) as (Hsh & _ & _ & _ & _ & x' & Hx' & Dx & _).
    rewrite Hi, Hx in Hx'. injection Hx' as <-.
    exists i, (inode w (i_ino x)). unfold data_log. rewrite Hx, decide_True by exact Hon. unfold job_log. rewrite Hx, (io_run _ _ _ _ _ _ _ I).
    split_and!; auto.
    + intros Hcl. apply (Hcl h). congruence.
    + unfold file_at. rewrite <- Hon, (io_data _ _ _ _ _ _ _ I). reflexivity.
    + destruct (io_state _ _ _ _ _ _ _ I) as (q & rs & c & B1 & B2 & B3 & B4 & B5 & B6 & B7).
      destruct q as [|[m dup] q].
      * cbn [map] in B1. unfold run_job, job_effects. rewrite Hx, (io_run _ _ _ _ _ _ _ I), B1. unfold file_at. rewrite <- Hon, (io_data _ _ _ _ _ _ _ I). reflexivity.
      * cbn [map jw fst snd] in B1. rewrite <- (job_effects_complete E w i x m dup _ Hx (io_run _ _ _ _ _ _ _ I) B1). unfold file_at.
        assert (Hdd : dir_of (run_job E w i) d = dir_of w d); [|rewrite Hdd, <- Hon, (io_data _ _ _ _ _ _ _ I); reflexivity].
        unfold run_job. rewrite Hx, (io_run _ _ _ _ _ _ _ I), B1. unfold jw. cbn [fst snd]. destruct (write _ _ _ _ _). reflexivity.
Qed.

(** * Runs *)

(** What is known of directory [d] after any number of events. *)
Definition LogInv (w : world) (sp : spec) (l : list dev) (d : bytes) : Prop :=
  forall f, file_at w d = Some f -> now l f /\ (no_handle sp d -> flushed P l f).

Lemma run_LogInv d es : forall w sp H n l w' rs,
  WInv w sp H n -> Forall (call_ok E keyof) es -> Forall (in_U U) es -> room E (n + writes es) -> LogInv w sp l d ->
  run E w es = Some (w', rs) ->
  exists sp', spec_run canon sp es = Some (sp', rs) /\ LogInv w' sp' (l ++ run_log E data_log w es d) d /\
    ((forall i, ~ In (EIo i) es) -> (forall f, file_at w d = Some f -> flushed P l f) ->
       forall f, file_at w' d = Some f -> flushed P (l ++ run_log E data_log w es d) f).
Proof.
  induction es as [|e es IH]; intros w sp H n l w' rs W HC HU' Hroom HL Hr; cbn [run run_log spec_run] in *.
  - injection Hr as <- <-. rewrite app_nil_r. exists sp. auto.
  - inversion HC as [|? ? Hc HC']; subst. inversion HU' as [|? ? Hu HU'']; subst. rewrite writes_cons in Hroom.
    destruct (step E w e) as [[w1 r]|] eqn:Es; [|discriminate]. destruct (run E w1 es) as [[w2 rs2]|] eqn:E2; [|discriminate].
    injection Hr as <- <-.
    destruct (step_log w sp H n e w1 r d W Hc Hu ltac:(eapply room_mono; [|exact Hroom]; lia) Es) as (sp1 & Hsp1 & W1 & Hcase).
    rewrite Hsp1.
    assert (HL1 : LogInv w1 sp1 (l ++ data_log E w e d) d /\
      ((forall i, e <> EIo i) -> (forall f, file_at w d = Some f -> flushed P l f) ->
         forall f, file_at w1 d = Some f -> flushed P (l ++ data_log E w e d) f)).
    { destruct Hcase as [(L & F & G)|[(i & f & -> & G & F & L & F')|(f & l0 & m & F & L & M & N')]].
      - rewrite L, app_nil_r. split.
        + intros f Hf. rewrite F in Hf. destruct (HL f Hf) as [A B]. split; [exact A|]. intros Hn. apply B, G, Hn.
        + intros _ Hl f Hf. rewrite F in Hf. apply Hl, Hf.
      - split.
        + intros f1 Hf1. rewrite F' in Hf1. injection Hf1 as <-. rewrite L. split; [|intros Hn; destruct (G Hn)].
          apply now_eff. apply HL, F.
        + intros Hno. destruct (Hno i eq_refl).
      - assert (Hfl : forall f1, file_at w1 d = Some f1 -> flushed P (l ++ data_log E w e d) f1).
        { intros f1 Hf1. rewrite F in Hf1. injection Hf1 as <-. rewrite L, app_assoc. apply flush_sync; [|exact M].
          apply N'. intros f0 Hf0. apply HL, Hf0. }
        split; [|intros _ _; exact Hfl]. intros f1 Hf1. split; [eapply flushed_now, Hfl, Hf1|]. intros _. apply Hfl, Hf1. }
    destruct HL1 as [HL1 HF1].
    destruct (IH w1 sp1 _ _ (l ++ data_log E w e d) w2 rs2 W1 HC' HU'' ltac:(rewrite <- N.add_assoc; exact Hroom) HL1 E2) as (sp' & Hsp' & HL' & HF').
    rewrite Hsp'. exists sp'. split; [reflexivity|]. rewrite app_assoc. split; [exact HL'|].
    intros Hno Hl. apply HF'; [intros i Hi; apply (Hno i); right; exact Hi|].
    apply HF1; [|exact Hl]. intros i ->. apply (Hno i). left. reflexivity.
Qed.

End Step.

(** * The disk after the failure *)

(** Everything in the synced part is as it was. *)
Lemma image_flushed P blk l f f' : 0 < blk -> flushed P l f -> power_image blk l f' ->
  len f' = len f /\ forall o, o < map_flush P f -> o < len f -> byte_at f' o = byte_at f o.
Proof.
  intros Hb (l1 & l2 & n & -> & Hs & Hin & Hn) [(f0 & Hf0 & Hl) Hblk].
  assert (G : forall covers f0, covers n = true -> since covers (l1 ++ DVer f :: l2) f0 -> f0 = f).
  { intros covers f1 Hc (a & b & Eab & Hnn & Hcov). clear Hf0 Hl Hblk.
    assert (Hcase : (a = l1 /\ f1 = f /\ b = l2) \/ (exists c, l1 = a ++ DVer f1 :: c /\ b = c ++ DVer f :: l2) \/ (exists c, l2 = c ++ DVer f1 :: b)).
    { clear -Eab. revert a Eab. induction l1 as [|y l1 IH]; intros a Eab; destruct a as [|z a]; cbn [app] in Eab; injection Eab as E1 E2.
      - left. subst. auto.
      - right. right. exists a. exact E2.
      - right. left. exists l1. subst. auto.
      - destruct (IH a E2) as [(-> & -> & ->)|[(c & -> & ->)|(c & ->)]].
        + left. subst. auto.
        + right. left. exists c. subst. auto.
        + right. right. exists c. reflexivity. }
    destruct Hcase as [(_ & -> & _)|[(c & -> & ->)|(c & ->)]]; [reflexivity| |].
    - exfalso. apply in_split in Hin as (u & v & ->). specialize (Hcov (c ++ DVer f :: u) n v).
      rewrite <- app_assoc in Hcov. specialize (Hcov eq_refl Hc). apply Forall_app in Hcov as [_ Hcov]. inversion Hcov. discriminate.
    - exfalso. apply Forall_app in Hs as [_ Hs]. inversion Hs. discriminate. }
  pose proof (G _ _ eq_refl Hf0) as ->. split; [exact Hl|]. intros o Ho Hol.
  destruct (Hblk (o / blk)) as (f1 & Hf1 & Hbytes).
  assert (f1 = f) as ->.
  { eapply G; [|exact Hf1]. apply N.ltb_lt. pose proof (N.mul_div_le o blk ltac:(lia)). lia. }
  apply Hbytes; [|pose proof (N.mul_succ_div_gt o blk ltac:(lia)); lia|lia]. pose proof (N.mul_div_le o blk ltac:(lia)). lia.
Qed.

Lemma byte_at_eq f f' n : len f' = len f -> n <= len f -> (forall o, o < n -> byte_at f' o = byte_at f o) -> take (N.to_nat n) f' = take (N.to_nat n) f.
Proof.
  intros Hl Hn Hb. apply list_eq. intros i. destruct (decide (i < N.to_nat n)%nat) as [Hi|Hi].
  - rewrite !lookup_take by exact Hi. specialize (Hb (N.of_nat i) ltac:(lia)). unfold byte_at in Hb. rewrite Nat2N.id in Hb.
    unfold len in *. destruct (lookup_lt_is_Some_2 f i ltac:(lia)) as (b & Eb). destruct (lookup_lt_is_Some_2 f' i ltac:(lia)) as (b' & Eb').
    rewrite Eb, Eb' in *. cbn in Hb. congruence.
  - rewrite !lookup_take_ge by lia. reflexivity.
Qed.

(** Only the part in use matters. *)
Lemma WOk_same_used E (HE : env_ok E) C f f' rs c :
  codec_law C (record_pos (e_feat E)) (record_size (e_feat E)) -> WOk E C (closed_st f rs) rs c -> len f' = len f ->
  (forall o, o < map_flush (e_plat E) f -> o < len f -> byte_at f' o = byte_at f o) -> WOk E C (closed_st f' rs) rs c.
Proof.
  intros Hlaw (I & HG & HL & HS & HD) Hl Hb. destruct (eo_plat _ HE) as [H64 Hpage Hmax Hhord].
  pose proof (inv_write_offset _ _ _ _ H64 Hlaw Hmax _ _ I) as Ho. rewrite (view_full _ (inv_ml _ _ _ _ _ I)) in Ho.
  pose proof (inv_used _ _ _ _ H64 Hlaw Hmax _ _ I) as Hu.
  destruct (inv_content _ _ _ _ H64 Hlaw Hmax _ _ I) as (x & sl & Ex & Ef & Elx). cbn [closed_st s_file] in *.
  assert (Hm : map_flush (e_plat E) f = 8 + len x). { unfold map_flush. rewrite Ho. cbn. unfold used. lia. }
  rewrite Hm in Hb. unfold used in Hu. rewrite <- Elx in Hu.
  pose proof (byte_at_eq f f' (8 + len x) Hl ltac:(lia) ltac:(intros o Ho'; apply Hb; lia)) as Ht.
  assert (Hf' : f' = shape x (drop (N.to_nat (8 + len x)) f')).
  { rewrite <- (take_drop (N.to_nat (8 + len x)) f') at 1. rewrite Ht, Ef. unfold shape. rewrite app_assoc, take_app_alt; [rewrite <- app_assoc; reflexivity|].
    rewrite app_length, be_length. unfold len. lia. }
  destruct I as [A1 A2 A3 A4 A5 A6]. split_and!; cbn [closed_st s_file]; rewrite ?Hl; auto.
  split; cbn [closed_st s_file s_ml s_pos] in *; rewrite ?Hl; auto. eauto.
Qed.

(** * Reopening *)

Lemma init_LogInv E d l : LogInv E world0 spec0 l d.
Proof. intros f Hf. unfold file_at, dir_of in Hf. cbn in Hf. rewrite lookup_empty in Hf. discriminate Hf. Qed.

Lemma reach_LogInv E keyof es w rs sp d :
  ordinary E keyof es -> run E world0 es = Some (w, rs) -> spec_run (e_canon E) spec0 es = Some (sp, rs) ->
  LogInv E w sp (run_log E data_log world0 es d) d.
Proof.
  intros HO Hr Hsp.
  destruct (run_LogInv E (or_env _ _ _ HO) keyof (PU es) (PU_dir E keyof _ HO) (PU_key E keyof _ HO) (PU_inj E keyof _ HO)
    d es world0 spec0 (hist0 spec0) 0 [] w rs) as (sp' & Hsp' & HL & _).
  - apply (WInv_init E keyof).
  - apply (or_calls _ _ _ HO).
  - apply (in_U_all es [] es []). rewrite app_nil_r. reflexivity.
  - rewrite N.add_0_l. apply (or_room _ _ _ HO).
  - apply init_LogInv.
  - exact Hr.
  - rewrite Hsp in Hsp'. injection Hsp' as <-. exact HL.
Qed.

Lemma reopen_core E keyof blk es w w' d f S n rs nonce h p :
  env_ok E -> 0 < blk -> power_failure E blk es w w' -> e_dir_ok E p = true -> e_canon E p = d ->
  feature_key (e_feat E) (keyof d) <> None ->
  file_at w d = Some f -> flushed (e_plat E) (run_log E data_log world0 es d) f -> meta_ok E w' d nonce ->
  WOk E (feature_codec (e_feat E) (kof E keyof d) nonce) (closed_st f rs) rs n -> rel E (replay rs) S ->
  exists w2, step E w' (ENew h p (keyof d)) = Some (w2, ROk None) /\ answers_as E w2 h S.
Proof.
  intros HE Hb PF Hdo Hd Hkey Hf Hfl Hm HW HR. subst d. set (d := e_canon E p) in *.
  pose proof (pf_names _ _ _ _ _ PF d) as Hn. unfold file_at in Hf.
  destruct (d_data (dir_of w d)) as [ino|] eqn:Hdata; [|discriminate Hf]. injection Hf as Hf.
  assert (Hf' : file_at w' d = Some (inode w' ino)) by (unfold file_at; rewrite Hn; reflexivity).
  destruct (image_flushed (e_plat E) blk _ f (inode w' ino) Hb Hfl (pf_data _ _ _ _ _ PF d _ Hf')) as [Hl Hbytes].
  assert (Hlaw : codec_law (feature_codec (e_feat E) (kof E keyof d) nonce) (record_pos (e_feat E)) (record_size (e_feat E))).
  { apply feature_law, (eo_feat _ HE). }
  pose proof (WOk_same_used E HE _ f (inode w' ino) rs n Hlaw HW Hl Hbytes) as HW'.
  destruct (feature_key (e_feat E) (keyof d)) as [ky|] eqn:Hky; [|contradiction].
  assert (Hk' : kof E keyof d = ky) by (unfold kof; rewrite Hky; reflexivity).
  pose proof (WOk_nonempty E _ _ _ _ Hlaw HW') as Hne. cbn [closed_st s_file] in Hne.
  assert (Hnn : inode w' ino <> []). { intros G. rewrite G in Hne. unfold len in Hne. cbn in Hne. lia. }
  pose proof (open_answers E w' h p (keyof d) ky (if is_encrypted (e_feat E) then nonce else []) ino (inode w' ino)) as Ho.
  assert (HC : feature_codec (e_feat E) ky (if is_encrypted (e_feat E) then nonce else []) = feature_codec (e_feat E) (kof E keyof d) nonce).
  { rewrite Hk'. destruct (e_feat E); reflexivity. }
  rewrite HC in Ho. destruct HW' as (I & _). destruct (eo_plat _ HE) as [H64 Hpage Hmax Hhord].
  pose proof (inv_read_all _ _ _ _ H64 Hlaw Hmax _ _ I) as R1. rewrite (view_full _ (inv_ml _ _ _ _ _ I)) in R1. cbn [closed_st s_file] in R1.
  rewrite R1 in Ho. destruct Ho as (w2 & Hst & Hget).
  - apply (pf_poison _ _ _ _ _ PF).
  - rewrite (pf_handles _ _ _ _ _ PF). apply lookup_empty.
  - unfold lookup_reg. rewrite (pf_reg _ _ _ _ _ PF), lookup_empty. reflexivity.
  - exact Hdo.
  - exact Hn.
  - reflexivity.
  - exact Hnn.
  - exact Hky.
  - unfold meta_ok in Hm. destruct (e_feat E); [reflexivity|]. exact Hm.
  - exists w2. split; [exact Hst|]. intros k t Ht. rewrite Hget. unfold get_answer. rewrite (get_refines E _ _ k t HR Ht). reflexivity.
Qed.

(** A directory that was opened has its data file. *)
Lemma file_stays E keyof es d : forall w w' rs sp H n (U : bytes -> Prop),
  env_ok E -> (forall p, U p -> e_dir_ok E p = true) -> (forall p, U p -> feature_key (e_feat E) (keyof (e_canon E p)) <> None) ->
  (forall p p', U p -> U p' -> e_canon E p = e_canon E p' -> p = p') ->
  WInv E keyof U w sp H n -> Forall (call_ok E keyof) es -> Forall (in_U U) es -> room E (n + writes es) -> run E w es = Some (w', rs) ->
  (exists f, file_at w d = Some f) \/ (exists p, In p (paths es) /\ e_canon E p = d) -> exists f, file_at w' d = Some f.
Proof.
  induction es as [|e es IH]; intros w w' rs sp H n U HE U1 U2 U3 W HC HU Hroom Hr Hex; cbn [run] in Hr.
  - injection Hr as <- _. destruct Hex as [?|(p & [] & _)]. assumption.
  - inversion HC as [|? ? Hc HC']; subst. inversion HU as [|? ? Hu HU']; subst. rewrite writes_cons in Hroom.
    destruct (step E w e) as [[w1 r]|] eqn:Es; [|discriminate]. destruct (run E w1 es) as [[w2 rs2]|] eqn:E2; [|discriminate].
    injection Hr as <- <-.
    destruct (step_log E HE keyof U U1 U2 U3 w sp H n e w1 r d W Hc Hu ltac:(eapply room_mono; [|exact Hroom]; lia) Es) as (sp1 & Hsp1 & W1 & Hcase).
    eapply (IH w1 w2 rs2 sp1 _ _ U HE U1 U2 U3 W1 HC' HU' ltac:(rewrite <- N.add_assoc; exact Hroom) E2).
    destruct Hex as [(f & Hf)|(p & Hp & Hcp)].
    + left. destruct Hcase as [(_ & F & _)|[(i & f1 & _ & _ & _ & _ & F)|(f1 & _ & _ & F & _)]]; rewrite F; eauto.
    + unfold paths in Hp. cbn [flat_map] in Hp. apply in_app_or in Hp as [Hp|Hp]; [|right; eauto]. left.
      destruct e; cbn in Hp; try contradiction. destruct Hp as [->|[]].
      assert (Hh : sp_handles sp1 !! h = Some d).
      { cbn [spec_step] in Hsp1. destruct (sp_handles sp !! h); [discriminate|]. injection Hsp1 as <- _. cbn. rewrite lookup_insert. congruence. }
      pose proof (wi_handles _ _ _ _ _ _ _ W1 h) as G. rewrite Hh in G. unfold handle_ok in G.
      destruct (w_handles w1 !! h) as [hd|] eqn:Hhd; [|contradiction].
      destruct (handle_cases E keyof U w1 sp1 _ _ h hd W1 Hhd) as (Hsh & _ & _ & _ & _ & x & Hx & Dx & I).
      pose proof (io_data _ _ _ _ _ _ _ I) as Hdata. rewrite Dx in Hdata. rewrite Hh in Hsh. injection Hsh as Hsh. rewrite <- Hsh in Hdata.
      unfold file_at. rewrite Hdata. eexists. reflexivity.
Qed.

Lemma file_exists E keyof es w rs p :
  ordinary E keyof es -> run E world0 es = Some (w, rs) -> In p (paths es) -> exists f, file_at w (e_canon E p) = Some f.
Proof.
  intros HO Hr Hp.
  eapply (file_stays E keyof es (e_canon E p) world0 w rs spec0 (hist0 spec0) 0 (PU es) (or_env _ _ _ HO) (PU_dir E keyof _ HO) (PU_key E keyof _ HO) (PU_inj E keyof _ HO)).
  - apply (WInv_init E keyof).
  - apply (or_calls _ _ _ HO).
  - apply (in_U_all es [] es []). rewrite app_nil_r. reflexivity.
  - rewrite N.add_0_l. apply (or_room _ _ _ HO).
  - exact Hr.
  - right. eauto.
Qed.

(** No live instance without a handle. *)
Lemma no_handle_inst E keyof U w sp H n d : WInv E keyof U w sp H n -> no_handle sp d -> forall i x, w_insts w !! i = Some x -> i_dir x <> d.
Proof.
  intros W Hn i x Hx Dx. destruct (wi_insts _ _ _ _ _ _ _ W i x Hx) as (_ & _ & _ & h & hd & Hh & Hi).
  destruct (handle_cases E keyof U w sp H n h hd W Hh) as (Hsh & _ & _ & _ & _ & x' & Hx' & Dx' & _).
  apply (Hn h). rewrite Hsh. f_equal. rewrite Hi, Hx in Hx'. injection Hx' as <-. congruence.
Qed.

(** * C75 *)

(** The directory's nonce file came through (nothing to ask in the plain build). *)
Definition nonce_intact (E : env) (w w' : world) (d : bytes) : Prop :=
  is_encrypted (e_feat E) = true -> d_meta (dir_of w' d) = d_meta (dir_of w d).

Lemma meta_intact E w w' d nonce : nonce_intact E w w' d -> meta_ok E w d nonce -> meta_ok E w' d nonce.
Proof. unfold nonce_intact, meta_ok. destruct (e_feat E); [auto|]. intros H. rewrite H by reflexivity. auto. Qed.

Lemma closed_survives E keyof blk es w rs sp w' h p :
  ordinary E keyof es -> run E world0 es = Some (w, rs) -> spec_run (e_canon E) spec0 es = Some (sp, rs) ->
  In p (paths es) -> no_handle sp (e_canon E p) -> 0 < blk -> power_failure E blk es w w' -> nonce_intact E w w' (e_canon E p) ->
  exists w2, step E w' (ENew h p (keyof (e_canon E p))) = Some (w2, ROk None) /\ answers_as E w2 h (contents sp (e_canon E p)).
Proof.
  intros HO Hr Hsp Hp Hno Hb PF HM. set (d := e_canon E p) in *.
  destruct (file_exists E keyof es w rs p HO Hr Hp) as (f & Hf). fold d in Hf.
  destruct (reach_LogInv E keyof es w rs sp d HO Hr Hsp f Hf) as [_ Hfl]. specialize (Hfl Hno).
  destruct (reach E keyof es HO w rs Hr) as (sp' & Hsp' & W). rewrite Hsp in Hsp'. injection Hsp' as <-.
  pose proof (dir_ok_clean _ _ _ _ _ _ (wi_dirs _ _ _ _ _ _ _ W d (no_handle_inst _ _ _ _ _ _ _ _ W Hno))) as G.
  pose proof Hf as Hf0. unfold file_at in Hf. destruct (d_data (dir_of w d)) as [ino|]; [|discriminate Hf]. injection Hf as <-.
  destruct G as (rs2 & nonce & M & HW & R). destruct (PU_call E keyof es HO p Hp) as [Hdo Hkey].
  eapply reopen_core; eauto using meta_intact. apply (or_env _ _ _ HO).
Qed.

(** Plain build: once the last handle of a store is dropped, a power failure
    cannot lose anything it held, whatever else the machine was doing. *)
Theorem C75_closed_store_survives E keyof blk es w rs sp w' h p :
  e_feat E = FPlain -> ordinary E keyof es -> run E world0 es = Some (w, rs) -> spec_run (e_canon E) spec0 es = Some (sp, rs) ->
  In p (paths es) -> (forall h', sp_handles sp !! h' <> Some (e_canon E p)) -> 0 < blk -> power_failure E blk es w w' ->
  exists w2, step E w' (ENew h p (keyof (e_canon E p))) = Some (w2, ROk None) /\ answers_as E w2 h (contents sp (e_canon E p)).
Proof.
  intros HF HO Hr Hsp Hp Hno Hb PF. eapply closed_survives; eauto. intros Henc. rewrite HF in Henc. discriminate Henc.
Qed.

(** The same for the whole machine: when every handle has been dropped, any
    further calls are answered as if nothing had happened. *)
Lemma all_closed_survives E keyof blk es es' w rs sp w' :
  ordinary E keyof (es ++ es') -> run E world0 es = Some (w, rs) -> spec_run (e_canon E) spec0 es = Some (sp, rs) ->
  sp_handles sp = ∅ -> 0 < blk -> power_failure E blk es w w' -> (forall d, nonce_intact E w w' d) ->
  forall w2 rs2, run E w' es' = Some (w2, rs2) -> exists sp2, spec_run (e_canon E) sp es' = Some (sp2, rs2).
Proof.
  intros HO Hr Hsp Hno Hb PF HM w2 rs2 Hrun.
  destruct (reach_prefix E keyof _ HO es es' w rs eq_refl Hr) as (sp' & Hsp' & W). rewrite Hsp in Hsp'. injection Hsp' as <-.
  pose proof (ordinary_app_l _ _ _ _ HO) as HO1.
  assert (Hnh : forall d, no_handle sp d) by (intros d h; rewrite Hno, lookup_empty; discriminate).
  assert (W' : WInv E keyof (PU (es ++ es')) w' sp (hist0 sp) (writes es)).
  { split.
    - apply (pf_poison _ _ _ _ _ PF).
    - intros d. split; reflexivity.
    - intros h. rewrite (pf_handles _ _ _ _ _ PF), Hno, !lookup_empty. exact Logic.I.
    - intros p i. rewrite (pf_reg _ _ _ _ _ PF), lookup_empty. discriminate.
    - intros i x. rewrite (pf_insts _ _ _ _ _ PF), lookup_empty. discriminate.
    - intros d _. pose proof (dir_ok_clean _ _ _ _ _ _ (wi_dirs _ _ _ _ _ _ _ W d (no_handle_inst _ _ _ _ _ _ _ _ W (Hnh d)))) as G.
      unfold dir_ok. rewrite (pf_names _ _ _ _ _ PF d). destruct (d_data (dir_of w d)) as [ino|] eqn:Hdata; [|exact G].
      destruct G as (rs3 & nonce & M & HW & R). left. exists rs3, nonce, (closed_st (inode w' ino) rs3).
      split; [eapply meta_intact; eauto|]. split; [reflexivity|]. split; [|exact R].
      assert (Hf : file_at w d = Some (inode w ino)) by (unfold file_at; rewrite Hdata; reflexivity).
      assert (Hf' : file_at w' d = Some (inode w' ino)) by (unfold file_at; rewrite (pf_names _ _ _ _ _ PF d), Hdata; reflexivity).
      destruct (reach_LogInv E keyof es w rs sp d HO1 Hr Hsp _ Hf) as [_ Hfl].
      destruct (image_flushed (e_plat E) blk _ _ _ Hb (Hfl (Hnh d)) (pf_data _ _ _ _ _ PF d _ Hf')) as [Hl Hbytes].
      eapply WOk_same_used; eauto; [apply (or_env _ _ _ HO)|]. apply feature_law, (eo_feat _ (or_env _ _ _ HO)).
    - intros d i. rewrite (pf_names _ _ _ _ _ PF d), (pf_next_ino _ _ _ _ _ PF). apply (wi_fresh _ _ _ _ _ _ _ W).
    - intros d d' i. rewrite !(pf_names _ _ _ _ _ PF). apply (wi_ino _ _ _ _ _ _ _ W). }
  pose proof (or_calls _ _ _ HO) as HF. apply Forall_app in HF as [_ HF].
  pose proof (run_ok E (or_env _ _ _ HO) keyof _ (PU_dir E keyof _ HO) (PU_key E keyof _ HO) (PU_inj E keyof _ HO) es' w' sp (hist0 sp)
    (writes es) W' HF) as G.
  specialize (G (in_U_all (es ++ es') es es' [] ltac:(rewrite app_nil_r; reflexivity))).
  rewrite Hrun in G. rewrite <- writes_app in G. specialize (G (or_room _ _ _ HO)).
  destruct (spec_run (e_canon E) sp es') as [[sp2 r]|]; [|contradiction]. destruct G as [-> _]. eauto.
Qed.

Theorem C75_all_closed_nothing_lost E keyof blk es es' w rs sp w' :
  e_feat E = FPlain -> ordinary E keyof (es ++ es') -> run E world0 es = Some (w, rs) -> spec_run (e_canon E) spec0 es = Some (sp, rs) ->
  sp_handles sp = ∅ -> 0 < blk -> power_failure E blk es w w' ->
  forall w2 rs2, run E w' es' = Some (w2, rs2) -> exists sp2, spec_run (e_canon E) sp es' = Some (sp2, rs2).
Proof.
  intros HF HO Hr Hsp Hno Hb PF. eapply all_closed_survives; eauto. intros d Henc. rewrite HF in Henc. discriminate Henc.
Qed.

(** * The log of the nonce file *)

Lemma meta_run_job E w i d m : meta_at (run_job E w i) d = Some m -> meta_at w d = Some m.
Proof.
  unfold run_job. destruct (w_insts w !! i) as [x|]; [|auto]. destruct (i_io x); [|auto]. destruct (i_queue x) as [|[kv dup|] q]; [auto| |].
  - destruct (write _ _ _ _ _). auto.
  - unfold meta_at. erewrite dir_of_insert by reflexivity. destruct (decide (i_dir x = d)) as [<-|]; [|auto]. cbn [d_meta].
    destruct (is_encrypted (e_feat E)); [discriminate|auto].
Qed.

Lemma meta_iter E i d m n : forall w, meta_at (Nat.iter n (fun w => run_job E w i) w) d = Some m -> meta_at w d = Some m.
Proof. induction n as [|n IH]; intros w Hm; [exact Hm|]. apply IH. rewrite Nat.iter_succ in Hm. apply meta_run_job in Hm. exact Hm. Qed.

Lemma meta_drain E w i d m : meta_at (drain E w i) d = Some m -> meta_at w d = Some m.
Proof. unfold drain. destruct (w_insts w !! i) as [x|]; [apply meta_iter|auto]. Qed.

Lemma meta_clear E w i x w1 r d m : impl_clear E w i x = (w1, r) -> meta_at w1 d = Some m -> meta_at w d = Some m.
Proof.
  unfold impl_clear. destruct (negb (i_valid x)); [intros [= <- _]; auto|]. destruct (post (i_invalid x) JRemove) as [x1 r1].
  destruct r1; try (intros [= <- _]; auto). destruct (w_insts (drain E (set_inst w i x1) i) !! i) as [x2|] eqn:Hx2.
  - intros [= <- _] Hm. apply (meta_drain E (set_inst w i x1) i d m Hm).
  - intros [= <- _] Hm. apply (meta_drain E (set_inst w i x1) i d m Hm).
Qed.

Lemma open_impl_meta E w p key w1 y l : open_impl E w p key = (w1, Some y) ->
  (forall m, meta_at w (e_canon E p) = Some m -> now l m) ->
  forall m, meta_at w1 (e_canon E p) = Some m -> now (l ++ nonce_log E w (e_canon E p)) m.
Proof.
  unfold open_impl. destruct (e_dir_ok E p); [|discriminate]. cbv zeta. set (d := e_canon E p).
  destruct (open_config E w d) as [w2 ino] eqn:Ho.
  assert (H2 : meta_at w2 d = meta_at w d /\ w_rng w2 = w_rng w).
  { unfold open_config in Ho. destruct (d_data (dir_of w d)) as [i|] eqn:Hd; injection Ho as <- <-; [split; reflexivity|].
    unfold meta_at, dir_of. cbn. rewrite lookup_insert. split; reflexivity. }
  destruct H2 as [H2 H2'].
  destruct (feature_key (e_feat E) key) as [k|]; [|discriminate].
  destruct (open_nonce E w2 d) as [w3 nonce] eqn:Hn. intros Hopen Hl m Hm.
  assert (w1 = w3) as ->. { destruct (open_file _ _ _ _) as [[s mm]|]; [|discriminate]. injection Hopen as <- _. reflexivity. }
  unfold open_nonce in Hn. unfold nonce_log. unfold meta_at in H2. rewrite <- H2, <- H2'. destruct (is_encrypted (e_feat E)).
  - destruct (init_nonce (d_meta (dir_of w2 d)) (e_rng E (w_rng w2))) as [n m'] eqn:Hi. injection Hn as <- _.
    unfold meta_at, dir_of in Hm. cbn in Hm. rewrite lookup_insert in Hm. cbn in Hm. injection Hm as <-.
    unfold init_nonce in Hi. destruct (d_meta (dir_of w2 d)) as [m0|] eqn:Hm0.
    + destruct (Nat.eqb (length m0) nonce_len).
      * injection Hi as <- <-. rewrite app_nil_r. apply Hl. unfold meta_at. congruence.
      * injection Hi as <- <-. exists (l ++ [DNew; DVer []]), []. split; [rewrite <- app_assoc; reflexivity|constructor].
    + injection Hi as <- <-. exists (l ++ [DNew; DVer []]), []. split; [rewrite <- app_assoc; reflexivity|constructor].
  - injection Hn as <- _. rewrite app_nil_r. apply Hl. unfold meta_at in *. congruence.
Qed.

Lemma step_meta E keyof (U : bytes -> Prop) w sp H n e w' r d l :
  env_ok E -> (forall p, U p -> e_dir_ok E p = true) -> (forall p, U p -> feature_key (e_feat E) (keyof (e_canon E p)) <> None) ->
  (forall p p', U p -> U p' -> e_canon E p = e_canon E p' -> p = p') ->
  WInv E keyof U w sp H n -> call_ok E keyof e -> in_U U e -> room E (n + wcount e) -> step E w e = Some (w', r) ->
  (forall m, meta_at w d = Some m -> now l m) -> forall m, meta_at w' d = Some m -> now (l ++ meta_log E w e d) m.
Proof.
  intros HE U1 U2 U3 W Hc HUe Hroom Hs Hl.
  pose proof (step_ok E HE keyof U U1 U2 U3 w sp H n e W Hc HUe Hroom) as Hok. rewrite Hs in Hok.
  destruct (spec_step (e_canon E) sp e) as [[sp' r']|] eqn:Hsp; [|contradiction]. destruct Hok as [<- W'].
  assert (Hroom0 : room E n) by (eapply room_mono; [|exact Hroom]; lia).
  assert (Same : opens E w e = None -> (forall m, meta_at w' d = Some m -> meta_at w d = Some m) -> forall m, meta_at w' d = Some m -> now (l ++ meta_log E w e d) m).
  { intros Ho Hm m Hm'. unfold meta_log. rewrite Ho, app_nil_r. apply Hl, Hm, Hm'. }
  destruct (decide (works_on E w e = Some d)) as [Hon|Hoff]; cycle 1.
  { destruct (step_frame E HE keyof U U1 U2 U3 w sp H n e w' r d W Hc Hroom0 Hs Hoff) as [_ Hf]. intros m Hm. rewrite Hf in Hm.
    assert (meta_log E w e d = []) as ->; [|rewrite app_nil_r; apply Hl, Hm].
    unfold meta_log. destruct e as [h path key|h key v|h key|h key t|h key t|h key|h|h|h|h|i|]; cbn [call_ok] in Hc; try contradiction;
      cbn [works_on opens] in *; try reflexivity.
    - destruct (w_poison w); [reflexivity|]. destruct (lookup_reg w path); [reflexivity|].
      destruct (e_dir_ok E path); [|reflexivity]. rewrite decide_False by congruence. reflexivity.
    - destruct (w_handles w !! h) as [hd|]; [|reflexivity]. destruct (w_insts w !! h_inst hd) as [x|]; [|reflexivity].
      destruct (i_poison x); [reflexivity|]. destruct (impl_clear E w (h_inst hd) x) as [w1 [o| |]]; try reflexivity.
      destruct (e_dir_ok E (h_path hd)); [|reflexivity]. cbn [option_map] in Hoff. rewrite decide_False by congruence. reflexivity. }
  destruct e as [h path key|h key v|h key|h key t|h key t|h key|h|h|h|h|i|]; cbn [call_ok] in Hc; try contradiction;
    cbn [works_on] in Hon.
  - injection Hon as Hon. cbn [step] in Hs. destruct (w_handles w !! h) eqn:Hh; [discriminate|]. injection Hs as Hs.
    cbn [spec_step] in Hsp. destruct (sp_handles sp !! h) eqn:Hsh; [discriminate|]. injection Hsp as <- Hr.
    unfold do_new in Hs. unfold meta_log. cbn [opens]. destruct Hc as (Hdo & -> & _).
    rewrite (wi_poison _ _ _ _ _ _ _ W) in *. destruct (lookup_reg w path) as [i|].
    + injection Hs as <- _. rewrite app_nil_r. exact Hl.
    + rewrite Hdo, Hon, decide_True by reflexivity.
      destruct (open_impl E w path (keyof (e_canon E path))) as [w1 [y|]] eqn:Ho; [|injection Hs as _ <-; discriminate Hr].
      intros m Hm. rewrite <- Hon in *. eapply open_impl_meta; [exact Ho|exact Hl|]. injection Hs as <- _. exact Hm.
  - apply Same; [reflexivity|]. cbn [step] in Hs. unfold with_handle, on_inst in Hs.
    destruct (w_handles w !! h) as [hd|]; [|discriminate]. destruct (h_unreg hd); [discriminate|]. injection Hs as Hs.
    destruct (w_insts w !! h_inst hd) as [x|]; [|injection Hs as <- _; auto].
    destruct (inst_put x key v). injection Hs as <- _. auto.
  - apply Same; [reflexivity|]. cbn [step] in Hs. unfold with_handle, on_inst in Hs.
    destruct (w_handles w !! h) as [hd|]; [|discriminate]. destruct (h_unreg hd); [discriminate|]. injection Hs as Hs.
    destruct (w_insts w !! h_inst hd) as [x|]; injection Hs as <- _; auto.
  - apply Same; [reflexivity|]. cbn [step] in Hs. unfold with_handle, on_inst in Hs.
    destruct (w_handles w !! h) as [hd|]; [|discriminate]. destruct (h_unreg hd); [discriminate|]. injection Hs as Hs.
    destruct (w_insts w !! h_inst hd) as [x|]; [|injection Hs as <- _; auto].
    destruct (inst_delete x key). injection Hs as <- _. auto.
  - cbn [step] in Hs. unfold with_handle in Hs. unfold meta_log. cbn [opens].
    destruct (w_handles w !! h) as [hd|] eqn:Hh; [|discriminate]. cbn [option_map] in Hon. injection Hon as Hon.
    destruct (h_unreg hd); [discriminate|]. injection Hs as Hs.
    destruct (clear_step E HE keyof U U1 U2 U3 w sp H n h hd W Hh Hroom0) as (w2 & E2 & _ & _).
    rewrite E2 in Hs. injection Hs as <- _. unfold do_clear in E2.
    destruct (handle_cases E keyof U w sp H n h hd W Hh) as (_ & _ & Up & _ & _ & x & Hx & Dx & _). rewrite Hx in *.
    destruct (i_poison x); [discriminate|]. destruct (impl_clear E w (h_inst hd) x) as [w1 [o| |]] eqn:Hic; try discriminate.
    rewrite (U1 _ Up), Hon, decide_True by reflexivity.
    destruct (open_impl E w1 (h_path hd) (h_key hd)) as [w3 [y|]] eqn:Ho; [|destruct (w_insts w3 !! h_inst hd); discriminate].
    assert (Hw : meta_at w2 d = meta_at w3 d).
    { destruct (_ && _); injection E2 as <-; reflexivity. }
    rewrite Hw, <- Hon. eapply open_impl_meta; [exact Ho|]. intros m Hm. apply Hl. rewrite <- Hon. eapply meta_clear; eassumption.
  - apply Same; [reflexivity|]. cbn [step] in Hs. unfold with_handle in Hs.
    destruct (w_handles w !! h) as [hd|] eqn:Hh; [|discriminate]. destruct (h_unreg hd); [discriminate|]. injection Hs as Hs.
    destruct (do_drop_reg w h hd) as [w1 r1] eqn:E1. destruct (do_drop_arc E w1 h hd) as [w2 r2] eqn:E2. injection Hs as <- _.
    assert (S1 : meta_at w1 d = meta_at w d).
    { unfold do_drop_reg in E1. destruct (w_poison w); injection E1 as <- _; [reflexivity|]. destruct (Nat.eqb _ _); reflexivity. }
    intros m Hm. rewrite <- S1. unfold do_drop_arc in E2. destruct (Nat.eqb _ _); injection E2 as <- _.
    + apply (meta_drain E w1 (h_inst hd) d m Hm).
    + exact Hm.
  - apply Same; [reflexivity|]. cbn [step] in Hs. injection Hs as <- _. intros m. apply meta_run_job.
Qed.

Lemma run_meta E keyof (U : bytes -> Prop) d es : forall w sp H n l w' rs,
  env_ok E -> (forall p, U p -> e_dir_ok E p = true) -> (forall p, U p -> feature_key (e_feat E) (keyof (e_canon E p)) <> None) ->
  (forall p p', U p -> U p' -> e_canon E p = e_canon E p' -> p = p') ->
  WInv E keyof U w sp H n -> Forall (call_ok E keyof) es -> Forall (in_U U) es -> room E (n + writes es) ->
  (forall m, meta_at w d = Some m -> now l m) -> run E w es = Some (w', rs) ->
  forall m, meta_at w' d = Some m -> now (l ++ run_log E meta_log w es d) m.
Proof.
  induction es as [|e es IH]; intros w sp H n l w' rs HE U1 U2 U3 W HC HU Hroom Hl Hr; cbn [run run_log] in *.
  - injection Hr as <- _. rewrite app_nil_r. exact Hl.
  - inversion HC as [|? ? Hc HC']; subst. inversion HU as [|? ? Hu HU']; subst. rewrite writes_cons in Hroom.
    destruct (step E w e) as [[w1 r]|] eqn:Es; [|discriminate]. destruct (run E w1 es) as [[w2 rs2]|] eqn:E2; [|discriminate].
    injection Hr as <- <-. assert (Hroom1 : room E (n + wcount e)) by (eapply room_mono; [|exact Hroom]; lia).
    destruct (step_log E HE keyof U U1 U2 U3 w sp H n e w1 r d W Hc Hu Hroom1 Es) as (sp1 & _ & W1 & _).
    rewrite app_assoc. eapply (IH w1 sp1); eauto; [rewrite <- N.add_assoc; exact Hroom|].
    eapply step_meta; eauto.
Qed.

Lemma reach_meta E keyof es w rs d m :
  ordinary E keyof es -> run E world0 es = Some (w, rs) -> meta_at w d = Some m -> now (run_log E meta_log world0 es d) m.
Proof.
  intros HO Hr.
  refine (run_meta E keyof (PU es) d es world0 spec0 (hist0 spec0) 0 [] w rs (or_env _ _ _ HO) (PU_dir E keyof _ HO) (PU_key E keyof _ HO) (PU_inj E keyof _ HO)
    _ (or_calls _ _ _ HO) _ _ _ Hr m).
  - apply (WInv_init E keyof).
  - apply (in_U_all es [] es []). rewrite app_nil_r. reflexivity.
  - rewrite N.add_0_l. apply (or_room _ _ _ HO).
  - intros m0 Hm. unfold meta_at, dir_of in Hm. cbn in Hm. rewrite lookup_empty in Hm. discriminate Hm.
Qed.

(** * Some images *)

Lemma now_since covers l f : now l f -> since covers l f.
Proof.
  intros (l1 & l2 & -> & Hs). exists l1, l2. split; [reflexivity|]. split.
  - eapply List.Forall_impl; [|exact Hs]. intros [| |] Hx; cbn in *; congruence.
  - intros a n c -> _. apply Forall_app in Hs as [Hs _]. exact Hs.
Qed.

Lemma since_image blk l f : (forall covers, since covers l f) -> power_image blk l f.
Proof. intros H. split; [exists f; split; [apply H|reflexivity]|]. intros j. exists f. split; [apply H|reflexivity]. Qed.

(** Everything may have reached the disk; and one file may be another image. *)
Lemma one_file_lost E keyof blk es w rs d ino f' :
  ordinary E keyof es -> run E world0 es = Some (w, rs) -> d_data (dir_of w d) = Some ino ->
  power_image blk (run_log E data_log world0 es d) f' -> power_failure E blk es w (killed (set_inode w ino f')).
Proof.
  intros HO Hr Hd Hi. destruct (reach E keyof es HO w rs Hr) as (sp & Hsp & W).
  split; try reflexivity.
  - intros d' f1 Hf. unfold file_at in Hf. change (dir_of (killed (set_inode w ino f')) d') with (dir_of w d') in Hf.
    destruct (d_data (dir_of w d')) as [ino'|] eqn:Hd'; [|discriminate]. cbn [option_map] in Hf. injection Hf as Hf. unfold inode in Hf. cbn in Hf.
    destruct (decide (d' = d)) as [->|Hne].
    + rewrite Hd in Hd'. injection Hd' as <-. rewrite lookup_insert in Hf. cbn in Hf. subst f1. exact Hi.
    + rewrite lookup_insert_ne in Hf. 2:{ intros ->. apply Hne. eapply (wi_ino _ _ _ _ _ _ _ W); eassumption. }
      apply since_image. intros covers. apply now_since.
      apply (reach_LogInv E keyof es w rs sp d' HO Hr Hsp). unfold file_at. rewrite Hd'. cbn. f_equal. exact Hf.
  - intros d'. change (dir_of (killed (set_inode w ino f')) d') with (dir_of w d').
    destruct (d_meta (dir_of w d')) as [m|] eqn:Hm; [|exact Logic.I]. apply since_image. intros covers. apply now_since.
    eapply reach_meta; eauto.
Qed.

Lemma one_nonce_lost E keyof blk es w rs d m m' :
  ordinary E keyof es -> run E world0 es = Some (w, rs) -> d_meta (dir_of w d) = Some m ->
  power_image blk (run_log E meta_log world0 es d) m' ->
  power_failure E blk es w (killed (set_dir w d (Dir (d_data (dir_of w d)) (Some m')))).
Proof.
  intros HO Hr Hd Hi. destruct (reach E keyof es HO w rs Hr) as (sp & Hsp & W).
  assert (G : forall d', dir_of (killed (set_dir w d (Dir (d_data (dir_of w d)) (Some m')))) d' =
    if decide (d = d') then Dir (d_data (dir_of w d)) (Some m') else dir_of w d').
  { intros d'. erewrite dir_of_insert by reflexivity. reflexivity. }
  split; try reflexivity.
  - intros d'. rewrite G. destruct (decide (d = d')) as [<-|]; reflexivity.
  - intros d' f1 Hf. apply since_image. intros covers. apply now_since. apply (reach_LogInv E keyof es w rs sp d' HO Hr Hsp).
    rewrite <- Hf. unfold file_at. rewrite G. destruct (decide (d = d')) as [<-|]; reflexivity.
  - intros d'. rewrite G. destruct (decide (d = d')) as [<-|].
    + rewrite Hd. exact Hi.
    + destruct (d_meta (dir_of w d')) as [m0|] eqn:Hm; [|exact Logic.I]. apply since_image. intros covers. apply now_since.
      eapply reach_meta; eauto.
Qed.

(** * C76 *)

(** Encrypted build: the same as long as the nonce file came through.
    Missing: nothing makes it come through (below). *)
Theorem C76_closed_store_survives_partial E keyof blk es w rs sp w' h p :
  ordinary E keyof es -> run E world0 es = Some (w, rs) -> spec_run (e_canon E) spec0 es = Some (sp, rs) ->
  In p (paths es) -> (forall h', sp_handles sp !! h' <> Some (e_canon E p)) -> 0 < blk -> power_failure E blk es w w' ->
  d_meta (dir_of w' (e_canon E p)) = d_meta (dir_of w (e_canon E p)) ->
  exists w2, step E w' (ENew h p (keyof (e_canon E p))) = Some (w2, ROk None) /\ answers_as E w2 h (contents sp (e_canon E p)).
Proof. intros HO Hr Hsp Hp Hno Hb PF HM. eapply closed_survives; eauto. intros _. exact HM. Qed.

(** The wished-for property, in any build. *)
Definition closed_store_survives (E : env) : Prop :=
  forall keyof blk es w rs sp w' h p,
  ordinary E keyof es -> run E world0 es = Some (w, rs) -> spec_run (e_canon E) spec0 es = Some (sp, rs) ->
  In p (paths es) -> (forall h', sp_handles sp !! h' <> Some (e_canon E p)) -> 0 < blk -> power_failure E blk es w w' ->
  exists w2, step E w' (ENew h p (keyof (e_canon E p))) = Some (w2, ROk None) /\ answers_as E w2 h (contents sp (e_canon E p)).

(** Nothing ever syncs a nonce file: after a power failure it may be found
    empty, however long ago it was written and whatever was closed since. *)
Definition unsynced (l : list dev) : Prop := l = [] \/ exists l0 n, l = l0 ++ [DNew; DVer []; DVer n].

Lemma unsynced_app a b : unsynced a -> unsynced b -> unsynced (a ++ b).
Proof.
  intros Ha [->|(l0 & n & ->)]; [rewrite app_nil_r; exact Ha|]. right. exists (a ++ l0), n. rewrite app_assoc. reflexivity.
Qed.

Lemma run_unsynced E d es : forall w, unsynced (run_log E meta_log w es d).
Proof.
  induction es as [|e es IH]; intros w; cbn [run_log]; [left; reflexivity|]. apply unsynced_app.
  - unfold meta_log. destruct (opens E w e) as [[w1 d']|]; [|left; reflexivity]. destruct (decide (d' = d)); [|left; reflexivity].
    unfold nonce_log. destruct (is_encrypted (e_feat E)); [|left; reflexivity]. destruct (init_nonce _ _) as [n0 m0].
    assert (G : unsynced [DNew; DVer []; DVer n0]) by (right; exists [], n0; reflexivity).
    destruct (d_meta (dir_of w1 d)) as [m1|]; [destruct (Nat.eqb _ _); [left; reflexivity|]|]; exact G.
  - destruct (step E w e) as [[w1 r]|]; [apply IH|left; reflexivity].
Qed.

Theorem C76_nonce_file_may_be_lost E keyof blk es w rs d m :
  ordinary E keyof es -> run E world0 es = Some (w, rs) -> d_meta (dir_of w d) = Some m ->
  exists w', power_failure E blk es w w' /\ d_meta (dir_of w' d) = Some [] /\ file_at w' d = file_at w d.
Proof.
  intros HO Hr Hm. eexists. split; [apply (one_nonce_lost E keyof blk es w rs d m [] HO Hr Hm)|].
  - apply since_image. intros covers. pose proof (reach_meta E keyof es w rs d m HO Hr Hm) as (l1 & l2 & El & _).
    destruct (run_unsynced E d es world0) as [G|(l0 & n & G)].
    + rewrite G in El. destruct l1; discriminate El.
    + rewrite G. exists (l0 ++ [DNew]), [DVer n]. split; [rewrite <- app_assoc; reflexivity|]. split; [repeat constructor|].
      intros a k c Ha _. destruct a as [|? [|]]; discriminate Ha.
  - unfold file_at. erewrite dir_of_insert by reflexivity. rewrite decide_True by reflexivity. split; reflexivity.
Qed.

(** An encrypted store is opened, a value put, the store closed. *)
Definition ex_closed : list event := [ENew 0 dir_d ex_key; EPut 0 k1 (VI32 5); EIo 0; EPut 0 k2 hello; EDrop 0].

Theorem C76_closed_store_survives_refuted : ~ closed_store_survives (ex_env (FEncrypted toy_aead)).
Proof.
  intros H. set (E := ex_env (FEncrypted toy_aead)) in *.
  assert (T : match run E world0 ex_closed with
    | Some (w, _) =>
        let w' := killed (set_dir w dir_d (Dir (d_data (dir_of w dir_d)) (Some []))) in
        match d_meta (dir_of w dir_d) with Some _ => true | None => false end &&
        match step E w' (ENew 0 dir_d ex_key) with
        | Some (w2, _) => match step E w2 (EGet 0 k1 TI32) with Some (_, ROk (Some (VI32 5))) => false | _ => true end
        | None => true
        end
    | None => false end = true) by (vm_compute; reflexivity).
  assert (Tl : run_log E meta_log world0 ex_closed dir_d = [DNew; DVer []; DVer (be 11 1)]) by (vm_compute; reflexivity).
  destruct (run E world0 ex_closed) as [[w rs]|] eqn:Hr; [|discriminate T].
  assert (HO : ordinary E ex_keyof ex_closed). { apply ordinaryb_ok; [apply ex_env_ok; apply toy_aead_correct|vm_compute; reflexivity]. }
  destruct (reach E ex_keyof ex_closed HO w rs Hr) as (sp & Hsp & _).
  cbv zeta in T. apply andb_true_iff in T as [Tm T]. destruct (d_meta (dir_of w dir_d)) as [m|] eqn:Hm; [|discriminate Tm].
  assert (Hd : e_canon E dir_d = dir_d) by (vm_compute; reflexivity).
  destruct (H ex_keyof 64 ex_closed w rs sp (killed (set_dir w dir_d (Dir (d_data (dir_of w dir_d)) (Some [])))) 0 dir_d HO Hr Hsp) as (w2 & Hnew & Hans).
  - left. reflexivity.
  - rewrite Hd. intros h'. assert (Hs : option_map (fun x => bool_decide (sp_handles x.1 = ∅)) (spec_run (e_canon E) spec0 ex_closed) = Some true) by (vm_compute; reflexivity).
    rewrite Hsp in Hs. cbn [option_map fst] in Hs. injection Hs as Hs. apply bool_decide_eq_true in Hs. rewrite Hs, lookup_empty. discriminate.
  - lia.
  - apply (one_nonce_lost E ex_keyof 64 ex_closed w rs dir_d m [] HO Hr Hm). rewrite Tl. apply since_image. intros covers. exists [DNew], [DVer (be 11 1)].
    split; [reflexivity|]. split; [repeat constructor|]. intros a n c Ha _. destruct a as [|? [|]]; discriminate Ha.
  - rewrite Hd in Hnew, Hans. change (ex_keyof dir_d) with ex_key in Hnew. rewrite Hnew in T.
    assert (Hc : option_map (fun x => contents x.1 dir_d !! k1) (spec_run (e_canon E) spec0 ex_closed) = Some (Some (VI32 5))) by (vm_compute; reflexivity).
    rewrite Hsp in Hc. cbn [option_map fst] in Hc. injection Hc as Hc.
    assert (Hg : get_ok TI32) by (eexists; reflexivity).
    specialize (Hans k1 TI32 Hg). rewrite Hans in T. unfold spec_get in T. rewrite Hc in T. vm_compute in T. discriminate T.
Qed.

(** * C77 *)

(** As long as no background job ran since the store was last closed, the
    state at the last close survives.  Missing: power failures after a
    background write that was not followed by a close (below). *)
Theorem C77_no_background_work_partial E keyof blk es1 es2 w w1 rs rs1 sp1 w' h p :
  ordinary E keyof (es1 ++ es2) -> run E world0 (es1 ++ es2) = Some (w, rs) ->
  run E world0 es1 = Some (w1, rs1) -> spec_run (e_canon E) spec0 es1 = Some (sp1, rs1) ->
  (forall h', sp_handles sp1 !! h' <> Some (e_canon E p)) -> (forall i, ~ In (EIo i) es2) -> In p (paths (es1 ++ es2)) ->
  0 < blk -> power_failure E blk (es1 ++ es2) w w' -> nonce_intact E w w' (e_canon E p) ->
  exists s' w2, killed_to E (es1 ++ es2) w s' /\
    step E w' (ENew h p (keyof (e_canon E p))) = Some (w2, ROk None) /\ answers_as E w2 h (contents s' (e_canon E p)).
Proof.
  intros HO Hr Hr1 Hsp1 Hno Hio Hp Hb PF HM. set (d := e_canon E p) in *.
  destruct (file_exists E keyof _ w rs p HO Hr Hp) as (f & Hf). fold d in Hf.
  destruct (reach E keyof _ HO w rs Hr) as (sp & Hsp & W).
  assert (Hfl : flushed (e_plat E) (run_log E data_log world0 (es1 ++ es2) d) f).
  { rewrite (run_log_app E data_log d es1 es2 world0 w1 rs1 Hr1).
    pose proof (reach_LogInv E keyof es1 w1 rs1 sp1 d (ordinary_app_l _ _ _ _ HO) Hr1 Hsp1) as HL.
    destruct (reach_prefix E keyof _ HO es1 es2 w1 rs1 eq_refl Hr1) as (sp1' & Hsp1' & W1). rewrite Hsp1 in Hsp1'. injection Hsp1' as <-.
    assert (Hr2 : exists rs2, run E w1 es2 = Some (w, rs2)).
    { rewrite run_app, Hr1 in Hr. destruct (run E w1 es2) as [[w2 rs2]|]; [|discriminate]. injection Hr as <- _. eauto. }
    destruct Hr2 as (rs2 & Hr2). pose proof (or_calls _ _ _ HO) as HC. apply Forall_app in HC as [_ HC].
    destruct (run_LogInv E (or_env _ _ _ HO) keyof _ (PU_dir E keyof _ HO) (PU_key E keyof _ HO) (PU_inj E keyof _ HO) d es2 w1 sp1 _ _
      (run_log E data_log world0 es1 d) w rs2 W1 HC) as (_ & _ & _ & G).
    - apply (in_U_all (es1 ++ es2) es1 es2 []). rewrite app_nil_r. reflexivity.
    - rewrite <- writes_app. apply (or_room _ _ _ HO).
    - exact HL.
    - exact Hr2.
    - apply G; [exact Hio| |exact Hf]. intros f0 Hf0. apply HL; [exact Hf0|exact Hno]. }
  destruct (file_WOk E keyof _ (PU_inj E keyof _ HO) w sp _ _ d f W Hf) as (s' & rs3 & nonce & Hh & Hd & Hm & HW & R).
  destruct (PU_call E keyof _ HO p Hp) as [Hdo Hkey].
  destruct (reopen_core E keyof blk _ w w' d f (contents s' d) _ rs3 nonce h p (or_env _ _ _ HO) Hb PF Hdo eq_refl Hkey Hf Hfl (meta_intact _ _ _ _ _ HM Hm) HW R)
    as (w2 & A & B).
  exists s', w2. split_and!; auto. split; [exact Hh|]. intros d'. destruct (Hd d') as (k & Hk & HH).
  destruct (hist0_sound E keyof _ (PU_dir E keyof _ HO) (PU_key E keyof _ HO) (PU_inj E keyof _ HO) spec0 _ d' k _ sp rs Hsp HH)
    as (a & b & s1 & r1 & X1 & X2 & X3 & X4).
  exists a, b, s1, r1. split_and!; auto. rewrite X4. exact Hk.
Qed.

(** The wished-for property: whatever was going on, the store opens and shows
    what it held after some prefix of the calls. *)
Definition open_store_survives (E : env) : Prop :=
  forall keyof blk es w rs w' h p,
  ordinary E keyof es -> run E world0 es = Some (w, rs) -> In p (paths es) -> 0 < blk -> power_failure E blk es w w' ->
  exists es1 es2 s1 rs1 w2, es = es1 ++ es2 /\ spec_run (e_canon E) spec0 es1 = Some (s1, rs1) /\
    step E w' (ENew h p (keyof (e_canon E p))) = Some (w2, ROk None) /\ answers_as E w2 h (contents s1 (e_canon E p)).

(** It is false.  A store whose background work is long done: its last append
    went to a place that held zeros.  If the machine stops before anything is
    synced, the disk may hold the new content length without the record, and
    the directory can never be opened again. *)
Theorem C77_idle_store_unopenable E keyof blk es w rs0 i x m dup q a b h p :
  ordinary E keyof es -> run E world0 es = Some (w, rs0) -> w_insts w !! i = Some x -> i_queue x = JWrite m dup :: q ->
  e_feat E = FPlain -> ~ compacts E w i -> In p (paths es) -> e_canon E p = i_dir x ->
  last (job_effects E w i) = Some (FStore a b) ->
  take 4 (drop (N.to_nat a) (apply_effs (removelast (job_effects E w i)) (inode w (i_ino x)))) = [x00; x00; x00; x00] ->
  run E world0 (es ++ [EIo i]) = Some (run_job E w i, rs0 ++ [ROk None]) /\
  exists w' w2, power_failure E blk (es ++ [EIo i]) (run_job E w i) w' /\
    step E w' (ENew h p (keyof (e_canon E p))) = Some (w2, RPanic).
Proof.
  intros HO Hr Hx Hq HF Hnc Hp Hcp Hlast Hz. set (f' := apply_effs (removelast (job_effects E w i)) (inode w (i_ino x))) in *.
  assert (Hrun : run E world0 (es ++ [EIo i]) = Some (run_job E w i, rs0 ++ [ROk None])).
  { rewrite run_app, Hr. reflexivity. }
  split; [exact Hrun|].
  assert (HO' : ordinary E keyof (es ++ [EIo i])).
  { apply ordinary_snoc_io, HO. }
  destruct (reach E keyof es HO w rs0 Hr) as (sp & Hsp & W).
  destruct (wi_insts _ _ _ _ _ _ _ W i x Hx) as (_ & I & _).
  pose proof (io_data _ _ _ _ _ _ _ I) as Hdata.
  assert (Hdd : dir_of (run_job E w i) (i_dir x) = dir_of w (i_dir x)).
  { unfold run_job. rewrite Hx, (io_run _ _ _ _ _ _ _ I), Hq. destruct (write _ _ _ _ _). reflexivity. }
  exists (killed (set_inode (run_job E w i) (i_ino x) f')).
  destruct (C22_length_without_record_unopenable E keyof es w rs0 i x m dup q a b h p HO Hr Hx Hq HF Hnc Hp Hcp Hlast Hz) as (w0 & Hbad).
  fold f' in Hbad.
  destruct (append_job E keyof es w rs0 i x m dup q HO Hr Hx Hq Hnc)
    as (rs & c0 & HW & Hm & Hroom & c & sl & n & b0 & Hf & Hc & Hb0 & Hlb & Hlc & Hlim & Hef).
  assert (G1 : forall sl', apply_eff (FStore 0 (be 8 (len (c ++ b0)))) (shape c sl') = be 8 (len (c ++ b0)) ++ c ++ sl').
  { intros sl'. unfold shape. change (be 8 (len c) ++ c ++ sl') with ([] ++ be 8 (len c) ++ (c ++ sl')).
    rewrite apply_store_mid; [reflexivity|reflexivity|]. rewrite !len_be. reflexivity. }
  assert (Hx1 : apply_eff (FExtend n) (shape c sl) = shape c (sl ++ zeros n)).
  { cbn [apply_eff]. unfold shape. rewrite <- !app_assoc. reflexivity. }
  assert (Hne : f' <> []).
  { assert (exists sl', f' = be 8 (len (c ++ b0)) ++ c ++ sl') as (sl' & ->).
    { unfold f'. rewrite Hf. destruct Hef as [[Hef _]|Hef]; rewrite Hef; cbn [removelast apply_effs fold_left]; rewrite ?Hx1, G1; eauto. }
    intros G. apply (f_equal (length (A:=byte))) in G. rewrite app_length, be_length in G. cbn in G. lia. }
  assert (Him : power_image blk (run_log E data_log world0 (es ++ [EIo i]) (i_dir x)) f').
  { rewrite (run_log_app E data_log (i_dir x) es [EIo i] world0 w rs0 Hr). cbn [run_log step data_log].
    rewrite Hx, decide_True by reflexivity. unfold job_log. rewrite Hx, (io_run _ _ _ _ _ _ _ I), app_nil_r.
    apply since_image. intros covers. generalize (run_log E data_log world0 es (i_dir x)). intros l.
    assert (Hend : exists l0 g, l ++ eff_log (e_plat E) (job_effects E w i) (inode w (i_ino x)) = l0 ++ [DVer f'; DVer g]).
    { unfold f'. destruct Hef as [[Hef _]|Hef]; rewrite Hef; cbn [removelast apply_effs fold_left eff_log].
      - eexists l, _. reflexivity.
      - eexists (l ++ [_; _; _]), _. rewrite <- app_assoc. reflexivity. }
    destruct Hend as (l0 & g & ->). exists l0, [DVer g]. split; [reflexivity|]. split; [repeat constructor|].
    intros a0 k c1 Ha _. destruct a0 as [|? [|]]; discriminate Ha. }
  pose proof (reopen_crashed E keyof es w rs0 i x f' h p HO Hr Hx Hne Hp Hcp) as Hopen.
  set (w' := killed (set_inode (run_job E w i) (i_ino x) f')).
  destruct (PU_call E keyof es HO p Hp) as [Hdo Hkey].
  destruct (feature_key (e_feat E) (keyof (e_canon E p))) as [ky|] eqn:Hky; [|contradiction].
  pose proof (open_answers E w' h p (keyof (e_canon E p)) ky [] (i_ino x) f') as Ho.
  assert (HC : feature_codec (e_feat E) ky [] = i_codec E x).
  { unfold i_codec. rewrite HF. reflexivity. }
  rewrite HC in Ho. 
  assert (Hgoal : exists w2, step E w' (ENew h p (keyof (e_canon E p))) = Some (w2, RPanic)).
  { destruct (read_all (e_plat E) (i_codec E x) f') as [M k| |].
    - destruct Hopen as (w3 & Hgood & _). rewrite Hbad in Hgood. discriminate Hgood.
    - refine (Ho eq_refl _ _ Hdo _ _ Hne Hky _); [apply lookup_empty| | | |rewrite HF; reflexivity].
      + unfold lookup_reg. unfold w', killed. cbn [w_reg]. rewrite lookup_empty. reflexivity.
      + change (dir_of w' (e_canon E p)) with (dir_of (run_job E w i) (e_canon E p)). rewrite Hcp, Hdd. exact Hdata.
      + unfold w', inode. cbn. rewrite lookup_insert. reflexivity.
    - refine (Ho eq_refl _ _ Hdo _ _ Hne Hky _); [apply lookup_empty| | | |rewrite HF; reflexivity].
      + unfold lookup_reg. unfold w', killed. cbn [w_reg]. rewrite lookup_empty. reflexivity.
      + change (dir_of w' (e_canon E p)) with (dir_of (run_job E w i) (e_canon E p)). rewrite Hcp, Hdd. exact Hdata.
      + unfold w', inode. cbn. rewrite lookup_insert. reflexivity. }
  destruct Hgoal as (w2 & Hgoal). exists w2. split; [|exact Hgoal].
  eapply (one_file_lost E keyof blk _ _ _ (i_dir x) (i_ino x) f' HO' Hrun); [rewrite Hdd; exact Hdata|exact Him].
Qed.

Theorem C77_open_store_survives_refuted : ~ open_store_survives (ex_env FPlain).
Proof.
  intros H.
  assert (T : match run (ex_env FPlain) world0 ex_put1 with
    | Some (w, _) => match w_insts w !! 0 with
       | Some x => match i_queue x with
          | [JWrite m dup] => bool_decide (i_dir x = dir_d) && 
              match job_effects (ex_env FPlain) w 0 with FStore _ h :: _ => negb (bool_decide (h = be 8 0)) | _ => false end &&
              match last (job_effects (ex_env FPlain) w 0) with
              | Some (FStore a b) => bool_decide (take 4 (drop (N.to_nat a) (apply_effs (removelast (job_effects (ex_env FPlain) w 0)) (inode w (i_ino x)))) = [x00; x00; x00; x00])
              | _ => false end
          | _ => false end
       | None => false end
    | None => false end = true) by (vm_compute; reflexivity).
  destruct (run (ex_env FPlain) world0 ex_put1) as [[w rs0]|] eqn:Hr; [|discriminate T].
  destruct (w_insts w !! 0) as [x|] eqn:Hx; [|discriminate T].
  destruct (i_queue x) as [|[m dup|] [|]] eqn:Hq; try discriminate T.
  apply andb_true_iff in T as [T1 T2]. apply andb_true_iff in T1 as [Td Tn].
  apply bool_decide_eq_true in Td.
  destruct (last (job_effects (ex_env FPlain) w 0)) as [[a b|]|] eqn:Hlast; try discriminate T2. apply bool_decide_eq_true in T2.
  assert (HO : ordinary (ex_env FPlain) ex_keyof ex_put1).
  { apply ordinaryb_ok; [apply ex_env_ok; exact Logic.I|vm_compute; reflexivity]. }
  assert (Hnc : ~ compacts (ex_env FPlain) w 0). { intros (rest & Hrest). rewrite Hrest in Tn. vm_compute in Tn. discriminate Tn. }
  assert (Hin : In dir_d (paths ex_put1)) by (left; reflexivity).
  assert (Hcn : e_canon (ex_env FPlain) dir_d = i_dir x) by (rewrite Td; vm_compute; reflexivity).
  destruct (C77_idle_store_unopenable _ _ 64 _ _ _ 0 x m dup [] a b 1 dir_d HO Hr Hx Hq eq_refl Hnc Hin Hcn Hlast T2) as (Hrun & w' & w2 & PF & Hbad).
  destruct (H ex_keyof 64 (ex_put1 ++ [EIo 0]) (run_job (ex_env FPlain) w 0) (rs0 ++ [ROk None]) w' 1 dir_d) as (es1 & es2 & s1 & rs1 & w3 & _ & _ & Hgood & _).
  - apply ordinary_snoc_io, HO.
  - exact Hrun.
  - rewrite paths_app. apply in_or_app. left. exact Hin.
  - lia.
  - exact PF.
  - rewrite Hbad in Hgood. discriminate Hgood.
Qed.

(** * Examples *)

(** C75's hypotheses: a store with two values, closed, and a power failure
    while another store is open with a value half-way to the disk. *)
Definition ex_power : list event :=
  [ENew 0 dir_d ex_key; EPut 0 k1 (VI32 5); EIo 0; EPut 0 k2 hello; ENew 1 dir_e ex_key; EPut 1 k1 (VBool true); EDrop 0; EIo 1].

Lemma C75_closed_store_survives_example : exists w rs sp w',
  ordinary (ex_env FPlain) ex_keyof ex_power /\ run (ex_env FPlain) world0 ex_power = Some (w, rs) /\
  spec_run (e_canon (ex_env FPlain)) spec0 ex_power = Some (sp, rs) /\ In dir_d (paths ex_power) /\
  (forall h', sp_handles sp !! h' <> Some (e_canon (ex_env FPlain) dir_d)) /\ power_failure (ex_env FPlain) 64 ex_power w w' /\
  file_at w' dir_e <> file_at w dir_e /\ contents sp dir_d !! k1 = Some (VI32 5) /\ contents sp dir_d !! k2 = Some hello.
Proof.
  assert (HO : ordinary (ex_env FPlain) ex_keyof ex_power).
  { apply ordinaryb_ok; [apply ex_env_ok; exact Logic.I|vm_compute; reflexivity]. }
  assert (T : match run (ex_env FPlain) world0 ex_power with
    | Some (w, _) => match d_data (dir_of w dir_e) with Some ino => negb (bool_decide (inode w ino = zeros 64)) | None => false end
    | None => false end = true) by (vm_compute; reflexivity).
  destruct (run (ex_env FPlain) world0 ex_power) as [[w rs]|] eqn:Hr; [|discriminate T].
  destruct (d_data (dir_of w dir_e)) as [ino|] eqn:Hd; [|discriminate T]. apply negb_true_iff, bool_decide_eq_false in T.
  destruct (reach _ ex_keyof ex_power HO w rs Hr) as (sp & Hsp & _).
  assert (Tl : forallb (fun x => match x with DSync n => n =? 64 | _ => true end)
      (run_log (ex_env FPlain) data_log world0 ex_power dir_e) &&
    match run_log (ex_env FPlain) data_log world0 ex_power dir_e with
    | DNew :: DVer y :: DVer z :: DSync _ :: DVer _ :: DVer _ :: nil => bool_decide (z = zeros 64) | _ => false end = true) by (vm_compute; reflexivity).
  apply andb_true_iff in Tl as [_ Tl].
  destruct (run_log (ex_env FPlain) data_log world0 ex_power dir_e) as [|[|?|?] [|[|y|?] [|[|z|?] [|[|?|n] [|[|f1|?] [|[|f2|?] [|? ?]]]]]]] eqn:El;
    try discriminate Tl. apply bool_decide_eq_true in Tl. subst z.
  exists w, rs, sp, (killed (set_inode w ino (zeros 64))).
  assert (Hs : option_map (fun y => (map_to_list (sp_handles y.1), contents y.1 dir_d !! k1, contents y.1 dir_d !! k2)) (spec_run (e_canon (ex_env FPlain)) spec0 ex_power)
    = Some ([(1, dir_e)], Some (VI32 5), Some hello)) by (vm_compute; reflexivity).
  rewrite Hsp in Hs. cbn [option_map fst] in Hs. injection Hs as Hs0 Hs2 Hs3.
  split; [exact HO|]. split; [reflexivity|]. split; [exact Hsp|]. split; [left; reflexivity|].
  split; [|split; [|split; [|split; [exact Hs2|exact Hs3]]]].
  - intros h' Hh. apply elem_of_map_to_list in Hh. rewrite Hs0 in Hh. apply elem_of_list_singleton in Hh.
    injection Hh as _ Hh. revert Hh. vm_compute. discriminate.
  - apply (one_file_lost (ex_env FPlain) ex_keyof 64 ex_power w rs dir_e ino _ HO Hr Hd). rewrite El. apply since_image. intros covers.
    exists [DNew; DVer y], [DSync n; DVer f1; DVer f2]. split; [reflexivity|]. split; [repeat constructor|].
    intros a m c Ha _. destruct a as [|? [|? [|? [|? ?]]]]; [constructor| | | |]; discriminate Ha.
  - unfold file_at. change (dir_of (killed (set_inode w ino (zeros 64))) dir_e) with (dir_of w dir_e). rewrite Hd. cbn [option_map].
    intros G. injection G as G. apply T. rewrite <- G. unfold inode. cbn. rewrite lookup_insert. reflexivity.
Qed.

(** The same run in the encrypted build, for C76. *)
Lemma C76_closed_store_survives_example : exists w rs sp w',
  ordinary (ex_env (FEncrypted toy_aead)) ex_keyof ex_power /\ run (ex_env (FEncrypted toy_aead)) world0 ex_power = Some (w, rs) /\
  spec_run (e_canon (ex_env (FEncrypted toy_aead))) spec0 ex_power = Some (sp, rs) /\ In dir_d (paths ex_power) /\
  (forall h', sp_handles sp !! h' <> Some (e_canon (ex_env (FEncrypted toy_aead)) dir_d)) /\ power_failure (ex_env (FEncrypted toy_aead)) 64 ex_power w w' /\
  file_at w' dir_e <> file_at w dir_e /\ d_meta (dir_of w' dir_d) = d_meta (dir_of w dir_d) /\ contents sp dir_d !! k1 = Some (VI32 5) /\ contents sp dir_d !! k2 = Some hello.
Proof.
  assert (HO : ordinary (ex_env (FEncrypted toy_aead)) ex_keyof ex_power).
  { apply ordinaryb_ok; [apply ex_env_ok; exact toy_aead_correct|vm_compute; reflexivity]. }
  assert (T : match run (ex_env (FEncrypted toy_aead)) world0 ex_power with
    | Some (w, _) => match d_data (dir_of w dir_e) with Some ino => negb (bool_decide (inode w ino = zeros 64)) | None => false end
    | None => false end = true) by (vm_compute; reflexivity).
  destruct (run (ex_env (FEncrypted toy_aead)) world0 ex_power) as [[w rs]|] eqn:Hr; [|discriminate T].
  destruct (d_data (dir_of w dir_e)) as [ino|] eqn:Hd; [|discriminate T]. apply negb_true_iff, bool_decide_eq_false in T.
  destruct (reach _ ex_keyof ex_power HO w rs Hr) as (sp & Hsp & _).
  assert (Tl : forallb (fun x => match x with DSync n => n =? 64 | _ => true end)
      (run_log (ex_env (FEncrypted toy_aead)) data_log world0 ex_power dir_e) &&
    match run_log (ex_env (FEncrypted toy_aead)) data_log world0 ex_power dir_e with
    | DNew :: DVer y :: DVer z :: DSync _ :: DVer _ :: DVer _ :: nil => bool_decide (z = zeros 64) | _ => false end = true) by (vm_compute; reflexivity).
  apply andb_true_iff in Tl as [_ Tl].
  destruct (run_log (ex_env (FEncrypted toy_aead)) data_log world0 ex_power dir_e) as [|[|?|?] [|[|y|?] [|[|z|?] [|[|?|n] [|[|f1|?] [|[|f2|?] [|? ?]]]]]]] eqn:El;
    try discriminate Tl. apply bool_decide_eq_true in Tl. subst z.
  exists w, rs, sp, (killed (set_inode w ino (zeros 64))).
  assert (Hs : option_map (fun y => (map_to_list (sp_handles y.1), contents y.1 dir_d !! k1, contents y.1 dir_d !! k2)) (spec_run (e_canon (ex_env (FEncrypted toy_aead))) spec0 ex_power)
    = Some ([(1, dir_e)], Some (VI32 5), Some hello)) by (vm_compute; reflexivity).
  rewrite Hsp in Hs. cbn [option_map fst] in Hs. injection Hs as Hs0 Hs2 Hs3.
  split; [exact HO|]. split; [reflexivity|]. split; [exact Hsp|]. split; [left; reflexivity|].
  split; [|split; [|split; [|split; [reflexivity|split; [exact Hs2|exact Hs3]]]]].
  - intros h' Hh. apply elem_of_map_to_list in Hh. rewrite Hs0 in Hh. apply elem_of_list_singleton in Hh.
    injection Hh as _ Hh. revert Hh. vm_compute. discriminate.
  - apply (one_file_lost (ex_env (FEncrypted toy_aead)) ex_keyof 64 ex_power w rs dir_e ino _ HO Hr Hd). rewrite El. apply since_image. intros covers.
    exists [DNew; DVer y], [DSync n; DVer f1; DVer f2]. split; [reflexivity|]. split; [repeat constructor|].
    intros a m c Ha _. destruct a as [|? [|? [|? [|? ?]]]]; [constructor| | | |]; discriminate Ha.
  - unfold file_at. change (dir_of (killed (set_inode w ino (zeros 64))) dir_e) with (dir_of w dir_e). rewrite Hd. cbn [option_map].
    intros G. injection G as G. apply T. rewrite <- G. unfold inode. cbn. rewrite lookup_insert. reflexivity.
Qed.

(** C77: the same run up to the drop, and nothing but calls after it. *)
Lemma C77_no_background_work_example :
  ordinary (ex_env FPlain) ex_keyof (ex_closed ++ [ENew 0 dir_d ex_key; EPut 0 k2 hello]) /\
  (exists w rs sp, run (ex_env FPlain) world0 ex_closed = Some (w, rs) /\ spec_run (e_canon (ex_env FPlain)) spec0 ex_closed = Some (sp, rs) /\
    forall h', sp_handles sp !! h' <> Some dir_d) /\
  (forall i, ~ In (EIo i) [ENew 0 dir_d ex_key; EPut 0 k2 hello]) /\
  run (ex_env FPlain) world0 (ex_closed ++ [ENew 0 dir_d ex_key; EPut 0 k2 hello]) <> None.
Proof.
  assert (HO : ordinary (ex_env FPlain) ex_keyof (ex_closed ++ [ENew 0 dir_d ex_key; EPut 0 k2 hello])).
  { apply ordinaryb_ok; [apply ex_env_ok; exact Logic.I|vm_compute; reflexivity]. }
  split; [exact HO|]. split; [|split].
  - pose proof (ordinary_app_l _ _ _ _ HO) as HO1.
    assert (T : match run (ex_env FPlain) world0 ex_closed with Some _ => true | None => false end = true) by (vm_compute; reflexivity).
    destruct (run (ex_env FPlain) world0 ex_closed) as [[w rs]|] eqn:Hr; [|discriminate T].
    destruct (reach _ ex_keyof ex_closed HO1 w rs Hr) as (sp & Hsp & _).
    exists w, rs, sp. split; [reflexivity|]. split; [exact Hsp|]. intros h' Hh.
    assert (Hs : option_map (fun y => map_to_list (sp_handles y.1)) (spec_run (e_canon (ex_env FPlain)) spec0 ex_closed) = Some []) by (vm_compute; reflexivity).
    rewrite Hsp in Hs. cbn [option_map fst] in Hs. injection Hs as Hs. apply elem_of_map_to_list in Hh. rewrite Hs in Hh.
    apply elem_of_nil in Hh. exact Hh.
  - intros i [H|[H|[]]]; discriminate H.
  - intros H. assert (T : match run (ex_env FPlain) world0 (ex_closed ++ [ENew 0 dir_d ex_key; EPut 0 k2 hello]) with Some _ => true | None => false end = true)
      by (vm_compute; reflexivity). rewrite H in T. discriminate T.
Qed.
