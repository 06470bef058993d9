(** C79, continued: a value that is too large ends the process also when it is
    still waiting and the store is closed or cleared.

    P_Abort shows what happens when the background thread comes to the write
    by itself.  Closing the last handle (mmkv.rs:43-55, io_looper.rs:93-104)
    and [clear_data] (mmkv.rs:206-220, mmkv_impl.rs:98-114) let the thread
    finish what is waiting, and so does the caller who waits for it. *)
From Verif Require Import Bytes Utf8 Proto ProtoFacts Crc8 Value Codec Store StoreFacts Encrypt World Spec Hyps Refine WorldInv WorldStep Main Frames Reach Examples P_Map P_Store P_Alias P_Procs2 Power Abort P_Abort.
From Coq Require Import ZifyBool ZifyNat ZifyN.
Local Open Scope N_scope.

Lemma put_shape E w h hd x key v w1 r m : w_handles w !! h = Some hd -> w_insts w !! h_inst hd = Some x -> i_sender x = true -> i_valid x = true ->
  i_poison x = false -> i_queue x = [] -> buffer_new key v = ROk m ->
  step E w (EPut h key v) = Some (w1, ROk r) ->
  h_unreg hd = false /\ exists z dup, w1 = set_inst w (h_inst hd) z /\ i_io z = IoRun /\ i_sender z = true /\ i_valid z = true /\
    i_poison z = false /\ i_queue z = [JWrite m dup] /\ i_dir z = i_dir x.
Proof.
  intros Hh Hx Hs Hv Hp Hq Hm H. cbn [step] in H. unfold with_handle, on_inst in H. rewrite Hh, Hx in H. destruct (h_unreg hd); [discriminate H|].
  split; [reflexivity|]. unfold inst_put in H. rewrite Hp, Hm, Hv in H.
  unfold post in H. cbn [i_with_map i_sender i_io i_with_queue] in H. rewrite Hs in H.
  destruct (i_io x) eqn:Hio; [|discriminate H]. injection H as <- _. do 2 eexists. split; [reflexivity|]. cbn. rewrite Hq. split_and!; auto.
Qed.

(** [job_ends] and what a job leaves of the instances do not see handles. *)
Lemma job_ends_reg pr E w hs R i : job_ends pr E (set_handles (set_reg w R) hs) i = job_ends pr E w i.
Proof. reflexivity. Qed.

Lemma run_job_insts_reg E w hs R i : w_insts (run_job E (set_handles (set_reg w R) hs) i) = w_insts (run_job E w i).
Proof.
  unfold run_job. change (w_insts (set_handles (set_reg w R) hs)) with (w_insts w).
  destruct (w_insts w !! i) as [x|]; [|reflexivity]. destruct (i_io x); [|reflexivity].
  destruct (i_queue x) as [|[m dup|] q]; [reflexivity| |reflexivity].
  change (i_st (set_handles (set_reg w R) hs) x) with (i_st w x). destruct (write _ _ _ _ _) as [s ok]. reflexivity.
Qed.

(** [clear_data] that answers Ok has not ended the process. *)
Lemma clear_not_ends pr E w h w' v : step E w (EClear h) = Some (w', ROk v) -> ends pr E w (EClear h) = false.
Proof.
  intros Hst. unfold ends. assert (HA : panics E w (EClear h) = false) by (unfold panics; rewrite Hst; reflexivity).
  rewrite HA, andb_false_r. cbn [orb].
  cbn [step] in Hst. unfold with_handle in Hst. destruct (w_handles w !! h) as [hd|]; [|reflexivity].
  destruct (h_unreg hd); [discriminate|]. injection Hst as Hst. unfold do_clear in Hst.
  destruct (w_insts w !! h_inst hd) as [x|] eqn:Hx; [|reflexivity].
  destruct (i_poison x); [reflexivity|].
  unfold impl_clear in *. destruct (i_valid x) eqn:V; cbn [negb andb orb] in *.
  - destruct (post (i_invalid x) JRemove) as [x1 r1] eqn:Ep. destruct r1 as [v1|e|]; [|reflexivity|reflexivity].
    set (w1 := set_inst w (h_inst hd) x1) in *.
    destruct (queue_ends pr E w1 (h_inst hd)) eqn:Hq.
    + destruct (queue_ends_dead pr E w1 _ Hq) as (y & Hy & D). rewrite Hy, D in Hst. discriminate Hst.
    + cbn [orb]. destruct (w_insts (drain E w1 (h_inst hd)) !! h_inst hd) as [x2|]; [|reflexivity].
      destruct (i_io x2); [|reflexivity]. destruct (open_ends pr E _ (h_path hd) (h_key hd)) eqn:Ho; [|reflexivity].
      apply open_ends_none in Ho. destruct (open_impl E _ (h_path hd) (h_key hd)) as [w3 oy]. cbn in Ho. subst oy. discriminate Hst.
  - destruct (open_ends pr E w (h_path hd) (h_key hd)) eqn:Ho; [|reflexivity].
    apply open_ends_none in Ho. destruct (open_impl E w (h_path hd) (h_key hd)) as [w3 oy]. cbn in Ho. subst oy. discriminate Hst.
Qed.

(** [clear_data] with one write waiting that the thread survives. *)
Lemma clear_survives E keyof (U : bytes -> Prop) w h hd z m dup y : env_ok E ->
  (forall p, U p -> e_dir_ok E p = true) ->
  (forall p, U p -> feature_key (e_feat E) (keyof (e_canon E p)) <> None) ->
  (forall p p', U p -> U p' -> e_canon E p = e_canon E p' -> p = p') ->
  w_handles w !! h = Some hd -> h_unreg hd = false -> U (h_path hd) -> h_key hd = keyof (e_canon E (h_path hd)) ->
  w_insts w !! h_inst hd = Some z -> i_dir z = e_canon E (h_path hd) -> i_poison z = false -> i_valid z = true -> i_sender z = true ->
  i_io z = IoRun -> i_queue z = [JWrite m dup] ->
  w_insts (run_job E w (h_inst hd)) !! h_inst hd = Some y -> i_io y = IoRun ->
  exists w', step E w (EClear h) = Some (w', ROk None).
Proof.
  intros HE Ud Uk Ui Hh Hun Up Hk Hz Dz Zp Zv Zs Zio Zq Hy Hrun. set (i := h_inst hd) in *.
  cbn [step]. unfold with_handle. rewrite Hh, Hun. unfold do_clear. fold i. rewrite Hz, Zp. unfold impl_clear. rewrite Zv. cbn [negb].
  unfold post. cbn [i_invalid i_sender i_io i_queue i_with_queue]. rewrite Zs, Zio, Zq. cbn [app].
  destruct (write (e_plat E) (i_codec E z) (i_st w z) m dup) as [s ok] eqn:Ew.
  assert (ok = true) as ->.
  { unfold run_job in Hy. rewrite Hz, Zio, Zq, Ew in Hy. cbn in Hy. rewrite lookup_insert in Hy. injection Hy as <-. destruct ok; [reflexivity|discriminate Hrun]. }
  match goal with |- context [drain E ?W i] => set (wc := W) end.
  set (zc := i_with_queue (i_invalid z) [JWrite m dup; JRemove]).
  assert (Hzc : w_insts wc !! i = Some zc) by apply lookup_insert.
  assert (Er : run_job E wc i = set_seed (set_inode (set_inst wc i (i_after zc [JRemove] IoRun s)) (i_ino zc) (s_file s)) (s_seed s)).
  { unfold run_job. rewrite Hzc. cbn [zc i_with_queue i_invalid i_io i_queue]. rewrite Zio. fold zc.
    change (i_codec E zc) with (i_codec E z). change (i_st wc zc) with (i_st w z). rewrite Ew. reflexivity. }
  unfold drain. rewrite Hzc. change (length (i_queue zc)) with 2%nat. rewrite !Nat.iter_succ. change (Nat.iter 0 _ wc) with wc. rewrite Er.
  set (w2 := set_seed _ _).
  set (dd2 := Dir None (if is_encrypted (e_feat E) then None else d_meta (dir_of w2 (i_dir zc)))).
  set (y2 := i_with_queue (i_after zc [JRemove] IoRun s) []).
  assert (Erm : run_job E w2 i = set_inst (set_dir w2 (i_dir zc) dd2) i y2).
  { unfold run_job. unfold w2 at 1. cbn [set_seed set_inode set_inst set_insts w_insts]. rewrite lookup_insert. reflexivity. }
  rewrite Erm. change (w_insts (set_inst (set_dir w2 (i_dir zc) dd2) i y2)) with (<[i := y2]> (w_insts w2)).
  rewrite lookup_insert. cbn [y2 i_with_queue i_after i_io]. fold y2.
  match goal with |- context [open_impl E ?wa _ _] => set (w3 := wa) end.
  assert (Hd3 : dir_of w3 (e_canon E (h_path hd)) = dd2).
  { unfold w3. erewrite dir_of_insert by reflexivity. cbn [i_after i_dir zc i_with_queue i_invalid]. rewrite Dz.
    destruct (decide (e_canon E (h_path hd) = e_canon E (h_path hd))); [reflexivity|congruence]. }
  rewrite Hk.
  destruct (open_impl_ok E HE keyof U Ud Uk Ui w3 (h_path hd) ∅ 0 Up) as (w4 & y4 & Eo & _).
  { unfold WorldInv.dir_ok. rewrite Hd3. reflexivity. }
  { rewrite Hd3. discriminate. }
  rewrite Eo. assert (Hold : w_insts w3 !! i = Some (i_quit y2)) by apply lookup_insert.
  rewrite Hold. change (default z (Some (i_quit y2))) with (i_quit y2). cbn [i_quit i_join andb]. eexists. reflexivity.
Qed.

(** Exactly the values that do not fit in the free space and one more page end
    the process when they are put and the store's only handle is dropped, or
    [clear_data] is called, the write still waiting.  Conditions as in [C79_large_values_end_the_process]. *)
Theorem C79_large_values_end_the_process_at_close pr E keyof es w rs0 h hd x f rs key v m :
  ordinary E keyof es -> run E world0 es = Some (w, rs0) -> room E (writes es + 1) ->
  w_handles w !! h = Some hd -> w_insts w !! h_inst hd = Some x ->
  (forall h' hd', w_handles w !! h' = Some hd' -> h_inst hd' = h_inst hd -> h' = h) ->
  i_queue x = [] -> i_trim x = false -> i_map x !! key = None ->
  file_at w (i_dir x) = Some f -> holds (dir_codec E keyof w (i_dir x)) f rs ->
  Forall (fun r => kv_ok r = true /\ record_size (e_feat E) r <= page (e_plat E)) rs -> N.of_nat (length rs) <= writes es ->
  utf8_valid key = true -> value_ok v = true -> buffer_new key v = ROk m -> record_size (e_feat E) m < 2 ^ 32 ->
  p_abort pr = true \/ (forall ml n, ml < n -> p_msync pr ml n = false) ->
  exists w1, fstep pr E w (EPut h key v) = Some (Lives w1 (ROk None)) /\
    (ends pr E w1 (EDrop h) = true <-> len f + page (e_plat E) < 8 + bytes_of (e_feat E) rs + record_size (e_feat E) m) /\
    (ends pr E w1 (EClear h) = true <-> len f + page (e_plat E) < 8 + bytes_of (e_feat E) rs + record_size (e_feat E) m).
Proof.
  intros HO Hr Hroom Hh Hx Halone Hq Ht Hk Hf Hholds HG Hlen Hu Hv Hm Hsz Hpr.
  destruct (C79_large_values_end_the_process pr E keyof es w rs0 h hd x f rs key v m HO Hr Hroom Hh Hx Hq Ht Hk Hf Hholds HG Hlen Hu Hv Hm Hsz Hpr)
    as (w1 & A & B).
  destruct (C10_append_exact E keyof es w rs0 h hd x f rs key v m HO Hr Hroom Hh Hx Hq Ht Hk Hf Hholds HG Hlen Hu Hv Hm Hsz)
    as (w1' & w2 & y & f' & A' & B' & Cy & _ & F & _).
  assert (w1' = w1).
  { unfold fstep in A. rewrite A' in A. destruct (ends pr E w (EPut h key v)); [discriminate A|]. injection A as A. exact A. }
  subst w1'. exists w1. split; [exact A|].
  destruct (reach E keyof es HO w rs0 Hr) as (sp & _ & W). destruct (wi_insts _ _ _ _ _ _ _ W _ x Hx) as (_ & I & _).
  destruct (put_shape E w h hd x key v w1 None m Hh Hx (io_sender _ _ _ _ _ _ _ I) (io_valid _ _ _ _ _ _ _ I) (io_poison _ _ _ _ _ _ _ I) Hq Hm A')
    as (Hun & z & dup & -> & Zio & Zs & Zv & Zp & Zq & Zd).
  pose proof (wi_poison _ _ _ _ _ _ _ W) as Wp.
  set (i := h_inst hd) in *. set (w1 := set_inst w i z) in *.
  assert (Hz : w_insts w1 !! i = Some z) by (apply lookup_insert).
  assert (Hh1 : w_handles w1 !! h = Some hd) by exact Hh.
  assert (Hends : ends pr E w1 (EIo i) = job_ends pr E w1 i).
  { unfold ends, panics. cbn [step]. rewrite andb_false_r. reflexivity. }
  rewrite Hends in B.
  assert (S1 : strong w1 i = 1%nat) by (exact (proj2 (strong_1 w h hd Hh) Halone)).
  set (hs := <[h := Handle (h_path hd) (h_key hd) i true]> (w_handles w1)).
  set (R := delete (h_path hd) (w_reg w1)). set (wr := set_handles (set_reg w1 R) hs).
  assert (Sr : strong wr i = 1%nat).
  { rewrite <- S1. apply (strong_relabel w1 wr h hd (Handle (h_path hd) (h_key hd) i true) Hh1); reflexivity. }
  assert (Hreg : do_drop_reg w1 h hd = (wr, ROk None)).
  { unfold do_drop_reg. change (w_poison w1) with (w_poison w). rewrite Wp. fold i. rewrite S1. reflexivity. }
  assert (Hzr : w_insts wr !! i = Some z) by exact Hz.
  assert (Dr : drain E wr i = run_job E wr i) by (unfold drain; rewrite Hzr, Zq; reflexivity).
  assert (Qr : queue_ends pr E wr i = job_ends pr E w1 i).
  { unfold queue_ends. rewrite Hzr, Zq. cbn [length jobs_end]. rewrite orb_false_r. apply job_ends_reg. }
  split.
  - rewrite <- B. unfold ends at 1, panics. cbn [step]. unfold with_handle. rewrite Hh1, Hun, Hreg. fold i. rewrite Sr, Qr.
    cbn [Nat.eqb andb]. rewrite orb_false_r.
    destruct (job_ends pr E w1 i) eqn:Ej; [rewrite orb_true_r; tauto|]. rewrite orb_false_r.
    assert (Hno : i_io y = IoRun).
    { apply F. apply N.nlt_ge. intros Hl. apply B in Hl. discriminate Hl. }
    unfold do_drop_arc. fold i. rewrite Sr. cbn [Nat.eqb]. rewrite Dr. unfold wr at 1. rewrite run_job_insts_reg.
    cbn [step] in B'. injection B' as B'. rewrite B', Cy, Hno. destruct (i_join y); rewrite andb_false_r; tauto.
  - rewrite <- B. split.
    { intros He. destruct (job_ends pr E w1 i) eqn:Ej; [reflexivity|]. exfalso.
      assert (Hno : i_io y = IoRun).
      { apply F. apply N.nlt_ge. intros Hl. apply B in Hl. discriminate Hl. }
      destruct (handle_cases E keyof _ w sp _ _ h hd W Hh) as (_ & _ & Up & Hkey & _ & x' & Hx' & Dx' & _).
      fold i in Hx'. rewrite Hx in Hx'. injection Hx' as <-.
      cbn [step] in B'. injection B' as B'.
      destruct (clear_survives E keyof (PU es) w1 h hd z m dup y (or_env _ _ _ HO) (PU_dir E keyof _ HO) (PU_key E keyof _ HO) (PU_inj E keyof _ HO))
        as (w' & Hcl); try assumption.
      - rewrite Zd. exact Dx'.
      - fold i. rewrite B'. exact Cy.
      - rewrite (clear_not_ends pr E w1 h w' None Hcl) in He. discriminate He. }
    intros Hbig. unfold ends. rewrite Hh1. fold i. rewrite Hz, Zp, Zv. cbn [andb].
    unfold post. cbn [i_invalid i_sender i_io i_with_queue i_queue]. rewrite Zs, Zio, Zq. cbn [app].
    match goal with |- context [queue_ends pr E ?W i] => set (wc := W) end.
    assert (Qc : queue_ends pr E wc i = true).
    { assert (Hc : exists zc, w_insts wc !! i = Some zc /\ i_queue zc = [JWrite m dup; JRemove] /\ i_io zc = IoRun /\
        i_codec E zc = i_codec E z /\ i_st wc zc = i_st w1 z) by (eexists; split; [apply lookup_insert|split_and!; reflexivity || exact Zio]).
      destruct Hc as (zc & Hzc & Qz & Iz & Cz & Sz). unfold queue_ends. rewrite Hzc, Qz. cbn [length jobs_end]. apply orb_true_iff. left.
      unfold job_ends in Hbig |- *. rewrite Hz, Zio, Zq in Hbig. rewrite Hzc, Qz, Iz, Cz, Sz. exact Hbig. }
    rewrite Qc. apply orb_true_r.
Qed.

(** A store with one small record, and a value of 216 bytes, which does not fit
    in 64 bytes and a page, or one of 95, which does. *)
Lemma C79_large_values_at_close_example :
  match run (ex_env FPlain) world0 [ENew 0 dir_d ex_key; EPut 0 k1 (VI32 5); EIo 0; EPut 0 k2 ex_big] with
  | Some (w, _) => (ends unwinding (ex_env FPlain) w (EDrop 0), ends unwinding (ex_env FPlain) w (EClear 0))
  | None => (false, false)
  end = (true, true) /\
  match run (ex_env FPlain) world0 [ENew 0 dir_d ex_key; EPut 0 k1 (VI32 5); EIo 0; EPut 0 k2 ex_mid] with
  | Some (w, _) => (ends unwinding (ex_env FPlain) w (EDrop 0), ends unwinding (ex_env FPlain) w (EClear 0))
  | None => (true, true)
  end = (false, false).
Proof. split; vm_compute; reflexivity. Qed.
