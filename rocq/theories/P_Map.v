(** C01-C05, C16, C25, C28, C36, C45: an open store is a finite map, shared by
    the handles of a directory, isolated from other directories, unchanged by
    closing and reopening.

    All theorems hold for both builds ([e_feat E] is arbitrary: for the
    encrypted build [env_ok] asks that the cipher decrypts what it encrypted). *)
From Verif Require Import Bytes Utf8 Proto ProtoFacts Value Codec Store StoreFacts Encrypt World Spec Hyps Refine WorldInv WorldStep Main Frames Reach Examples.
From Coq Require Import ZifyBool ZifyNat ZifyN.
Local Open Scope N_scope.

(** ** C02 *)

(** Every ordinary trace is answered exactly as by the finite-map
    specification of Spec.v. *)
Theorem C02_store_is_a_finite_map E keyof es :
  ordinary E keyof es ->
  option_map snd (run E world0 es) = option_map snd (spec_run (e_canon E) spec0 es).
Proof. intros HO. exact (answers_ok E keyof es HO). Qed.

(** The same without finite maps: what the newest put or delete of a key, or
    clear, through handle [h] says. *)
Definition effect_on (h : N) (key : bytes) (cur : option value) (e : event) : option value :=
  match e with
  | EPut h' key' v => if decide (h' = h /\ key' = key) then Some v else cur
  | EDelete h' key' => if decide (h' = h /\ key' = key) then None else cur
  | EClear h' => if decide (h' = h) then None else cur
  | _ => cur
  end.
Definition latest (h : N) (key : bytes) (ops : list event) : option value := fold_left (effect_on h key) ops None.

(** Calls through [h] that keep it open, and background work. *)
Definition through (h : N) (e : event) : Prop :=
  match e with
  | EPut h' _ _ | EGet h' _ _ | EDelete h' _ | EClear h' => h' = h
  | EIo _ => True
  | _ => False
  end.

Lemma spec_latest canon h d key ops : forall s s' rs cur,
  Forall (through h) ops -> sp_handles s !! h = Some d -> contents s d !! key = cur ->
  spec_run canon s ops = Some (s', rs) ->
  sp_handles s' !! h = Some d /\ contents s' d !! key = fold_left (effect_on h key) ops cur.
Proof.
  induction ops as [|e ops IH]; intros s s' rs cur HF Hh Hc Hr.
  - cbn in Hr. injection Hr as <- _. auto.
  - inversion HF as [|? ? He HF']; subst. cbn [spec_run] in Hr.
    destruct (spec_step canon s e) as [[s1 r]|] eqn:Es; [|discriminate].
    destruct (spec_run canon s1 ops) as [[s2 rs2]|] eqn:Er; [|discriminate]. injection Hr as <- _.
    cbn [fold_left].
    assert (G : sp_handles s1 !! h = Some d /\ contents s1 d !! key = effect_on h key (contents s d !! key) e).
    { destruct e; cbn in He; try contradiction; try subst; cbn [spec_step] in Es; rewrite ?Hh in Es;
        injection Es as <- _; cbn [sp_handles set_contents]; rewrite ?contents_set; split; auto; cbn.
      - destruct (decide (h = h /\ key0 = key)) as [[_ ->]|Hne]; [apply lookup_insert|]. apply lookup_insert_ne. tauto.
      - destruct (decide (h = h /\ key0 = key)) as [[_ ->]|Hne]; [apply lookup_delete|]. apply lookup_delete_ne. tauto.
      - destruct (decide (h = h)) as [_|]; [apply lookup_empty|contradiction]. }
    destruct G as [G1 G2]. eapply IH; eauto.
Qed.

Lemma handles_set s d M : sp_handles (set_contents s d M) = sp_handles s.
Proof. reflexivity. Qed.

Lemma contents_put s d key v : contents (set_contents s d (<[key := v]> (contents s d))) d !! key = Some v.
Proof. rewrite contents_set. apply lookup_insert. Qed.
Lemma contents_del s d key : contents (set_contents s d (delete key (contents s d))) d !! key = None.
Proof. rewrite contents_set. apply lookup_delete. Qed.
Lemma contents_clr s d key : contents (set_contents s d ∅) d !! key = None.
Proof. rewrite contents_set. apply lookup_empty. Qed.

Lemma last_two {A} (l : list A) x y : last (l ++ [x; y]) = Some y.
Proof. change (l ++ [x; y]) with (l ++ [x] ++ [y]). rewrite app_assoc. apply last_snoc. Qed.

(** A get answers with the most recent put of that key that no delete or
    clear followed. *)
Theorem C02_get_returns_latest_put E keyof h p key0 ops key t w rs :
  ordinary E keyof (ENew h p key0 :: ops ++ [EGet h key t]) -> Forall (through h) ops ->
  run E world0 (ENew h p key0 :: ops ++ [EGet h key t]) = Some (w, rs) ->
  last rs = Some (match latest h key ops with
                  | None => RErr KeyNotFound
                  | Some v => if decide (type_of v = t) then ROk (Some v) else RErr TypeMissMatch
                  end).
Proof.
  intros HO HF Hr. destruct (reach E keyof _ HO w rs Hr) as (sp & Hs & _).
  cbn [spec_run spec_step spec0 sp_handles] in Hs. rewrite lookup_empty in Hs.
  rewrite spec_run_app in Hs.
  destruct (spec_run (e_canon E) _ ops) as [[s1 r1]|] eqn:E1; [|discriminate].
  assert (Hno : contents (Spec (sp_dirs spec0) (<[h := e_canon E p]> ∅)) (e_canon E p) !! key = None) by reflexivity.
  destruct (spec_latest (e_canon E) h (e_canon E p) key ops _ s1 r1 None HF (lookup_insert _ _ _) Hno E1) as [G1 G2].
  cbn [spec_run spec_step] in Hs. rewrite G1 in Hs. injection Hs as _ <-.
  cbn [last]. rewrite (last_cons (ROk None) (r1 ++ _)). rewrite last_snoc. unfold spec_get. rewrite G2. reflexivity.
Qed.

(** Non-vacuity: a trace with overwrites, deletes, two handles, a compaction
    and a reopen meets the hypotheses and really runs. *)
Example C02_example :
  ordinary (ex_env FPlain) ex_keyof ex_trace /\ is_Some (results (ex_env FPlain) ex_trace).
Proof. split; [exact ex_ordinary_plain|]. rewrite ex_results_plain. eauto. Qed.

(** ** C01 *)

(** What is put is what a get of the same type returns, after any history.
    Floats are bit patterns here, so they come back bit for bit; a
    user-defined type ([VUser]) gets back the serialized bytes. *)
Theorem C01_put_get_round_trip E keyof es h key v w rs :
  ordinary E keyof (es ++ [EPut h key v; EGet h key (type_of v)]) ->
  run E world0 (es ++ [EPut h key v; EGet h key (type_of v)]) = Some (w, rs) ->
  last rs = Some (ROk (Some v)).
Proof.
  intros HO Hr. destruct (reach E keyof _ HO w rs Hr) as (sp & Hs & _).
  rewrite spec_run_app in Hs. destruct (spec_run (e_canon E) spec0 es) as [[s1 r1]|]; [|discriminate].
  cbn [spec_run spec_step] in Hs. destruct (sp_handles s1 !! h) as [d|] eqn:Hh; [|discriminate].
  rewrite handles_set in Hs. rewrite Hh in Hs. injection Hs as _ <-.
  rewrite last_two. unfold spec_get.
  rewrite contents_put. destruct (decide _) as [|Hne]; [reflexivity|contradiction].
Qed.

(** The value codecs by themselves, for every value of every type. *)
Theorem C01_value_codec_round_trip v : value_ok v = true -> from_bytes (type_of v) (to_bytes v) = ROk v.
Proof. intros H. apply from_to_bytes, H. Qed.

Example C01_example :
  ordinary (ex_env FPlain) ex_keyof ([ENew 0 dir_d ex_key; EPut 0 k1 hello] ++ [EPut 0 k1 (VF64s [1; 2]); EGet 0 k1 TF64s]) /\
  results (ex_env FPlain) ([ENew 0 dir_d ex_key; EPut 0 k1 hello] ++ [EPut 0 k1 (VF64s [1; 2]); EGet 0 k1 TF64s])
  = Some [ROk None; ROk None; ROk None; ROk (Some (VF64s [1; 2]))].
Proof. split; [|vm_compute; reflexivity]. apply ordinaryb_ok; [apply ex_env_ok; exact Logic.I|vm_compute; reflexivity]. Qed.

(** ** C03 *)

Lemma spec_results canon es : forall s s' rs i e r,
  spec_run canon s es = Some (s', rs) -> es !! i = Some e -> rs !! i = Some r ->
  exists s1, is_Some (spec_step canon s1 e) /\ option_map snd (spec_step canon s1 e) = Some r.
Proof.
  induction es as [|e0 es IH]; intros s s' rs i e r Hr He Hri; [rewrite lookup_nil in He; discriminate|].
  cbn [spec_run] in Hr. destruct (spec_step canon s e0) as [[s1 r1]|] eqn:Es; [|discriminate].
  destruct (spec_run canon s1 es) as [[s2 rs2]|] eqn:Er; [|discriminate]. injection Hr as _ <-.
  destruct i as [|i]; cbn in He, Hri.
  - injection He as <-. injection Hri as <-. exists s. rewrite Es. split; [eauto|reflexivity].
  - eapply IH; eassumption.
Qed.

(** A get answers with a value of the requested type, KeyNotFound or
    TypeMissMatch, nothing else; in particular it never panics. *)
Theorem C03_get_is_typed E keyof es w rs i h key t r :
  ordinary E keyof es -> run E world0 es = Some (w, rs) ->
  es !! i = Some (EGet h key t) -> rs !! i = Some r ->
  r = RErr KeyNotFound \/ r = RErr TypeMissMatch \/ exists v, r = ROk (Some v) /\ type_of v = t.
Proof.
  intros HO Hr He Hri. destruct (reach E keyof _ HO w rs Hr) as (sp & Hs & _).
  destruct (spec_results _ _ _ _ _ _ _ _ Hs He Hri) as (s1 & _ & Hst). cbn [spec_step] in Hst.
  destruct (sp_handles s1 !! h) as [d|]; [|discriminate]. cbn in Hst. injection Hst as <-.
  unfold spec_get. destruct (_ !! key) as [v|]; [|auto]. destruct (decide (type_of v = t)); [|auto]. right. right. eauto.
Qed.

(** No ordinary call ever panics. *)
Theorem C03_ordinary_calls_never_panic E keyof es w rs :
  ordinary E keyof es -> run E world0 es = Some (w, rs) -> Forall (fun r => r <> RPanic) rs.
Proof.
  intros HO Hr. destruct (reach E keyof _ HO w rs Hr) as (sp & Hs & _). apply List.Forall_forall. intros r Hin ->.
  apply elem_of_list_In, elem_of_list_lookup in Hin as (i & Hi).
  assert (He : exists e, es !! i = Some e).
  { assert (L : length rs = length es).
    { clear -Hs. revert Hs. generalize spec0. revert rs sp. induction es as [|e es IH]; intros rs sp s Hs; cbn in Hs.
      - injection Hs as _ <-. reflexivity.
      - destruct (spec_step _ s e) as [[s1 r]|]; [|discriminate].
        destruct (spec_run _ s1 es) as [[s2 rs2]|] eqn:Er; [|discriminate]. injection Hs as _ <-. cbn. f_equal. eapply IH, Er. }
    apply lookup_lt_is_Some_2. rewrite <- L. apply lookup_lt_is_Some_1. eauto. }
  destruct He as [e He]. destruct (spec_results _ _ _ _ _ _ _ _ Hs He Hi) as (s1 & _ & Hst).
  destruct e; cbn [spec_step] in Hst; repeat (destruct (sp_handles s1 !! _); cbn in Hst); try discriminate.
  injection Hst as Hst. unfold spec_get in Hst. destruct (_ !! key) as [v|]; [|discriminate]. destruct (decide _); discriminate.
Qed.

(** A get of another type than the stored one: TypeMissMatch. *)
Theorem C03_wrong_type E keyof es h key v t w rs :
  ordinary E keyof (es ++ [EPut h key v; EGet h key t]) -> t <> type_of v ->
  run E world0 (es ++ [EPut h key v; EGet h key t]) = Some (w, rs) -> last rs = Some (RErr TypeMissMatch).
Proof.
  intros HO Ht Hr. destruct (reach E keyof _ HO w rs Hr) as (sp & Hs & _).
  rewrite spec_run_app in Hs. destruct (spec_run (e_canon E) spec0 es) as [[s1 r1]|]; [|discriminate].
  cbn [spec_run spec_step] in Hs. destruct (sp_handles s1 !! h) as [d|] eqn:Hh; [|discriminate].
  rewrite handles_set in Hs. rewrite Hh in Hs. injection Hs as _ <-.
  rewrite last_two. unfold spec_get.
  rewrite contents_put. destruct (decide _) as [|]; [congruence|reflexivity].
Qed.

Example C03_example :
  results (ex_env FPlain) ([ENew 0 dir_d ex_key] ++ [EPut 0 k1 (VI32 1); EGet 0 k1 TI64])
  = Some [ROk None; ROk None; RErr TypeMissMatch] /\
  ordinary (ex_env FPlain) ex_keyof ([ENew 0 dir_d ex_key] ++ [EPut 0 k1 (VI32 1); EGet 0 k1 TI64]).
Proof. split; [vm_compute; reflexivity|]. apply ordinaryb_ok; [apply ex_env_ok; exact Logic.I|vm_compute; reflexivity]. Qed.

(** ** C05 *)

(** Events that do not change contents: opening, closing, reading,
    background work. *)
Definition idle (e : event) : Prop :=
  match e with ENew _ _ _ | EGet _ _ _ | EDrop _ | EIo _ => True | _ => False end.

Lemma spec_idle canon cyc : forall s s' rs,
  Forall idle cyc -> spec_run canon s cyc = Some (s', rs) -> forall d, contents s' d = contents s d.
Proof.
  induction cyc as [|e cyc IH]; intros s s' rs HF Hr d.
  - cbn in Hr. injection Hr as <- _. reflexivity.
  - inversion HF as [|? ? He HF']; subst. cbn [spec_run] in Hr.
    destruct (spec_step canon s e) as [[s1 r]|] eqn:Es; [|discriminate].
    destruct (spec_run canon s1 cyc) as [[s2 rs2]|] eqn:Er; [|discriminate]. injection Hr as <- _.
    rewrite (IH s1 s2 rs2 HF' Er d).
    destruct e; cbn in He; try contradiction; cbn [spec_step] in Es; try destruct (sp_handles s !! _) eqn:?;
      try discriminate; injection Es as <- _; reflexivity.
Qed.

(** After any history [es], any number of closings and reopenings later,
    every key answers as it did before. *)
Theorem C05_reopen_loses_nothing E keyof es cyc h p key0 key t w rs sp rs0 :
  ordinary E keyof (es ++ cyc ++ [ENew h p key0; EGet h key t]) -> Forall idle cyc ->
  run E world0 (es ++ cyc ++ [ENew h p key0; EGet h key t]) = Some (w, rs) ->
  spec_run (e_canon E) spec0 es = Some (sp, rs0) ->
  last rs = Some (spec_get (contents sp (e_canon E p)) key t).
Proof.
  intros HO HF Hr Hes. destruct (reach E keyof _ HO w rs Hr) as (sp' & Hs & _).
  rewrite spec_run_app, Hes, spec_run_app in Hs.
  destruct (spec_run (e_canon E) sp cyc) as [[s1 r1]|] eqn:E1; [|discriminate].
  pose proof (spec_idle (e_canon E) cyc sp s1 r1 HF E1) as Hc.
  cbn [spec_run spec_step] in Hs. destruct (sp_handles s1 !! h) as [d|] eqn:Hh; [discriminate|].
  cbn [sp_handles] in Hs. rewrite lookup_insert in Hs. injection Hs as _ <-.
  rewrite app_assoc, last_two.
  match goal with |- context [contents (Spec ?a ?b) _] => change (contents (Spec a b) (e_canon E p)) with (contents s1 (e_canon E p)) end.
  rewrite Hc. reflexivity.
Qed.

(** The same seen on disk: when no handle of directory [d] is open, its file
    is readable and holds exactly the contents. *)
Theorem C05_closed_file_holds_the_map E keyof es w rs d f :
  ordinary E keyof es -> run E world0 es = Some (w, rs) ->
  (forall h hd, w_handles w !! h = Some hd -> e_canon E (h_path hd) <> d) -> file_at w d = Some f ->
  exists sp M cnt, spec_run (e_canon E) spec0 es = Some (sp, rs) /\
    read_all (e_plat E) (feature_codec (e_feat E) (default [] (feature_key (e_feat E) (keyof d))) (default [] (meta_at w d))) f = IDone M cnt /\
    forall key t, get_ok t ->
      match M !! key with Some m => res_map Some (buffer_parse m t) | None => RErr KeyNotFound end
      = spec_get (contents sp d) key t.
Proof.
  intros HO Hr Hno Hf. destruct (reach E keyof _ HO w rs Hr) as (sp & Hs & W).
  assert (Hno' : forall i x, w_insts w !! i = Some x -> i_dir x <> d).
  { intros i x Hx Dx. destruct (wi_insts _ _ _ _ _ _ _ W i x Hx) as (_ & _ & _ & h & hd & Hh & Hi).
    destruct (handle_cases _ _ _ _ _ _ _ _ _ W Hh) as (_ & _ & _ & _ & _ & y & Hy & Dy & _).
    apply (Hno h hd Hh). rewrite Hi, Hx in Hy. injection Hy as <-. congruence. }
  pose proof (wi_dirs _ _ _ _ _ _ _ W d Hno') as Hd. apply dir_ok_clean in Hd. unfold file_at in Hf.
  destruct (d_data (dir_of w d)) as [ino|]; [|discriminate]. cbn in Hf. injection Hf as <-.
  destruct Hd as (rs1 & nonce & Hm & HW & Hrel).
  assert (Hcod : feature_codec (e_feat E) (kof E keyof d) nonce =
    feature_codec (e_feat E) (default [] (feature_key (e_feat E) (keyof d))) (default [] (meta_at w d))).
  { unfold kof, meta_ok, meta_at in *. destruct (e_feat E); [reflexivity|]. destruct Hm as [-> _]. reflexivity. }
  rewrite <- Hcod. destruct HW as (I & _).
  destruct (eo_plat _ (or_env _ _ _ HO)) as [H64 Hpage Hmax Hhord].
  pose proof (inv_read_all _ _ _ _ H64 (feature_law _ _ nonce (eo_feat _ (or_env _ _ _ HO))) Hmax _ _ I) as Hread.
  rewrite (view_full (closed_st (inode w ino) rs1) eq_refl) in Hread. cbn [closed_st s_file] in Hread.
  exists sp, (replay rs1), (N.of_nat (length rs1) mod 2 ^ 32). split_and!; [exact Hs|exact Hread|].
  intros key t Ht. apply (get_refines E); assumption.
Qed.

Example C05_example :
  let es := firstn 15 ex_trace in let cyc := [EDrop 0; EDrop 1; EIo 0] in
  ordinary (ex_env FPlain) ex_keyof (es ++ cyc ++ [ENew 3 dir_d ex_key; EGet 3 k2 TI64]) /\ Forall idle cyc /\
  option_map last (results (ex_env FPlain) (es ++ cyc ++ [ENew 3 dir_d ex_key; EGet 3 k2 TI64]))
  = Some (Some (ROk (Some (VI64 (-1))))).
Proof.
  split; [|split; [repeat constructor|vm_compute; reflexivity]].
  apply ordinaryb_ok; [apply ex_env_ok; exact Logic.I|vm_compute; reflexivity].
Qed.

(** ** C04 *)

(** delete makes the key absent: through any handle of the directory and
    after any closings and reopenings. *)
Theorem C04_deleted_key_is_absent E keyof es h key cyc h' p key0 t w rs sp rs0 :
  ordinary E keyof (es ++ [EDelete h key] ++ cyc ++ [ENew h' p key0; EGet h' key t]) -> Forall idle cyc ->
  run E world0 (es ++ [EDelete h key] ++ cyc ++ [ENew h' p key0; EGet h' key t]) = Some (w, rs) ->
  spec_run (e_canon E) spec0 es = Some (sp, rs0) -> sp_handles sp !! h = Some (e_canon E p) ->
  last rs = Some (RErr KeyNotFound).
Proof.
  intros HO HF Hr Hes Hh. rewrite app_assoc in HO, Hr.
  assert (Hes' : spec_run (e_canon E) spec0 (es ++ [EDelete h key]) =
    Some (set_contents sp (e_canon E p) (delete key (contents sp (e_canon E p))), rs0 ++ [ROk None])).
  { rewrite spec_run_app, Hes. cbn [spec_run spec_step]. rewrite Hh. reflexivity. }
  rewrite (C05_reopen_loses_nothing E keyof _ cyc h' p key0 key t w rs _ _ HO HF Hr Hes').
  unfold spec_get. rewrite contents_del. reflexivity.
Qed.

(** Immediately after the delete, on the same handle. *)
Theorem C04_get_after_delete E keyof es h key t w rs :
  ordinary E keyof (es ++ [EDelete h key; EGet h key t]) ->
  run E world0 (es ++ [EDelete h key; EGet h key t]) = Some (w, rs) -> last rs = Some (RErr KeyNotFound).
Proof.
  intros HO Hr. destruct (reach E keyof _ HO w rs Hr) as (sp & Hs & _).
  rewrite spec_run_app in Hs. destruct (spec_run (e_canon E) spec0 es) as [[s1 r1]|]; [|discriminate].
  cbn [spec_run spec_step] in Hs. destruct (sp_handles s1 !! h) as [d|] eqn:Hh; [|discriminate].
  rewrite handles_set in Hs. rewrite Hh in Hs. injection Hs as _ <-.
  rewrite last_two. unfold spec_get.
  rewrite contents_del. reflexivity.
Qed.

(** delete of an absent key succeeds and changes nothing at all: not the
    memory, not the queue of pending writes, not a byte on disk. *)
Theorem C04_delete_of_absent_key_does_nothing E keyof es h key w rs sp d :
  ordinary E keyof es -> run E world0 es = Some (w, rs) ->
  spec_run (e_canon E) spec0 es = Some (sp, rs) -> sp_handles sp !! h = Some d -> contents sp d !! key = None ->
  step E w (EDelete h key) = Some (w, ROk None).
Proof.
  intros HO Hr Hsp Hh Hkey. destruct (reach E keyof _ HO w rs Hr) as (sp' & Hs & W). rewrite Hsp in Hs. injection Hs as <-.
  cbn [step]. unfold with_handle. destruct (w_handles w !! h) as [hd|] eqn:Hw.
  2:{ rewrite (handle_none _ _ _ _ _ _ _ _ W Hw) in Hh. discriminate. }
  destruct (handle_cases _ _ _ _ _ _ _ _ _ W Hw) as (Hh' & Hun & _ & _ & _ & x & Hx & Dx & I).
  rewrite Hh in Hh'. injection Hh' as ->. rewrite Hun. f_equal. unfold on_inst, inst_delete.
  rewrite Hx, (io_poison _ _ _ _ _ _ _ I), (io_valid _ _ _ _ _ _ _ I).
  destruct (io_state _ _ _ _ _ _ _ I) as (q & rs1 & c & _ & _ & _ & _ & _ & R & _).
  specialize (R key). rewrite Dx, Hkey in R. rewrite R. rewrite set_inst_same by exact Hx. reflexivity.
Qed.

Example C04_example :
  ordinary (ex_env FPlain) ex_keyof (firstn 14 ex_trace ++ [EDelete 1 k1] ++ [EDrop 0; EDrop 1] ++ [ENew 3 dir_d ex_key; EGet 3 k1 TBool]) /\
  option_map last (results (ex_env FPlain) (firstn 14 ex_trace ++ [EDelete 1 k1] ++ [EDrop 0; EDrop 1] ++ [ENew 3 dir_d ex_key; EGet 3 k1 TBool]))
  = Some (Some (RErr KeyNotFound)).
Proof. split; [|vm_compute; reflexivity]. apply ordinaryb_ok; [apply ex_env_ok; exact Logic.I|vm_compute; reflexivity]. Qed.

(** ** C16 *)

(** After clear_data every key is absent through every handle of the
    directory ... *)
Theorem C16_clear_empties E keyof es h h' key t w rs sp rs0 d :
  ordinary E keyof (es ++ [EClear h; EGet h' key t]) ->
  run E world0 (es ++ [EClear h; EGet h' key t]) = Some (w, rs) ->
  spec_run (e_canon E) spec0 es = Some (sp, rs0) -> sp_handles sp !! h = Some d -> sp_handles sp !! h' = Some d ->
  last rs = Some (RErr KeyNotFound).
Proof.
  intros HO Hr Hes Hh Hh'. destruct (reach E keyof _ HO w rs Hr) as (sp' & Hs & _).
  rewrite spec_run_app, Hes in Hs. cbn [spec_run spec_step] in Hs. rewrite Hh in Hs. rewrite handles_set in Hs.
  rewrite Hh' in Hs. injection Hs as _ <-. rewrite last_two. unfold spec_get.
  rewrite contents_clr. reflexivity.
Qed.

(** ... the call answers Ok, the data file is one fresh page, and no other
    directory is touched ... *)
Theorem C16_clear_resets_the_file E keyof es h w rs w' r hd :
  ordinary E keyof es -> run E world0 es = Some (w, rs) -> w_handles w !! h = Some hd ->
  step E w (EClear h) = Some (w', r) ->
  r = ROk None /\ file_at w' (e_canon E (h_path hd)) = Some (zeros (page (e_plat E))) /\
  forall d', d' <> e_canon E (h_path hd) -> same_disk w w' d'.
Proof.
  intros HO Hr Hh Hst. destruct (reach E keyof _ HO w rs Hr) as (sp & Hs & W).
  destruct (clear_step E (or_env _ _ _ HO) keyof _ (PU_dir E keyof es HO) (PU_key E keyof es HO) (PU_inj E keyof es HO)
    w sp _ _ h hd W Hh (or_room _ _ _ HO)) as (w2 & E2 & _ & F2 & S2).
  cbn [step] in Hst. unfold with_handle in Hst. rewrite Hh in Hst. destruct (h_unreg hd); [discriminate|].
  injection Hst as Hst. rewrite E2 in Hst. injection Hst as <- <-. auto.
Qed.

(** ... and the trace goes on as on an empty store: the answers after the
    clear are those of the specification with the directory emptied. *)
Theorem C16_later_calls_as_on_an_empty_store E keyof es h es' w rs sp rs0 d :
  ordinary E keyof (es ++ EClear h :: es') -> run E world0 (es ++ EClear h :: es') = Some (w, rs) ->
  spec_run (e_canon E) spec0 es = Some (sp, rs0) -> sp_handles sp !! h = Some d ->
  exists sp' rs', spec_run (e_canon E) (set_contents sp d ∅) es' = Some (sp', rs') /\ rs = rs0 ++ ROk None :: rs'.
Proof.
  intros HO Hr Hes Hh. destruct (reach E keyof _ HO w rs Hr) as (sp' & Hs & _).
  rewrite spec_run_app, Hes in Hs. cbn [spec_run spec_step] in Hs. rewrite Hh in Hs.
  destruct (spec_run (e_canon E) (set_contents sp d ∅) es') as [[s2 r2]|]; [|discriminate].
  injection Hs as _ <-. exists s2, r2. auto.
Qed.

Example C16_example :
  ordinary (ex_env FPlain) ex_keyof (firstn 14 ex_trace ++ [EClear 0; EGet 1 k1 TBool]) /\
  results (ex_env FPlain) (firstn 14 ex_trace ++ [EClear 0; EGet 1 k1 TBool])
  = option_map (fun l => l ++ [ROk None; RErr KeyNotFound]) (results (ex_env FPlain) (firstn 14 ex_trace)).
Proof. split; [|vm_compute; reflexivity]. apply ordinaryb_ok; [apply ex_env_ok; exact Logic.I|vm_compute; reflexivity]. Qed.

(** ** C25 *)

(** Handles of one directory see each other's updates at once. *)
Theorem C25_handles_share E keyof es h h' key v w rs sp rs0 d :
  ordinary E keyof (es ++ [EPut h key v; EGet h' key (type_of v)]) ->
  run E world0 (es ++ [EPut h key v; EGet h' key (type_of v)]) = Some (w, rs) ->
  spec_run (e_canon E) spec0 es = Some (sp, rs0) -> sp_handles sp !! h = Some d -> sp_handles sp !! h' = Some d ->
  last rs = Some (ROk (Some v)).
Proof.
  intros HO Hr Hes Hh Hh'. destruct (reach E keyof _ HO w rs Hr) as (sp' & Hs & _).
  rewrite spec_run_app, Hes in Hs. cbn [spec_run spec_step] in Hs. rewrite Hh in Hs. rewrite handles_set in Hs.
  rewrite Hh' in Hs. injection Hs as _ <-. rewrite last_two. unfold spec_get.
  rewrite contents_put. destruct (decide _) as [|]; [reflexivity|congruence].
Qed.

(** Dropping one of several handles changes no contents ... *)
Theorem C25_dropping_a_handle_affects_nothing E keyof es h h' key t w rs sp rs0 d :
  ordinary E keyof (es ++ [EDrop h; EGet h' key t]) ->
  run E world0 (es ++ [EDrop h; EGet h' key t]) = Some (w, rs) ->
  spec_run (e_canon E) spec0 es = Some (sp, rs0) -> sp_handles sp !! h' = Some d -> h <> h' ->
  last rs = Some (spec_get (contents sp d) key t).
Proof.
  intros HO Hr Hes Hh' Hne. destruct (reach E keyof _ HO w rs Hr) as (sp' & Hs & _).
  rewrite spec_run_app, Hes in Hs. cbn [spec_run spec_step] in Hs. destruct (sp_handles sp !! h); [|discriminate].
  cbn [sp_handles] in Hs. rewrite lookup_delete_ne, Hh' in Hs by exact Hne. injection Hs as _ <-. rewrite last_two. reflexivity.
Qed.

(** ... and a store is open exactly while some handle of its directory is:
    there is a live instance for [d] iff there is a handle for [d], never two. *)
Theorem C25_open_iff_a_handle_is E keyof es w rs d :
  ordinary E keyof es -> run E world0 es = Some (w, rs) ->
  ((exists i x, w_insts w !! i = Some x /\ i_dir x = d) <->
   (exists h hd, w_handles w !! h = Some hd /\ e_canon E (h_path hd) = d)) /\
  (forall i j x y, w_insts w !! i = Some x -> w_insts w !! j = Some y -> i_dir x = d -> i_dir y = d -> i = j).
Proof.
  intros HO Hr. destruct (reach E keyof _ HO w rs Hr) as (sp & Hs & W). split; [split|].
  - intros (i & x & Hx & Dx). destruct (wi_insts _ _ _ _ _ _ _ W i x Hx) as (_ & _ & _ & h & hd & Hh & Hi).
    exists h, hd. split; [exact Hh|].
    destruct (handle_cases _ _ _ _ _ _ _ _ _ W Hh) as (_ & _ & _ & _ & _ & y & Hy & Dy & _).
    rewrite Hi, Hx in Hy. injection Hy as <-. congruence.
  - intros (h & hd & Hh & Hd). destruct (handle_cases _ _ _ _ _ _ _ _ _ W Hh) as (_ & _ & _ & _ & _ & y & Hy & Dy & _).
    exists (h_inst hd), y. split; [exact Hy|congruence].
  - intros i j x y Hx Hy Dx Dy. eapply (inst_unique E keyof _ (PU_inj E keyof es HO)); [exact W|exact Hx|exact Hy|congruence].
Qed.

Example C25_example :
  ordinary (ex_env FPlain) ex_keyof (firstn 11 ex_trace ++ [EPut 0 k1 hello; EGet 1 k1 TStr]) /\
  option_map last (results (ex_env FPlain) (firstn 11 ex_trace ++ [EPut 0 k1 hello; EGet 1 k1 TStr])) = Some (Some (ROk (Some hello))).
Proof. split; [|vm_compute; reflexivity]. apply ordinaryb_ok; [apply ex_env_ok; exact Logic.I|vm_compute; reflexivity]. Qed.

(** ** C28 *)

(** No event changes anything on disk about another directory ... *)
Theorem C28_other_directories_untouched E keyof es w rs e w' r d :
  ordinary E keyof es -> run E world0 es = Some (w, rs) -> call_ok E keyof e -> step E w e = Some (w', r) ->
  works_on E w e <> Some d -> same_disk w w' d.
Proof.
  intros HO Hr Hc Hst Hd. destruct (reach E keyof _ HO w rs Hr) as (sp & Hs & W).
  eapply (step_frame E (or_env _ _ _ HO) keyof _ (PU_dir E keyof es HO) (PU_key E keyof es HO) (PU_inj E keyof es HO));
    [exact W|exact Hc|apply (or_room _ _ _ HO)|exact Hst|exact Hd].
Qed.

(** ... and what a get on [h] answers is not changed by an event through a
    handle of another directory. *)
Theorem C28_other_directories_not_observed E keyof es e h key t w1 rs1 w2 rs2 sp rs0 d :
  ordinary E keyof (es ++ [EGet h key t]) -> ordinary E keyof (es ++ [e; EGet h key t]) ->
  run E world0 (es ++ [EGet h key t]) = Some (w1, rs1) -> run E world0 (es ++ [e; EGet h key t]) = Some (w2, rs2) ->
  spec_run (e_canon E) spec0 es = Some (sp, rs0) -> sp_handles sp !! h = Some d ->
  match e with
  | EPut h' _ _ | EDelete h' _ | EClear h' => exists d', sp_handles sp !! h' = Some d' /\ d' <> d
  | _ => True
  end ->
  last rs2 = last rs1.
Proof.
  intros HO1 HO2 Hr1 Hr2 Hes Hh He.
  destruct (reach E keyof _ HO1 w1 rs1 Hr1) as (s1 & Hs1 & _). destruct (reach E keyof _ HO2 w2 rs2 Hr2) as (s2 & Hs2 & _).
  rewrite spec_run_app, Hes in Hs1, Hs2. cbn [spec_run] in Hs1, Hs2.
  destruct (spec_step (e_canon E) sp (EGet h key t)) as [[sa ra]|] eqn:Ea; [|discriminate]. injection Hs1 as _ <-.
  destruct (spec_step (e_canon E) sp e) as [[sb rb]|] eqn:Eb; [|discriminate].
  destruct (spec_step (e_canon E) sb (EGet h key t)) as [[sc rc]|] eqn:Ec; [|discriminate]. injection Hs2 as _ <-.
  rewrite last_two, last_snoc. f_equal. cbn [spec_step] in Ea, Ec. rewrite Hh in Ea. injection Ea as _ <-.
  destruct (sp_handles sb !! h) as [db|] eqn:Hb; [|discriminate]. injection Ec as _ <-.
  assert (db = d /\ contents sb d = contents sp d) as [-> ->]; [|reflexivity].
  destruct e; cbn [spec_step] in Eb; try discriminate.
  - destruct (sp_handles sp !! h0) eqn:H0; [discriminate|]. injection Eb as <- _. cbn in Hb.
    rewrite lookup_insert_ne in Hb by congruence. split; [congruence|reflexivity].
  - destruct He as (d' & Hd' & Hne). rewrite Hd' in Eb. injection Eb as <- _. cbn in Hb. rewrite contents_set_ne by exact Hne. split; congruence.
  - destruct (sp_handles sp !! h0); [|discriminate]. injection Eb as <- _. split; congruence.
  - destruct He as (d' & Hd' & Hne). rewrite Hd' in Eb. injection Eb as <- _. cbn in Hb. rewrite contents_set_ne by exact Hne. split; congruence.
  - destruct He as (d' & Hd' & Hne). rewrite Hd' in Eb. injection Eb as <- _. cbn in Hb. rewrite contents_set_ne by exact Hne. split; congruence.
  - destruct (sp_handles sp !! h0) eqn:H0; [|discriminate]. injection Eb as <- _. cbn in Hb.
    apply lookup_delete_Some in Hb as [_ Hb]. split; [congruence|reflexivity].
  - injection Eb as <- _. split; congruence.
Qed.

Example C28_example :
  let es := firstn 14 ex_trace in
  ordinary (ex_env FPlain) ex_keyof (es ++ [EClear 2; EGet 0 k1 TBool]) /\
  option_map last (results (ex_env FPlain) (es ++ [EClear 2; EGet 0 k1 TBool])) = Some (Some (ROk (Some (VBool true)))).
Proof. split; [|vm_compute; reflexivity]. apply ordinaryb_ok; [apply ex_env_ok; exact Logic.I|vm_compute; reflexivity]. Qed.

(** ** C36 *)

(** The encrypted build, with any cipher that decrypts what it encrypted:
    the finite map, through appends, growth, compaction, close and reopen. *)
Theorem C36_encrypted_store_is_a_finite_map P A dir_ok canon rng keyof es :
  plat_ok P -> aead_correct A -> (forall i, length (rng i) = 11%nat) ->
  let E := Env P (FEncrypted A) dir_ok canon rng in
  Forall (call_ok E keyof) es -> one_spelling E es -> room E (writes es) ->
  option_map snd (run E world0 es) = option_map snd (spec_run canon spec0 es).
Proof.
  intros HP HA Hrng E HF H1 Hroom. apply (C02_store_is_a_finite_map E keyof es).
  split; [split; assumption|exact HF|exact H1|exact Hroom].
Qed.

Example C36_example : ordinary (ex_env (FEncrypted toy_aead)) ex_keyof ex_trace /\
  results (ex_env (FEncrypted toy_aead)) ex_trace = results (ex_env FPlain) ex_trace.
Proof. split; [exact ex_ordinary_enc|exact ex_results_enc]. Qed.

(** ** C45 *)

(** get changes nothing: not the memory, the queue, or the disk. *)
Theorem C45_get_changes_nothing E keyof es w rs h key t w' r :
  ordinary E keyof es -> run E world0 es = Some (w, rs) -> get_ok t ->
  step E w (EGet h key t) = Some (w', r) -> w' = w.
Proof.
  intros HO Hr Ht Hst. destruct (reach E keyof _ HO w rs Hr) as (sp & Hs & W).
  cbn [step] in Hst. unfold with_handle in Hst. destruct (w_handles w !! h) as [hd|] eqn:Hh; [|discriminate].
  destruct (h_unreg hd); [discriminate|]. injection Hst as Hst.
  rewrite (get_step E keyof _ w sp _ _ h hd key t W Hh Ht) in Hst. congruence.
Qed.

(** Opening an existing store and closing it again without writing leaves
    every byte of its files as it was. *)
Theorem C45_idle_reopen_changes_no_byte E keyof es h p key0 w rs f w' rs' :
  ordinary E keyof (es ++ [ENew h p key0]) -> run E world0 es = Some (w, rs) ->
  (forall h hd, w_handles w !! h = Some hd -> e_canon E (h_path hd) <> e_canon E p) ->
  file_at w (e_canon E p) = Some f -> is_encrypted (e_feat E) = true \/ meta_at w (e_canon E p) = None ->
  run E w [ENew h p key0; EDrop h] = Some (w', rs') ->
  file_at w' (e_canon E p) = Some f /\ meta_at w' (e_canon E p) = meta_at w (e_canon E p).
Proof.
  intros HO Hr Hno Hf Hmeta Hrun. set (es' := es ++ [ENew h p key0]) in *.
  destruct (reach_prefix E keyof es' HO es [ENew h p key0] w rs eq_refl Hr) as (sp & Hs & W).
  assert (Up : PU es' p).
  { unfold PU, es'. rewrite paths_app. apply in_or_app. right. left. reflexivity. }
  assert (Hkey0 : key0 = keyof (e_canon E p)).
  { pose proof (or_calls _ _ _ HO) as HF. apply Forall_app in HF as [_ HF]. inversion HF as [|? ? Hc _]; subst. apply Hc. }
  subst key0.
  pose proof (PU_dir E keyof es' HO) as U1. pose proof (PU_key E keyof es' HO) as U2. pose proof (PU_inj E keyof es' HO) as U3.
  assert (Hroom : room E (writes es)). { apply (or_room _ _ _ (ordinary_app_l _ _ _ _ HO)). }
  assert (Hno' : forall i x, w_insts w !! i = Some x -> i_dir x <> e_canon E p).
  { intros i x Hx Dx. destruct (wi_insts _ _ _ _ _ _ _ W i x Hx) as (_ & _ & _ & h0 & hd & Hh & Hi).
    destruct (handle_cases _ _ _ _ _ _ _ _ _ W Hh) as (_ & _ & _ & _ & _ & y & Hy & Dy & _).
    apply (Hno h0 hd Hh). rewrite Hi, Hx in Hy. injection Hy as <-. congruence. }
  cbn [run] in Hrun. destruct (step E w (ENew h p (keyof (e_canon E p)))) as [[w1 r1]|] eqn:E1; [|discriminate].
  destruct (step E w1 (EDrop h)) as [[w2 r2]|] eqn:E2; [|discriminate]. injection Hrun as <- <-.
  cbn [step] in E1. destruct (w_handles w !! h) eqn:Hh; [discriminate|]. injection E1 as E1.
  pose proof (wi_dirs _ _ _ _ _ _ _ W _ Hno') as Hd0.
  destruct (open_impl_ok E (or_env _ _ _ HO) keyof (PU es') U1 U2 U3 w p _ _ Up Hd0 (fun i => wi_fresh _ _ _ _ _ _ _ W (e_canon E p) i))
    as (wo & y & Eo & Dy & Iy & Qy & T1 & T2 & T3 & T4 & T5 & T6 & T7 & T8 & T9).
  pose proof (Iy (fun _ _ => True) Logic.I) as I0. pose proof (io_data _ _ _ _ _ _ _ I0) as D0. rewrite Dy in D0.
  unfold do_new in E1. rewrite (wi_poison _ _ _ _ _ _ _ W) in E1.
  rewrite (lookup_reg_inv E keyof _ w sp _ _ p W) in E1.
  destruct (w_reg w !! p) as [i|] eqn:Hreg.
  { destruct (wi_reg _ _ _ _ _ _ _ W p i Hreg) as (_ & x & Hx & Dx). destruct (Hno' i x Hx Dx). }
  rewrite Eo in E1. injection E1 as E1 _.
  assert (Hx1 : w_insts w1 !! w_next_inst wo = Some y) by (subst w1; cbn; apply lookup_insert).
  assert (Hh1 : w_handles w1 !! h = Some (Handle p (keyof (e_canon E p)) (w_next_inst wo) false)) by (subst w1; cbn; apply lookup_insert).
  cbn [step] in E2. unfold with_handle in E2. rewrite Hh1 in E2. cbn [h_unreg] in E2. injection E2 as E2.
  assert (Hpw : w_poison w1 = false). { subst w1. cbn. rewrite T4. apply (wi_poison _ _ _ _ _ _ _ W). }
  unfold do_drop_reg in E2. rewrite Hpw in E2.
  match type of E2 with context [do_drop_arc E ?w0 h ?hd0] => set (wd := w0) in E2; set (hd := hd0) in E2 end.
  assert (Sd : w_dirs wd = w_dirs w1 /\ w_inodes wd = w_inodes w1 /\ w_insts wd = w_insts w1).
  { unfold wd. destruct (Nat.eqb _ _); split_and!; reflexivity. }
  destruct Sd as (S1 & S2 & S3). clearbody wd.
  assert (Hw2 : w_dirs w2 = w_dirs w1 /\ w_inodes w2 = w_inodes w1).
  { unfold do_drop_arc in E2. cbn [hd h_inst] in E2. destruct (Nat.eqb (strong wd (w_next_inst wo)) 1).
    - unfold drain in E2. rewrite S3, Hx1, Qy in E2. cbn [length Nat.iter] in E2. cbn [nat_rect] in E2.
      cbv beta iota zeta in E2. injection E2 as <- _. cbn. auto.
    - cbv beta iota zeta in E2. injection E2 as <- _. cbn. auto. }
  destruct Hw2 as [Hw2 Hw3].
  assert (Hdirs : forall d, dir_of w2 d = dir_of wo d) by (intros d; unfold dir_of; rewrite Hw2; subst w1; reflexivity).
  assert (Hinodes : forall j, inode w2 j = inode wo j) by (intros j; unfold inode; rewrite Hw3; subst w1; reflexivity).
  unfold file_at in Hf. destruct (d_data (dir_of w (e_canon E p))) as [ino|] eqn:Ed; [|discriminate]. cbn in Hf. injection Hf as Hf.
  destruct T9 as [(X & _)|(X & _)]; [|discriminate]. injection X as X.
  split.
  - unfold file_at. rewrite Hdirs, D0. cbn [option_map]. rewrite Hinodes, <- X.
    rewrite T8; [|eapply (wi_fresh _ _ _ _ _ _ _ W), Ed|left; reflexivity]. rewrite Hf. reflexivity.
  - unfold meta_at. rewrite Hdirs.
    pose proof (io_meta _ _ _ _ _ _ _ I0) as M0. rewrite Dy in M0. unfold meta_ok in M0.
    apply dir_ok_clean in Hd0. rewrite Ed in Hd0. destruct Hd0 as (rs1 & nonce & M1 & _). unfold meta_ok in M1.
    (* the nonce file is read, not rewritten *)
    clear - Eo Hmeta M1 M0 Ed.
    unfold open_impl in Eo. destruct (e_dir_ok E p); [|discriminate]. cbv zeta in Eo.
    unfold open_config in Eo. rewrite Ed in Eo.
    destruct (feature_key _ _) as [k|]; [|discriminate].
    unfold open_nonce in Eo. destruct (e_feat E) as [|A]; cbn [is_encrypted] in Eo, Hmeta.
    + destruct (open_file _ _ _ _) as [[s m]|]; [|discriminate]. injection Eo as <- _. reflexivity.
    + destruct M1 as [M1 L1].
      assert (Hi : init_nonce (d_meta (dir_of (set_inode w ino (config_new (e_plat E) (inode w ino))) (e_canon E p)))
               (e_rng E (w_rng (set_inode w ino (config_new (e_plat E) (inode w ino))))) = (nonce, nonce)).
      { change (d_meta (dir_of (set_inode w ino (config_new (e_plat E) (inode w ino))) (e_canon E p))) with (d_meta (dir_of w (e_canon E p))).
        rewrite M1. unfold init_nonce. rewrite L1. reflexivity. }
      rewrite Hi in Eo. destruct (open_file _ _ _ _) as [[s m]|]; [|discriminate]. injection Eo as <- _.
      erewrite dir_of_insert by reflexivity. destruct (decide _) as [_|]; [|congruence]. cbn. symmetry. exact M1.
Qed.

Example C45_example :
  let es := firstn 17 ex_trace in
  ordinary (ex_env FPlain) ex_keyof (es ++ [ENew 3 dir_d ex_key]) /\
  exists w rs f w' rs', run (ex_env FPlain) world0 es = Some (w, rs) /\ file_at w dir_d = Some f /\
    meta_at w dir_d = None /\ run (ex_env FPlain) w [ENew 3 dir_d ex_key; EDrop 3] = Some (w', rs').
Proof.
  split; [apply ordinaryb_ok; [apply ex_env_ok; exact Logic.I|vm_compute; reflexivity]|].
  assert (H : match run (ex_env FPlain) world0 (firstn 17 ex_trace) with
    | Some (w, _) => match file_at w dir_d, meta_at w dir_d, run (ex_env FPlain) w [ENew 3 dir_d ex_key; EDrop 3] with
        | Some _, None, Some _ => true | _, _, _ => false end
    | None => false end = true) by (vm_compute; reflexivity).
  destruct (run (ex_env FPlain) world0 (firstn 17 ex_trace)) as [[w rs]|]; [|discriminate].
  destruct (file_at w dir_d) as [f|] eqn:Hf; [|discriminate]. destruct (meta_at w dir_d) eqn:Hm; [discriminate|].
  destruct (run _ w _) as [[w' rs']|] eqn:Hr; [|discriminate]. exists w, rs, f, w', rs'. auto.
Qed.
