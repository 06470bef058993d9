(** C81: copies of a directory. *)
From Verif Require Import Bytes Utf8 Proto Value Codec Store StoreFacts Encrypt World Spec Hyps Refine WorldInv WorldStep Main Frames Reach Examples P_Map P_Kill P_Power.
From Coq Require Import ZifyBool ZifyNat ZifyN.
From Coq Require String. Import (notations) String.
Local Open Scope N_scope.

(** Somebody copies the files of directory [src] -- the data file and the
    nonce file, which lie in it side by side (mmkv.rs:114-126 makes the data
    file's path, encrypt.rs:45-52 the nonce file's; their names are the same in
    every directory) -- to
    directory [dst], replacing what was there; the process goes on.  The copy
    is a new file, so nothing that is mapped is touched.
    Simplification: the copy is taken between two background jobs. *)
Definition copied (w : world) (src dst : bytes) : world :=
  let data := d_data (dir_of w src) in
  World (<[dst := Dir (option_map (fun _ => w_next_ino w) data) (d_meta (dir_of w src))]> (w_dirs w))
    (match data with Some i => <[w_next_ino w := inode w i]> (w_inodes w) | None => w_inodes w end)
    (w_next_ino w + 1) (w_insts w) (w_next_inst w) (w_handles w) (w_reg w) (w_poison w) (w_rng w) (w_seed w).

Section Files.
Context (w : world) (src dst : bytes).

Lemma copied_dir d : d <> dst -> dir_of (copied w src dst) d = dir_of w d.
Proof. intros Hd. unfold dir_of, copied. cbn. rewrite lookup_insert_ne by congruence. reflexivity. Qed.

Lemma copied_dst : dir_of (copied w src dst) dst = Dir (option_map (fun _ => w_next_ino w) (d_data (dir_of w src))) (d_meta (dir_of w src)).
Proof. unfold dir_of at 1, copied. cbn. rewrite lookup_insert. reflexivity. Qed.

Lemma copied_inode j : j < w_next_ino w -> inode (copied w src dst) j = inode w j.
Proof.
  intros Hj. unfold inode, copied. cbn. destruct (d_data (dir_of w src)); [|reflexivity]. rewrite lookup_insert_ne by lia. reflexivity.
Qed.

Lemma copied_new i : d_data (dir_of w src) = Some i -> inode (copied w src dst) (w_next_ino w) = inode w i.
Proof. intros Hi. unfold inode at 1, copied. cbn. rewrite Hi, lookup_insert. reflexivity. Qed.

End Files.

Section Copy.
Context (E : env) (keyof : bytes -> bytes) (U : bytes -> Prop).
Context (HU_inj : forall p p', U p -> U p' -> e_canon E p = e_canon E p' -> p = p').
Context (w : world) (sp : spec) (H : bytes -> nat -> smap -> Prop) (n : N) (src dst : bytes).
Context (W : WInv E keyof U w sp H n) (Hkey : keyof dst = keyof src) (Hno : no_handle sp dst).

Lemma copied_WInv S : dir_ok E keyof w S n src ->
  WInv E keyof U (copied w src dst) (set_contents sp dst S) (fun d k' S' => if decide (d = dst) then k' = 0%nat /\ S' = S else H d k' S') n.
Proof using W Hkey Hno HU_inj.
  intros G. unfold dir_ok in G.
  assert (Hc : forall d, d <> dst -> contents (set_contents sp dst S) d = contents sp d).
  { intros d Hne. unfold contents, set_contents. cbn. rewrite lookup_insert_ne by congruence. reflexivity. }
  assert (Hcd : contents (set_contents sp dst S) dst = S).
  { unfold contents at 1, set_contents. cbn. rewrite lookup_insert. reflexivity. }
  pose proof (no_handle_inst E keyof U w sp H n dst W Hno) as Hni.
  destruct W as [A1 A2 A3 A4 A5 A6 A7 A8]. split; cbn [copied w_poison w_handles w_reg w_insts w_next_inst w_next_ino].
  - exact A1.
  - intros d. destruct (decide (d = dst)) as [->|Hne]; [rewrite Hcd; auto|]. rewrite Hc by exact Hne. apply A2.
  - exact A3.
  - exact A4.
  - intros i x Hx. destruct (A5 i x Hx) as (B1 & B2 & B3). split; [exact B1|]. split; [|exact B3]. pose proof (Hni i x Hx) as Hne.
    rewrite Hc by exact Hne. eapply (inst_ok_frame E); [apply (copied_dir w src dst), Hne| | | |exact B2].
    + apply (copied_inode w src dst). eapply A7. apply (io_data _ _ _ _ _ _ _ B2).
    + lia.
    + intros k' S' HS. rewrite decide_False by exact Hne. exact HS.
  - intros d Hd'. destruct (decide (d = dst)) as [->|Hne].
    + rewrite Hcd. unfold dir_ok. rewrite (copied_dst w src dst). cbn [d_data]. destruct (d_data (dir_of w src)) as [i|] eqn:Hi; cbn [option_map]; [|exact G].
      rewrite (copied_new w src dst i Hi). destruct G as [(rs & nonce & s & M & B & C & D)|[G _]]; [left|discriminate G].
      exists rs, nonce, s. split_and!; auto.
      * unfold meta_ok in *. rewrite (copied_dst w src dst). exact M.
      * unfold kof in *. rewrite Hkey. exact C.
    + rewrite Hc by exact Hne. eapply (dir_ok_frame E); [apply (copied_dir w src dst), Hne| | |apply A6, Hd'].
      * intros i Hi. apply (copied_inode w src dst). eapply A7, Hi.
      * lia.
  - intros d i Hi. destruct (decide (d = dst)) as [->|Hne].
    + rewrite (copied_dst w src dst) in Hi. destruct (d_data (dir_of w src)); [|discriminate Hi]. injection Hi as <-. lia.
    + rewrite (copied_dir w src dst) in Hi by exact Hne. pose proof (A7 _ _ Hi). lia.
  - assert (Q : forall d i, d <> dst -> d_data (dir_of (copied w src dst) d) = Some i -> d_data (dir_of (copied w src dst) dst) <> Some i).
    { intros d i Hne Hi Hj. rewrite (copied_dir w src dst) in Hi by exact Hne. pose proof (A7 _ _ Hi) as Hlt. rewrite (copied_dst w src dst) in Hj.
      destruct (d_data (dir_of w src)); [|discriminate Hj]. injection Hj as <-. lia. }
    intros d d' i Hi Hi'. destruct (decide (d = dst)) as [->|Hne], (decide (d' = dst)) as [->|Hne']; [reflexivity| | |].
    + destruct (Q d' i Hne' Hi' Hi).
    + destruct (Q d i Hne Hi Hi').
    + rewrite (copied_dir w src dst) in Hi, Hi' by assumption. eapply A8; eassumption.
Qed.

(** What lies in the file: all but the last [k] changes. *)
Lemma pending_dir_ok : exists k S, jobs_left w src k /\ H src k S /\ dir_ok E keyof w S n src.
Proof using W HU_inj.
  destruct (kill_ok E keyof U HU_inj w sp H n W) as (s' & _ & W' & Hd).
  destruct (Hd src) as (k & Hk & HH). exists k, (contents s' src). split; [exact Hk|]. split; [exact HH|].
  eapply (dir_ok_frame E keyof (killed w)); [reflexivity|intros; reflexivity|reflexivity|].
  apply (wi_dirs _ _ _ _ _ _ _ W' src). intros j z Hz. unfold killed in Hz. cbn in Hz. rewrite lookup_empty in Hz. discriminate Hz.
Qed.

(** Nothing of [src] waits for the background thread. *)
Lemma idle_dir_ok : (forall i x, w_insts w !! i = Some x -> i_dir x = src -> i_queue x = []) -> dir_ok E keyof w (contents sp src) n src.
Proof using W.
  clear HU_inj Hkey Hno. clear dst.
  intros Hidle. destruct (in_dec (fun a b => decide (a = b)) src (map (fun y => i_dir y.2) (map_to_list (w_insts w)))) as [Hin|Hin].
  - apply in_map_iff in Hin as ([i x] & Dx & Hx). cbn in Dx. apply elem_of_list_In, elem_of_map_to_list in Hx.
    destruct (wi_insts _ _ _ _ _ _ _ W i x Hx) as (_ & I & _). destruct (io_state _ _ _ _ _ _ _ I) as (q & rs & c & B1 & B2 & B3 & B4 & B5 & B6 & B7).
    rewrite (Hidle i x Hx Dx) in B1. destruct q; [|discriminate B1]. cbn [map fold_left] in B5. pose proof (io_data _ _ _ _ _ _ _ I) as Hdata.
    pose proof (io_meta _ _ _ _ _ _ _ I) as Hm. rewrite Dx in *. unfold dir_ok. rewrite Hdata. left. exists rs, (i_nonce x), (i_st w x). split_and!.
    + exact Hm.
    + reflexivity.
    + unfold i_codec in B3. rewrite (io_key _ _ _ _ _ _ _ I), Dx in B3. eapply r_mono; [|exact B3]. cbn in B4. lia.
    + rewrite <- B5. exact B6.
  - apply (wi_dirs _ _ _ _ _ _ _ W). intros i x Hx Dx. apply Hin. apply in_map_iff. exists (i, x). split; [exact Dx|].
    apply elem_of_list_In, elem_of_map_to_list, Hx.
Qed.
End Copy.

(** * C81 *)

(** A copy taken at any moment between two background jobs holds what [src]
    held before its last changes, as many as still wait to be written; the
    copied store and all the others then answer like maps, whatever is done. *)
Theorem C81_a_copy_is_a_store E keyof es es' w rs sp src dst :
  ordinary E keyof (es ++ es') -> run E world0 es = Some (w, rs) -> spec_run (e_canon E) spec0 es = Some (sp, rs) ->
  keyof dst = keyof src -> (forall h, sp_handles sp !! h <> Some dst) ->
  exists es1 es2 s1 rs1, es = es1 ++ es2 /\ spec_run (e_canon E) spec0 es1 = Some (s1, rs1) /\
    jobs_left w src (mutations (e_canon E) s1 src es2) /\
    option_map snd (run E (copied w src dst) es') = option_map snd (spec_run (e_canon E) (set_contents sp dst (contents s1 src)) es').
Proof.
  intros HO Hr Hsp Hkey Hno. destruct (reach_prefix E keyof _ HO es es' w rs eq_refl Hr) as (sp' & Hsp' & W).
  rewrite Hsp in Hsp'. injection Hsp' as <-.
  destruct (pending_dir_ok E keyof _ (PU_inj E keyof _ HO) w sp _ _ src W) as (k & S & Hk & HS & HD).
  pose proof (copied_WInv E keyof _ (PU_inj E keyof _ HO) w sp _ _ src dst W Hkey Hno S HD) as W'.
  destruct (hist0_sound E keyof _ (PU_dir E keyof _ HO) (PU_key E keyof _ HO) (PU_inj E keyof _ HO) spec0 es src k _ sp rs Hsp HS) as (es1 & es2 & s1 & rs1 & A & B & C & D).
  exists es1, es2, s1, rs1. split; [exact A|]. split; [exact B|]. split; [rewrite D; exact Hk|]. rewrite C.
  pose proof (or_calls _ _ _ HO) as HF. apply Forall_app in HF as [_ HF].
  pose proof (run_ok E (or_env _ _ _ HO) keyof _ (PU_dir E keyof _ HO) (PU_key E keyof _ HO) (PU_inj E keyof _ HO) es' _ _ _ _ W' HF
    (in_U_all (es ++ es') es es' [] ltac:(rewrite app_nil_r; reflexivity))) as G.
  rewrite <- writes_app in G. specialize (G (or_room _ _ _ HO)).
  destruct (run E (copied w src dst) es') as [[w' rs']|], (spec_run (e_canon E) _ es') as [[sp' rs'']|]; cbn [option_map snd]; try contradiction.
  - destruct G as [-> _]. reflexivity.
  - reflexivity.
Qed.

(** ** Histories with copies *)

Inductive act := ACall (e : event) | ACopy (src dst : bytes).

Definition calls (l : list act) : list event := flat_map (fun a => match a with ACall e => [e] | ACopy _ _ => [] end) l.

Fixpoint arun (E : env) (w : world) (l : list act) : option (world * list result) :=
  match l with
  | [] => Some (w, [])
  | ACall e :: l =>
      match step E w e with
      | Some (w1, r) => match arun E w1 l with Some (w2, rs) => Some (w2, r :: rs) | None => None end
      | None => None
      end
  | ACopy src dst :: l => arun E (copied w src dst) l
  end.

(** A copy makes the one map the other. *)
Fixpoint aspec (canon : bytes -> bytes) (s : spec) (l : list act) : option (spec * list result) :=
  match l with
  | [] => Some (s, [])
  | ACall e :: l =>
      match spec_step canon s e with
      | Some (s1, r) => match aspec canon s1 l with Some (s2, rs) => Some (s2, r :: rs) | None => None end
      | None => None
      end
  | ACopy src dst :: l => aspec canon (set_contents s dst (contents s src)) l
  end.

(** Copies go between directories of one key, to directories nobody has open,
    at moments when nothing of the source waits for the background thread. *)
Fixpoint calm_copies (E : env) (keyof : bytes -> bytes) (w : world) (s : spec) (l : list act) : Prop :=
  match l with
  | [] => True
  | ACall e :: l =>
      match step E w e, spec_step (e_canon E) s e with
      | Some (w1, _), Some (s1, _) => calm_copies E keyof w1 s1 l
      | _, _ => True
      end
  | ACopy src dst :: l =>
      keyof dst = keyof src /\ (forall h, sp_handles s !! h <> Some dst) /\
      (forall i x, w_insts w !! i = Some x -> i_dir x = src -> i_queue x = []) /\
      calm_copies E keyof (copied w src dst) (set_contents s dst (contents s src)) l
  end.

Lemma arun_ok E keyof (U : bytes -> Prop) : env_ok E ->
  (forall p, U p -> e_dir_ok E p = true) -> (forall p, U p -> feature_key (e_feat E) (keyof (e_canon E p)) <> None) ->
  (forall p p', U p -> U p' -> e_canon E p = e_canon E p' -> p = p') ->
  forall l w sp H n, WInv E keyof U w sp H n -> Forall (call_ok E keyof) (calls l) -> Forall (in_U U) (calls l) ->
  room E (n + writes (calls l)) -> calm_copies E keyof w sp l ->
  option_map snd (arun E w l) = option_map snd (aspec (e_canon E) sp l).
Proof.
  intros HE U1 U2 U3 l. induction l as [|[e|src dst] l IH]; intros w sp H n W HF HU Hroom HC; [reflexivity| |].
  - cbn [arun aspec calm_copies calls flat_map app] in *. inversion HF as [|? ? Hf HF']; subst. inversion HU as [|? ? Hu HU']; subst.
    rewrite writes_cons in Hroom.
    pose proof (step_ok E HE keyof U U1 U2 U3 w sp H n e W Hf Hu ltac:(eapply room_mono; [|exact Hroom]; unfold wcount; lia)) as G.
    destruct (step E w e) as [[w1 r]|], (spec_step (e_canon E) sp e) as [[sp1 r1]|]; cbn [option_map]; try contradiction; [|reflexivity].
    destruct G as [-> W1]. specialize (IH w1 sp1 _ _ W1 HF' HU' ltac:(rewrite <- N.add_assoc; exact Hroom) HC).
    destruct (arun E w1 l) as [[w2 rs]|], (aspec (e_canon E) sp1 l) as [[sp2 rs2]|]; cbn [option_map snd] in *; congruence.
  - cbn [arun aspec calm_copies] in *. destruct HC as (Hkey & Hno & Hidle & HC).
    eapply IH; [|exact HF|exact HU|exact Hroom|exact HC].
    apply copied_WInv; [exact U3|exact W|exact Hkey|exact Hno|]. eapply idle_dir_ok; [exact W|exact Hidle].
Qed.

Theorem C81_copies_of_idle_directories E keyof l :
  ordinary E keyof (calls l) -> calm_copies E keyof world0 spec0 l ->
  option_map snd (arun E world0 l) = option_map snd (aspec (e_canon E) spec0 l).
Proof.
  intros HO HC. eapply (arun_ok E keyof _ (or_env _ _ _ HO) (PU_dir E keyof _ HO) (PU_key E keyof _ HO) (PU_inj E keyof _ HO)).
  - apply (WInv_init E keyof).
  - apply (or_calls _ _ _ HO).
  - apply (in_U_all (calls l) [] (calls l) []). rewrite app_nil_r. reflexivity.
  - rewrite N.add_0_l. apply (or_room _ _ _ HO).
  - exact HC.
Qed.

(** A computable test for [calm_copies]. *)
Fixpoint calm_copiesb (E : env) (keyof : bytes -> bytes) (w : world) (s : spec) (l : list act) : bool :=
  match l with
  | [] => true
  | ACall e :: l =>
      match step E w e, spec_step (e_canon E) s e with
      | Some (w1, _), Some (s1, _) => calm_copiesb E keyof w1 s1 l
      | _, _ => true
      end
  | ACopy src dst :: l =>
      bool_decide (keyof dst = keyof src) && forallb (fun hd => negb (bool_decide (hd.2 = dst))) (map_to_list (sp_handles s)) &&
      forallb (fun ix => negb (bool_decide (i_dir ix.2 = src)) || match i_queue ix.2 with [] => true | _ => false end) (map_to_list (w_insts w)) &&
      calm_copiesb E keyof (copied w src dst) (set_contents s dst (contents s src)) l
  end.

Lemma calm_copiesb_ok E keyof l : forall w s, calm_copiesb E keyof w s l = true -> calm_copies E keyof w s l.
Proof.
  induction l as [|[e|src dst] l IH]; intros w s T; cbn [calm_copies calm_copiesb] in *; [exact Logic.I| |].
  - destruct (step E w e) as [[w1 r]|]; [|exact Logic.I]. destruct (spec_step (e_canon E) s e) as [[s1 r1]|]; [|exact Logic.I]. apply IH, T.
  - apply andb_true_iff in T as [T T4]. apply andb_true_iff in T as [T T3]. apply andb_true_iff in T as [T1 T2].
    apply bool_decide_eq_true in T1. rewrite forallb_forall in T2, T3. split; [exact T1|]. split; [|split; [|apply IH, T4]].
    + intros h Hh. specialize (T2 (h, dst)). cbn [snd] in T2. rewrite bool_decide_eq_true_2 in T2 by reflexivity.
      apply elem_of_map_to_list, elem_of_list_In in Hh. discriminate (T2 Hh).
    + intros i x Hx Dx. specialize (T3 (i, x)). cbn [snd] in T3. rewrite bool_decide_eq_true_2 in T3 by exact Dx.
      apply elem_of_map_to_list, elem_of_list_In in Hx. specialize (T3 Hx). cbn in T3. destruct (i_queue x); [reflexivity|discriminate T3].
Qed.

(** A copy of an open store, opened beside it; the two go their own ways. *)
Definition ex_copy : list act :=
  [ACall (ENew 0 dir_d ex_key); ACall (EPut 0 k1 (VI32 5)); ACall (EIo 0); ACopy dir_d dir_e; ACall (EPut 0 k1 (VI32 6));
   ACall (ENew 1 dir_e ex_key); ACall (EGet 1 k1 TI32); ACall (EPut 1 k2 hello); ACall (EGet 0 k1 TI32); ACall (EGet 0 k2 TStr);
   ACall (EDrop 0); ACall (EDrop 1); ACopy dir_e dir_d; ACall (ENew 2 dir_d ex_key); ACall (EGet 2 k1 TI32); ACall (EGet 2 k2 TStr)].

Lemma C81_copies_of_idle_directories_example : forall F, F = FPlain \/ F = FEncrypted toy_aead ->
  ordinary (ex_env F) ex_keyof (calls ex_copy) /\ calm_copies (ex_env F) ex_keyof world0 spec0 ex_copy /\
  option_map snd (arun (ex_env F) world0 ex_copy) =
    Some [ROk None; ROk None; ROk None; ROk None; ROk None; ROk (Some (VI32 5)); ROk None; ROk (Some (VI32 6)); RErr KeyNotFound;
          ROk None; ROk None; ROk None; ROk (Some (VI32 5)); ROk (Some hello)].
Proof.
  intros F HF.
  assert (HO : ordinary (ex_env F) ex_keyof (calls ex_copy)).
  { destruct HF as [-> | ->]; (apply ordinaryb_ok; [apply ex_env_ok; first [exact Logic.I | exact toy_aead_correct]|vm_compute; reflexivity]). }
  split; [exact HO|].
  assert (HC : calm_copies (ex_env F) ex_keyof world0 spec0 ex_copy).
  { apply calm_copiesb_ok. destruct HF as [-> | ->]; vm_compute; reflexivity. }
  split; [exact HC|]. rewrite (C81_copies_of_idle_directories _ _ _ HO HC). destruct HF as [-> | ->]; vm_compute; reflexivity.
Qed.

(** A copy taken while a put still waits for the background thread lacks it. *)
Lemma C81_a_copy_is_a_store_example : exists w rs sp,
  ordinary (ex_env FPlain) ex_keyof ([ENew 0 dir_d ex_key; EPut 0 k1 (VI32 5); EIo 0; EPut 0 k1 (VI32 6)] ++ [ENew 1 dir_e ex_key; EGet 1 k1 TI32; EGet 0 k1 TI32]) /\
  run (ex_env FPlain) world0 [ENew 0 dir_d ex_key; EPut 0 k1 (VI32 5); EIo 0; EPut 0 k1 (VI32 6)] = Some (w, rs) /\
  spec_run (e_canon (ex_env FPlain)) spec0 [ENew 0 dir_d ex_key; EPut 0 k1 (VI32 5); EIo 0; EPut 0 k1 (VI32 6)] = Some (sp, rs) /\
  ex_keyof dir_e = ex_keyof dir_d /\ (forall h, sp_handles sp !! h <> Some dir_e) /\
  option_map snd (run (ex_env FPlain) (copied w dir_d dir_e) [ENew 1 dir_e ex_key; EGet 1 k1 TI32; EGet 0 k1 TI32]) =
    Some [ROk None; ROk (Some (VI32 5)); ROk (Some (VI32 6))].
Proof.
  set (es := [ENew 0 dir_d ex_key; EPut 0 k1 (VI32 5); EIo 0; EPut 0 k1 (VI32 6)]).
  set (es' := [ENew 1 dir_e ex_key; EGet 1 k1 TI32; EGet 0 k1 TI32]).
  assert (HO : ordinary (ex_env FPlain) ex_keyof (es ++ es')).
  { apply ordinaryb_ok; [apply ex_env_ok; exact Logic.I|vm_compute; reflexivity]. }
  assert (T : match run (ex_env FPlain) world0 es with
    | Some (w, _) => option_map snd (run (ex_env FPlain) (copied w dir_d dir_e) es') | None => None end
      = Some [ROk None; ROk (Some (VI32 5)); ROk (Some (VI32 6))]) by (vm_compute; reflexivity).
  destruct (run (ex_env FPlain) world0 es) as [[w rs]|] eqn:Hr; [|discriminate T].
  destruct (reach _ ex_keyof es (ordinary_app_l _ _ _ _ HO) w rs Hr) as (sp & Hsp & _).
  exists w, rs, sp. split; [exact HO|]. split; [reflexivity|]. split; [exact Hsp|]. split; [reflexivity|]. split; [|exact T].
  assert (Hs : option_map (fun y => map_to_list (sp_handles y.1)) (spec_run (e_canon (ex_env FPlain)) spec0 es) = Some [(0, dir_d)]) by (vm_compute; reflexivity).
  rewrite Hsp in Hs. cbn [option_map fst] in Hs. injection Hs as Hs. intros h Hh. apply elem_of_map_to_list in Hh. rewrite Hs in Hh.
  apply elem_of_list_singleton in Hh. injection Hh as _ Hh. revert Hh. vm_compute. discriminate.
Qed.
