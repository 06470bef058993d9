(** C44, C45, C58: sessions that only read, and sessions with a wrong key. *)
From Verif Require Import Bytes Utf8 Proto ProtoFacts Crc8 Value Codec Store StoreFacts Encrypt World Spec Hyps Refine WorldInv WorldStep Main Frames Reach Examples P_Map P_Store Slots Damaged Crash P_Kill P_Kill2 P_Corrupt P_Enc P_Enc2 P_Damaged.
From Coq Require Import ZifyBool ZifyNat ZifyN.
From Coq Require String. Import (notations) String.
Local Open Scope N_scope.

(** * What the theorems speak about *)

(** Opening, reading, closing (in one or two steps), background activity,
    kills; no put, delete or clear. *)
Definition reading (e : event) : bool :=
  match e with ENew _ _ _ | EGet _ _ _ | EGetPanic _ _ _ | EDrop _ | EDropReg _ | EDropArc _ | EIo _ | EKill => true | _ => false end.

(** The files of directory [d] are there: a data file with content and, in the
    encrypted build, an 11 byte nonce file. *)
Definition files_there (E : env) (w : world) (d : bytes) : Prop :=
  (exists f, file_at w d = Some f /\ f <> []) /\
  (is_encrypted (e_feat E) = true -> exists n, meta_at w d = Some n /\ length n = nonce_len).

(** * Reading changes no file *)

Definition resting (w : world) : Prop := forall i x, w_insts w !! i = Some x -> i_queue x = [].

Lemma disk_eq_refl w : disk_eq w w.
Proof. split; auto. Qed.

Lemma disk_eq_trans w1 w2 w3 : disk_eq w1 w2 -> disk_eq w2 w3 -> disk_eq w1 w3.
Proof. intros [A B] [C D]. split; intros x; [rewrite C; apply A|rewrite D; apply B]. Qed.

Lemma rest_job E w i : resting w -> run_job E w i = w.
Proof.
  intros H. unfold run_job. destruct (w_insts w !! i) as [x|] eqn:Hx; [|reflexivity]. rewrite (H i x Hx). destruct (i_io x); reflexivity.
Qed.

Lemma rest_drain E w i : resting w -> drain E w i = w.
Proof. intros H. unfold drain. destruct (w_insts w !! i) as [x|] eqn:Hx; [|reflexivity]. rewrite (H i x Hx). reflexivity. Qed.

Lemma read_open E w p key w' y : files_there E w (e_canon E p) -> open_impl E w p key = (w', y) ->
  disk_eq w w' /\ w_insts w' = w_insts w /\ w_next_ino w' = w_next_ino w /\ match y with Some x => i_queue x = [] | None => True end.
Proof.
  intros [(f & Hf & Hne) Hm] H. unfold open_impl in H. set (d := e_canon E p) in *.
  destruct (e_dir_ok E p); [|injection H as <- <-; split_and!; try (split; reflexivity); auto].
  unfold file_at in Hf. destruct (d_data (dir_of w d)) as [ino|] eqn:Ed; [|discriminate]. injection Hf as Hf.
  unfold open_config in H. rewrite Ed in H.
  assert (Hcf : config_new (e_plat E) (inode w ino) = inode w ino).
  { unfold config_new. destruct (N.eqb_spec (len (inode w ino)) 0) as [Hz|]; [|reflexivity]. rewrite Hf in Hz. destruct f; [contradiction|]. unfold len in Hz. cbn in Hz. lia. }
  rewrite Hcf in H. set (w1 := set_inode w ino (inode w ino)) in *.
  assert (H1 : disk_eq w w1).
  { split; [reflexivity|]. intros j. unfold w1, inode at 1, set_inode. cbn [w_inodes]. destruct (decide (j = ino)) as [->|Hj]; [rewrite lookup_insert; reflexivity|].
    rewrite lookup_insert_ne by congruence. reflexivity. }
  destruct (feature_key (e_feat E) key) as [k|]; [|injection H as <- <-; split_and!; auto].
  assert (H2 : exists w2 nonce, open_nonce E w1 d = (w2, nonce) /\ disk_eq w w2 /\ w_insts w2 = w_insts w /\ w_next_ino w2 = w_next_ino w).
  { unfold open_nonce. destruct (is_encrypted (e_feat E)); [|exists w1, []; split_and!; auto].
    destruct (Hm eq_refl) as (n & Hn & Hl). unfold meta_at in Hn. change (dir_of w1 d) with (dir_of w d). rewrite Hn.
    unfold init_nonce. apply Nat.eqb_eq in Hl. rewrite Hl. eexists _, _. split; [reflexivity|]. split_and!; auto.
    eapply disk_eq_trans; [exact H1|]. split; [|reflexivity]. intros d'. unfold dir_of at 1. cbn [w_dirs].
    destruct (decide (d' = d)) as [->|Hd]; [|rewrite lookup_insert_ne by congruence; reflexivity]. rewrite lookup_insert. cbn [default id].
    change (dir_of w1 d) with (dir_of w d). rewrite Ed, <- Hn, <- Ed. destruct (dir_of w d); reflexivity. }
  destruct H2 as (w2 & nonce & E2 & H2 & H3 & H4). rewrite E2 in H.
  destruct (open_file _ _ _ _) as [[s m]|]; injection H as <- <-; split_and!; auto.
Qed.

Lemma files_there_eq E w w' d : disk_eq w w' -> files_there E w d -> files_there E w' d.
Proof.
  intros H [(f & A & B) C]. split; [exists f; rewrite (disk_eq_file _ _ _ H); auto|]. intros He. rewrite (disk_eq_meta _ _ _ H). auto.
Qed.

Lemma drop_arc_reading E w h hd w' r : resting w -> do_drop_arc E w h hd = (w', r) ->
  disk_eq w w' /\ resting w' /\ w_next_ino w' = w_next_ino w.
Proof.
  intros HR Hd. unfold do_drop_arc in Hd. rewrite (rest_drain E w _ HR) in Hd.
  destruct (Nat.eqb _ _); injection Hd as <- _; split_and!; try (split; reflexivity); auto.
  intros i x Hx. cbn in Hx. apply lookup_delete_Some in Hx as [_ Hx]. apply (HR i x Hx).
Qed.

Lemma drop_reg_reading w h hd w' r : resting w -> do_drop_reg w h hd = (w', r) ->
  disk_eq w w' /\ resting w' /\ w_next_ino w' = w_next_ino w.
Proof.
  intros HR Hd. unfold do_drop_reg in Hd. destruct (w_poison w); [injection Hd as <- _; split_and!; try (split; reflexivity); auto|].
  destruct (Nat.eqb _ _); injection Hd as <- _; split_and!; try (split; reflexivity); auto.
Qed.

Lemma on_inst_same w i g : (forall x, (g x).1 = x) -> forall w' r, on_inst w i g = (w', r) -> w' = w.
Proof.
  intros Hg w' r H. unfold on_inst in H. destruct (w_insts w !! i) as [x|] eqn:Hx; [|congruence]. specialize (Hg x).
  destruct (g x) as [x' r']. cbn in Hg. subst x'. injection H as <- _. unfold set_inst, set_insts. rewrite insert_id by exact Hx. destruct w; reflexivity.
Qed.

Lemma read_step E w e w' r : resting w -> reading e = true -> (forall p, In p (paths [e]) -> files_there E w (e_canon E p)) ->
  step E w e = Some (w', r) -> disk_eq w w' /\ resting w' /\ w_next_ino w' = w_next_ino w.
Proof.
  intros HR Hre Hft Hst. destruct e as [h path key|h key v|h key|h key t|h key t|h key|h|h|h|h|i|]; try discriminate Hre; cbn [step] in Hst.
  - destruct (w_handles w !! h); [discriminate|]. injection Hst as Hst. unfold do_new in Hst.
    destruct (w_poison w); [injection Hst as <- _; split_and!; try (split; reflexivity); auto|].
    destruct (lookup_reg w path) as [i|]; [injection Hst as <- _; split_and!; try (split; reflexivity); auto|].
    destruct (open_impl E w path key) as [w1 y] eqn:Eo.
    destruct (read_open E w path key w1 y (Hft path ltac:(left; reflexivity)) Eo) as (A & B & C & D).
    destruct y as [x|]; injection Hst as <- _; split_and!; auto.
    + intros i z Hz. cbn [w_insts] in Hz. destruct (decide (i = w_next_inst w1)) as [->|Hi]; [rewrite lookup_insert in Hz; injection Hz as <-; exact D|].
      rewrite lookup_insert_ne, B in Hz by congruence. apply (HR i z Hz).
    + intros i z Hz. cbn in Hz. rewrite B in Hz. apply (HR i z Hz).
  - unfold with_handle in Hst. destruct (w_handles w !! h) as [hd|]; [|discriminate]. destruct (h_unreg hd); [discriminate|]. injection Hst as Hst.
    apply on_inst_same in Hst; [|reflexivity]. subst w'. split_and!; try (split; reflexivity); auto.
  - unfold with_handle in Hst. destruct (w_handles w !! h) as [hd|]; [|discriminate]. destruct (h_unreg hd); [discriminate|]. injection Hst as Hst.
    apply on_inst_same in Hst; [|reflexivity]. subst w'. split_and!; try (split; reflexivity); auto.
  - unfold with_handle in Hst. destruct (w_handles w !! h) as [hd|]; [|discriminate]. destruct (h_unreg hd); [discriminate|]. injection Hst as Hst.
    destruct (do_drop_reg w h hd) as [w1 r1] eqn:E1. destruct (drop_reg_reading w h hd w1 r1 HR E1) as (A1 & A2 & A3).
    destruct (do_drop_arc E w1 h hd) as [w2 r2] eqn:E2. destruct (drop_arc_reading E w1 h hd w2 r2 A2 E2) as (B1 & B2 & B3).
    injection Hst as <- _. split_and!; [eapply disk_eq_trans; eassumption|exact B2|congruence].
  - unfold with_handle in Hst. destruct (w_handles w !! h) as [hd|]; [|discriminate]. destruct (h_unreg hd); [discriminate|]. injection Hst as Hst.
    eapply drop_reg_reading; eassumption.
  - destruct (w_handles w !! h) as [hd|]; [|discriminate]. destruct (h_unreg hd); [|discriminate]. injection Hst as Hst.
    eapply drop_arc_reading; eassumption.
  - injection Hst as <- _. rewrite (rest_job E w i HR). split_and!; try (split; reflexivity); auto.
  - injection Hst as <- _. split_and!; try (split; reflexivity); auto. intros i x Hx. cbn in Hx. rewrite lookup_empty in Hx. discriminate.
Qed.

Lemma read_run E es : forall w w' rs, resting w -> forallb reading es = true -> (forall p, In p (paths es) -> files_there E w (e_canon E p)) ->
  run E w es = Some (w', rs) -> disk_eq w w' /\ resting w' /\ w_next_ino w' = w_next_ino w.
Proof.
  induction es as [|e es IH]; intros w w' rs HR Hre Hft Hr; cbn [run] in Hr.
  - injection Hr as <- _. split_and!; try (split; reflexivity); auto.
  - cbn [forallb] in Hre. apply andb_true_iff in Hre as [Hre1 Hre2].
    destruct (step E w e) as [[w1 r1]|] eqn:E1; [|discriminate]. destruct (run E w1 es) as [[w2 rs2]|] eqn:E2; [|discriminate]. injection Hr as <- _.
    assert (Hp : forall p, In p (paths [e]) \/ In p (paths es) -> files_there E w (e_canon E p)).
    { intros p Hp. apply Hft. change (e :: es) with ([e] ++ es). rewrite paths_app. apply in_or_app. exact Hp. }
    destruct (read_step E w e w1 r1 HR Hre1 ltac:(auto) E1) as (A & B & C).
    destruct (IH w1 w2 rs2 B Hre2) as (A' & B' & C'); [|exact E2|].
    { intros p Hin. eapply files_there_eq; [exact A|]. auto. }
    split_and!; [eapply disk_eq_trans; eassumption|exact B'|congruence].
Qed.

(** A session that only reads leaves every byte of every file as it was,
    whatever keys the stores are opened with, whatever panics and kills
    happen, and whether or not the files can be read. *)
Theorem C45_reading_session_changes_no_byte E w es w' rs :
  resting w -> forallb reading es = true -> (forall p, In p (paths es) -> files_there E w (e_canon E p)) ->
  run E w es = Some (w', rs) ->
  forall d, file_at w' d = file_at w d /\ meta_at w' d = meta_at w d.
Proof.
  intros HR Hre Hft Hr d. destruct (read_run E es w w' rs HR Hre Hft Hr) as (A & _ & _).
  split; [apply disk_eq_file, A|apply disk_eq_meta, A].
Qed.

(** * C58 *)

Lemma reach_files E keyof es w rs0 d f : ordinary E keyof es -> run E world0 es = Some (w, rs0) -> file_at w d = Some f -> files_there E w d.
Proof.
  intros HO Hr Hf. destruct (tampered_dir E keyof es w rs0 d f HO Hr Hf) as (ino & nonce & Hd & Hino & _ & HM).
  split.
  - exists f. split; [exact Hf|]. intros ->. pose proof (reach_file E keyof es w rs0 _ [] HO Hr Hf) as (s & rs & Hs' & (I & _)).
    destruct (inv_file _ _ _ _ _ I) as (c & sl & _ & Hfe). rewrite Hs' in Hfe. apply (f_equal len) in Hfe. rewrite shape_len in Hfe. unfold len in Hfe. cbn in Hfe. lia.
  - intros He. destruct (e_feat E); [discriminate|]. exists nonce. exact HM.
Qed.

(** The property as one would wish it: whatever is done to a closed store
    under a key that the cipher rejects, its owner finds it as it was. *)
Definition wrong_key_harmless (E : env) : Prop :=
  forall A keyof es w rs0 d f rs cs nonce keyof' es' w' rs', e_feat E = FEncrypted A -> ordinary E keyof es -> run E world0 es = Some (w, rs0) ->
  file_at w d = Some f -> meta_at w d = Some nonce -> holds (dir_codec E keyof w d) f rs -> good_records E rs -> sealed A (kof E keyof d) nonce 0 rs cs ->
  (forall i c, cs !! i = Some c -> unseal A (kof E keyof' d) (stream_nonce nonce (N.of_nat i)) c = None) ->
  ordinary E keyof' es' -> run E (killed w) es' = Some (w', rs') -> 
  exists s', killed_to E es w s' /\ goes_on E keyof (writes es + writes es') (killed w') s'.

(** It holds for sessions that only read (and for any key). *)
Theorem C58_reading_is_harmless_partial E keyof es w rs0 es' w' rs' :
  ordinary E keyof es -> run E world0 es = Some (w, rs0) ->
  forallb reading es' = true -> (forall p, In p (paths es') -> file_at w (e_canon E p) <> None) ->
  run E (killed w) es' = Some (w', rs') ->
  exists s', killed_to E es w s' /\ goes_on E keyof (writes es) (killed w') s'.
Proof.
  intros HO Hr Hre Hft Hr'. destruct (kill_base E keyof es w rs0 HO Hr) as (s' & Hk & [Hi1 Hi2] & HD). exists s'. split; [exact Hk|].
  destruct (read_run E es' (killed w) w' rs') as ([A1 A2] & _ & A3); auto.
  { intros i x Hx. unfold killed in Hx. cbn in Hx. rewrite lookup_empty in Hx. discriminate. }
  { intros p Hp. specialize (Hft p Hp). destruct (file_at w (e_canon E p)) as [f|] eqn:Hf; [|congruence].
    eapply files_there_eq; [|eapply reach_files; eassumption]. split; reflexivity. }
  change (w_next_ino (killed w)) with (w_next_ino w) in A3.
  assert (B1 : forall d, dir_of (killed w') d = dir_of w d) by exact A1. assert (B2 : forall j, inode (killed w') j = inode w j) by exact A2.
  apply (quiet_goes_on E (damaged E) (damaged_law E)); [apply quiet_killed|apply Hk| |].
  - split.
    + intros d i. rewrite B1. intros H. change (w_next_ino (killed w')) with (w_next_ino w'). rewrite A3. eapply Hi1, H.
    + intros d d' i. rewrite !B1. apply Hi2.
  - intros d. eapply (dir_ok_frame E (Rp := damaged E) (RL := damaged_law E)); [..|apply (dir_ok_damaged E keyof _ _ _ _ (or_env _ _ _ HO)), (HD d)]; [exact (B1 d)|intros j _; exact (B2 j)|lia].
Qed.

(** The owner's store is not damaged by reading, whatever the key: then all
    the values are still there. *)
Lemma killed_to_closed E keyof es w rs0 s' d :
  ordinary E keyof es -> run E world0 es = Some (w, rs0) -> killed_to E es w s' -> (forall i x, w_insts w !! i = Some x -> i_dir x = d -> i_queue x = []) ->
  exists sp, spec_run (e_canon E) spec0 es = Some (sp, rs0) /\ contents s' d = contents sp d.
Proof.
  intros HO Hr [_ Hk] Hq. destruct (reach E keyof es HO w rs0 Hr) as (sp & Hsp & _). exists sp. split; [exact Hsp|].
  destruct (Hk d) as (es1 & es2 & s1 & rs1 & -> & H1 & H2 & H3). rewrite H2. rewrite spec_run_app, H1 in Hsp.
  destruct (spec_run (e_canon E) s1 es2) as [[s2 rs2]|] eqn:E2; [|discriminate]. injection Hsp as <- _. symmetry. eapply no_mutations; [exact E2|].
  destruct H3 as [(i & x & Hx & Hd & ->)|[_ ->]]; [|reflexivity]. rewrite (Hq i x Hx Hd). reflexivity.
Qed.

(** It is false for sessions that write: when the page is full, the second put
    of a key compacts the file and keeps only what the wrong key can read. *)
Definition ex_other (d : bytes) : bytes := other_key.
Definition ex_intruder : list event :=
  [ENew 5 dir_d other_key; EPut 5 k1 (VI32 1); EPut 5 k1 (VI32 2); EPut 5 k1 (VI32 3); EPut 5 k1 (VI32 4); EPut 5 k1 (VI32 5); EPut 5 k1 (VI32 6); EDrop 5].

Theorem C58_wrong_key_refuted : ~ wrong_key_harmless (ex_env (FEncrypted toy_aead)).
Proof.
  set (E := ex_env (FEncrypted toy_aead)). intros H.
  destruct C44_example as (w & rs0 & f & HO & Hr & Hf & Hm & Hh & HG & HS & Hcl & k & Hk & Hrej). fold E in HO, Hr, Hh, HG, HS, Hcl.
  assert (T : match run E world0 ex_two with
    | Some (w, _) => match run E (killed w) ex_intruder with
       | Some (w', _) => match option_map snd (run E (killed w') [ENew 9 dir_d ex_key; EGet 9 k1 TI32]) with
          | Some [ROk None; RErr KeyNotFound] => true | _ => false end
       | None => false end
    | None => false end = true) by (vm_compute; reflexivity).
  assert (Ti : match run E world0 ex_two with Some (w, _) => Nat.eqb (length (map_to_list (w_insts w))) 0 | None => false end = true) by (vm_compute; reflexivity).
  rewrite Hr in T, Ti. apply Nat.eqb_eq in Ti. destruct (map_to_list (w_insts w)) eqn:Hl; [|discriminate Ti]. apply map_to_list_empty_iff in Hl.
  destruct (run E (killed w) ex_intruder) as [[w' rs']|] eqn:Hr'; [|discriminate T].
  destruct (H toy_aead ex_keyof ex_two w rs0 dir_d f ex_rs ex_cs (ex_rng 0) ex_other ex_intruder w' rs' eq_refl HO Hr Hf Hm Hh HG HS) as (s' & Hk' & Hgo); auto.
  { intros i c Hc. change (kof E ex_other dir_d) with (default [] (parse_key other_key)). rewrite Hk. apply (Hrej i c Hc). }
  { apply ordinaryb_ok; [apply ex_env_ok, toy_aead_correct|vm_compute; reflexivity]. }
  destruct (killed_to_closed E ex_keyof ex_two w rs0 s' dir_d HO Hr Hk') as (sp & Hsp & Hc).
  { intros i x Hx. rewrite Hl, lookup_empty in Hx. discriminate. }
  destruct (run E (killed w') [ENew 9 dir_d ex_key; EGet 9 k1 TI32]) as [[w2 rs2]|] eqn:Hr2; [|discriminate T]. cbn [option_map snd] in T.
  specialize (Hgo [ENew 9 dir_d ex_key; EGet 9 k1 TI32] w2 rs2).
  assert (HOk : ordinary_with_kills E ex_keyof [ENew 9 dir_d ex_key; EGet 9 k1 TI32]).
  { assert (G : ordinary E ex_keyof [ENew 9 dir_d ex_key; EGet 9 k1 TI32]) by (apply ordinaryb_ok; [apply ex_env_ok, toy_aead_correct|vm_compute; reflexivity]).
    destruct G as [G1 G2 G3 G4]. split; auto. eapply Forall_impl; [exact G2|]. auto. }
  specialize (Hgo HOk ltac:(apply roomb_ok; vm_compute; reflexivity) Hr2).
  assert (Hget : match spec_run (e_canon E) spec0 ex_two with Some (s, _) => spec_get (contents s dir_d) k1 TI32 | None => RPanic end = ROk (Some (VI32 5))) by (vm_compute; reflexivity).
  rewrite Hsp, <- Hc in Hget.
  inversion Hgo as [s es s1 rs Hrun|s es s1 rs s2 es2 rs2' Hrun Hrew Hs Heq]; subst; cycle 1.
  { destruct es as [|? [|? [|? es]]]; try discriminate; cbn in *; congruence. }
  cbn [spec_run spec_step] in Hrun. rewrite (proj1 Hk'), lookup_empty in Hrun. cbn [sp_handles] in Hrun. rewrite lookup_insert in Hrun.
  change (e_canon E dir_d) with dir_d in Hrun. match type of Hrun with context [spec_get ?m _ _] => change m with (contents s' dir_d) in Hrun end. rewrite Hget in Hrun. injection Hrun as _ <-. discriminate T.
Qed.

(** An intruder who only reads: nothing is seen, and the owner finds
    everything afterwards. *)
Example C58_example :
  ordinary (ex_env (FEncrypted toy_aead)) ex_keyof ex_two /\
  forallb reading [ENew 5 dir_d other_key; EGet 5 k1 TI32; EDrop 5; ENew 6 dir_d other_key; EKill] = true /\
  match run (ex_env (FEncrypted toy_aead)) world0 ex_two with
  | Some (w, _) => option_map snd (run (ex_env (FEncrypted toy_aead)) (killed w)
      [ENew 5 dir_d other_key; EGet 5 k1 TI32; EDrop 5; ENew 6 dir_d other_key; EKill; ENew 9 dir_d ex_key; EGet 9 k1 TI32])
  | None => None
  end = Some [ROk None; RErr KeyNotFound; ROk None; ROk None; ROk None; ROk None; ROk (Some (VI32 5))].
Proof. split; [apply ex_two_ordinary; auto|split; vm_compute; reflexivity]. Qed.

(** * C44 *)

(** Whoever uses a closed directory with a key that the cipher rejects has an
    empty store of his own: no answer in any further history depends on what
    was stored before. *)
Theorem C44_wrong_key_and_afterwards_partial E A keyof keyof' es w rs0 d f rs cs nonce :
  ordinary E keyof es -> run E world0 es = Some (w, rs0) -> e_feat E = FEncrypted A ->
  file_at w d = Some f -> meta_at w d = Some nonce -> holds (dir_codec E keyof w d) f rs -> good_records E rs ->
  sealed A (kof E keyof d) nonce 0 rs cs ->
  (forall d', d' <> d -> keyof' d' = keyof d') ->
  (forall i c, cs !! i = Some c -> unseal A (kof E keyof' d) (stream_nonce nonce (N.of_nat i)) c = None) ->
  exists s', killed_to E es w s' /\ goes_on E keyof' (writes es) (killed w) (set_contents s' d ∅).
Proof.
  intros HO Hr HF Hf Hm Hh HG HS Hk Hrej.
  destruct (reach_files E keyof es w rs0 d f HO Hr Hf) as [(f' & Hf' & Hne) Hmt]. rewrite HF in Hmt. destruct (Hmt eq_refl) as (n & Hn & Hl).
  rewrite Hm in Hn. injection Hn as <-. rewrite Hf in Hf'. injection Hf' as <-.
  destruct (C37_foreign_key_and_afterwards E A keyof keyof' es w rs0 d f rs cs nonce nonce HO Hr HF Hf Hm Hh HG HS Hk Hl Hrej) as (s' & A1 & A2).
  exists s'. split; [exact A1|]. replace (killed w) with (tampered_meta w d f (Some nonce)); [exact A2|].
  unfold file_at, meta_at, tampered_meta in *. destruct (d_data (dir_of w d)) as [ino|] eqn:Hd; [|discriminate]. injection Hf as Hf.
  unfold killed, set_inode, set_dir. cbn [w_dirs w_inodes w_next_ino w_next_inst w_rng w_seed].
  assert (Hdir : w_dirs w !! d = Some (Dir (Some ino) (Some nonce))).
  { unfold dir_of in *. destruct (w_dirs w !! d) as [[dd dm]|]; cbn in *; congruence. }
  assert (Hi : w_inodes w !! ino = Some f).
  { unfold inode in Hf. destruct (w_inodes w !! ino) as [g|]; cbn in Hf; congruence. }
  rewrite (insert_id _ _ _ Hdir), (insert_id _ _ _ Hi). reflexivity.
Qed.
