(** C84: clear_data when the data file cannot be removed but the nonce file can. *)
From Verif Require Import Bytes Utf8 Proto ProtoFacts Crc8 Value Codec Store StoreFacts Encrypt World Spec Hyps Refine WorldInv WorldStep Main Frames Reach Examples P_Map Slots Damaged P_Corrupt P_Enc P_Damaged P_Unlink.
From Coq Require Import ZifyBool ZifyNat ZifyN.
From Coq Require String. Import (notations) String.
Local Open Scope N_scope.

(** The cipher accepts none of the ciphertexts of file [f] (8 length bytes,
    then each ciphertext behind its 4 length bytes) where it stands, under this
    key and nonce. *)
Definition rejected (A : aead) (key nonce f : bytes) : Prop :=
  forall cs unused, f = be 8 (len (frames cs)) ++ frames cs ++ unused -> Forall (fun c => len c + 4 < 2 ^ 32) cs ->
  forall i c, cs !! i = Some c -> unseal A key (stream_nonce nonce (N.of_nat i)) c = None.

(** What the decoder skips or takes are frames. *)
Lemma slots_frames A key nonce n sl : slots (aes_codec A key nonce) n sl ->
  exists cs, slot_bytes sl = frames cs /\ length cs = length sl /\ Forall (fun c => len c + 4 < 2 ^ 32) cs.
Proof.
  induction 1 as [n|n b o r Hb Hd Hr (cs & H1 & H2 & H3)]; [exists []; split_and!; [reflexivity|reflexivity|constructor]|].
  specialize (Hd []). rewrite app_nil_r in Hd. cbn [dec aes_codec] in Hd. unfold aes_dec in Hd.
  destruct (slice 0 4 b) as [h|] eqn:Hh; [|discriminate Hd]. cbv zeta in Hd. destruct (slice 4 (4 + unbe h) b) as [c|] eqn:Hc; [|discriminate Hd].
  injection Hd as _ Hl. pose proof (slice_some _ _ _ _ Hh) as (_ & _ & L1). pose proof (slice_some _ _ _ _ Hc) as (_ & L2 & L3).
  assert (L : 4 + unbe h < 2 ^ 32 /\ len b = 4 + unbe h).
  { pose proof (N.mod_le (4 + unbe h) (2 ^ 32) ltac:(lia)). pose proof (N.mod_lt (4 + unbe h) (2 ^ 32) ltac:(lia)). lia. }
  destruct L as [L4 L5].
  assert (Eb : b = frame c).
  { unfold slice in Hh, Hc. destruct (_ && _); [|discriminate Hh]. injection Hh as Hh. destruct (_ && _); [|discriminate Hc]. injection Hc as Hc.
    unfold frame. rewrite L3. replace (4 + unbe h - 4) with (unbe h) by lia.
    assert (be 4 (unbe h) = h) as ->. { assert (length h = 4%nat) as Hl4 by (unfold len in L1; lia). rewrite <- Hl4 at 1. apply be_unbe. }
    rewrite <- Hh, <- Hc, drop_0. change (N.to_nat (4 - 0)) with 4%nat. change (N.to_nat 4) with 4%nat.
    rewrite <- (take_drop 4 b) at 1. f_equal. symmetry. apply take_ge. rewrite drop_length. unfold len in L5. lia. }
  exists (c :: cs). split_and!.
  - unfold slot_bytes, frames in *. cbn [map concat fst]. rewrite H1, Eb. reflexivity.
  - cbn. rewrite H2. reflexivity.
  - constructor; [lia|exact H3].
Qed.

(** Under a nonce that the cipher rejects, the file of a store is the file of an empty store. *)
Lemma rejected_dOk E A key key' nonce nonce' s rs c : env_ok E -> e_feat E = FEncrypted A -> room E c ->
  dOk E (aes_codec A key nonce) s rs c -> rejected A key' nonce' (s_file s) -> dOk E (aes_codec A key' nonce') s [] c.
Proof.
  intros HE HF [_ Hroom] (sl & _ & [S1 S2 [slack S3] S4 S5 S6] & Hn & Hsz) HR. rewrite HF in Hroom.
  destruct (slots_frames _ _ _ _ _ S1) as (cs & F1 & F2 & F3).
  assert (Hf : s_file s = be 8 (len (frames cs)) ++ frames cs ++ slack) by (rewrite S3; unfold shape; rewrite F1; reflexivity).
  destruct (frame_slots_ok (FEncrypted A) key' nonce' cs 0) as (T1 & T2 & _).
  { eapply Forall_impl; [exact F3|]. intros b Hb. cbn [min_item]. cbn beta in Hb. lia. }
  destruct (frame_recs E A key' nonce' cs HF HE 0 [] []) as (Hrec & Hgood); [constructor|constructor|lia| |].
  { intros i b Hb Hu. destruct Hu. rewrite N.add_0_l. apply (HR cs slack Hf F3 i b Hb). }
  set (sl' := frame_slots (FEncrypted A) key' nonce' 0 cs) in *.
  assert (Hl : length sl' = length sl) by (unfold sl'; rewrite frame_slots_length; exact F2).
  exists sl'. split; [rewrite Hrec; destruct cs; reflexivity|]. split; [|split; [rewrite Hl; exact Hn|exact Hsz]].
  split.
  - exact T1.
  - exact Hgood.
  - exists slack. rewrite T2, <- F1. exact S3.
  - exact S4.
  - rewrite Hl. exact S5.
  - exact S6.
Qed.

(** Opening a directory whose nonce file is missing is opening it with the new
    nonce already there. *)
Definition premade (E : env) (w : world) (d : bytes) : world := set_dir w d (Dir (d_data (dir_of w d)) (Some (e_rng E (w_rng w)))).

Lemma open_premade E w p key ino : is_encrypted (e_feat E) = true -> d_data (dir_of w (e_canon E p)) = Some ino -> d_meta (dir_of w (e_canon E p)) = None ->
  feature_key (e_feat E) key <> None -> e_dir_ok E p = true -> length (e_rng E (w_rng w)) = nonce_len ->
  open_impl E w p key = open_impl E (premade E w (e_canon E p)) p key /\
  file_at (open_impl E w p key).1 (e_canon E p) = Some (config_new (e_plat E) (inode w ino)) /\
  meta_at (open_impl E w p key).1 (e_canon E p) = Some (e_rng E (w_rng w)).
Proof.
  intros HF Hd Hm Hk Hp Hl. set (d := e_canon E p) in *. unfold open_impl. rewrite Hp. fold d. cbv zeta.
  assert (Hd2 : dir_of (premade E w d) d = Dir (Some ino) (Some (e_rng E (w_rng w)))).
  { unfold premade. erewrite dir_of_insert by reflexivity. rewrite decide_True by reflexivity. rewrite Hd. reflexivity. }
  unfold open_config. rewrite Hd, Hd2. cbn [d_data].
  destruct (feature_key (e_feat E) key) as [k|]; [|congruence].
  unfold open_nonce. rewrite HF.
  change (dir_of (set_inode (premade E w d) ino (config_new (e_plat E) (inode (premade E w d) ino))) d) with (dir_of (premade E w d) d).
  change (dir_of (set_inode w ino (config_new (e_plat E) (inode w ino))) d) with (dir_of w d).
  rewrite Hd2, Hm, Hd. unfold premade, set_dir, set_inode, inode. rewrite Hd. cbn [d_data d_meta init_nonce]. cbn [w_dirs w_inodes w_next_ino w_insts w_next_inst w_handles w_reg w_poison w_rng w_seed].
  rewrite Hl. cbn [Nat.eqb nonce_len].
  rewrite insert_insert. split; [reflexivity|].
  assert (G : forall w1 (o : option inst) x, w_dirs w1 = <[d := Dir (Some ino) x]> (w_dirs w) -> inode w1 ino = config_new (e_plat E) (inode w ino) ->
    file_at w1 d = Some (config_new (e_plat E) (inode w ino)) /\ meta_at w1 d = x).
  { intros w1 o x H1 H2. unfold file_at, meta_at, dir_of. rewrite H1, lookup_insert. cbn. rewrite H2. auto. }
  destruct (open_file _ _ _ _) as [[s m]|]; cbn [fst]; (apply (G _ None); [reflexivity|unfold inode; cbn; rewrite lookup_insert; reflexivity]).
Qed.

Section Mixed.
Context (E : env) (HE : env_ok E) (keyof : bytes -> bytes) (U : bytes -> Prop).
Context (HU_dir : forall p, U p -> e_dir_ok E p = true).
Context (HU_key : forall p, U p -> feature_key (e_feat E) (keyof (e_canon E p)) <> None).
Context (HU_inj : forall p p', U p -> U p' -> e_canon E p = e_canon E p' -> p = p').

Notation P := (e_plat E).
Notation F := (e_feat E).
Notation canon := (e_canon E).
Local Existing Instance damaged_law.
Notation Rp := (damaged E).
Notation WInv := (WInv (Rp := Rp) E keyof U).

Lemma mixed_step A w sp H n h hd :
  F = FEncrypted A -> WInv w sp H n -> w_handles w !! h = Some hd -> room E n ->
  let d := canon (h_path hd) in
  let sp' := set_contents sp d ∅ in
  (forall w' r f nonce, do_clear_r E true false w hd = (w', r) -> file_at w' d = Some f -> meta_at w' d = Some nonce -> rejected A (kof E keyof d) nonce f) ->
  exists w', do_clear_r E true false w hd = (w', ROk None) /\
    WInv w' sp' (fun d' k S => if decide (d' = d) then k = 0%nat /\ S = contents sp' d else H d' k S) n.
Proof.
  intros HF W Hh Hroom d sp' Hrej. destruct (handle_cases E keyof U w sp H n h hd W Hh) as (Hsp & Hun & Up & Hk & Hr & x & Hx & Dx & I).
  fold d in Hsp, Hk, Dx.
  assert (HFe : is_encrypted F = true) by (rewrite HF; reflexivity).
  revert Hrej. unfold do_clear_r. rewrite Hx, (io_poison _ _ _ _ _ _ _ I).
  unfold impl_clear_r. rewrite (io_valid _ _ _ _ _ _ _ I). cbn [negb].
  unfold post. cbn [i_invalid i_sender i_io i_queue].
  rewrite (io_sender _ _ _ _ _ _ _ I), (io_run _ _ _ _ _ _ _ I).
  destruct (io_state _ _ _ _ _ _ _ I) as (q & rs & c & B1 & B2 & B3 & B4 & B5 & B6 & B7).
  set (x1 := i_with_queue (i_invalid x) (i_queue x ++ [JRemove])).
  set (w1 := set_inst w (h_inst hd) x1).
  assert (Hx1 : w_insts w1 !! h_inst hd = Some x1) by apply lookup_insert.
  assert (Hq1 : i_queue x1 = map jw q ++ [JRemove]) by (cbn; rewrite B1; reflexivity).
  assert (Hrun1 : i_io x1 = IoRun) by exact (io_run _ _ _ _ _ _ _ I).
  assert (B3' : r_ok (rep := Rp) (i_codec E x1) (i_st w1 x1) rs c) by (eapply r_ext; [..|exact B3]; reflexivity).
  destruct (run_writes E HE q w1 (h_inst hd) x1 rs c [JRemove] Hx1 Hrun1 Hq1 B2 B3') as (s & rs' & Er & Ws & Rs & _).
  { eapply room_mono; [|exact Hroom]. lia. }
  unfold drain_r. rewrite Hx1, Hq1, app_length, map_length. cbn [length].
  rewrite Nat.add_1_r. rewrite Nat.iter_succ. rewrite (run_writes_r E true false q w1 (h_inst hd) x1 _ Hx1 Hq1). rewrite Er.
  set (w2 := set_seed _ _).
  set (dd2 := Dir (d_data (dir_of w2 (i_dir x1))) None).
  set (y2 := i_with_queue (i_after x1 [JRemove] IoRun s) []).
  assert (Erm : run_job_r E true false w2 (h_inst hd) = set_inst (set_dir w2 (i_dir x1) dd2) (h_inst hd) y2).
  { unfold run_job_r. unfold w2 at 1. cbn [set_seed set_inode set_inst set_insts w_insts]. rewrite lookup_insert. rewrite HFe. reflexivity. }
  rewrite Erm.
  change (w_insts (set_inst (set_dir w2 (i_dir x1) dd2) (h_inst hd) y2)) with (<[h_inst hd := y2]> (w_insts w2)).
  rewrite lookup_insert. cbn [y2 i_with_queue i_after i_io]. fold y2.
  match goal with |- context [open_impl E ?wa _ _] => set (w3 := wa) end.
  assert (Ddd : dir_of w2 d = dir_of w d) by reflexivity.
  assert (Hd3 : dir_of w3 d = dd2).
  { unfold w3. erewrite dir_of_insert by reflexivity. cbn [i_after i_dir x1 i_with_queue i_invalid]. rewrite Dx.
    destruct (decide (d = d)); [reflexivity|congruence]. }
  assert (Hdir3 : forall d', d' <> d -> dir_of w3 d' = dir_of w d').
  { intros d' Hne. unfold w3. erewrite dir_of_insert by reflexivity. cbn [i_after i_dir x1 i_with_queue i_invalid]. rewrite Dx.
    destruct (decide (d = d')); [congruence|reflexivity]. }
  assert (Dx1 : i_dir x1 = d) by exact Dx.
  pose proof (io_data _ _ _ _ _ _ _ I) as Hdata. rewrite Dx in Hdata.
  assert (Ino3 : inode w3 (i_ino x) = s_file s).
  { unfold w3, inode. cbn. rewrite lookup_insert. reflexivity. }
  assert (Hnext : w_next_ino w3 = w_next_ino w) by reflexivity.
  rewrite Hk.
  assert (Hdata3 : d_data (dir_of w3 d) = Some (i_ino x)) by (rewrite Hd3; unfold dd2; cbn [d_data]; rewrite Dx1, Ddd; exact Hdata).
  assert (Hmeta3 : d_meta (dir_of w3 d) = None) by (rewrite Hd3; reflexivity).
  destruct (open_premade E w3 (h_path hd) (keyof d) (i_ino x) HFe Hdata3 Hmeta3) as (Ep & Ef & Em); [apply HU_key, Up|apply HU_dir, Up|apply (eo_rng _ HE)|].
  fold d in Ep, Ef, Em. rewrite Ep in Ef, Em |- *. rewrite Ino3 in Ef.
  set (nonce' := e_rng E (w_rng w3)) in *. set (w3' := premade E w3 d) in *.
  assert (Hdir3' : forall d', d' <> d -> dir_of w3' d' = dir_of w3 d').
  { intros d' Hne. unfold w3', premade. erewrite dir_of_insert by reflexivity. rewrite decide_False by congruence. reflexivity. }
  assert (Hd3' : dir_of w3' d = Dir (Some (i_ino x)) (Some nonce')).
  { unfold w3', premade. erewrite dir_of_insert by reflexivity. rewrite decide_True by reflexivity. rewrite Hdata3. reflexivity. }
  assert (Ws' : dOk E (aes_codec A (kof E keyof d) (i_nonce x)) s rs' (c + N.of_nat (length q))).
  { cbn [r_ok damaged] in Ws. unfold i_codec in Ws. rewrite HF in Ws. change (i_key x1) with (i_key x) in Ws. rewrite (io_key _ _ _ _ _ _ _ I), Dx in Ws. exact Ws. }
  assert (Hcfg : config_new P (s_file s) = s_file s).
  { unfold config_new. assert (L : 8 <= len (s_file s)) by exact (r_nonempty _ _ _ _ (feature_law F (i_key x1) (i_nonce x1) (eo_feat _ HE)) Ws).
    destruct (N.eqb_spec (len (s_file s)) 0); [lia|reflexivity]. }
  rewrite Hcfg in Ef.
  assert (Hold : w_insts w3 !! h_inst hd = Some (i_quit y2)) by apply lookup_insert.
  rewrite Hold. cbn [default i_quit i_join andb].
  intros Hrej.
  assert (HR : rejected A (kof E keyof d) nonce' (s_file s)).
  { destruct (open_impl E w3' (h_path hd) (keyof d)) as [v [y|]]; cbn [fst] in Ef, Em.
    - eapply Hrej; [reflexivity|exact Ef|exact Em].
    - destruct (w_insts v !! h_inst hd); (eapply Hrej; [reflexivity|exact Ef|exact Em]). }
  clear Hrej.
  destruct (open_impl_ok (Rp := damaged E) E HE keyof U HU_dir HU_key HU_inj w3' (h_path hd) (contents sp' d) n Up) as
    (w4 & y & Eo & Dy & Iy & Qy & T1 & T2 & T3 & T4 & T5 & T6 & T7 & T8 & T9).
  { fold d. unfold WorldInv.dir_ok. rewrite Hd3'. cbn [d_data].
    left. exists [], nonce', s. split_and!.
    - unfold meta_ok. rewrite HF, Hd3'. split; [reflexivity|apply (eo_rng _ HE)].
    - symmetry. exact Ino3.
    - rewrite HF. cbn [r_ok damaged feature_codec]. eapply dOk_mono; [|eapply rejected_dOk; [exact HE|exact HF| |exact Ws'|exact HR]]; [lia|].
      eapply room_mono; [|exact Hroom]. lia.
    - unfold sp'. rewrite contents_set. apply rel_empty. }
  { fold d. rewrite Hd3'. cbn [d_data]. intros j Hj. injection Hj as <-. change (i_ino x < w_next_ino w). eapply (wi_fresh _ _ _ _ _ _ _ W); exact Hdata. }
  fold d in Eo, Dy, T7, T8, T9. rewrite Eo.
  change (default x (Some (i_quit y2))) with (i_quit y2). cbn [i_quit i_join andb].
  eexists. split; [reflexivity|].
  eapply (WInv_update E keyof U HU_dir HU_key HU_inj w _ sp sp' H _ n n (h_inst hd) x y W Hx); cbn [set_inst set_insts w_handles w_reg w_poison w_next_inst w_next_ino w_insts].
  - rewrite Dy, Dx. reflexivity.
  - rewrite T2. reflexivity.
  - rewrite T3. reflexivity.
  - rewrite T4. apply (wi_poison _ _ _ _ _ _ _ W).
  - rewrite T5. reflexivity.
  - rewrite <- Hnext. exact T6.
  - rewrite T1. unfold w3', w3. cbn. rewrite !insert_insert. reflexivity.
  - rewrite Dx. intros d' Hne. change (dir_of w4 d' = dir_of w d'). rewrite T7 by exact Hne. rewrite Hdir3' by exact Hne. apply Hdir3, Hne.
  - intros j Hj Hne. change (inode w4 j = inode w j). rewrite T8; [|exact Hj|right; rewrite Hd3'; cbn [d_data]; congruence].
    unfold w3', w3, inode. cbn. rewrite lookup_insert_ne by congruence. reflexivity.
  - destruct T9 as [(X & _)|(X & _)].
    + left. rewrite Hd3' in X. cbn [d_data] in X. congruence.
    + rewrite Hd3' in X. discriminate X.
  - reflexivity.
  - rewrite Dx. intros d' Hne. unfold sp'. apply contents_set_ne. congruence.
  - rewrite Dx. intros d' Hne k S HS. rewrite decide_False by exact Hne. exact HS.
  - rewrite Dx, decide_True by reflexivity. auto.
  - lia.
  - rewrite Dx. eapply (inst_ok_frame E); [..|apply (Iy (fun k S => k = 0%nat /\ S = contents sp' d)); auto]; try reflexivity.
    intros k S HS. cbn beta. rewrite decide_True by reflexivity. exact HS.
Qed.

End Mixed.

(** The cipher's part: whenever in this history a [clear_data] leaves the data
    file and gets a new nonce, no old entry opens under the new nonce. *)
Fixpoint rejects (E : env) (keyof : bytes -> bytes) (w : world) (l : list uact) : Prop :=
  match l with
  | [] => True
  | a :: l =>
      match ustep E w a with
      | Some (w1, _) =>
          (forall h hd A f nonce, a = UClear h true false -> e_feat E = FEncrypted A -> w_handles w !! h = Some hd ->
             file_at w1 (e_canon E (h_path hd)) = Some f -> meta_at w1 (e_canon E (h_path hd)) = Some nonce ->
             rejected A (kof E keyof (e_canon E (h_path hd))) nonce f) /\
          rejects E keyof w1 l
      | None => True
      end
  end.

(** What the callers should expect: a [clear_data] whose data file could not be
    removed answers Ok and changes nothing, unless its nonce could be removed;
    any other empties the map. *)
Definition aspec_step (E : env) (s : spec) (a : uact) : option (spec * result) :=
  match a with
  | UCall e => spec_step (e_canon E) s e
  | UClear h rd rm =>
      match sp_handles s !! h with
      | Some d => Some (if rd && (rm || negb (is_encrypted (e_feat E))) then s else set_contents s d ∅, ROk None)
      | None => None
      end
  end.

Fixpoint aspec (E : env) (s : spec) (l : list uact) : option (spec * list result) :=
  match l with
  | [] => Some (s, [])
  | a :: l =>
      match aspec_step E s a with
      | Some (s1, r) => match aspec E s1 l with Some (s2, rs) => Some (s2, r :: rs) | None => None end
      | None => None
      end
  end.

Section All.
Context (E : env) (HE : env_ok E) (keyof : bytes -> bytes) (U : bytes -> Prop).
Context (HU_dir : forall p, U p -> e_dir_ok E p = true).
Context (HU_key : forall p, U p -> feature_key (e_feat E) (keyof (e_canon E p)) <> None).
Context (HU_inj : forall p p', U p -> U p' -> e_canon E p = e_canon E p' -> p = p').
Local Existing Instance damaged_law.
Notation WInv := (WInv (Rp := damaged E) E keyof U).

Lemma astep_ok w sp H n a l : WInv w sp H n -> call_ok E keyof (ucall a) -> in_U U (ucall a) -> rejects E keyof w (a :: l) -> room E (n + wcount (ucall a)) ->
  match ustep E w a, aspec_step E sp a with
  | Some (w', r), Some (sp', r') => r = r' /\ rejects E keyof w' l /\ exists H', WInv w' sp' H' (n + wcount (ucall a))
  | None, None => True
  | _, _ => False
  end.
Proof.
  intros W Hc HU HR Hroom.
  assert (Old : refusal_ok E a -> uspec_step (e_canon E) sp a = aspec_step E sp a -> match ustep E w a, aspec_step E sp a with
    | Some (w', r), Some (sp', r') => r = r' /\ rejects E keyof w' l /\ exists H', WInv w' sp' H' (n + wcount (ucall a))
    | None, None => True
    | _, _ => False
    end).
  { intros Ho <-. pose proof (ustep_ok (Rp := damaged E) E HE keyof U HU_dir HU_key HU_inj w sp H n a W Hc HU Ho Hroom) as G.
    cbn [rejects] in HR. destruct (ustep E w a) as [[w' r]|], (uspec_step (e_canon E) sp a) as [[sp' r']|]; try exact G.
    destruct G as [G1 G2], HR as [_ HR]. auto. }
  destruct a as [e|h rd rm].
  { apply Old; [exact Logic.I|reflexivity]. }
  destruct (is_encrypted (e_feat E)) eqn:HF.
  2:{ apply Old.
      - cbn [refusal_ok]. destruct rd; [congruence|exact Logic.I].
      - cbn [uspec_step aspec_step]. rewrite HF. cbn [negb]. rewrite orb_true_r, andb_true_r. reflexivity. }
  destruct rd, rm; try (apply Old; [cbn [refusal_ok]; auto|cbn [uspec_step aspec_step]; rewrite ?HF; reflexivity]).
  clear Old. cbn [rejects] in HR. cbn [ustep aspec_step ucall] in *. rewrite HF. cbn [negb orb andb] in *.
  unfold with_handle in *. destruct (w_handles w !! h) as [hd|] eqn:Hh.
  - destruct (handle_cases E keyof U w sp H n h hd W Hh) as (Hsp & Hun & _). rewrite Hsp, Hun in *.
    destruct (e_feat E) as [|A] eqn:HFA; [discriminate HF|].
    destruct (mixed_step E HE keyof U HU_dir ltac:(rewrite HFA; exact HU_key) HU_inj A w sp H n h hd HFA W Hh) as (w' & Eq & W').
    { eapply room_mono; [|exact Hroom]. lia. }
    { intros w' r f nonce Eq Hf Hm. rewrite Eq in HR. destruct HR as [HR _]. apply (HR h hd A f nonce); auto. }
    cbn zeta in *. rewrite Eq in *. split; [reflexivity|]. split; [apply HR|]. eexists. eapply (WInv_mono E keyof U); [|intros ? ? ? G; exact G|exact W']. lia.
  - rewrite (handle_none E keyof U w sp H n h W Hh). exact Logic.I.
Qed.

Lemma arun_ok l : forall w sp H n, WInv w sp H n -> Forall (call_ok E keyof) (map ucall l) -> Forall (in_U U) (map ucall l) -> rejects E keyof w l ->
  room E (n + writes (map ucall l)) -> option_map snd (urun E w l) = option_map snd (aspec E sp l).
Proof.
  induction l as [|a l IH]; intros w sp H n W HF HU HR Hroom; [reflexivity|].
  cbn [map urun aspec] in *. inversion HF as [|? ? Hf HF']; subst. inversion HU as [|? ? Hu HU']; subst.
  rewrite writes_cons in Hroom.
  pose proof (astep_ok w sp H n a l W Hf Hu HR ltac:(eapply room_mono; [|exact Hroom]; unfold wcount; lia)) as G.
  destruct (ustep E w a) as [[w1 r]|], (aspec_step E sp a) as [[sp1 r1]|]; cbn [option_map]; try contradiction; [|reflexivity].
  destruct G as (-> & HR1 & H1 & W1). specialize (IH w1 sp1 _ _ W1 HF' HU' HR1 ltac:(rewrite <- N.add_assoc; exact Hroom)).
  destruct (urun E w1 l) as [[w2 rs]|], (aspec E sp1 l) as [[sp2 rs2]|]; cbn [option_map snd] in *; congruence.
Qed.

End All.

(** * C84 *)

(** In every history of ordinary calls and of [clear_data]s for which the system
    refuses to remove either file, both, or none: all calls answer as a map for which
    a [clear_data] whose data file stayed did nothing -- unless its nonce file
    went, in which case the old entries are gone from the map (though not from
    the disk), provided that the cipher rejects them under the new nonce. *)
Theorem C84_every_refusal_partial E keyof l :
  ordinary E keyof (map ucall l) -> rejects E keyof world0 l ->
  option_map snd (urun E world0 l) = option_map snd (aspec E spec0 l).
Proof.
  intros HO HR. eapply (arun_ok E (or_env _ _ _ HO) keyof _ (PU_dir E keyof _ HO) (PU_key E keyof _ HO) (PU_inj E keyof _ HO)).
  - apply (WInv_init E keyof).
  - apply (or_calls _ _ _ HO).
  - apply (in_U_all (map ucall l) [] (map ucall l) []). rewrite app_nil_r. reflexivity.
  - exact HR.
  - rewrite N.add_0_l. apply (or_room _ _ _ HO).
Qed.

(** * A case *)

(** A file can be cut into ciphertexts in one way only. *)
Lemma frames_same cs : forall cs', Forall (fun c => len c + 4 < 2 ^ 32) cs -> Forall (fun c => len c + 4 < 2 ^ 32) cs' -> frames cs = frames cs' -> cs = cs'.
Proof.
  induction cs as [|c cs IH]; intros [|c' cs'] H H' Hf; [reflexivity| | |].
  - discriminate Hf.
  - discriminate Hf.
  - apply Forall_cons in H as [Hc H]. apply Forall_cons in H' as [Hc' H']. unfold frames in *. cbn [map concat] in Hf. unfold frame in Hf at 1 3.
    rewrite <- !app_assoc in Hf. apply app_inj_1 in Hf as [H1 H2]; [|rewrite !be_length; reflexivity].
    assert (Hl : len c = len c').
    { pose proof (f_equal unbe H1) as G. rewrite !unbe_be_small in G by (change (256 ^ N.of_nat 4) with (2 ^ 32); lia). exact G. }
    apply app_inj_1 in H2 as [-> H2]; [|unfold len in Hl; lia]. f_equal. apply IH; assumption.
Qed.

Lemma rejected_by A key nonce cs unused : Forall (fun c => len c + 4 < 2 ^ 32) cs -> len (frames cs ++ unused) < 2 ^ 64 ->
  (forall i c, cs !! i = Some c -> unseal A key (stream_nonce nonce (N.of_nat i)) c = None) ->
  rejected A key nonce (be 8 (len (frames cs)) ++ frames cs ++ unused).
Proof.
  intros H Hl Hr cs' un' Hf H'.
  apply app_inj_1 in Hf as [H1 H2]; [|rewrite !be_length; reflexivity].
  assert (L : len (frames cs) = len (frames cs')).
  { pose proof (f_equal len H2) as G. rewrite !len_app in G. pose proof (f_equal unbe H1) as G1. rewrite !unbe_be in G1.
    rewrite len_app in Hl. change (256 ^ N.of_nat 8) with (2 ^ 64) in G1. rewrite !N.mod_small in G1 by lia. exact G1. }
  apply app_inj_1 in H2 as [H2 _]; [|unfold len in L; lia]. rewrite <- (frames_same cs cs' H H' H2). exact Hr.
Qed.

Lemma rejects_mid E keyof pre h post : forallb (fun a => match a with UClear _ true false => false | _ => true end) (pre ++ post) = true -> forall w,
  (forall w1 rs hd w2 r A f nonce, urun E w pre = Some (w1, rs) -> ustep E w1 (UClear h true false) = Some (w2, r) -> e_feat E = FEncrypted A ->
     w_handles w1 !! h = Some hd -> file_at w2 (e_canon E (h_path hd)) = Some f -> meta_at w2 (e_canon E (h_path hd)) = Some nonce ->
     rejected A (kof E keyof (e_canon E (h_path hd))) nonce f) ->
  rejects E keyof w (pre ++ UClear h true false :: post).
Proof.
  intros Hb. rewrite forallb_app in Hb. apply andb_true_iff in Hb as [Hb1 Hb2].
  assert (G : forall w l, forallb (fun a => match a with UClear _ true false => false | _ => true end) l = true -> rejects E keyof w l).
  { intros w l. revert w. induction l as [|a l IH]; intros w Hl; cbn [rejects]; [exact Logic.I|]. cbn [forallb] in Hl. apply andb_true_iff in Hl as [Ha Hl].
    destruct (ustep E w a) as [[w1 r]|]; [|exact Logic.I]. split; [|apply IH, Hl]. intros h' hd A f nonce -> . discriminate Ha. }
  induction pre as [|a pre IH]; intros w Hm; cbn [app].
  - change (match ustep E w (UClear h true false) with
      | Some (w1, _) =>
          (forall h0 hd A f nonce, UClear h true false = UClear h0 true false -> e_feat E = FEncrypted A -> w_handles w !! h0 = Some hd ->
             file_at w1 (e_canon E (h_path hd)) = Some f -> meta_at w1 (e_canon E (h_path hd)) = Some nonce ->
             rejected A (kof E keyof (e_canon E (h_path hd))) nonce f) /\ rejects E keyof w1 post
      | None => True end).
    destruct (ustep E w (UClear h true false)) as [[w2 r]|] eqn:Es; [|exact Logic.I]. split; [|apply G, Hb2].
    intros h' hd A f nonce [= <-] HF Hh Hf Hn. eapply Hm; [reflexivity|exact Es|exact HF|exact Hh|exact Hf|exact Hn].
  - cbn [forallb] in Hb1. apply andb_true_iff in Hb1 as [Ha Hb1]. cbn [rejects]. destruct (ustep E w a) as [[w1 r]|] eqn:Es; [|exact Logic.I]. split.
    + intros h' hd A f nonce ->. discriminate Ha.
    + apply (IH Hb1). intros w2 rs hd w3 r3 A f nonce Hr. eapply (Hm w2 (r :: rs)). cbn [urun]. rewrite Es, Hr. reflexivity.
Qed.

(** Two puts still waiting, then a clear that gets rid of the nonce only. *)
Definition ex_pre : list uact := [UCall (ENew 0 dir_d ex_key); UCall (EPut 0 k1 (VI32 5)); UCall (EPut 0 k2 hello)].
Definition ex_post : list uact :=
  [UCall (EGet 0 k1 TI32); UCall (EPut 0 k1 (VI32 6)); UCall (EGet 0 k1 TI32); UCall (EDrop 0); UCall (ENew 1 dir_d ex_key); UCall (EGet 1 k1 TI32);
   UCall (EGet 1 k2 TStr); UClear 1 true true; UCall (EGet 1 k1 TI32); UClear 1 false false; UCall (EGet 1 k1 TI32)].
Definition ex_kept (w : world) : option bytes := option_map (take (N.to_nat (8 + len (frames ex_cs)))) (file_at w dir_d).

Lemma C84_every_refusal_example :
  let E := ex_env (FEncrypted toy_aead) in
  let l := ex_pre ++ UClear 0 true false :: ex_post in
  ordinary E ex_keyof (map ucall l) /\ rejects E ex_keyof world0 l /\
  option_map snd (urun E world0 l) = Some [ROk None; ROk None; ROk None; ROk None; RErr KeyNotFound; ROk None; ROk (Some (VI32 6)); ROk None; ROk None;
    ROk (Some (VI32 6)); RErr KeyNotFound; ROk None; ROk (Some (VI32 6)); ROk None; RErr KeyNotFound] /\
  (* the entries stay on disk: both ciphertexts are still there *)
  option_map (fun y => ex_kept y.1) (urun E world0 (ex_pre ++ [UClear 0 true false])) = Some (Some (be 8 (len (frames ex_cs)) ++ frames ex_cs)).
Proof.
  intros E l.
  assert (HO : ordinary E ex_keyof (map ucall l)).
  { apply ordinaryb_ok; [apply ex_env_ok; exact toy_aead_correct|vm_compute; reflexivity]. }
  assert (HR : rejects E ex_keyof world0 l).
  { apply rejects_mid; [reflexivity|]. intros w1 rs hd w2 r A f nonce H1 H2 HF Hh Hf Hm. injection HF as <-.
    assert (T : match urun E world0 ex_pre with
      | Some (w1, _) => match ustep E w1 (UClear 0 true false) with
         | Some (w2, _) => (option_map (fun hd => e_canon E (h_path hd)) (w_handles w1 !! 0), file_at w2 dir_d, meta_at w2 dir_d)
         | None => (None, None, None) end
      | None => (None, None, None) end =
      (Some dir_d, Some (be 8 (len (frames ex_cs)) ++ frames ex_cs ++ zeros (64 - 8 - len (frames ex_cs))), Some (ex_rng 1))) by (vm_compute; reflexivity).
    rewrite H1, H2, Hh in T. cbn [option_map] in T.
    pose proof (f_equal (fun x => x.1.1) T) as Td. pose proof (f_equal (fun x => x.1.2) T) as Tf. pose proof (f_equal snd T) as Tm.
    cbn [fst snd] in Td, Tf, Tm. clear T.
    assert (Td' : e_canon E (h_path hd) = dir_d) by (injection Td as Td; exact Td).
    rewrite Td' in Hf, Hm. rewrite Td'. assert (Hf' := eq_trans (eq_sym Hf) Tf). assert (Hm' := eq_trans (eq_sym Hm) Tm).
    apply Some_inj in Hf'. apply Some_inj in Hm'. rewrite Hf', Hm'. clear Hf Hm Tf Tm Hf' Hm'.
    apply rejected_by.
    - repeat constructor; vm_compute; reflexivity.
    - vm_compute. reflexivity.
    - intros [|[|i]] c Hc; [| |discriminate Hc]; injection Hc as <-; vm_compute; reflexivity. }
  split; [exact HO|]. split; [exact HR|]. split.
  - rewrite (C84_every_refusal_partial _ _ _ HO HR). vm_compute. reflexivity.
  - vm_compute. reflexivity.
Qed.
