(** C59: which keys open an encrypted store. *)
From Verif Require Import Bytes Utf8 Proto Value Codec Store StoreFacts Encrypt World Spec Hyps Refine WorldInv WorldStep Main Frames Reach Examples P_Map P_Size P_Store P_Kill P_Corrupt P_Enc P_Enc2.
From Coq Require Import ZifyBool ZifyNat ZifyN.
From Coq Require String. Import (notations) String.
Local Open Scope N_scope.

(** ** Exactly the texts of 32 hexadecimal digits are keys *)

Lemma hex_digit_inv b n : hex_digit b = Some n -> is_hex b /\ n < 16.
Proof.
  unfold hex_digit, is_hex. cbv zeta. intros H.
  destruct ((48 <=? b2n b) && (b2n b <=? 57)) eqn:E1; [injection H as <-; split; lia|].
  destruct ((97 <=? b2n b) && (b2n b <=? 102)) eqn:E2; [injection H as <-; split; lia|].
  destruct ((65 <=? b2n b) && (b2n b <=? 70)) eqn:E3; [injection H as <-; split; lia|]. discriminate H.
Qed.

Lemma hex_decode_inv k : forall l, hex_decode l = Some k -> length l = (2 * length k)%nat /\ Forall is_hex l.
Proof.
  induction k as [|c k IH]; intros l H; destruct l as [|a [|b r]]; cbn [hex_decode] in H; try discriminate H.
  - split; [reflexivity|constructor].
  - repeat case_match; discriminate H.
  - destruct (hex_digit a) as [x|] eqn:Ha; [|discriminate]. destruct (hex_digit b) as [y|] eqn:Hb; [|discriminate].
    destruct (hex_decode r) as [t|] eqn:Hr; [|discriminate]. injection H as _ ->. destruct (IH r Hr) as [L F].
    split; [cbn in *; lia|]. constructor; [eapply hex_digit_inv, Ha|]. constructor; [eapply hex_digit_inv, Hb|exact F].
Qed.

Theorem C59_key_syntax key : parse_key key <> None <-> hex_key key.
Proof.
  split.
  - unfold parse_key. destruct (hex_decode key) as [k|] eqn:Hk; [|contradiction]. destruct (Nat.eqb_spec (length k) 16) as [L|L]; [|contradiction].
    intros _. destruct (hex_decode_inv k key Hk) as [A B]. split; [lia|exact B].
  - apply (hex_key_ok (FEncrypted toy_aead)).
Qed.

(** Two keys are the same key if and only if they are the same text up to
    upper and lower case. *)
Definition lower (b : byte) : byte := if (65 <=? b2n b) && (b2n b <=? 90) then n2b (b2n b + 32) else b.

Lemma b2n_eq a b : b2n a = b2n b -> a = b.
Proof. intros H. rewrite <- (n2b_b2n a), <- (n2b_b2n b), H. reflexivity. Qed.

Lemma hex_digit_lower a b x y : hex_digit a = Some x -> hex_digit b = Some y -> (x = y <-> lower a = lower b).
Proof.
  assert (S : forall a x, hex_digit a = Some x -> hex_digit (lower a) = Some x /\ (b2n (lower a) = if x <? 10 then x + 48 else x + 87)).
  { clear. intros a x. unfold hex_digit, lower. cbv zeta. intros H.
    destruct ((65 <=? b2n a) && (b2n a <=? 90)) eqn:U.
    - rewrite b2n_n2b, N.mod_small by lia.
      destruct ((48 <=? b2n a) && (b2n a <=? 57)) eqn:E1; [lia|].
      destruct ((97 <=? b2n a) && (b2n a <=? 102)) eqn:E2; [lia|].
      destruct ((65 <=? b2n a) && (b2n a <=? 70)) eqn:E3; [|discriminate H]. injection H as <-.
      destruct ((48 <=? b2n a + 32) && (b2n a + 32 <=? 57)) eqn:F1; [lia|].
      destruct ((97 <=? b2n a + 32) && (b2n a + 32 <=? 102)) eqn:F2; [|lia].
      split; [f_equal; lia|]. destruct (N.ltb_spec (b2n a - 55) 10); lia.
    - destruct ((48 <=? b2n a) && (b2n a <=? 57)) eqn:E1; [injection H as <-; split; [reflexivity|destruct (N.ltb_spec (b2n a - 48) 10); lia]|].
      destruct ((97 <=? b2n a) && (b2n a <=? 102)) eqn:E2; [injection H as <-; split; [reflexivity|destruct (N.ltb_spec (b2n a - 87) 10); lia]|].
      destruct ((65 <=? b2n a) && (b2n a <=? 70)) eqn:E3; [lia|discriminate H]. }
  intros Ha Hb. destruct (S a x Ha) as [A1 A2], (S b y Hb) as [B1 B2]. split.
  - intros ->. apply b2n_eq. congruence.
  - intros L. rewrite L in A1. congruence.
Qed.

Lemma hex_decode_lower : forall k a b ka kb, length a = (2 * k)%nat -> length b = (2 * k)%nat ->
  hex_decode a = Some ka -> hex_decode b = Some kb -> (ka = kb <-> map lower a = map lower b).
Proof.
  induction k as [|k IH]; intros a b ka kb La Lb Ha Hb.
  - destruct a, b; try discriminate. cbn in *. split; congruence.
  - destruct a as [|a1 [|a2 ra]]; try (cbn in La; lia). destruct b as [|b1 [|b2 rb]]; try (cbn in Lb; lia). cbn [hex_decode] in Ha, Hb.
    destruct (hex_digit a1) as [x1|] eqn:A1; [|discriminate]. destruct (hex_digit a2) as [x2|] eqn:A2; [|discriminate].
    destruct (hex_decode ra) as [ta|] eqn:Ra; [|discriminate]. injection Ha as <-.
    destruct (hex_digit b1) as [y1|] eqn:B1; [|discriminate]. destruct (hex_digit b2) as [y2|] eqn:B2; [|discriminate].
    destruct (hex_decode rb) as [tb|] eqn:Rb; [|discriminate]. injection Hb as <-.
    pose proof (hex_digit_inv _ _ A1) as [_ X1]. pose proof (hex_digit_inv _ _ A2) as [_ X2].
    pose proof (hex_digit_inv _ _ B1) as [_ Y1]. pose proof (hex_digit_inv _ _ B2) as [_ Y2].
    pose proof (hex_digit_lower a1 b1 x1 y1 A1 B1) as D1. pose proof (hex_digit_lower a2 b2 x2 y2 A2 B2) as D2.
    pose proof (IH ra rb ta tb ltac:(cbn in La; lia) ltac:(cbn in Lb; lia) Ra Rb) as D3. cbn [map]. split.
    + intros [= E1 E2]. apply (f_equal b2n) in E1. rewrite !b2n_n2b in E1. rewrite (N.mod_small (16 * x1 + x2)), (N.mod_small (16 * y1 + y2)) in E1 by lia. assert (x1 = y1 /\ x2 = y2) as [Q1 Q2] by lia.
      apply D1 in Q1. apply D2 in Q2. apply D3 in E2. congruence.
    + intros [= E1 E2 E3]. apply D1 in E1. apply D2 in E2. apply D3 in E3. rewrite E1, E2, E3. reflexivity.
Qed.

Theorem C59_same_key a b : hex_key a -> hex_key b -> (parse_key a = parse_key b <-> map lower a = map lower b).
Proof.
  intros [La Fa] [Lb Fb]. destruct (hex_decode_ok 16 a La Fa) as (ka & Ha & Ka). destruct (hex_decode_ok 16 b Lb Fb) as (kb & Hb & Kb).
  unfold parse_key. rewrite Ha, Hb, Ka, Kb. cbn [Nat.eqb]. rewrite <- (hex_decode_lower 16 a b ka kb La Lb Ha Hb). split; congruence.
Qed.

(** ** What happens to a bad key *)

(** The data and nonce files of directory [d], whatever they are, survive. *)
Definition disk_kept (w w' : world) : Prop :=
  forall d f, file_at w d = Some f -> file_at w' d = Some f /\ meta_at w' d = meta_at w d.

(** As one would wish: after any ordinary history, opening a directory with
    anything but 32 hexadecimal digits is refused... *)
Definition bad_keys_are_refused (E : env) (keyof : bytes -> bytes) : Prop :=
  forall es w rs h p key w' r, ordinary E keyof es -> run E world0 es = Some (w, rs) -> e_dir_ok E p = true -> ~ hex_key key ->
    step E w (ENew h p key) = Some (w', r) -> r = RPanic.

(** ...which is false: the key is not looked at when the directory is open. *)
Definition bad_key : bytes := str "hunter2"%string.

Theorem C59_bad_key_refuted : ~ bad_keys_are_refused (ex_env (FEncrypted toy_aead)) ex_keyof.
Proof.
  intros H. set (E := ex_env (FEncrypted toy_aead)) in *.
  assert (T : match run E world0 [ENew 0 dir_d ex_key] with
              | Some (w, _) => match step E w (ENew 1 dir_d bad_key) with Some (_, ROk None) => true | _ => false end
              | None => false end = true) by (vm_compute; reflexivity).
  destruct (run E world0 [ENew 0 dir_d ex_key]) as [[w rs]|] eqn:Hr; [|discriminate T].
  destruct (step E w (ENew 1 dir_d bad_key)) as [[w' r]|] eqn:Hs; [|discriminate T].
  assert (HO : ordinary E ex_keyof [ENew 0 dir_d ex_key]) by (apply ordinaryb_ok; [apply ex_env_ok, toy_aead_correct|vm_compute; reflexivity]).
  rewrite (H _ w rs 1 dir_d bad_key w' r HO Hr) in T; [discriminate T|reflexivity| |exact Hs].
  intros [L _]. vm_compute in L. discriminate L.
Qed.

(** What holds: if no handle of the directory is open, the open panics.  No
    byte of any store changes (a directory without a store gets an empty one,
    without a nonce file). *)
Theorem C59_bad_key_partial E A keyof es w rs h p key :
  e_feat E = FEncrypted A -> ordinary E keyof es -> run E world0 es = Some (w, rs) -> w_handles w !! h = None ->
  (forall h' hd, w_handles w !! h' = Some hd -> e_canon E (h_path hd) <> e_canon E p) -> ~ hex_key key ->
  exists w', step E w (ENew h p key) = Some (w', RPanic) /\ disk_kept w w' /\ (forall d, meta_at w' d = meta_at w d) /\
    forall d, file_at w d = None -> file_at w' d = None \/ (d = e_canon E p /\ file_at w' d = Some (zeros (page (e_plat E)))).
Proof.
  intros HF HO Hr Hh Hno Hk. destruct (reach E keyof es HO w rs Hr) as (sp & Hsp & W). cbn [step]. rewrite Hh.
  assert (HL : lookup_reg w p = None).
  { rewrite (lookup_reg_inv _ _ _ _ _ _ _ _ W). destruct (w_reg w !! p) as [i|] eqn:R; [|reflexivity].
    destruct (wi_reg _ _ _ _ _ _ _ W p i R) as (_ & x & Hx & Dx).
    destruct (C25_open_iff_a_handle_is E keyof es w rs (e_canon E p) HO Hr) as [[Q _] _].
    destruct Q as (h' & hd & A1 & A2); [eauto|]. destruct (Hno h' hd A1 A2). }
  assert (HP : feature_key (e_feat E) key = None).
  { rewrite HF. cbn [feature_key]. destruct (parse_key key) eqn:P; [|reflexivity]. destruct Hk. apply C59_key_syntax. rewrite P. discriminate. }
  unfold do_new. rewrite (wi_poison _ _ _ _ _ _ _ W), HL. unfold open_impl. rewrite HP. destruct (e_dir_ok E p) eqn:Hd.
  2:{ eexists. split; [reflexivity|]. split_and!; [intros d f Hf; split; [exact Hf|reflexivity]|reflexivity|]. intros d Hf. left. exact Hf. }
  cbv zeta. unfold open_config. destruct (d_data (dir_of w (e_canon E p))) as [ino|] eqn:Hdata.
  - assert (Hf : file_at w (e_canon E p) = Some (inode w ino)) by (unfold file_at; rewrite Hdata; reflexivity).
    destruct (reach_file E keyof es w rs _ _ HO Hr Hf) as (s & rs' & Hs' & (I & _)).
    assert (Hcn : config_new (e_plat E) (inode w ino) = inode w ino).
    { destruct (inv_file _ _ _ _ _ I) as (c & sl & _ & Hfe). unfold config_new. rewrite Hs' in Hfe.
      destruct (N.eqb_spec (len (inode w ino)) 0) as [H0|]; [|reflexivity]. unfold shape in Hfe. rewrite Hfe, len_app, len_be in H0. lia. }
    rewrite Hcn. eexists. split; [reflexivity|].
    assert (G : forall d, file_at (set_poison (set_inode w ino (inode w ino))) d = file_at w d).
    { intros d. unfold file_at, dir_of. cbn. destruct (d_data (default (Dir None None) (w_dirs w !! d))) as [j|]; [|reflexivity]. cbn. unfold inode. cbn.
      destruct (decide (j = ino)) as [->|Hj]; [rewrite lookup_insert|rewrite lookup_insert_ne by congruence]; reflexivity. }
    split_and!; [|reflexivity|intros d Hfd; left; rewrite G; exact Hfd]. intros d f Hfd. rewrite G. auto.
  - eexists. split; [reflexivity|].
    assert (M : forall d, meta_at (set_poison (World (<[e_canon E p:=Dir (Some (w_next_ino w)) (d_meta (dir_of w (e_canon E p)))]> (w_dirs w)) (<[w_next_ino w:=config_new (e_plat E) []]> (w_inodes w)) (w_next_ino w + 1) (w_insts w) (w_next_inst w) (w_handles w) (w_reg w) (w_poison w) (w_rng w) (w_seed w))) d = meta_at w d).
    { intros d. unfold meta_at, dir_of. cbn. destruct (decide (d = e_canon E p)) as [->|Hj]; [rewrite lookup_insert|rewrite lookup_insert_ne by congruence]; reflexivity. }
    assert (X : forall d i, d_data (dir_of w d) = Some i -> i <> w_next_ino w).
    { intros d i Hdi. pose proof (wi_fresh _ _ _ _ _ _ _ W d i Hdi). lia. }
    split_and!; [|exact M|].
    + intros d f Hfd. split; [|apply M]. unfold file_at in *. destruct (decide (d = e_canon E p)) as [->|Hj].
      * rewrite Hdata in Hfd. discriminate Hfd.
      * unfold dir_of in *. cbn. rewrite lookup_insert_ne by congruence. destruct (d_data (default (Dir None None) (w_dirs w !! d))) as [i|] eqn:Di; [|discriminate Hfd]. cbn in *. unfold inode in *. cbn.
        rewrite lookup_insert_ne; [exact Hfd|]. pose proof (X d i Di). congruence.
    + intros d Hfd. unfold file_at in *. destruct (decide (d = e_canon E p)) as [->|Hj].
      * right. split; [reflexivity|]. unfold dir_of. cbn. rewrite lookup_insert. cbn. unfold inode. cbn. rewrite lookup_insert. reflexivity.
      * left. unfold dir_of in *. cbn. rewrite lookup_insert_ne by congruence. destruct (d_data (default (Dir None None) (w_dirs w !! d))); [discriminate Hfd|reflexivity].
Qed.

(** The rest of the statement as one would wish it, that only the failing
    open is affected, is C48.  An example: a store written and closed, then a
    bad key; the store is unchanged. *)
Definition ex_bad : list event := [ENew 0 dir_d ex_key; EPut 0 k1 (VI32 5); EDrop 0].

Example C59_example :
  ordinary (ex_env (FEncrypted toy_aead)) ex_keyof ex_bad /\ ~ hex_key bad_key /\
  match run (ex_env (FEncrypted toy_aead)) world0 ex_bad with
  | Some (w, _) => w_handles w = ∅ /\ is_Some (file_at w dir_d) /\
      option_map snd (step (ex_env (FEncrypted toy_aead)) w (ENew 1 dir_d bad_key)) = Some RPanic
  | None => False
  end /\
  parse_key (str "88c51c536176ad8a8ee4a06f62ee897e"%string) = parse_key (str "88C51C536176AD8A8EE4A06F62EE897E"%string).
Proof.
  split_and!; [apply ordinaryb_ok; [apply ex_env_ok, toy_aead_correct|vm_compute; reflexivity]|intros [L _]; vm_compute in L; discriminate L| |reflexivity].
  assert (T : match run (ex_env (FEncrypted toy_aead)) world0 ex_bad with
              | Some (w, _) => bool_decide (w_handles w !! 0 = None) && bool_decide (map_to_list (w_handles w) = []) &&
                  match file_at w dir_d with Some _ => true | None => false end &&
                  match step (ex_env (FEncrypted toy_aead)) w (ENew 1 dir_d bad_key) with Some (_, RPanic) => true | _ => false end
              | None => false end = true) by (vm_compute; reflexivity).
  destruct (run _ _ ex_bad) as [[w rs]|]; [|discriminate T]. apply andb_true_iff in T as [T T3]. apply andb_true_iff in T as [T T2].
  apply andb_true_iff in T as [_ T1]. apply bool_decide_eq_true in T1. split_and!.
  - apply map_to_list_empty_iff, T1.
  - destruct (file_at w dir_d); [eauto|discriminate T2].
  - destruct (step _ w _) as [[w' r]|]; [|discriminate T3]. destruct r; try discriminate T3. reflexivity.
Qed.
