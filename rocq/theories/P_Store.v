(** C06, C07, C08, C09, C10, C11, C47, C50: the data file and the background
    writer. *)
From Verif Require Import Bytes Utf8 Proto ProtoFacts Crc8 Value Codec Store StoreFacts Encrypt World Spec Hyps Refine WorldInv WorldStep Main Frames Reach Examples.
From Coq Require Import ZifyBool ZifyNat ZifyN.
From Coq Require String. Import (notations) String.
Local Open Scope N_scope.

(** * What the theorems speak about *)

(** The file [f] is the big-endian content length, then the records [rs] back
    to back, the [i]-th one encoded under number [i], then unused bytes. *)
Definition holds (C : codec) (f : bytes) (rs : list kv) : Prop :=
  exists content unused, f = be 8 (len content) ++ content ++ unused /\ enc_list C 0 rs = Some content.

(** What a list of records says about a key: its newest record, unless that
    is a deletion marker. *)
Definition newest (rs : list kv) (k : bytes) : option kv :=
  match last (filter (fun m => kv_key m = k) rs) with
  | Some m => if Z.eqb (kv_type m) deleted_token then None else Some m
  | None => None
  end.

(** One entry per key and no deletion markers. *)
Definition compact (rs : list kv) : Prop :=
  NoDup (map kv_key rs) /\ Forall (fun m => kv_type m <> deleted_token) rs.

(** The bytes taken by records. *)
Definition bytes_of (F : feature) (rs : list kv) : N := fold_right (fun m n => record_size F m + n) 0 rs.

(** The record format in use in a directory. *)
Definition dir_codec (E : env) (keyof : bytes -> bytes) (w : world) (d : bytes) : codec :=
  feature_codec (e_feat E) (default [] (feature_key (e_feat E) (keyof d))) (default [] (meta_at w d)).

(** * Lemmas *)

Lemma filter_app_kv (Q : kv -> Prop) `{forall m, Decision (Q m)} a b : filter Q (a ++ b) = filter Q a ++ filter Q b.
Proof. apply filter_app. Qed.

Lemma newest_snoc rs m k :
  newest (rs ++ [m]) k = if decide (kv_key m = k) then (if Z.eqb (kv_type m) deleted_token then None else Some m) else newest rs k.
Proof.
  unfold newest. rewrite filter_app. destruct (decide (kv_key m = k)) as [He|Hne].
  - rewrite (filter_cons_True _ m []) by exact He. rewrite filter_nil, last_snoc. reflexivity.
  - rewrite (filter_cons_False _ m []) by exact Hne. rewrite filter_nil, app_nil_r. reflexivity.
Qed.

Lemma replay_newest rs k : replay rs !! k = newest rs k.
Proof.
  induction rs as [|m rs IH] using rev_ind; [apply lookup_empty|].
  rewrite replay_snoc, newest_snoc. unfold apply_kv, is_deleting. destruct (Z.eqb (kv_type m) deleted_token).
  - destruct (decide (kv_key m = k)) as [->|Hne]; [apply lookup_delete|]. rewrite lookup_delete_ne by exact Hne. exact IH.
  - destruct (decide (kv_key m = k)) as [->|Hne]; [apply lookup_insert|]. rewrite lookup_insert_ne by exact Hne. exact IH.
Qed.

Lemma compact_live rs rs' : Permutation rs' (live (replay rs)) -> compact rs'.
Proof.
  intros Hp. split.
  - rewrite Hp, live_keys by apply keyed_replay. apply NoDup_fst_map_to_list.
  - apply Forall_forall. intros m Hm. rewrite Hp in Hm. unfold live in Hm. apply elem_of_list_fmap in Hm as ([k x] & -> & Hx).
    apply elem_of_map_to_list in Hx. destruct (keyed_replay rs k x Hx) as [_ Hd]. cbn. unfold is_deleting in Hd.
    apply Z.eqb_neq in Hd. exact Hd.
Qed.

Lemma Inv_holds C pos_ok sz s rs : Inv C pos_ok sz s rs -> holds C (s_file s) rs.
Proof. intros I. destruct (inv_file _ _ _ _ _ I) as (c & sl & Hc & Hf). exists c, sl. auto. Qed.

Lemma bytes_of_total F rs : bytes_of F rs = total (record_size F) rs.
Proof. reflexivity. Qed.

(** A live store in a reachable world. *)
Lemma reach_inst E keyof es w rs0 i x :
  ordinary E keyof es -> run E world0 es = Some (w, rs0) -> w_insts w !! i = Some x ->
  i_io x = IoRun /\ i_codec E x = dir_codec E keyof w (i_dir x) /\ file_at w (i_dir x) = Some (inode w (i_ino x)) /\
  exists q rs c, i_queue x = map jw q /\ Forall (good E) (map fst q) /\ WOk E (i_codec E x) (i_st w x) rs c /\
    c + N.of_nat (length q) <= writes es /\ i_map x = fold_left apply_kv (map fst q) (replay rs).
Proof.
  intros HO Hr Hx. destruct (reach E keyof es HO w rs0 Hr) as (sp & _ & W).
  destruct (wi_insts _ _ _ _ _ _ _ W i x Hx) as (_ & I & _).
  split; [apply (io_run _ _ _ _ _ _ _ I)|]. split; [|split].
  - unfold i_codec, dir_codec. rewrite (io_key _ _ _ _ _ _ _ I). unfold kof.
    pose proof (io_meta _ _ _ _ _ _ _ I) as M. unfold meta_ok, meta_at in *. destruct (e_feat E); [reflexivity|].
    destruct M as [-> _]. reflexivity.
  - unfold file_at. rewrite (io_data _ _ _ _ _ _ _ I). reflexivity.
  - destruct (io_state _ _ _ _ _ _ _ I) as (q & rs & c & A & B & C & D & G & _). exists q, rs, c. auto.
Qed.

(** A background write in a reachable world. *)
Lemma reach_write E keyof es w rs0 i x m dup q :
  ordinary E keyof es -> run E world0 es = Some (w, rs0) -> w_insts w !! i = Some x -> i_queue x = JWrite m dup :: q ->
  exists s s' rs rs' c w', s = i_st w x /\ WOk E (i_codec E x) s rs c /\ good E m /\
    step E w (EIo i) = Some (w', ROk None) /\ file_at w (i_dir x) = Some (s_file s) /\ file_at w' (i_dir x) = Some (s_file s') /\
    dir_codec E keyof w (i_dir x) = i_codec E x /\ dir_codec E keyof w' (i_dir x) = i_codec E x /\
    WOk E (i_codec E x) s' rs' (c + 1) /\ replay rs' = apply_kv (replay rs) m /\
    write_kind (e_plat E) (i_codec E x) (record_size (e_feat E)) s rs m dup s' rs' /\
    w_insts w' !! i = Some (i_after x q IoRun s').
Proof.
  intros HO Hr Hx Hq. destruct (reach_inst E keyof es w rs0 i x HO Hr Hx) as (Hrun & Hc & Hf & q' & rs & c & Q & HF & HW & Hn & _).
  destruct q' as [|[m' dup'] q']; [rewrite Q in Hq; discriminate|]. rewrite Q in Hq. cbn [map jw fst snd] in Hq.
  injection Hq as -> -> <-. inversion HF as [|? ? Hm _]; subst. cbn [fst] in Hm.
  destruct (write_WOk E (or_env _ _ _ HO) (i_codec E x) (i_st w x) rs c m dup) as (s' & rs' & Ew & HW' & Hrep & Hk).
  { apply feature_law, (eo_feat _ (or_env _ _ _ HO)). } { exact HW. } { exact Hm. }
  { eapply room_mono; [|apply (or_room _ _ _ HO)]. cbn [length] in Hn. lia. }
  assert (Hdir : forall d, dir_of (run_job E w i) d = dir_of w d).
  { intros d. unfold run_job. rewrite Hx, Hrun, Q. cbn [map jw fst snd]. rewrite Ew. reflexivity. }
  assert (Hino : inode (run_job E w i) (i_ino x) = s_file s').
  { unfold run_job. rewrite Hx, Hrun, Q. cbn [map jw fst snd]. rewrite Ew. unfold inode. cbn. rewrite lookup_insert. reflexivity. }
  exists (i_st w x), s', rs, rs', c, (run_job E w i). split_and!; try assumption; try reflexivity.
  - unfold file_at in *. rewrite Hdir. destruct (d_data (dir_of w (i_dir x))) as [j|] eqn:Hj; [|discriminate].
    destruct (reach E keyof es HO w rs0 Hr) as (sp & _ & W). destruct (wi_insts _ _ _ _ _ _ _ W i x Hx) as (_ & I & _).
    rewrite (io_data _ _ _ _ _ _ _ I) in Hj. injection Hj as <-. cbn. f_equal. exact Hino.
  - symmetry. exact Hc.
  - rewrite Hc. unfold dir_codec, meta_at. rewrite Hdir. reflexivity.
  - unfold run_job. rewrite Hx, Hrun, Q. cbn [map jw fst snd]. rewrite Ew. cbn. apply lookup_insert.
Qed.

(** Any store, open or closed, in a reachable world. *)
Lemma reach_file E keyof es w rs0 d f :
  ordinary E keyof es -> run E world0 es = Some (w, rs0) -> file_at w d = Some f ->
  exists s rs, s_file s = f /\ WOk E (dir_codec E keyof w d) s rs (writes es).
Proof.
  intros HO Hr Hf. destruct (reach E keyof es HO w rs0 Hr) as (sp & _ & W).
  assert (Hdec : (exists i x, w_insts w !! i = Some x /\ i_dir x = d) \/ (forall i x, w_insts w !! i = Some x -> i_dir x <> d)).
  { destruct (in_dec (fun a b => decide (a = b)) d (map (fun ix => i_dir ix.2) (map_to_list (w_insts w)))) as [Hin|Hin].
    - left. apply in_map_iff in Hin as ([i x] & Dx & Hx). apply elem_of_list_In, elem_of_map_to_list in Hx. eauto.
    - right. intros i x Hx Dx. apply Hin. apply in_map_iff. exists (i, x). split; [exact Dx|].
      apply elem_of_list_In, elem_of_map_to_list, Hx. }
  destruct Hdec as [(i & x & Hx & <-)|Hno].
  - destruct (reach_inst E keyof es w rs0 i x HO Hr Hx) as (_ & Hc & Hf' & q & rs & c & _ & _ & HW & Hn & _).
    rewrite Hf in Hf'. injection Hf' as ->. exists (i_st w x), rs. split; [reflexivity|]. rewrite <- Hc.
    eapply WOk_mono; [|exact HW]. lia.
  - pose proof (wi_dirs _ _ _ _ _ _ _ W d Hno) as Hd. apply dir_ok_clean in Hd. unfold file_at in Hf.
    destruct (d_data (dir_of w d)) as [ino|]; [|discriminate]. cbn in Hf. injection Hf as <-.
    destruct Hd as (rs1 & nonce & Hm & HW & _). exists (closed_st (inode w ino) rs1), rs1. split; [reflexivity|].
    replace (dir_codec E keyof w d) with (feature_codec (e_feat E) (kof E keyof d) nonce); [exact HW|].
    unfold dir_codec, kof, meta_ok, meta_at in *. destruct (e_feat E); [reflexivity|]. destruct Hm as [-> _]. reflexivity.
Qed.

(** * C11 *)

(** In every reachable state every data file, open or closed, is the length,
    then encoded entries back to back, and reading it gives those entries. *)
Theorem C11_file_format E keyof es w rs0 d f :
  ordinary E keyof es -> run E world0 es = Some (w, rs0) -> file_at w d = Some f ->
  exists rs M, holds (dir_codec E keyof w d) f rs /\ Forall (fun m => kv_ok m = true) rs /\
    read_all (e_plat E) (dir_codec E keyof w d) f = IDone M (N.of_nat (length rs) mod 2 ^ 32) /\
    forall k, M !! k = newest rs k.
Proof.
  intros HO Hr Hf. destruct (reach_file E keyof es w rs0 d f HO Hr Hf) as (s & rs & <- & HW). pose proof HW as (I & HG & _).
  destruct (eo_plat _ (or_env _ _ _ HO)) as [H64 Hpage Hmax Hhord].
  exists rs, (replay rs). split_and!.
  - eapply Inv_holds, I.
  - eapply Forall_impl; [exact HG|]. intros m Hm. apply Hm.
  - pose proof (inv_read_all _ _ _ _ H64 (feature_law _ _ _ (eo_feat _ (or_env _ _ _ HO))) Hmax _ _ I) as G.
    rewrite (view_full s (inv_ml _ _ _ _ _ I)) in G. exact G.
  - intros k. apply replay_newest.
Qed.

(** One entry, followed by anything, is decoded to itself and consumes
    exactly its own bytes (both formats; the encrypted one at record numbers
    below its limit). *)
Theorem C11_record_round_trip F key nonce m p tail :
  feature_ok F -> kv_ok m = true -> record_size F m < 2 ^ 32 ->
  match F with FPlain => True | FEncrypted _ => p < 2 ^ 32 - 1 end ->
  exists b, enc (feature_codec F key nonce) m p = ROk b /\ len b = record_size F m /\
    dec (feature_codec F key nonce) (b ++ tail) p = ROk (Some m, len b).
Proof.
  intros HF Hm Hs Hp. destruct (law_rt _ _ _ (feature_law F key nonce HF) m p tail Hm Hs) as (b & A & B & C).
  { unfold record_pos. destruct F; exact Hp. }
  exists b. rewrite B. auto.
Qed.

(** The plain format spelled out. *)
Theorem C11_plain_record_layout m p : len (encode_kv m) + 5 < 2 ^ 32 ->
  enc crc_codec m p = ROk (be 4 (len (encode_kv m) + 1) ++ encode_kv m ++ [n2b (crc8 (encode_kv m))]).
Proof. apply crc_enc_shape. Qed.

Definition ex_m1 : kv := KV k1 8 (str "hello"%string).

Example C11_example : kv_ok ex_m1 = true /\ record_size FPlain ex_m1 = 18 /\
  enc crc_codec ex_m1 7 = ROk (map n2b [0; 0; 0; 14; 10; 2; 107; 49; 16; 8; 26; 5; 104; 101; 108; 108; 111; 148])
  /\ record_size (FEncrypted toy_aead) ex_m1 = 25.
Proof. vm_compute. repeat split. Qed.

(** * C50 *)

(** The next sequence number is the number of records in the file. *)
Theorem C50_next_number_is_record_count E keyof es w rs0 i x :
  ordinary E keyof es -> run E world0 es = Some (w, rs0) -> w_insts w !! i = Some x ->
  exists rs, holds (i_codec E x) (inode w (i_ino x)) rs /\ i_pos x = N.of_nat (length rs) mod 2 ^ 32.
Proof.
  intros HO Hr Hx. destruct (reach_inst E keyof es w rs0 i x HO Hr Hx) as (_ & _ & _ & q & rs & c & _ & _ & (I & _) & _).
  exists rs. split; [exact (Inv_holds _ _ _ _ _ I)|exact (inv_pos _ _ _ _ _ I)].
Qed.

(** Every record is decoded with the number it was encoded with: reading the
    file under the numbering 0, 1, 2, ... yields every record written.  (With
    the encrypted format a record read under another number is skipped.) *)
Theorem C50_records_decode_under_their_number E keyof es w rs0 d f rs :
  ordinary E keyof es -> run E world0 es = Some (w, rs0) -> file_at w d = Some f ->
  holds (dir_codec E keyof w d) f rs -> Forall (fun m => kv_ok m = true /\ record_size (e_feat E) m < 2 ^ 32) rs ->
  N.of_nat (length rs) < 2 ^ 32 - 1 -> len f < 2 ^ 63 ->
  exists M, read_all (e_plat E) (dir_codec E keyof w d) f = IDone M (N.of_nat (length rs)) /\ forall k, M !! k = newest rs k.
Proof.
  intros HO Hr Hf (c & sl & -> & Hc) HF Hn Hl.
  destruct (eo_plat _ (or_env _ _ _ HO)) as [H64 Hpage Hmax Hhord].
  exists (replay rs). split; [|intros k; apply replay_newest].
  rewrite <- (N.mod_small (N.of_nat (length rs)) (2 ^ 32)) by lia.
  rewrite !len_app, len_be in Hl.
  apply (read_all_shape _ _ _ _ H64 (feature_law _ _ _ (eo_feat _ (or_env _ _ _ HO)))); [exact Hmax|exact HF| |exact Hc|lia].
  intros j Hj. unfold record_pos. destruct (e_feat E); [exact Logic.I|]. rewrite N.mod_small by lia. unfold counter_max. lia.
Qed.

(** * C06 *)

(** One background write, whatever it has to do (append, grow or compact):
    every other key keeps its record, the written key gets the new one, and if
    the records were not just extended then the file is compact. *)
Theorem C06_background_write E keyof es w rs0 i x m dup q :
  ordinary E keyof es -> run E world0 es = Some (w, rs0) -> w_insts w !! i = Some x -> i_queue x = JWrite m dup :: q ->
  exists w' f f' rs rs', step E w (EIo i) = Some (w', ROk None) /\
    file_at w (i_dir x) = Some f /\ holds (dir_codec E keyof w (i_dir x)) f rs /\
    file_at w' (i_dir x) = Some f' /\ holds (dir_codec E keyof w' (i_dir x)) f' rs' /\
    (forall k, newest rs' k = if decide (kv_key m = k) then (if Z.eqb (kv_type m) deleted_token then None else Some m) else newest rs k) /\
    (rs' = rs ++ [m] \/ compact rs').
Proof.
  intros HO Hr Hx Hq.
  destruct (reach_write E keyof es w rs0 i x m dup q HO Hr Hx Hq)
    as (s & s' & rs & rs' & c & w' & Hs & (I & _) & Hm & Hst & Hf & Hf' & Hc & Hc' & (I' & _) & Hrep & Hk & _).
  exists w', (s_file s), (s_file s'), rs, rs'. rewrite Hc, Hc'. split_and!; auto.
  - eapply Inv_holds, I.
  - eapply Inv_holds, I'.
  - intros k. rewrite <- replay_newest, Hrep, <- replay_snoc, replay_newest. apply newest_snoc.
  - destruct Hk as [_ -> _ _ _|_ _ -> _ _ _|_ _ Hp _ _ _]; [auto|auto|right].
    rewrite <- replay_snoc in Hp. eapply compact_live, Hp.
Qed.

(** The compaction case by itself: it happens exactly when the record does not
    fit and the writer has seen an overwrite or delete since it was started
    or last grew or compacted; the whole file is then one entry per live key. *)
Theorem C06_compaction E keyof es w rs0 i x m dup q :
  ordinary E keyof es -> run E world0 es = Some (w, rs0) -> w_insts w !! i = Some x -> i_queue x = JWrite m dup :: q ->
  exists w' f f' rs rs', step E w (EIo i) = Some (w', ROk None) /\
    file_at w (i_dir x) = Some f /\ holds (dir_codec E keyof w (i_dir x)) f rs /\
    file_at w' (i_dir x) = Some f' /\ holds (dir_codec E keyof w' (i_dir x)) f' rs' /\
    (len f < 8 + bytes_of (e_feat E) rs + record_size (e_feat E) m -> (dup || i_trim x)%bool = true ->
       compact rs' /\ forall r, r ∈ rs' <-> newest (rs ++ [m]) (kv_key r) = Some r).
Proof.
  intros HO Hr Hx Hq.
  destruct (reach_write E keyof es w rs0 i x m dup q HO Hr Hx Hq)
    as (s & s' & rs & rs' & c & w' & Hs & (I & _) & Hm & Hst & Hf & Hf' & Hc & Hc' & (I' & _) & Hrep & Hk & _).
  exists w', (s_file s), (s_file s'), rs, rs'. rewrite Hc, Hc'. split_and!; auto.
  - eapply Inv_holds, I.
  - eapply Inv_holds, I'.
  - intros Hfull Ht. rewrite bytes_of_total in Hfull.
    destruct Hk as [Hfit _ _ _ _|_ Hnt _ _ _ _|_ _ Hp _ _ _].
    + unfold used in Hfit. lia.
    + subst s. cbn [i_st s_trim] in Hnt. congruence.
    + rewrite <- replay_snoc in Hp. split; [eapply compact_live, Hp|]. intros r. rewrite Hp, <- replay_newest. split.
      * intros Hin. unfold live in Hin. apply elem_of_list_fmap in Hin as ([k y] & -> & Hy).
        apply elem_of_map_to_list in Hy. destruct (keyed_replay _ k y Hy) as [<- _]. exact Hy.
      * intros Hy. unfold live. apply elem_of_list_fmap. exists (kv_key r, r). split; [reflexivity|].
        apply elem_of_map_to_list, Hy.
Qed.

(** The trace up to the write that compacts: the page is full and the key was
    written before. *)
Definition ex_full : list event :=
  [ENew 0 dir_d ex_key; EPut 0 k1 (VI32 5); EPut 0 k2 hello; EPut 0 k1 (VI32 7); EIo 0; EIo 0; EIo 0; EPut 0 k1 (VI32 8)].

Example C06_example :
  ordinary (ex_env FPlain) ex_keyof ex_full /\
  exists w rs x m q, run (ex_env FPlain) world0 ex_full = Some (w, rs) /\ w_insts w !! 0 = Some x /\
    i_queue x = JWrite m true :: q /\ len (inode w (i_ino x)) = 64 /\
    match run (ex_env FPlain) w [EIo 0] with
    | Some (w', _) => match read_all ex_plat crc_codec (inode w' (i_ino x)) with IDone M n => n = 2 | _ => False end
    | None => False
    end.
Proof.
  split; [apply ordinaryb_ok; [apply ex_env_ok; exact Logic.I|vm_compute; reflexivity]|].
  assert (H : match run (ex_env FPlain) world0 ex_full with
    | Some (w, _) => match w_insts w !! 0 with
       | Some x => match i_queue x with
         | JWrite m true :: q => (len (inode w (i_ino x)) =? 64) &&
            match run (ex_env FPlain) w [EIo 0] with
            | Some (w', _) => match read_all ex_plat crc_codec (inode w' (i_ino x)) with IDone M n => n =? 2 | _ => false end
            | None => false end
         | _ => false end
       | None => false end
    | None => false end = true) by (vm_compute; reflexivity).
  destruct (run (ex_env FPlain) world0 ex_full) as [[w rs]|]; [|discriminate].
  destruct (w_insts w !! 0) as [x|] eqn:Hx; [|discriminate].
  destruct (i_queue x) as [|[m [|]|] q] eqn:Hq; try discriminate.
  apply andb_true_iff in H as [H1 H2]. exists w, rs, x, m, q. split_and!; auto; [apply N.eqb_eq, H1|].
  destruct (run (ex_env FPlain) w [EIo 0]) as [[w' r']|]; [|discriminate].
  destruct (read_all _ _ _); try discriminate. apply N.eqb_eq, H2.
Qed.

(** * C07 *)

(** The length of every data file is a positive number of pages. *)
Theorem C07_whole_pages E keyof es w rs0 d f :
  ordinary E keyof es -> run E world0 es = Some (w, rs0) -> file_at w d = Some f ->
  (page (e_plat E) | len f) /\ page (e_plat E) <= len f.
Proof.
  intros HO Hr Hf. destruct (reach_file E keyof es w rs0 d f HO Hr Hf) as (s & rs & <- & HW).
  pose proof HW as (_ & _ & _ & _ & Hd). split; [exact Hd|].
  pose proof (WOk_nonempty E _ _ _ _ (feature_law _ _ _ (eo_feat _ (or_env _ _ _ HO))) HW) as L.
  apply N.divide_pos_le; [lia|exact Hd].
Qed.

(** One background write: unchanged if the record fits, one page more if it
    does not fit and the writer has nothing to compact, and unchanged if a
    compaction makes everything fit.  Whether the writer wants to compact is
    remembered: an overwrite or delete sets the wish, growing or compacting
    resets it. *)
Theorem C07_write_length E keyof es w rs0 i x m dup q :
  ordinary E keyof es -> run E world0 es = Some (w, rs0) -> w_insts w !! i = Some x -> i_queue x = JWrite m dup :: q ->
  exists w' f f' rs rs' y, step E w (EIo i) = Some (w', ROk None) /\
    file_at w (i_dir x) = Some f /\ holds (dir_codec E keyof w (i_dir x)) f rs /\
    file_at w' (i_dir x) = Some f' /\ holds (dir_codec E keyof w' (i_dir x)) f' rs' /\ w_insts w' !! i = Some y /\
    let need := 8 + bytes_of (e_feat E) rs + record_size (e_feat E) m in
    (need <= len f -> len f' = len f /\ rs' = rs ++ [m] /\ i_trim y = (dup || i_trim x)%bool) /\
    (len f < need -> (dup || i_trim x)%bool = false ->
       len f' = len f + page (e_plat E) /\ rs' = rs ++ [m] /\ i_trim y = false) /\
    (len f < need -> (dup || i_trim x)%bool = true ->
       compact rs' /\ i_trim y = false /\ (8 + bytes_of (e_feat E) rs' <= len f -> len f' = len f)).
Proof.
  intros HO Hr Hx Hq.
  destruct (reach_write E keyof es w rs0 i x m dup q HO Hr Hx Hq)
    as (s & s' & rs & rs' & c & w' & Hs & (I & _) & Hm & Hst & Hf & Hf' & Hc & Hc' & (I' & _) & Hrep & Hk & Hy).
  exists w', (s_file s), (s_file s'), rs, rs', (i_after x q IoRun s'). rewrite Hc, Hc'. split_and!; auto.
  - eapply Inv_holds, I.
  - eapply Inv_holds, I'.
  - cbv zeta. rewrite !bytes_of_total. change (i_trim (i_after x q IoRun s')) with (s_trim s').
    change (i_trim x) with (s_trim (i_st w x)). rewrite <- Hs. clear Hs.
    assert (Hlaw : codec_law (i_codec E x) (record_pos (e_feat E)) (record_size (e_feat E)))
      by apply feature_law, (eo_feat _ (or_env _ _ _ HO)).
    destruct Hk as [Hfit -> HL HT _|Hfull Hnt -> HL HT _|Hfull Ht Hp HL Hg HT]; unfold used in *.
    + split; [auto|]. split; intros; lia.
    + split; [intros; lia|]. split; [auto|]. intros; congruence.
    + split; [intros; lia|]. split; [intros; congruence|]. intros _ _. rewrite <- replay_snoc in Hp.
      split; [eapply compact_live, Hp|]. split; [exact HT|]. intros Hfit'.
      destruct (eo_plat _ (or_env _ _ _ HO)) as [H64 _ Hmax _].
      pose proof (grow_bound (e_plat E) _ _ _ H64 Hlaw Hmax (len (s_file s)) rs' 8) as G.
      destruct (N.leb_spec (8 + total (record_size (e_feat E)) rs') (len (s_file s))); [|lia].
      rewrite HL. nia.
Qed.

(** File effects never shorten a file. *)
Lemma apply_eff_len e f : len f <= len (apply_eff e f).
Proof.
  destruct e as [a d|n]; cbn [apply_eff].
  - rewrite !len_app, len_take, len_drop. unfold len. lia.
  - rewrite len_app. lia.
Qed.

Section Mono.
Context (P : plat) (C : codec).

Lemma store_len_mono s n s' ok : store_len P s n = (s', ok) -> len (s_file s) <= len (s_file s').
Proof.
  unfold store_len. destruct (_ && _); intros [= <- _]; [apply (apply_eff_len (FStore 0 (be (usz P) n)))|lia].
Qed.

Lemma append_mono s b s' ok : append P s b = (s', ok) -> len (s_file s) <= len (s_file s').
Proof.
  unfold append. destruct (write_offset P (view s)) as [o|]; [|intros [= <- _]; lia].
  destruct (store_len P s _) as [s1 ok1] eqn:E1. apply store_len_mono in E1. destruct ok1; [|intros [= <- _]; lia].
  destruct (_ <=? _); intros [= <- _]; [|lia]. pose proof (apply_eff_len (FStore o b) (s_file s1)). cbn [do_eff s_file]. lia.
Qed.

Lemma append_incr_mono s b s' ok : append_incr P s b = (s', ok) -> len (s_file s) <= len (s_file s').
Proof.
  unfold append_incr. destruct (append P s b) as [s1 ok1] eqn:E1. apply append_mono in E1.
  destruct ok1; intros [= <- _]; exact E1.
Qed.

Lemma expand_mono s s' ok : expand P s = (s', ok) -> len (s_file s) <= len (s_file s').
Proof.
  unfold expand. destruct (_ <=? _); intros [= <- _]; [|lia]. cbn [s_file do_eff apply_eff]. rewrite len_app. lia.
Qed.

Lemma rewrite_mono max l : forall s s' ok, rewrite P C max l s = (s', ok) -> len (s_file s) <= len (s_file s').
Proof.
  induction l as [|m l IH]; intros s s' ok; cbn [rewrite]; [intros [= <- _]; lia|].
  destruct (enc C m (s_pos s)) as [b| |]; try (intros [= <- _]; lia).
  destruct (write_offset P (view s)) as [o|]; [|intros [= <- _]; lia].
  destruct (if max <? (o + len b) mod modulus P then expand P s else (s, true)) as [s1 ok1] eqn:E1.
  assert (L1 : len (s_file s) <= len (s_file s1)).
  { destruct (max <? _); [eapply expand_mono, E1|]. injection E1 as <- _. lia. }
  destruct ok1; [|intros [= <- _]; lia]. destruct (append_incr P s1 b) as [s2 ok2] eqn:E2. apply append_incr_mono in E2.
  destruct ok2; [|intros [= <- _]; lia]. intros E3. apply IH in E3. lia.
Qed.

Lemma write_mono s m dup s' ok : write P C s m dup = (s', ok) -> len (s_file s) <= len (s_file s').
Proof.
  unfold write. destruct (enc C m (s_pos s)) as [b| |]; try (intros [= <- _]; lia).
  destruct (write_offset P (view s)) as [o|]; [|intros [= <- _]; lia]. cbv zeta.
  set (s1 := if dup then with_trim s true else s). assert (F1 : s_file s1 = s_file s) by (unfold s1; destruct dup; reflexivity).
  clearbody s1. rewrite <- F1. destruct (_ <=? _); [apply append_incr_mono|].
  destruct (s_trim s1).
  - unfold trim. destruct (read_all P C (view s1)) as [M n| |]; try (intros [= <- _]; lia).
    destruct (reset P s1) as [s2 ok2] eqn:E2. apply store_len_mono in E2.
    destruct ok2; [|intros [= <- _]; lia]. cbv zeta.
    destruct (rewrite _ _ _ _ _) as [s3 ok3] eqn:E3. apply rewrite_mono in E3. cbn [with_pos with_seed s_file] in E3.
    destruct ok3; intros [= <- _]; cbn [with_trim s_file]; lia.
  - destruct (expand P s1) as [s2 ok2] eqn:E2. apply expand_mono in E2.
    destruct ok2; [|intros [= <- _]; lia]. intros E3. apply append_incr_mono in E3. lia.
Qed.
End Mono.

(** A job that is not a removal keeps the file and never shortens it. *)
Lemma run_job_mono E w i x :
  w_insts w !! i = Some x -> (forall j, In j (i_queue x) -> j <> JRemove) ->
  w_dirs (run_job E w i) = w_dirs w /\ (forall j, len (inode w j) <= len (inode (run_job E w i) j)) /\
  exists y, w_insts (run_job E w i) !! i = Some y /\ (forall j, In j (i_queue y) -> In j (i_queue x)).
Proof.
  intros Hx Hq. unfold run_job. rewrite Hx.
  assert (Same : w_dirs w = w_dirs w /\ (forall j, len (inode w j) <= len (inode w j)) /\
    exists y, w_insts w !! i = Some y /\ (forall j, In j (i_queue y) -> In j (i_queue x))).
  { split; [reflexivity|]. split; [intros; lia|]. eauto. }
  destruct (i_io x); [|exact Same].
  destruct (i_queue x) as [|[m dup|] q] eqn:Eq.
  - exact Same.
  - destruct (write _ _ _ _ _) as [s ok] eqn:Ew. split_and!.
    + reflexivity.
    + intros j. unfold inode at 2. cbn. destruct (decide (i_ino x = j)) as [<-|Hne].
      * rewrite lookup_insert. cbn. apply write_mono in Ew. exact Ew.
      * rewrite lookup_insert_ne by exact Hne. fold (inode w j). lia.
    + eexists. split; [apply lookup_insert|]. cbn. auto.
  - destruct (Hq JRemove); [left; reflexivity|reflexivity].
Qed.

Lemma iter_job_mono E i k : forall w x,
  w_insts w !! i = Some x -> (forall j, In j (i_queue x) -> j <> JRemove) ->
  w_dirs (Nat.iter k (fun w => run_job E w i) w) = w_dirs w /\
  (forall j, len (inode w j) <= len (inode (Nat.iter k (fun w => run_job E w i) w) j)).
Proof.
  induction k as [|k IH]; intros w x Hx Hq; [split; [reflexivity|]; intros; cbn; lia|].
  rewrite Nat.iter_succ_r. destruct (run_job_mono E w i x Hx Hq) as (A & B & y & Hy & Hqy).
  destruct (IH (run_job E w i) y Hy) as (A' & B'); [auto|]. split; [congruence|].
  intros j. specialize (B j). specialize (B' j). lia.
Qed.

(** No ordinary event but clear_data removes or shortens a data file. *)
Theorem C07_never_shrinks E keyof es w rs0 e w' r d f :
  ordinary E keyof (es ++ [e]) -> run E world0 es = Some (w, rs0) -> step E w e = Some (w', r) ->
  (forall h, e <> EClear h) -> file_at w d = Some f ->
  exists f', file_at w' d = Some f' /\ len f <= len f'.
Proof.
  intros HO Hr Hst Hnc Hf.
  destruct (reach_prefix E keyof _ HO es [e] w rs0 eq_refl Hr) as (sp & _ & W).
  pose proof (or_calls _ _ _ HO) as HF. apply Forall_app in HF as [_ HF]. inversion HF as [|? ? Hc _]; subst.
  assert (Hdisk : forall w1, w_dirs w1 = w_dirs w -> (forall j, len (inode w j) <= len (inode w1 j)) ->
            exists f', file_at w1 d = Some f' /\ len f <= len f').
  { intros w1 D1 L1. unfold file_at, dir_of in *. rewrite D1. destruct (d_data _) as [j|]; [|discriminate].
    cbn in *. injection Hf as <-. eauto. }
  assert (Hqueue : forall i x, w_insts w !! i = Some x -> forall j, In j (i_queue x) -> j <> JRemove).
  { intros i x Hx j Hj ->. destruct (wi_insts _ _ _ _ _ _ _ W i x Hx) as (_ & I & _).
    destruct (io_state _ _ _ _ _ _ _ I) as (q & _ & _ & Q & _). rewrite Q in Hj. apply in_map_iff in Hj as ([m b] & Hj & _). discriminate. }
  destruct e as [h path key|h key v|h key|h key t|h key t|h key|h|h|h|h|i|]; cbn [call_ok] in Hc; try contradiction;
    cbn [step] in Hst; unfold with_handle in Hst.
  - (* new *)
    destruct (decide (e_canon E path = d)) as [<-|Hd].
    2:{ assert (HS : same_disk w w' d).
        { eapply (step_frame E (or_env _ _ _ HO) keyof _ (PU_dir E keyof _ HO) (PU_key E keyof _ HO) (PU_inj E keyof _ HO) w sp _ _
            (ENew h path key) w' r d W Hc); [|exact Hst|cbn; congruence].
          eapply room_mono; [|apply (or_room _ _ _ HO)]. rewrite writes_app. lia. }
        destruct HS as [HS _]. rewrite HS. eexists. split; [exact Hf|lia]. }
    destruct (w_handles w !! h); [discriminate|]. injection Hst as Hst. destruct Hc as (Hd1 & -> & Hd3).
    unfold do_new in Hst. rewrite (wi_poison _ _ _ _ _ _ _ W) in Hst. rewrite (lookup_reg_inv E keyof _ w sp _ _ path W) in Hst.
    destruct (w_reg w !! path) as [i|] eqn:Hreg.
    + injection Hst as <- _. apply Hdisk; [reflexivity|]. intros; unfold inode; cbn; lia.
    + assert (Hno : forall i x, w_insts w !! i = Some x -> i_dir x <> e_canon E path).
      { intros i x Hx Dx. destruct (wi_insts _ _ _ _ _ _ _ W i x Hx) as (_ & _ & (p & Hp) & _).
        destruct (wi_reg _ _ _ _ _ _ _ W p i Hp) as (Up & y & Hy & Dy). rewrite Hx in Hy. injection Hy as <-.
        assert (p = path) as ->; [|congruence]. apply (PU_inj E keyof _ HO); [exact Up| |congruence].
        unfold PU. rewrite paths_app. apply in_or_app. right. left. reflexivity. }
      assert (Up : PU (es ++ [ENew h path (keyof (e_canon E path))]) path).
      { unfold PU. rewrite paths_app. apply in_or_app. right. left. reflexivity. }
      destruct (open_impl_ok E (or_env _ _ _ HO) keyof _ (PU_dir E keyof _ HO) (PU_key E keyof _ HO) (PU_inj E keyof _ HO) w path _ _ Up
        (wi_dirs _ _ _ _ _ _ _ W _ Hno) (fun i => wi_fresh _ _ _ _ _ _ _ W (e_canon E path) i))
        as (wo & y & Eo & Dy & Iy & _ & _ & _ & _ & _ & _ & _ & _ & T8 & T9).
      rewrite Eo in Hst. injection Hst as <- _.
      pose proof (io_data _ _ _ _ _ _ _ (Iy (fun _ _ => True) Logic.I)) as D0. rewrite Dy in D0.
      unfold file_at in *. destruct (d_data (dir_of w (e_canon E path))) as [j|] eqn:Hj; [|discriminate]. cbn in Hf. injection Hf as <-.
      destruct T9 as [(X & _)|(X & _)]; [|discriminate]. injection X as ->.
      change (dir_of _ (e_canon E path)) with (dir_of wo (e_canon E path)). rewrite D0. cbn. eexists. split; [reflexivity|].
      change (inode _ (i_ino y)) with (inode wo (i_ino y)) at 2. rewrite T8; [lia| |left; reflexivity]. eapply (wi_fresh _ _ _ _ _ _ _ W), Hj.
  - destruct (w_handles w !! h) as [hd|]; [|discriminate]. destruct (h_unreg hd); [discriminate|]. injection Hst as Hst.
    unfold on_inst in Hst. destruct (w_insts w !! h_inst hd) as [x|]; [destruct (inst_put x key v)|]; injection Hst as <- _;
      (apply Hdisk; [reflexivity|]; intros; unfold inode; cbn; lia).
  - destruct (w_handles w !! h) as [hd|]; [|discriminate]. destruct (h_unreg hd); [discriminate|]. injection Hst as Hst.
    unfold on_inst in Hst. destruct (w_insts w !! h_inst hd) as [x|]; injection Hst as <- _;
      (apply Hdisk; [reflexivity|]; intros; unfold inode; cbn; lia).
  - destruct (w_handles w !! h) as [hd|]; [|discriminate]. destruct (h_unreg hd); [discriminate|]. injection Hst as Hst.
    unfold on_inst in Hst. destruct (w_insts w !! h_inst hd) as [x|]; [destruct (inst_delete x key)|]; injection Hst as <- _;
      (apply Hdisk; [reflexivity|]; intros; unfold inode; cbn; lia).
  - destruct (Hnc h). reflexivity.
  - (* drop *)
    destruct (w_handles w !! h) as [hd|] eqn:Hh; [|discriminate].
    destruct (handle_cases E keyof _ w sp _ _ h hd W Hh) as (_ & Hun & _ & _ & _ & x & Hx & _). rewrite Hun in Hst. injection Hst as Hst.
    unfold do_drop_reg in Hst. rewrite (wi_poison _ _ _ _ _ _ _ W) in Hst.
    match type of Hst with context [do_drop_arc E ?w0 h hd] => set (w1 := w0) in Hst end.
    assert (S1 : w_dirs w1 = w_dirs w /\ w_inodes w1 = w_inodes w /\ w_insts w1 = w_insts w).
    { unfold w1. destruct (Nat.eqb _ _); split_and!; reflexivity. }
    destruct S1 as (S1 & S2 & S3). clearbody w1. unfold do_drop_arc in Hst. destruct (Nat.eqb (strong w1 (h_inst hd)) 1).
    + cbv beta iota zeta in Hst. injection Hst as <- _. unfold drain. rewrite S3, Hx.
      assert (Hx1 : w_insts w1 !! h_inst hd = Some x) by (rewrite S3; exact Hx).
      destruct (iter_job_mono E (h_inst hd) (length (i_queue x)) w1 x Hx1 (Hqueue _ _ Hx)) as [A B].
      apply Hdisk; [cbn; rewrite A; exact S1|]. intros j. specialize (B j). unfold inode in *. cbn. rewrite S2 in B. exact B.
    + cbv beta iota zeta in Hst. injection Hst as <- _. apply Hdisk; [exact S1|]. intros j. unfold inode. cbn. rewrite S2. lia.
  - (* background *)
    injection Hst as <- _. destruct (w_insts w !! i) as [x|] eqn:Hx.
    + destruct (run_job_mono E w i x Hx (Hqueue i x Hx)) as (A & B & _). apply Hdisk; assumption.
    + unfold run_job. rewrite Hx. apply Hdisk; [reflexivity|intros; lia].
Qed.

Example C07_example :
  let es := firstn 8 ex_full ++ [EIo 0; EPut 0 k2 (VBytes (repeat x00 40))] in
  ordinary (ex_env FPlain) ex_keyof (es ++ [EDrop 0]) /\
  match run (ex_env FPlain) world0 es with
  | Some (w, _) => option_map len (file_at w dir_d) = Some 64 /\
      match step (ex_env FPlain) w (EDrop 0) with Some (w', _) => option_map len (file_at w' dir_d) = Some 128 | None => False end
  | None => False
  end.
Proof.
  split; [apply ordinaryb_ok; [apply ex_env_ok; exact Logic.I|vm_compute; reflexivity]|].
  assert (H : match run (ex_env FPlain) world0 (firstn 8 ex_full ++ [EIo 0; EPut 0 k2 (VBytes (repeat x00 40))]) with
  | Some (w, _) => (option_map len (file_at w dir_d),
      match step (ex_env FPlain) w (EDrop 0) with Some (w', _) => option_map len (file_at w' dir_d) | None => None end)
  | None => (None, None)
  end = (Some 64, Some 128)) by (vm_compute; reflexivity).
  destruct (run _ _ _) as [[w rs]|]; [|discriminate]. apply pair_equal_spec in H as [H1 H2]. split; [exact H1|].
  destruct (step _ _ _) as [[w' r]|]; [|discriminate]. exact H2.
Qed.

(** ** Overwriting never grows the file *)

(** The bytes needed by the live data of a specification map. *)
Definition entry_size (F : feature) (k : bytes) (v : value) : N :=
  match buffer_new k v with ROk m => record_size F m | _ => 0 end.
Definition live_bytes (F : feature) (S : gmap bytes value) : N :=
  fold_right (fun kv n => entry_size F kv.1 kv.2 + n) 0 (map_to_list S).

Lemma sum_perm {A} (f : A -> N) l l' : Permutation l l' ->
  fold_right (fun x n => f x + n) 0 l = fold_right (fun x n => f x + n) 0 l'.
Proof. induction 1; cbn; lia. Qed.

Lemma rel_live_bytes E : forall (S : gmap bytes value) M, rel E M S -> total (record_size (e_feat E)) (live M) = live_bytes (e_feat E) S.
Proof.
  intros S. induction S as [|k v S Hk IH] using map_ind; intros M HR.
  - assert (M = ∅) as ->.
    { apply map_eq. intros k. specialize (HR k). unfold smap in HR. rewrite (lookup_empty (M := gmap bytes) k) in HR. rewrite HR, lookup_empty. reflexivity. }
    rewrite live_empty. unfold live_bytes. rewrite map_to_list_empty. reflexivity.
  - pose proof (HR k) as Hm. unfold smap in Hm. rewrite (lookup_insert (M := gmap bytes)) in Hm. destruct Hm as (m & Hm & Hb & _).
    rewrite (total_perm _ _ _ (live_delete M k m Hm)). unfold live_bytes.
    rewrite (sum_perm _ _ _ (map_to_list_insert S k v Hk)). cbn [fold_right fst snd total].
    unfold entry_size at 1. rewrite Hb. f_equal. apply IH.
    intros k'. specialize (HR k'). unfold smap in *. destruct (decide (k = k')) as [<-|Hne].
    + rewrite Hk, lookup_delete. reflexivity.
    + rewrite (lookup_insert_ne (M := gmap bytes)) in HR by exact Hne. rewrite lookup_delete_ne by exact Hne. exact HR.
Qed.

(** Calls that only overwrite: every put through a handle of [d] is to a key
    that is present, and the live data still fits in [L] bytes; puts to other
    directories, reads and background work are unrestricted. *)
Definition overwriting (E : env) (d : bytes) (L : N) (s : spec) (e : event) : Prop :=
  match e with
  | EPut h key v => sp_handles s !! h = Some d ->
      is_Some (contents s d !! key) /\ 8 + live_bytes (e_feat E) (<[key := v]> (contents s d)) <= L
  | EGet _ _ _ | EIo _ => True
  | _ => False
  end.
Fixpoint all_overwriting (E : env) (d : bytes) (L : N) (s : spec) (ops : list event) : Prop :=
  match ops with
  | [] => True
  | e :: r => overwriting E d L s e /\
      match spec_step (e_canon E) s e with Some (s', _) => all_overwriting E d L s' r | None => True end
  end.

(** The store [i] of [d]: whatever part of the queue has been written, the
    live data fits in the [L] bytes of the file, and all queued writes are
    overwrites. *)
Definition fits_all (E : env) (w : world) (i : N) (d : bytes) (L n : N) : Prop :=
  exists x q rs c, w_insts w !! i = Some x /\ i_dir x = d /\ i_queue x = map jw q /\ Forall (good E) (map fst q) /\
    WOk E (i_codec E x) (i_st w x) rs c /\ Forall (fun p : kv * bool => p.2 = true) q /\ len (inode w (i_ino x)) = L /\
    i_map x = fold_left apply_kv (map fst q) (replay rs) /\
    (forall j, (j <= length q)%nat ->
       8 + total (record_size (e_feat E)) (live (fold_left apply_kv (take j (map fst q)) (replay rs))) <= L) /\
    c + N.of_nat (length q) <= n.

Lemma same_inst_rel E keyof U w sp H n i x : WInv E keyof U w sp H n -> w_insts w !! i = Some x -> rel E (i_map x) (contents sp (i_dir x)).
Proof.
  intros W Hx. destruct (wi_insts _ _ _ _ _ _ _ W i x Hx) as (_ & I & _).
  destruct (io_state _ _ _ _ _ _ _ I) as (q & rs & c & _ & _ & _ & _ & _ & R & _). exact R.
Qed.

Lemma fits_frame E w w' i d L n n' x :
  w_insts w !! i = Some x -> w_insts w' !! i = Some x -> inode w' (i_ino x) = inode w (i_ino x) -> n <= n' ->
  fits_all E w i d L n -> fits_all E w' i d L n'.
Proof.
  intros Hx Hx' Hi Hn (x0 & q & rs & c & A1 & A2 & A3 & A4 & A5 & A6 & A7 & A8 & A9 & A10).
  rewrite Hx in A1. injection A1 as <-. exists x, q, rs, c. split_and!; auto; [|congruence|lia].
  eapply WOk_ext; [..|exact A5]; try reflexivity. exact Hi.
Qed.

(** Overwriting keys whose live data fits never grows the file. *)
Theorem C07_overwriting_never_grows E keyof d L ops : forall es w rs0 s w' rs1 i x,
  ordinary E keyof (es ++ ops) -> run E world0 es = Some (w, rs0) -> spec_run (e_canon E) spec0 es = Some (s, rs0) ->
  w_insts w !! i = Some x -> i_dir x = d -> i_queue x = [] -> option_map len (file_at w d) = Some L ->
  8 + live_bytes (e_feat E) (contents s d) <= L ->
  all_overwriting E d L s ops -> run E w ops = Some (w', rs1) ->
  option_map len (file_at w' d) = Some L.
Proof.
  assert (G : forall ops es w rs0 s w' rs1 i,
    ordinary E keyof (es ++ ops) -> run E world0 es = Some (w, rs0) -> spec_run (e_canon E) spec0 es = Some (s, rs0) ->
    fits_all E w i d L (writes es) -> all_overwriting E d L s ops -> run E w ops = Some (w', rs1) ->
    option_map len (file_at w' d) = Some L).
  { clear ops. induction ops as [|e ops IH]; intros es w rs0 s w' rs1 i HO Hr Hsp HF Hov Hrun.
    - injection Hrun as <- _. rewrite app_nil_r in HO. destruct HF as (x & q & rs & c & Hx & <- & _ & _ & _ & _ & HL & _).
      destruct (reach_inst E keyof es w rs0 i x HO Hr Hx) as (_ & _ & Hf & _). rewrite Hf. cbn. f_equal. exact HL.
    - replace (es ++ e :: ops) with ((es ++ [e]) ++ ops) in HO by (rewrite <- app_assoc; reflexivity).
      cbn [run] in Hrun. destruct (step E w e) as [[w1 r1]|] eqn:Hst; [|discriminate].
      destruct (run E w1 ops) as [[w2 rs2]|] eqn:Hr2; [|discriminate]. injection Hrun as <- _.
      assert (Hr1 : run E world0 (es ++ [e]) = Some (w1, rs0 ++ [r1])).
      { rewrite run_app, Hr. cbn [run]. rewrite Hst. reflexivity. }
      pose proof (ordinary_app_l _ _ _ _ HO) as HO1. pose proof (ordinary_app_l _ _ _ _ HO1) as HO0.
      destruct (reach E keyof _ HO1 _ _ Hr1) as (s1 & Hsp1 & W1).
      destruct (reach E keyof _ HO0 _ _ Hr) as (s0 & Hsp0 & W0). rewrite Hsp in Hsp0. injection Hsp0 as <-.
      pose proof Hsp1 as Hss. rewrite spec_run_app, Hsp in Hss. cbn [spec_run] in Hss.
      destruct (spec_step (e_canon E) s e) as [[s1' r1']|] eqn:Hs1; [|discriminate]. injection Hss as -> Hrs.
      cbn [all_overwriting] in Hov. rewrite Hs1 in Hov. destruct Hov as [Hov Hovr].
      eapply (IH _ _ _ _ _ _ i HO Hr1 Hsp1); [|exact Hovr|exact Hr2]. clear IH Hovr Hr2.
      assert (Hwr : writes (es ++ [e]) = writes es + writes [e]) by apply writes_app. rewrite Hwr.
      destruct HF as (x & q & rs & c & Hx & Hd & Hq & HG & HW & Ht & HL & Hmap & Hfit & Hn).
      assert (Hall : fits_all E w i d L (writes es)) by (exists x, q, rs, c; split_and!; assumption).
      destruct e as [?|h key v|?|h key t|?|?|?|?|?|?|k|]; cbn [overwriting] in Hov; try contradiction.
      + (* put *)
        cbn [step] in Hst. unfold with_handle in Hst. destruct (w_handles w !! h) as [hd|] eqn:Hh; [|discriminate].
        destruct (handle_cases E keyof _ w s _ _ h hd W0 Hh) as (Hsh & Hun & _ & _ & _ & y & Hy & Dy & Iy).
        rewrite Hun in Hst. injection Hst as Hst. unfold on_inst in Hst. rewrite Hy in Hst.
        destruct (inst_put y key v) as [y' ry] eqn:Hput. injection Hst as <- _.
        destruct (decide (h_inst hd = i)) as [Hi|Hi]; cycle 1.
        { eapply (fits_frame E w _ i d L _ _ x Hx); [|reflexivity|apply N.le_add_r|exact Hall].
          unfold set_inst. cbn. rewrite lookup_insert_ne by exact Hi. exact Hx. }
        rewrite Hi in *. rewrite Hx in Hy. injection Hy as <-. rewrite <- Dy, Hd in Hsh.
        destruct (Hov Hsh) as [Hpres Hb]. cbn [spec_step] in Hs1. rewrite Hsh in Hs1. injection Hs1 as <- _.
        pose proof (same_inst_rel _ _ _ _ _ _ _ _ _ W0 Hx) as R. rewrite Hd in R.
        pose proof (or_calls _ _ _ HO1) as Hc. apply Forall_app in Hc as [_ Hc]. inversion Hc as [|? ? Hpo _]; subst. cbn [call_ok] in Hpo.
        destruct Hpo as (Hu & Hv & m & Hm & Hs). 
        assert (Hgm : good E m) by (eapply put_ok_good; [apply (or_env _ _ _ HO0)|split_and!; eauto|exact Hm]).
        unfold inst_put in Hput. rewrite (io_poison _ _ _ _ _ _ _ Iy), Hm, (io_valid _ _ _ _ _ _ _ Iy) in Hput.
        assert (Hdup : bool_decide (is_Some (i_map x !! key)) = true).
        { apply bool_decide_eq_true_2. specialize (R key). destruct Hpres as [v0 Hv0]. rewrite Hv0 in R.
          destruct R as (m0 & -> & _). eauto. }
        rewrite Hdup in Hput. unfold post in Hput.
        change (i_sender (i_with_map x (<[key:=m]> (i_map x)))) with (i_sender x) in Hput.
        rewrite (io_sender _ _ _ _ _ _ _ Iy) in Hput. injection Hput as <- _.
        exists (i_with_queue (i_with_map x (<[key:=m]> (i_map x))) (i_queue x ++ [JWrite m true])), (q ++ [(m, true)]), rs, c.
        assert (Hmap' : fold_left apply_kv (map fst (q ++ [(m, true)])) (replay rs) = <[key:=m]> (i_map x)).
        { rewrite map_app, fold_left_app, <- Hmap. cbn. eapply buffer_new_apply, Hm. }
        split_and!.
        * unfold set_inst. cbn. apply lookup_insert.
        * reflexivity.
        * cbn. rewrite Hq, map_app. reflexivity.
        * rewrite map_app. apply Forall_app. split; [exact HG|]. constructor; [exact Hgm|constructor].
        * eapply WOk_ext; [..|exact HW]; reflexivity.
        * apply Forall_app. split; [exact Ht|]. constructor; [reflexivity|constructor].
        * reflexivity.
        * symmetry. exact Hmap'.
        * intros j Hj. rewrite app_length in Hj. cbn [length] in Hj.
          destruct (decide (j <= length q)%nat) as [Hle|Hgt].
          -- rewrite map_app, take_app_le by (rewrite map_length; exact Hle). apply Hfit, Hle.
          -- rewrite take_ge by (rewrite map_length, app_length; cbn; lia). rewrite Hmap'.
             rewrite (rel_live_bytes E (<[key := v]> (contents s (i_dir x)))); [exact Hb|].
             apply rel_insert; assumption.
        * rewrite app_length. cbn [length]. unfold writes at 2. cbn. lia.
      + (* get *)
        cbn [step] in Hst. unfold with_handle in Hst. destruct (w_handles w !! h) as [hd|] eqn:Hh; [|discriminate].
        destruct (h_unreg hd); [discriminate|]. injection Hst as Hst. unfold on_inst in Hst.
        destruct (w_insts w !! h_inst hd) as [y|] eqn:Hy; injection Hst as <- _.
        * eapply (fits_frame E w _ i d L _ _ x Hx); [|reflexivity|apply N.le_add_r|exact Hall]. unfold set_inst. cbn.
          rewrite insert_id by exact Hy. exact Hx.
        * eapply (fits_frame E w _ i d L _ _ x Hx); [exact Hx|reflexivity|apply N.le_add_r|exact Hall].
      + (* background *)
        cbn [step] in Hst. injection Hst as <- _. destruct (decide (k = i)) as [->|Hne].
        * destruct q as [|[m dup] q].
          -- eapply (fits_frame E w _ i d L _ _ x Hx); [| |apply N.le_add_r|exact Hall]; unfold run_job; rewrite Hx, Hq; destruct (i_io x); auto.
          -- cbn [map jw fst snd] in Hq.
             inversion HG as [|? ? Hm HG']; subst. inversion Ht as [|? ? Hdup Ht']; subst. cbn in Hdup. subst dup. cbn [fst] in Hm.
             destruct (wi_insts _ _ _ _ _ _ _ W0 i x Hx) as (_ & Ix & _).
             pose proof (io_run _ _ _ _ _ _ _ Ix) as Hio.
             assert (Hlaw : codec_law (i_codec E x) (record_pos (e_feat E)) (record_size (e_feat E)))
               by apply feature_law, (eo_feat _ (or_env _ _ _ HO0)).
             destruct (write_WOk E (or_env _ _ _ HO0) (i_codec E x) (i_st w x) rs c m true Hlaw HW Hm) as (s' & rs' & Ew & HW' & Hrep & Hk).
             { eapply room_mono; [|apply (or_room _ _ _ HO0)]. cbn [length] in Hn. lia. }
             assert (Hlen : len (s_file s') = len (inode w (i_ino x))).
             { destruct Hk as [Hfull Hrs' HLn HT _|Hfull Hnt Hrs' HLn HT _|Hfull Htr Hp HLn Hg HT]; [exact HLn|discriminate|].
               destruct (eo_plat _ (or_env _ _ _ HO0)) as [H64 _ Hmax _].
               pose proof (grow_bound (e_plat E) _ _ _ H64 Hlaw Hmax (len (s_file (i_st w x))) rs' 8) as Gb.
               specialize (Hfit 1%nat). cbn [map fst take fold_left] in Hfit; rewrite take_0 in Hfit; cbn [fold_left] in Hfit. specialize (Hfit ltac:(cbn; lia)).
               rewrite (total_perm _ _ _ Hp) in Gb. cbn [i_st s_file] in *.
               destruct (N.leb_spec (8 + total (record_size (e_feat E)) (live (apply_kv (replay rs) m))) (len (inode w (i_ino x)))); [|lia].
               rewrite HLn. nia. }
             unfold run_job. rewrite Hx, Hio, Hq. unfold jw at 1. cbn [fst snd]. rewrite Ew.
             exists (i_after x (map jw q) IoRun s'), q, rs', (c + 1). split_and!.
             ++ cbn. apply lookup_insert.
             ++ reflexivity.
             ++ reflexivity.
             ++ exact HG'.
             ++ eapply WOk_ext; [..|exact HW']; try reflexivity. cbn. unfold inode. cbn. rewrite lookup_insert. reflexivity.
             ++ exact Ht'.
             ++ unfold inode at 1. cbn. rewrite lookup_insert. cbn. exact Hlen.
             ++ cbn [i_after i_map]. rewrite Hmap, Hrep. reflexivity.
             ++ intros j Hj. rewrite Hrep. apply (Hfit (S j)). cbn. lia.
             ++ cbn [length] in Hn. lia.
        * destruct (w_insts w !! k) as [y|] eqn:Hy.
          -- destruct (run_job_frame E w k y Hy) as ((z & Hz & _) & _ & Hino & _).
             eapply (fits_frame E w _ i d L _ _ x Hx); [| |apply N.le_add_r|exact Hall].
             ++ rewrite Hz, lookup_insert_ne by exact Hne. exact Hx.
             ++ apply Hino. intros Hsame.
                destruct (wi_insts _ _ _ _ _ _ _ W0 i x Hx) as (_ & Ix & _). destruct (wi_insts _ _ _ _ _ _ _ W0 k y Hy) as (_ & Iy & _).
                pose proof (io_data _ _ _ _ _ _ _ Ix) as D1. pose proof (io_data _ _ _ _ _ _ _ Iy) as D2. rewrite Hsame in D1.
                pose proof (wi_ino _ _ _ _ _ _ _ W0 _ _ _ D1 D2) as Hdd.
                apply Hne. symmetry. exact (inst_unique E keyof _ (PU_inj E keyof es HO0) w s _ _ i k x y W0 Hx Hy Hdd).
          -- unfold run_job. rewrite Hy. eapply (fits_frame E w _ i d L _ _ x Hx); [exact Hx|reflexivity|apply N.le_add_r|exact Hall]. }
  intros es w rs0 s w' rs1 i x HO Hr Hsp Hx Hd Hq HL Hb Hov Hrun.
  eapply (G ops es w rs0 s w' rs1 i HO Hr Hsp); [|exact Hov|exact Hrun].
  pose proof (ordinary_app_l _ _ _ _ HO) as HO0.
  destruct (reach_inst E keyof es w rs0 i x HO0 Hr Hx) as (_ & _ & Hf & q & rs & c & Q & HG & HW & Hn & Hmap).
  destruct q; [|rewrite Q in Hq; discriminate].
  destruct (reach E keyof _ HO0 _ _ Hr) as (s0 & Hsp0 & W0). rewrite Hsp in Hsp0. injection Hsp0 as <-.
  pose proof (same_inst_rel _ _ _ _ _ _ _ _ _ W0 Hx) as R. rewrite Hd in *.
  rewrite Hf in HL. cbn in HL. injection HL as HL.
  exists x, [], rs, c. split_and!; auto.
  intros j _. cbn [map]. rewrite take_nil. cbn [map] in Hmap. rewrite <- Hmap. rewrite (rel_live_bytes E _ _ R). exact Hb.
Qed.

Fixpoint all_overwritingb (E : env) (d : bytes) (L : N) (s : spec) (ops : list event) : bool :=
  match ops with
  | [] => true
  | e :: r =>
      match e with
      | EPut h key v => negb (bool_decide (sp_handles s !! h = Some d)) ||
          (bool_decide (is_Some (contents s d !! key)) && (8 + live_bytes (e_feat E) (<[key := v]> (contents s d)) <=? L))
      | EGet _ _ _ | EIo _ => true
      | _ => false
      end &&
      match spec_step (e_canon E) s e with Some (s', _) => all_overwritingb E d L s' r | None => true end
  end.

Lemma all_overwritingb_ok E d L ops : forall s, all_overwritingb E d L s ops = true -> all_overwriting E d L s ops.
Proof.
  induction ops as [|e r IH]; intros s; cbn [all_overwritingb all_overwriting]; [auto|].
  rewrite andb_true_iff. intros [A B]. split.
  - destruct e; try discriminate; cbn [overwriting]; auto. intros Hh. rewrite (bool_decide_eq_true_2 _ Hh) in A. cbn in A.
    apply andb_true_iff in A as [A1 A2]. apply bool_decide_eq_true in A1. apply N.leb_le in A2. auto.
  - destruct (spec_step _ _ _) as [[s' ?]|]; auto.
Qed.

Definition ex_over_ops : list event :=
  [EPut 0 k1 (VI32 1); EPut 0 k2 (VBool true); EIo 0; EPut 0 k1 (VI32 2); EIo 0; EIo 0; EPut 0 k1 (VI64 3); EIo 0; EPut 0 k2 hello; EIo 0].
Definition ex_over_start : list event := [ENew 0 dir_d ex_key; EPut 0 k1 (VI32 5); EPut 0 k2 hello; EIo 0; EIo 0].

Example C07_overwriting_example :
  ordinary (ex_env FPlain) ex_keyof (ex_over_start ++ ex_over_ops) /\
  match spec_run (e_canon (ex_env FPlain)) spec0 ex_over_start with
  | Some (s, _) => 8 + live_bytes FPlain (contents s dir_d) <= 64 /\ all_overwriting (ex_env FPlain) dir_d 64 s ex_over_ops
  | None => False
  end /\
  match run (ex_env FPlain) world0 ex_over_start with
  | Some (w, _) => option_map len (file_at w dir_d) = Some 64 /\ option_map i_queue (w_insts w !! 0) = Some []
  | None => False
  end.
Proof.
  split; [apply ordinaryb_ok; [apply ex_env_ok; exact Logic.I|vm_compute; reflexivity]|]. split.
  - assert (H : match spec_run (e_canon (ex_env FPlain)) spec0 ex_over_start with
      | Some (s, _) => (8 + live_bytes FPlain (contents s dir_d) <=? 64) && all_overwritingb (ex_env FPlain) dir_d 64 s ex_over_ops
      | None => false end = true) by (vm_compute; reflexivity).
    destruct (spec_run _ _ _) as [[s ?]|]; [|discriminate]. apply andb_true_iff in H as [H1 H2]. apply N.leb_le in H1.
    split; [exact H1|]. apply all_overwritingb_ok, H2.
  - assert (H : match run (ex_env FPlain) world0 ex_over_start with
    | Some (w, _) => (option_map len (file_at w dir_d), option_map i_queue (w_insts w !! 0)) | None => (None, None) end
      = (Some 64, Some [])) by (vm_compute; reflexivity).
    destruct (run _ _ _) as [[w rs]|]; [|discriminate]. apply pair_equal_spec in H. exact H.
Qed.

(** * C47 *)

(** A background write that does not compact: the bytes [content] of the
    entries already in the file stay where they are; only the 8 length bytes
    change and the new record is put right after them. *)
Theorem C47_append_only E keyof es w rs0 i x m dup q :
  ordinary E keyof es -> run E world0 es = Some (w, rs0) -> w_insts w !! i = Some x -> i_queue x = JWrite m dup :: q ->
  exists w' f f' rs, step E w (EIo i) = Some (w', ROk None) /\
    file_at w (i_dir x) = Some f /\ holds (dir_codec E keyof w (i_dir x)) f rs /\ file_at w' (i_dir x) = Some f' /\
    (8 + bytes_of (e_feat E) rs + record_size (e_feat E) m <= len f \/ (dup || i_trim x)%bool = false ->
     exists content unused record unused',
       f = be 8 (len content) ++ content ++ unused /\ len content = bytes_of (e_feat E) rs /\
       f' = be 8 (len content + len record) ++ content ++ record ++ unused' /\
       enc (dir_codec E keyof w (i_dir x)) m (N.of_nat (length rs) mod 2 ^ 32) = ROk record /\
       exists more, unused ++ more = take (length record) (unused ++ more) ++ unused').
Proof.
  intros HO Hr Hx Hq.
  destruct (reach_write E keyof es w rs0 i x m dup q HO Hr Hx Hq)
    as (s & s' & rs & rs' & c & w' & Hs & (I & _) & Hm & Hst & Hf & Hf' & Hc & Hc' & (I' & _) & Hrep & Hk & Hy).
  exists w', (s_file s), (s_file s'), rs. rewrite Hc. split_and!; auto; [eapply Inv_holds, I|].
  intros Hno. rewrite bytes_of_total in *. change (i_trim x) with (s_trim (i_st w x)) in Hno. rewrite <- Hs in Hno. clear Hs.
  rewrite <- (inv_pos _ _ _ _ _ I).
  destruct Hk as [Hfit _ _ _ (c0 & sl & b & F1 & Hb & F2 & L & _)|Hfull Hnt _ _ _ (c0 & sl & b & F1 & Hb & F2 & L & _)|Hfull Ht _ _ _ _].
  - exists c0, sl, b, (drop (length b) sl). rewrite F2. unfold shape. rewrite len_app, <- app_assoc. split_and!; auto.
    exists []. rewrite app_nil_r. symmetry. apply take_drop.
  - exists c0, sl, b, (drop (length b) (sl ++ zeros (page (e_plat E)))). rewrite F2. unfold shape. rewrite len_app, <- app_assoc. split_and!; auto.
    exists (zeros (page (e_plat E))). symmetry. apply take_drop.
  - unfold used in Hfull. destruct Hno as [Hno|Hno]; [lia|congruence].
Qed.

Example C47_example :
  let es := [ENew 0 dir_d ex_key; EPut 0 k1 (VI32 5); EIo 0; EPut 0 k2 hello] in
  ordinary (ex_env FPlain) ex_keyof es /\
  match run (ex_env FPlain) world0 es with
  | Some (w, _) => match w_insts w !! 0 with Some x => exists m, i_queue x = [JWrite m false] /\ i_trim x = false /\ kv_key m = k2 | None => False end
  | None => False
  end.
Proof.
  split; [apply ordinaryb_ok; [apply ex_env_ok; exact Logic.I|vm_compute; reflexivity]|].
  assert (H : match run (ex_env FPlain) world0 [ENew 0 dir_d ex_key; EPut 0 k1 (VI32 5); EIo 0; EPut 0 k2 hello] with
    | Some (w, _) => match w_insts w !! 0 with Some x => match i_queue x with [JWrite m false] => negb (i_trim x) && bool_decide (kv_key m = k2) | _ => false end | None => false end
    | None => false end = true) by (vm_compute; reflexivity).
  destruct (run _ _ _) as [[w rs]|]; [|discriminate]. destruct (w_insts w !! 0) as [x|]; [|discriminate].
  destruct (i_queue x) as [|[m [|]|] [|]]; try discriminate. apply andb_true_iff in H as [H1 H2]. apply negb_true_iff in H1.
  apply bool_decide_eq_true in H2. exists m. auto.
Qed.

(** * C10 *)

(** With records of at most a page (part of [ordinary]) no background writer
    is ever dead, and no call ever panics or reports an I/O error. *)
Theorem C10_background_never_fails E keyof es w rs0 i x :
  ordinary E keyof es -> run E world0 es = Some (w, rs0) -> w_insts w !! i = Some x -> i_io x = IoRun.
Proof. intros HO Hr Hx. apply (reach_inst E keyof es w rs0 i x HO Hr Hx). Qed.

Theorem C10_no_call_fails E keyof es w rs0 r :
  ordinary E keyof es -> run E world0 es = Some (w, rs0) -> In r rs0 ->
  match r with ROk _ => True | RErr e => e = KeyNotFound \/ e = TypeMissMatch | RPanic => False end.
Proof.
  intros HO Hr Hin. destruct (reach E keyof es HO w rs0 Hr) as (sp & Hs & _). clear Hr w HO.
  revert Hs Hin. generalize spec0. revert rs0 sp. induction es as [|e es IH]; intros rs0 sp s; cbn [spec_run].
  - intros [= _ <-] [].
  - destruct (spec_step (e_canon E) s e) as [[s1 x]|] eqn:E1; [|discriminate].
    destruct (spec_run (e_canon E) s1 es) as [[s2 xs]|] eqn:E2; [|discriminate]. intros [= _ <-] [<-|Hin].
    + destruct e; cbn [spec_step] in E1; try discriminate;
        try (destruct (sp_handles s !! h); [injection E1 as _ <-|discriminate]); try exact Logic.I.
      * destruct (sp_handles s !! h); [discriminate|]. injection E1 as _ <-. exact Logic.I.
      * unfold spec_get. match goal with |- context [?x !! key] => destruct (x !! key) as [v|] end; [|auto]. destruct (decide _); auto.
      * injection E1 as _ <-. exact Logic.I.
    + eapply IH; [exact E2|exact Hin].
Qed.

(** ** The writer on arbitrary records *)
Section Big.
Context (P : plat) (C : codec) (pos_ok : N -> Prop) (sz : kv -> N).
Context (H64 : usz P = 8%nat) (Hlaw : codec_law C pos_ok sz) (Hmax : maxfile P < 2 ^ 63).

(** Appending more than the map can hold: the new length is stored, then the
    slice for the data panics. *)
Lemma append_overflow s d c slack :
  s_ml s = len (s_file s) -> s_file s = shape c slack -> len slack < len d -> len d < 2 ^ 32 -> len (s_file s) < 2 ^ 63 ->
  exists s', append P s d = (s', false) /\ s_file s' = be 8 (len c + len d) ++ c ++ slack.
Proof using H64 Hmax.
  intros Hml Hf Hd Hd32 Hs. pose proof (shape_len c slack) as L. rewrite <- Hf in L.
  unfold append. rewrite (view_full s Hml), Hf.
  rewrite (write_offset_shape P H64 Hmax) by lia. rewrite (modulus_64 P H64).
  destruct (store_len_shape P H64 Hmax s ((len d + (len c + 8 + 2 ^ 64 - len_offset) mod 2 ^ 64) mod 2 ^ 64) c slack Hml Hf)
    as (s1 & E1 & F1 & M1 & _). cbv zeta. rewrite E1.
  destruct (N.leb_spec (len c + 8 + len d) (s_ml s1)); [lia|].
  exists s1. split; [reflexivity|]. rewrite F1. f_equal. f_equal.
  assert (Em : (len c + 8 + 2 ^ 64 - len_offset) mod 2 ^ 64 = len c).
  { unfold len_offset. replace (len c + 8 + 2 ^ 64 - 8) with (len c + 1 * 2 ^ 64) by lia. rewrite N.mod_add by discriminate.
    apply N.mod_small. lia. }
  rewrite Em, N.mod_small; lia.
Qed.

(** A file whose stored length reaches beyond its end cannot be opened, with
    any record format. *)
Lemma overlong_unopenable C' seed n c : len c < n -> n + 8 < 2 ^ 64 -> open_file P C' seed (be 8 n ++ c) = None.
Proof using H64.
  clear Hmax Hlaw C pos_ok sz. intros Hn Hb. unfold open_file. rewrite take_ge by (unfold len; lia).
  unfold read_all, write_offset, header, len_offset.
  pose proof (slice_head (be 8 n) c) as E. rewrite len_be in E. change (N.of_nat 8) with 8 in E. rewrite E, be_length, H64.
  cbn [Nat.eqb]. rewrite unbe_be_small by (change (256 ^ N.of_nat 8) with (2 ^ 64); lia). rewrite (modulus_64 P H64).
  rewrite N.mod_small by lia. destruct (length (be 8 n ++ c)) as [|k] eqn:Lk.
  { rewrite app_length, be_length in Lk. discriminate. }
  cbn [iter_map]. destruct (N.leb_spec (n + 8) 8); [lia|].
  assert (slice 8 (n + 8) (be 8 n ++ c) = None) as ->; [|reflexivity].
  unfold slice. rewrite len_app, len_be. destruct (N.leb_spec (n + 8) (N.of_nat 8 + len c)); [lia|]. rewrite andb_false_r. reflexivity.
Qed.

(** A write that does not want to compact succeeds exactly if the record fits
    in the free space plus one page. *)
Theorem write_exact s rs m :
  Inv C pos_ok sz s rs -> rec_ok sz m -> positions_ok pos_ok (N.of_nat (length rs) + 1) -> s_trim s = false ->
  len (s_file s) + page P <= maxfile P ->
  (snd (write P C s m false) = true <-> 8 + total sz rs + sz m <= len (s_file s) + page P) /\
  (len (s_file s) + page P < 8 + total sz rs + sz m ->
   exists s', write P C s m false = (s', false) /\ forall C' seed, open_file P C' seed (s_file s') = None).
Proof using H64 Hlaw Hmax.
  intros I Hm Hp Ht Hroom.
  destruct (inv_encode P C pos_ok sz H64 Hlaw Hmax s rs m I Hm Hp) as (b & Eb & Lb).
  pose proof (inv_used P C pos_ok sz H64 Hlaw Hmax s rs I) as Hu.
  pose proof (inv_write_offset P C pos_ok sz H64 Hlaw Hmax s rs I) as Hwo.
  pose proof (inv_ml _ _ _ _ _ I) as Hml. pose proof (inv_size _ _ _ _ _ I) as Hs.
  unfold write. rewrite Eb, Hwo, (modulus_64 P H64). cbv zeta. unfold used in *. destruct Hm as [Hok Hsz].
  rewrite N.mod_small by lia. rewrite Hml.
  destruct (N.leb_spec (len b + (8 + total sz rs)) (len (s_file s))) as [Hfit|Hover].
  - destruct (append_incr_inv P C pos_ok sz H64 Hlaw Hmax s rs m b I (conj Hok Hsz) Hp Eb ltac:(unfold used; lia)) as (s' & -> & _).
    cbn [snd]. split; [split; intros; [lia|reflexivity]|intros; lia].
  - rewrite Ht. destruct (expand_inv P C pos_ok sz H64 Hmax s rs I Hroom) as (s1 & -> & I1 & F1 & L1 & M1 & P1 & T1 & _).
    destruct (N.leb_spec (8 + total sz rs + sz m) (len (s_file s) + page P)) as [Hfit|Hbig].
    + rewrite <- P1 in Eb.
      destruct (append_incr_inv P C pos_ok sz H64 Hlaw Hmax s1 rs m b I1 (conj Hok Hsz) Hp Eb ltac:(unfold used; lia)) as (s' & -> & _).
      cbn [snd]. split; [split; intros; [lia|reflexivity]|intros; lia].
    + destruct (inv_content P C pos_ok sz H64 Hlaw Hmax s1 rs I1) as (c & sl & Ec & Fc & Lc).
      pose proof (shape_len c sl) as Lsh. rewrite <- Fc in Lsh.
      destruct (append_overflow s1 b c sl) as (s2 & E2 & F2); [lia|exact Fc|lia|lia|apply (inv_size _ _ _ _ _ I1)|].
      unfold append_incr. rewrite E2. cbn [snd]. split; [split; [discriminate|intros; lia]|]. intros _.
      exists s2. split; [reflexivity|]. intros C' seed. rewrite F2. apply overlong_unopenable; rewrite ?len_app; pose proof (inv_size _ _ _ _ _ I1); lia.
Qed.
End Big.

(** A put of any value (of less than 4 GiB) under a new key into an idle store
    that has nothing to compact, in any reachable state: the put is
    acknowledged; the background write then succeeds exactly if the record
    fits in the free space plus one page; and if it does not fit, the writer
    is dead and the file it leaves cannot be opened any more, with no key and
    no record format. *)
Theorem C10_append_exact E keyof es w rs0 h hd x f rs key v m :
  ordinary E keyof es -> run E world0 es = Some (w, rs0) -> room E (writes es + 1) ->
  w_handles w !! h = Some hd -> w_insts w !! h_inst hd = Some x ->
  i_queue x = [] -> i_trim x = false -> i_map x !! key = None ->
  file_at w (i_dir x) = Some f -> holds (dir_codec E keyof w (i_dir x)) f rs ->
  Forall (fun r => kv_ok r = true /\ record_size (e_feat E) r <= page (e_plat E)) rs -> N.of_nat (length rs) <= writes es ->
  utf8_valid key = true -> value_ok v = true -> buffer_new key v = ROk m -> record_size (e_feat E) m < 2 ^ 32 ->
  exists w1 w2 y f', step E w (EPut h key v) = Some (w1, ROk None) /\ step E w1 (EIo (h_inst hd)) = Some (w2, ROk None) /\
    w_insts w2 !! h_inst hd = Some y /\ file_at w2 (i_dir x) = Some f' /\
    (i_io y = IoRun <-> 8 + bytes_of (e_feat E) rs + record_size (e_feat E) m <= len f + page (e_plat E)) /\
    (len f + page (e_plat E) < 8 + bytes_of (e_feat E) rs + record_size (e_feat E) m ->
       i_io y = IoDead /\ forall C seed, open_file (e_plat E) C seed f' = None).
Proof.
  intros HO Hr Hroom Hh Hx Hq Ht Hk Hf Hholds HG Hlen Hu Hv Hm Hsz.
  destruct (reach E keyof es HO w rs0 Hr) as (sp & _ & W).
  destruct (handle_cases E keyof _ w sp _ _ h hd W Hh) as (_ & Hun & _ & _ & _ & x' & Hx' & _ & Ix).
  rewrite Hx in Hx'. injection Hx' as <-.
  destruct (reach_inst E keyof es w rs0 _ x HO Hr Hx) as (Hio & Hc & Hf' & q1 & rs1 & c1 & _ & _ & HW & Hn & _).
  rewrite Hf in Hf'. injection Hf' as ->. rewrite <- Hc in Hholds.
  assert (Hlaw : codec_law (i_codec E x) (record_pos (e_feat E)) (record_size (e_feat E)))
    by apply feature_law, (eo_feat _ (or_env _ _ _ HO)).
  destruct (eo_plat _ (or_env _ _ _ HO)) as [H64 Hpage Hmax Hhord].
  set (y1 := i_with_queue (i_with_map x (<[key:=m]> (i_map x))) [JWrite m false]).
  assert (Hput : inst_put x key v = (y1, ROk None)).
  { unfold inst_put. rewrite (io_poison _ _ _ _ _ _ _ Ix), Hm, (io_valid _ _ _ _ _ _ _ Ix), Hk.
    rewrite bool_decide_eq_false_2 by (intros [? ?]; discriminate). unfold post. cbn [i_with_map i_with_queue i_queue i_sender i_io].
    rewrite (io_sender _ _ _ _ _ _ _ Ix), Hio, Hq. reflexivity. }
  set (w1 := set_inst w (h_inst hd) y1).
  assert (Hs1 : step E w (EPut h key v) = Some (w1, ROk None)).
  { cbn [step]. unfold with_handle, on_inst. rewrite Hh, Hun, Hx, Hput. reflexivity. }
  destruct HW as (I1 & _ & _ & Hsize & _).
  assert (Hpos : forall n, n <= writes es + 1 -> positions_ok (record_pos (e_feat E)) n).
  { intros n Hle. eapply positions_mono; [exact Hle|]. apply room_positions, Hroom. }
  assert (I : Inv (i_codec E x) (record_pos (e_feat E)) (record_size (e_feat E))
     (St (inode w (i_ino x)) (len (inode w (i_ino x))) (N.of_nat (length rs) mod 2 ^ 32) false (w_seed w) []) rs).
  { split; cbn [s_file s_ml s_pos]; auto.
    - eapply Forall_impl; [exact HG|]. intros r [A B]. split; [exact A|lia].
    - apply Hpos. lia.
    - destruct Hholds as (c & sl & A & B). exists c, sl. auto.
    - apply (inv_size _ _ _ _ _ I1). }
  assert (Hsame : N.of_nat (length rs) mod 2 ^ 32 = i_pos x).
  { pose proof (inv_read_all _ _ _ _ H64 Hlaw Hmax _ _ I) as R1. pose proof (inv_read_all _ _ _ _ H64 Hlaw Hmax _ _ I1) as R2.
    rewrite (view_full _ (inv_ml _ _ _ _ _ I)) in R1. rewrite (view_full _ (inv_ml _ _ _ _ _ I1)) in R2. cbn [s_file i_st] in R1, R2.
    rewrite R1 in R2. injection R2 as _ Hcnt. etransitivity; [exact Hcnt|]. symmetry. exact (inv_pos _ _ _ _ _ I1). }
  pose proof (inv_ml _ _ _ _ _ I1) as Hml. cbn [i_st s_ml s_file] in Hml.
  destruct (write_exact (e_plat E) (i_codec E x) _ _ H64 Hlaw Hmax _ rs m I) as [Hex Hbad].
  { split; [|exact Hsz]. apply kv_ok_spec. pose proof (record_size_fields (e_feat E) m) as Hfld.
    unfold buffer_new in Hm. destruct (type_token (type_of v)) as [t| |] eqn:Et; [|discriminate|discriminate].
    injection Hm as <-. cbn [kv_key kv_type kv_value] in *. split_and!; [exact Hu| |lia|lia].
    destruct v; cbn [type_of type_token] in Et; try (injection Et as <-; reflexivity).
    unfold type_token_new in Et. destruct (reserved tok); [discriminate|]. injection Et as <-. exact Hv. }
  { apply Hpos. lia. } { reflexivity. }
  { destruct Hroom as [Hr0 _]. cbn [s_file]. cbn [i_st s_file] in Hsize. nia. }
  cbn [s_file] in Hex, Hbad. rewrite bytes_of_total.
  assert (Hst : i_st w1 y1 = St (inode w (i_ino x)) (len (inode w (i_ino x))) (N.of_nat (length rs) mod 2 ^ 32) false (w_seed w) []).
  { unfold i_st, y1. cbn. rewrite Ht, <- Hsame, <- Hml. reflexivity. }
  destruct (write (e_plat E) (i_codec E x) (St (inode w (i_ino x)) (len (inode w (i_ino x))) (N.of_nat (length rs) mod 2 ^ 32) false (w_seed w) []) m false)
    as [s2 ok] eqn:Ew. cbn [snd] in Hex.
  exists w1, (run_job E w1 (h_inst hd)), (i_after y1 [] (if ok then IoRun else IoDead) s2), (s_file s2).
  assert (Hj : run_job E w1 (h_inst hd) =
    set_seed (set_inode (set_inst w1 (h_inst hd) (i_after y1 [] (if ok then IoRun else IoDead) s2)) (i_ino x) (s_file s2)) (s_seed s2)).
  { unfold run_job. unfold w1 at 1. unfold set_inst at 1, set_insts at 1. cbn [w_insts]. rewrite lookup_insert.
    change (i_io y1) with (i_io x). rewrite Hio. change (i_queue y1) with [JWrite m false]. cbv iota beta.
    change (i_codec E y1) with (i_codec E x). rewrite Hst, Ew. reflexivity. }
  split_and!; auto.
  - rewrite Hj. cbn. apply lookup_insert.
  - rewrite Hj. unfold file_at. change (dir_of _ (i_dir x)) with (dir_of w (i_dir x)).
    rewrite (io_data _ _ _ _ _ _ _ Ix). cbn. f_equal. unfold inode. cbn. rewrite lookup_insert. reflexivity.
  - cbn [i_after i_io]. rewrite <- Hex. destruct ok; split; congruence.
  - intros Hbig. destruct (Hbad Hbig) as (s' & [= -> ->] & Hop). split; [reflexivity|]. intros C seed. apply Hop.
Qed.

Definition ex_big : value := VBytes (repeat x00 200).
Definition ex_mid : value := VBytes (repeat x00 80).

(** The hypotheses are met by a store with one record; a value of 80 bytes
    (more than a page of 64) fits in the free space plus one page, one of 200
    bytes does not. *)
Example C10_append_exact_example :
  let es := [ENew 0 dir_d ex_key; EPut 0 k1 (VI32 5); EIo 0] in
  ordinary (ex_env FPlain) ex_keyof es /\ room (ex_env FPlain) (writes es + 1) /\
  (exists m, buffer_new k2 ex_mid = ROk m /\ record_size FPlain m = 95) /\
  (exists m, buffer_new k2 ex_big = ROk m /\ record_size FPlain m = 216) /\
  match run (ex_env FPlain) world0 es with
  | Some (w, _) => match w_insts w !! 0 with
      | Some x => i_queue x = [] /\ i_trim x = false /\ i_map x !! k2 = None /\ i_dir x = dir_d /\
          option_map len (file_at w dir_d) = Some 64 /\
          exists f m, file_at w dir_d = Some f /\ buffer_new k1 (VI32 5) = ROk m /\ holds crc_codec f [m]
      | None => False end
  | None => False
  end.
Proof.
  cbv zeta. split; [apply ordinaryb_ok; [apply ex_env_ok; exact Logic.I|vm_compute; reflexivity]|].
  split; [apply roomb_ok; vm_compute; reflexivity|].
  split; [eexists; split; [vm_compute; reflexivity|vm_compute; reflexivity]|]. split; [eexists; split; [vm_compute; reflexivity|vm_compute; reflexivity]|].
  assert (H : match run (ex_env FPlain) world0 [ENew 0 dir_d ex_key; EPut 0 k1 (VI32 5); EIo 0] with
  | Some (w, _) => match w_insts w !! 0 with
      | Some x => (i_queue x, i_trim x, bool_decide (i_map x !! k2 = None), i_dir x, file_at w dir_d)
      | None => ([], true, false, [], None) end
  | None => ([], true, false, [], None) end = ([], false, true, dir_d,
     Some (be 8 15 ++ match enc crc_codec (KV k1 0 (be 4 5)) 0 with ROk b => b | _ => [] end ++ zeros 41))) by (vm_compute; reflexivity).
  destruct (run _ _ _) as [[w rs]|]; [|discriminate]. destruct (w_insts w !! 0) as [x|]; [|discriminate].
  apply pair_equal_spec in H as [H Hf]. apply pair_equal_spec in H as [H Hd]. apply pair_equal_spec in H as [H Hm].
  apply pair_equal_spec in H as [Hq Ht]. apply bool_decide_eq_true in Hm. rewrite Hf. split_and!; auto.
  exists (be 8 15 ++ match enc crc_codec (KV k1 0 (be 4 5)) 0 with ROk b => b | _ => [] end ++ zeros 41), (KV k1 0 (be 4 5)).
  split; [reflexivity|]. split; [vm_compute; reflexivity|].
  exists (match enc crc_codec (KV k1 0 (be 4 5)) 0 with ROk b => b | _ => [] end), (zeros 41). split; vm_compute; reflexivity.
Qed.

(** * C09 *)

(** Ordinary calls with values of any size below 4 GiB. *)
Definition any_size_call (E : env) (keyof : bytes -> bytes) (e : event) : Prop :=
  match e with
  | EPut _ key v => utf8_valid key = true /\ value_ok v = true /\
      exists m, buffer_new key v = ROk m /\ record_size (e_feat E) m < 2 ^ 32
  | _ => call_ok E keyof e
  end.

Definition any_size_callb (E : env) (keyof : bytes -> bytes) (e : event) : bool :=
  match e with
  | EPut _ key v => utf8_valid key && value_ok v &&
      match buffer_new key v with ROk m => record_size (e_feat E) m <? 2 ^ 32 | _ => false end
  | _ => call_okb E keyof e
  end.

Lemma any_size_callsb_ok E keyof es : forallb (any_size_callb E keyof) es = true -> Forall (any_size_call E keyof) es.
Proof.
  intros H. apply List.Forall_forall. intros e He. rewrite forallb_forall in H. specialize (H e He).
  destruct e; try (apply (call_okb_ok E keyof), H). unfold any_size_callb, any_size_call in *.
  apply andb_true_iff in H as [H H3]. apply andb_true_iff in H as [H1 H2]. split; [exact H1|]. split; [exact H2|].
  destruct (buffer_new key v) as [m| |]; try discriminate. exists m. split; [reflexivity|]. apply N.ltb_lt, H3.
Qed.

(** The property as wished for. *)
Definition large_values_are_safe (E : env) (keyof : bytes -> bytes) : Prop :=
  forall es rs, Forall (any_size_call E keyof) es -> one_spelling E es -> room E (writes es) ->
    results E es = Some rs -> Forall (fun r => r <> RPanic /\ r <> RErr IOError) rs.

(** It is false of the code: the put of 200 bytes (a page is 64) is
    acknowledged, the background writer dies on it, the next put fails, closing
    the store panics, and so does every later open of the directory. *)
Definition ex_big_trace : list event :=
  [ENew 0 dir_d ex_key; EPut 0 k1 (VI32 5); EPut 0 k2 ex_big; EIo 0; EIo 0; EPut 0 k1 (VI32 6); EDrop 0; ENew 1 dir_d ex_key].

Theorem C09_large_value_refuted :
  env_ok (ex_env FPlain) /\ ~ large_values_are_safe (ex_env FPlain) ex_keyof /\
  results (ex_env FPlain) ex_big_trace =
    Some [ROk None; ROk None; ROk None; ROk None; ROk None; RErr IOError; RPanic; RPanic].
Proof.
  assert (R : results (ex_env FPlain) ex_big_trace =
    Some [ROk None; ROk None; ROk None; ROk None; ROk None; RErr IOError; RPanic; RPanic]) by (vm_compute; reflexivity).
  split; [apply ex_env_ok; exact Logic.I|]. split; [|exact R]. intros H.
  assert (A : Forall (any_size_call (ex_env FPlain) ex_keyof) ex_big_trace).
  { apply any_size_callsb_ok. vm_compute. reflexivity. }
  specialize (H ex_big_trace _ A ltac:(apply one_spellingb_ok; vm_compute; reflexivity) ltac:(apply roomb_ok; vm_compute; reflexivity) R).
  rewrite List.Forall_forall in H. destruct (H RPanic) as [H1 _]; [cbn; tauto|]. apply H1. reflexivity.
Qed.

(** What holds instead: values whose record fits in the free space plus one
    page are written, from any reachable state with nothing to compact (and
    records of at most a page in every state, C10). *)
Theorem C09_fitting_value_partial E keyof es w rs0 h hd x f rs key v m :
  ordinary E keyof es -> run E world0 es = Some (w, rs0) -> room E (writes es + 1) ->
  w_handles w !! h = Some hd -> w_insts w !! h_inst hd = Some x ->
  i_queue x = [] -> i_trim x = false -> i_map x !! key = None ->
  file_at w (i_dir x) = Some f -> holds (dir_codec E keyof w (i_dir x)) f rs ->
  Forall (fun r => kv_ok r = true /\ record_size (e_feat E) r <= page (e_plat E)) rs -> N.of_nat (length rs) <= writes es ->
  utf8_valid key = true -> value_ok v = true -> buffer_new key v = ROk m -> record_size (e_feat E) m < 2 ^ 32 ->
  8 + bytes_of (e_feat E) rs + record_size (e_feat E) m <= len f + page (e_plat E) ->
  exists w1 w2 y, step E w (EPut h key v) = Some (w1, ROk None) /\ step E w1 (EIo (h_inst hd)) = Some (w2, ROk None) /\
    w_insts w2 !! h_inst hd = Some y /\ i_io y = IoRun.
Proof.
  intros HO Hr Hroom Hh Hx Hq Ht Hk Hf Hholds HG Hlen Hu Hv Hm Hsz Hfit.
  destruct (C10_append_exact E keyof es w rs0 h hd x f rs key v m HO Hr Hroom Hh Hx Hq Ht Hk Hf Hholds HG Hlen Hu Hv Hm Hsz)
    as (w1 & w2 & y & f' & A & B & C & _ & D & _). exists w1, w2, y. split_and!; auto. apply D, Hfit.
Qed.

(** * C08 *)

(** The least number of pages that must be added to a file of [have] bytes to
    hold [need] bytes. *)
Definition pages_needed (page have need : N) : N := (need - have + page - 1) / page.

(** The property as wished for: a write that compacts adds no more pages than
    its live data needs. *)
Definition compaction_grows_minimally (E : env) (keyof : bytes -> bytes) : Prop :=
  forall es w rs0 i x m dup q w' f f' rs rs',
  ordinary E keyof es -> run E world0 es = Some (w, rs0) -> w_insts w !! i = Some x -> i_queue x = JWrite m dup :: q ->
  step E w (EIo i) = Some (w', ROk None) ->
  file_at w (i_dir x) = Some f -> holds (dir_codec E keyof w (i_dir x)) f rs ->
  file_at w' (i_dir x) = Some f' -> holds (dir_codec E keyof w' (i_dir x)) f' rs' ->
  len f' <= len f + page (e_plat E) * pages_needed (page (e_plat E)) (len f) (8 + bytes_of (e_feat E) rs').

(** It is false of the code: the loop compares with the length the file had
    before, so every entry after the first overflow adds a page.  Here 86
    bytes are live, 128 would do, and the file grows from 64 to 192. *)
Definition k3 : bytes := str "k3"%string.
Definition ex_grow2 : list event :=
  [ENew 0 dir_d ex_key; EPut 0 k1 (VBool true); EPut 0 k2 (VBool true); EPut 0 k3 (VBool true); EIo 0; EIo 0; EIo 0;
   EPut 0 k1 (VBytes (repeat x00 35))].

Theorem C08_minimal_growth_refuted :
  env_ok (ex_env FPlain) /\ ordinary (ex_env FPlain) ex_keyof ex_grow2 /\ ~ compaction_grows_minimally (ex_env FPlain) ex_keyof.
Proof.
  assert (HO : ordinary (ex_env FPlain) ex_keyof ex_grow2)
    by (apply ordinaryb_ok; [apply ex_env_ok; exact Logic.I|vm_compute; reflexivity]).
  split; [apply ex_env_ok; exact Logic.I|]. split; [exact HO|]. intros H.
  assert (R : match run (ex_env FPlain) world0 ex_grow2 with
    | Some (w, _) => match w_insts w !! 0 with
       | Some x => bool_decide (i_dir x = dir_d) &&
         match i_queue x with JWrite m dup :: q =>
          match step (ex_env FPlain) w (EIo 0), file_at w dir_d with
          | Some (w', ROk None), Some f =>
             (len f =? 64) && match file_at w' dir_d with Some f' => (len f' =? 192) && (unbe (take 8 f') =? 78) | _ => false end
          | _, _ => false end
         | _ => false end
       | None => false end
    | None => false end = true) by (vm_compute; reflexivity).
  destruct (run (ex_env FPlain) world0 ex_grow2) as [[w rs0]|] eqn:Hrun; [|discriminate R].
  destruct (w_insts w !! 0) as [x|] eqn:Hx; [|discriminate R].
  apply andb_true_iff in R as [Hd R]. apply bool_decide_eq_true in Hd.
  destruct (i_queue x) as [|[m dup|] q] eqn:Hq; try discriminate R.
  destruct (reach_write _ _ _ w rs0 0 x m dup q HO Hrun Hx Hq)
    as (s & s' & rs & rs' & c & w' & _ & (I & _) & _ & Hst & Hf & Hf' & Hc & Hc' & (I' & _) & _).
  pose proof (H _ w rs0 0 x m dup q w' _ _ rs rs' HO Hrun Hx Hq Hst Hf ltac:(rewrite Hc; eapply Inv_holds, I) Hf'
     ltac:(rewrite Hc'; eapply Inv_holds, I')) as Hle.
  assert (Hlaw : codec_law (i_codec (ex_env FPlain) x) (record_pos FPlain) (record_size FPlain)) by (apply feature_law; exact Logic.I).
  destruct (inv_content ex_plat _ _ _ eq_refl Hlaw eq_refl _ _ I') as (ct & sl & _ & Hsh & Hct).
  rewrite Hst in R. rewrite Hd in *. rewrite Hf, Hf' in R. apply andb_true_iff in R as [R1 R]. apply andb_true_iff in R as [R2 R3].
  apply N.eqb_eq in R1, R2, R3. rewrite Hsh in R3. unfold shape in R3.
  rewrite take_app_alt in R3 by (rewrite be_length; reflexivity).
  assert (Hlt : len ct < 2 ^ 64).
  { pose proof (shape_len ct sl) as L. rewrite <- Hsh, R2 in L. lia. }
  rewrite unbe_be_small in R3 by exact Hlt. rewrite R1, R2, bytes_of_total in Hle. cbn [e_feat ex_env] in *.
  rewrite <- Hct, R3 in Hle. vm_compute in Hle. apply Hle. reflexivity.
Qed.

(** What holds: the growth is exactly one page for every entry of the
    rewritten file that ends beyond the old end of the file (counted in the
    order in which the hash map enumerates), so at most one page plus one for
    every five bytes of the new record; and none if the live data fits. *)
Fixpoint overflowing (F : feature) (old u : N) (rs : list kv) : N :=
  match rs with
  | [] => 0
  | m :: r => (if old <? u + record_size F m then 1 else 0) + overflowing F old (u + record_size F m) r
  end.

Theorem C08_growth_partial E keyof es w rs0 i x m dup q :
  ordinary E keyof es -> run E world0 es = Some (w, rs0) -> w_insts w !! i = Some x -> i_queue x = JWrite m dup :: q ->
  exists w' f f' rs rs', step E w (EIo i) = Some (w', ROk None) /\
    file_at w (i_dir x) = Some f /\ holds (dir_codec E keyof w (i_dir x)) f rs /\
    file_at w' (i_dir x) = Some f' /\ holds (dir_codec E keyof w' (i_dir x)) f' rs' /\
    (len f < 8 + bytes_of (e_feat E) rs + record_size (e_feat E) m -> (dup || i_trim x)%bool = true ->
     len f' = len f + page (e_plat E) * overflowing (e_feat E) (len f) 8 rs' /\
     overflowing (e_feat E) (len f) 8 rs' <= 1 + record_size (e_feat E) m / 5 /\
     (8 + bytes_of (e_feat E) rs' <= len f -> len f' = len f)).
Proof.
  intros HO Hr Hx Hq.
  destruct (reach_write E keyof es w rs0 i x m dup q HO Hr Hx Hq)
    as (s & s' & rs & rs' & c & w' & Hs & (I & _) & Hm & Hst & Hf & Hf' & Hc & Hc' & (I' & _) & Hrep & Hk & Hy).
  exists w', (s_file s), (s_file s'), rs, rs'. rewrite Hc, Hc'. split_and!; auto; [eapply Inv_holds, I|eapply Inv_holds, I'|].
  intros Hfull Ht. rewrite bytes_of_total in *. change (i_trim x) with (s_trim (i_st w x)) in Ht. rewrite <- Hs in Ht.
  assert (Hov : forall l u, overflowing (e_feat E) (len (s_file s)) u l = grow (record_size (e_feat E)) (len (s_file s)) u l).
  { induction l as [|a l IH]; intros u; cbn [overflowing grow]; [reflexivity|]. rewrite IH. reflexivity. }
  rewrite Hov. destruct Hk as [Hfit _ _ _ _|_ Hnt _ _ _ _|_ _ Hp HL Hg HT].
  - unfold used in Hfit. lia.
  - congruence.
  - split; [exact HL|]. split; [exact Hg|]. intros Hfit.
    assert (Hlaw : codec_law (i_codec E x) (record_pos (e_feat E)) (record_size (e_feat E)))
      by apply feature_law, (eo_feat _ (or_env _ _ _ HO)).
    destruct (eo_plat _ (or_env _ _ _ HO)) as [H64 _ Hmax _].
    pose proof (grow_bound (e_plat E) _ _ _ H64 Hlaw Hmax (len (s_file s)) rs' 8) as G.
    destruct (N.leb_spec (8 + total (record_size (e_feat E)) rs') (len (s_file s))); [|lia].
    rewrite HL. nia.
Qed.

Example C08_example : ordinary (ex_env FPlain) ex_keyof ex_grow2 /\
  match run (ex_env FPlain) world0 ex_grow2 with
  | Some (w, _) => match w_insts w !! 0 with Some x => exists m, i_queue x = [JWrite m true] | None => False end
  | None => False
  end.
Proof.
  split; [apply C08_minimal_growth_refuted|].
  assert (H : match run (ex_env FPlain) world0 ex_grow2 with
    | Some (w, _) => match w_insts w !! 0 with Some x => match i_queue x with [JWrite m true] => true | _ => false end | None => false end
    | None => false end = true) by (vm_compute; reflexivity).
  destruct (run _ _ _) as [[w rs]|]; [|discriminate]. destruct (w_insts w !! 0) as [x|]; [|discriminate].
  destruct (i_queue x) as [|[m [|]|] [|]]; try discriminate. eauto.
Qed.
