(** C66: the disk is full.  Growing the data file can fail (config.rs:36-49:
    [set_len(..).unwrap()], then mapping the longer file, memory_map.rs:22-42,
    also unwrapped): the background thread panics in the middle of its job. *)
From Verif Require Import Bytes Utf8 Proto ProtoFacts Crc8 Value Codec Store StoreFacts Encrypt World Spec Hyps Refine WorldInv WorldStep Main Frames Reach Examples P_Map P_Store Slots Damaged Crash P_Kill P_Kill2 P_Corrupt P_Damaged P_Fail.
From Coq Require String. Import (notations) String.
From Coq Require Import ZifyBool ZifyNat ZifyN.
Local Open Scope N_scope.

(** The background thread of store [i] works on its first job; the effect
    number [j] of the job is the growth that fails, the effects before it have
    been done.  The panic ends the thread (io_looper.rs:107-136). *)
Definition no_space (E : env) (w : world) (i : N) (j : nat) : world :=
  match w_insts w !! i with
  | Some x =>
      match i_queue x with
      | _ :: q => set_inst (set_inode w (i_ino x) (apply_effs (firstn j (job_effects E w i)) (inode w (i_ino x)))) i (i_after x q IoDead (i_st w x))
      | [] => w
      end
  | None => w
  end.

(** The job has a growth, and it is effect number [j]. *)
Definition grows_at (E : env) (w : world) (i : N) (j : nat) : Prop := exists n, nth_error (job_effects E w i) j = Some (FExtend n).

(** As one would wish: what could be read before the growth failed can be read
    after a restart, except for the key that was being written. *)
Definition full_disk_keeps_data (E : env) : Prop :=
  forall keyof es w rs i x m dup j h0 hd h,
  ordinary E keyof es -> run E world0 es = Some (w, rs) -> w_insts w !! i = Some x -> i_queue x = [JWrite m dup] -> grows_at E w i j ->
  w_handles w !! h0 = Some hd -> h_inst hd = i ->
  exists w', run E (no_space E w i j) [EKill; ENew h (h_path hd) (h_key hd)] = Some (w', [ROk None; ROk None]) /\
    forall k t, get_ok t -> k <> kv_key m -> answer E w' (EGet h k t) = answer E w (EGet h0 k t).

(** A compaction starts by making the file empty (writer.rs:73).  The value that
    does not fit is rewritten first, and everything else is gone. *)
Definition k0 : bytes := str "k0"%string.
Definition ex_space : list event :=
  [ENew 0 dir_d ex_key; EPut 0 k1 (VI32 5); EPut 0 k1 (VI32 6); EIo 0; EIo 0; EPut 0 k2 hello; EIo 0;
   EPut 0 k0 (VStr (str "hello hello hello hello hello"%string))].

Theorem C66_full_disk_refuted : ~ full_disk_keeps_data (ex_env FPlain).
Proof.
  intros H. set (E := ex_env FPlain) in *.
  assert (T : match run E world0 ex_space with
    | Some (w, _) => match w_insts w !! 0 with
       | Some x => match i_queue x with
          | [JWrite m dup] => bool_decide (kv_key m = k0) && match nth_error (job_effects E w 0) 3 with Some (FExtend _) => true | _ => false end &&
             match w_handles w !! 0 with
             | Some hd => (h_inst hd =? 0) &&
                 match answer E w (EGet 0 k2 TStr) with Some (ROk (Some _)) => true | _ => false end &&
                 match run E (no_space E w 0 3) [EKill; ENew 1 (h_path hd) (h_key hd)] with
                 | Some (w', _) => match answer E w' (EGet 1 k2 TStr) with Some (RErr KeyNotFound) => true | _ => false end
                 | None => false end
             | None => false end
          | _ => false end
       | None => false end
    | None => false end = true) by (vm_compute; reflexivity).
  destruct (run E world0 ex_space) as [[w rs]|] eqn:Hr; [|discriminate T].
  destruct (w_insts w !! 0) as [x|] eqn:Hx; [|discriminate T].
  destruct (i_queue x) as [|[m dup|] [|]] eqn:Hq; try discriminate T.
  apply andb_true_iff in T as [T1 T2]. apply andb_true_iff in T1 as [Tk Tg]. apply bool_decide_eq_true in Tk.
  destruct (nth_error (job_effects E w 0) 3) as [[|n]|] eqn:Hn; try discriminate Tg.
  destruct (w_handles w !! 0) as [hd|] eqn:Hh; [|discriminate T2].
  apply andb_true_iff in T2 as [T2 T3]. apply andb_true_iff in T2 as [Ti Ta]. apply N.eqb_eq in Ti.
  assert (HO : ordinary E ex_keyof ex_space) by (apply ordinaryb_ok; [apply ex_env_ok; exact Logic.I|vm_compute; reflexivity]).
  destruct (H ex_keyof ex_space w rs 0 x m dup 3%nat 0 hd 1 HO Hr Hx Hq (ex_intro _ n Hn) Hh Ti) as (w' & Hrun & Hans).
  rewrite Hrun in T3. specialize (Hans k2 TStr ltac:(eexists; reflexivity)). rewrite Hans in T3 by (rewrite Tk; discriminate).
  destruct (answer E w (EGet 0 k2 TStr)) as [[[?|]|?|]|]; try discriminate Ta; discriminate T3.
Qed.

(** What remains true.  An append that has to grow the file does so first
    (writer.rs:92-95): if the growth fails the file is as it was, and after a
    restart the directory holds what the calls left without the writes that
    were outstanding; from then on everything goes on as specified. *)
Theorem C66_append_on_full_disk_partial E keyof es w rs i x m dup q j :
  ordinary E keyof es -> run E world0 es = Some (w, rs) -> w_insts w !! i = Some x -> i_queue x = JWrite m dup :: q ->
  ~ compacts E w i -> grows_at E w i j ->
  inode (no_space E w i j) (i_ino x) = inode w (i_ino x) /\
  exists s', killed_to E es w s' /\ goes_on E keyof (writes es + 1) (killed (no_space E w i j)) s'.
Proof.
  intros HO Hr Hx Hq Hnc [n Hn].
  destruct (append_job E keyof es w rs i x m dup q HO Hr Hx Hq Hnc) as (rs' & c0 & HW & Hm & Hroom & c & sl & n' & b0 & Hf & Hc & Hb0 & Hlb & Hlc & Hlim & Hef).
  assert (Hj : j = 0%nat /\ exists a b, last (job_effects E w i) = Some (FStore a b)).
  { destruct Hef as [[Hef _]|Hef]; [rewrite Hef in Hn; destruct j as [|[|j]]; cbn in Hn; try discriminate; destruct j; discriminate|].
    rewrite Hef in Hn |- *. destruct j as [|[|[|j]]]; cbn in Hn; try discriminate; [|destruct j; discriminate]. split; [reflexivity|]. cbn. eauto. }
  destruct Hj as (-> & a & b & Hlast).
  assert (Hk : killed (no_space E w i 0) = crashed w i (inode w (i_ino x))). { unfold no_space, crashed. rewrite Hx, Hq. reflexivity. }
  split. { unfold no_space. rewrite Hx, Hq. cbn [firstn apply_effs fold_left]. unfold inode, set_inst, set_insts, set_inode. cbn [w_inodes]. rewrite lookup_insert. reflexivity. }
  destruct (C22_kill_in_append_and_afterwards_partial E keyof es w rs i x m dup q (inode w (i_ino x)) a b None HO Hr Hx Hq Hnc) as (s' & c1 & A & _ & B).
  - exists 0%nat. split; [lia|]. left. reflexivity.
  - exact Hlast.
  - left. auto.
  - exists s'. rewrite Hk. auto.
Qed.

(** A compaction whose growth fails: the directory can be opened again and what
    is read is right as far as it is there, but entries may be missing. *)
Theorem C66_compaction_on_full_disk_partial E keyof es w rs i x m dup q j h p :
  ordinary E keyof es -> run E world0 es = Some (w, rs) -> w_insts w !! i = Some x -> i_queue x = JWrite m dup :: q ->
  compacts E w i -> grows_at E w i j -> In p (paths es) -> e_canon E p = i_dir x ->
  exists s' w' S, killed_to E (es ++ [EIo i]) (run_job E w i) s' /\
    step E (killed (no_space E w i j)) (ENew h p (keyof (i_dir x))) = Some (w', ROk None) /\ answers_as E w' h S /\ S ⊆ contents s' (i_dir x).
Proof.
  intros HO Hr Hx Hq Hc [n Hn] Hp Hcp.
  assert (Hk : killed (no_space E w i j) = crash_after E w i j). { unfold no_space, crash_after, crashed. rewrite Hx, Hq. reflexivity. }
  assert (H1 : (1 <= j <= length (job_effects E w i))%nat).
  { split; [|apply Nat.lt_le_incl, nth_error_Some; congruence]. destruct j; [|lia]. destruct Hc as (rest & Hc). rewrite Hc in Hn. discriminate. }
  destruct (C23_kill_in_compaction_partial E keyof es w rs i x m dup q j h p HO Hr Hx Hq Hc Hp Hcp H1) as (s' & w' & S & A & B & C & D & _).
  - destruct (compaction_job E keyof es w rs i x m dup q HO Hr Hx Hq Hc) as (_ & _ & _ & effs & _ & _ & _ & _ & _ & Heff & Hsp & _).
    rewrite Heff in Hn |- *. destruct j as [|[|j]]; [lia|left; reflexivity|right]. cbn [nth_error Nat.sub] in *. intros d. exact (Hsp (S j) n Hn d).
  - exists s', w', S. rewrite Hk. auto.
Qed.

(** In the meantime: the process that met the full disk reads on what it has in
    memory, and its further writes to this directory answer IOError. *)
Theorem C66_reading_goes_on_partial E keyof es w rs i x m dup q j h hd k t :
  ordinary E keyof es -> run E world0 es = Some (w, rs) -> w_insts w !! i = Some x -> i_queue x = JWrite m dup :: q -> w_handles w !! h = Some hd ->
  answer E (no_space E w i j) (EGet h k t) = answer E w (EGet h k t) /\
  (h_inst hd = i -> forall v, put_ok E k v -> answer E (no_space E w i j) (EPut h k v) = Some (RErr IOError)).
Proof.
  intros HO Hr Hx Hq Hh.
  assert (Hu : h_unreg hd = false). { destruct (reach E keyof es HO w rs Hr) as (sp & _ & W). apply (handle_cases E keyof _ w _ _ _ h hd W Hh). }
  unfold no_space. rewrite Hx, Hq. set (f := apply_effs _ _). set (y := i_after x q IoDead (i_st w x)).
  assert (L : w_handles (set_inst (set_inode w (i_ino x) f) i y) !! h = Some hd) by exact Hh.
  assert (X : forall j0, w_insts (set_inst (set_inode w (i_ino x) f) i y) !! j0 = if decide (i = j0) then Some y else w_insts w !! j0).
  { intros j0. unfold set_inst, set_insts, set_inode. cbn [w_insts]. destruct (decide (i = j0)) as [<-|Hne]; [apply lookup_insert|apply lookup_insert_ne, Hne]. }
  split.
  - unfold answer. cbn [step]. unfold with_handle. rewrite L, Hh, Hu. unfold on_inst. rewrite X. destruct (decide (i = h_inst hd)) as [<-|Hne].
    + rewrite Hx. unfold inst_get, y. cbn [i_after i_poison i_valid i_map]. destruct (i_poison x), (i_valid x); reflexivity.
    + destruct (w_insts w !! h_inst hd); reflexivity.
  - intros <- v (_ & _ & m' & Hm & _). unfold answer. cbn [step]. unfold with_handle. rewrite L, Hu. unfold on_inst. rewrite X.
    destruct (decide (h_inst hd = h_inst hd)) as [_|]; [|congruence].
    destruct (reach E keyof es HO w rs Hr) as (sp & _ & W). destruct (wi_insts _ _ _ _ _ _ _ W _ x Hx) as (_ & IO & _).
    unfold inst_put, y. cbn [i_after i_poison i_valid i_map]. rewrite (io_poison _ _ _ _ _ _ _ IO), Hm, (io_valid _ _ _ _ _ _ _ IO).
    unfold post. cbn [i_with_map i_after i_sender i_io]. rewrite (io_sender _ _ _ _ _ _ _ IO). reflexivity.
Qed.

(** A case that meets the hypotheses of the partial theorem on appends: five
    different keys, the fourth of which no longer fits the page. *)
Definition ex_grow : list event :=
  [ENew 0 dir_d ex_key; EPut 0 k1 (VI32 5); EIo 0; EPut 0 k2 hello; EIo 0; EPut 0 k0 hello; EIo 0; EPut 0 (str "k9"%string) hello; EPut 0 k1 (VI32 7)].

Example ex_grow_case :
  match run (ex_env FPlain) world0 ex_grow with
  | Some (w, _) => match job_effects (ex_env FPlain) w 0 with [FExtend _; FStore _ _; FStore _ _] => true | _ => false end
  | None => false
  end = true.
Proof. vm_compute. reflexivity. Qed.
