(** C84: clear_data when the operating system refuses to remove a file. *)
From Verif Require Import Bytes Utf8 Proto ProtoFacts Value Codec Store StoreFacts Encrypt World Spec Hyps Refine WorldInv WorldStep Main Frames Reach Examples P_Map P_Enc.
From Coq Require Import ZifyBool ZifyNat ZifyN.
From Coq Require String. Import (notations) String.
Local Open Scope N_scope.

(** * The model *)

(** The background thread's first job; if it is the remove job, the operating
    system refuses to unlink the data file ([rd]) or the nonce file ([rm]), as
    it does in a sticky directory of another user, or one that only others may
    write (one that nobody may write is P_ReadOnly.v).  config.rs:55-57 and
    mmkv_impl.rs:109-110 throw the error away ([let _ = fs::remove_file]). *)
Definition run_job_r (E : env) (rd rm : bool) (w : world) (i : N) : world :=
  match w_insts w !! i with
  | Some x =>
      match i_io x, i_queue x with
      | IoRun, JRemove :: q =>
          let d := dir_of w (i_dir x) in
          set_inst (set_dir w (i_dir x) (Dir (if rd then d_data d else None) (if is_encrypted (e_feat E) && negb rm then None else d_meta d)))
                   i (i_with_queue x q)
      | _, _ => run_job E w i
      end
  | None => w
  end.

(** As [drain] of World.v (io_looper.rs:41-58, the thread that is waited for). *)
Definition drain_r (E : env) (rd rm : bool) (w : world) (i : N) : world :=
  match w_insts w !! i with
  | Some x => Nat.iter (length (i_queue x)) (fun w => run_job_r E rd rm w i) w
  | None => w
  end.

(** [MmkvImpl::clear_data] (mmkv_impl.rs:98-114) with [IOLooper::quit]
    (io_looper.rs:41-58), as [impl_clear] of World.v. *)
Definition impl_clear_r (E : env) (rd rm : bool) (w : world) (i : N) (x : inst) : world * result :=
  if negb (i_valid x) then (w, ROk None)
  else
    let '(x1, r) := post (i_invalid x) JRemove in
    let w1 := set_inst w i x1 in
    match r with
    | ROk _ =>
        let w2 := drain_r E rd rm w1 i in
        match w_insts w2 !! i with
        | Some x2 => (set_inst w2 i (i_quit x2), match i_io x2 with IoRun => ROk None | IoDead => RErr IOError end)
        | None => (w2, RPanic)
        end
    | _ => (w1, r)
    end.

(** [MMKV::clear_data] (mmkv.rs:206-220), as [do_clear] of World.v. *)
Definition do_clear_r (E : env) (rd rm : bool) (w : world) (hd : handle) : world * result :=
  match w_insts w !! h_inst hd with
  | None => (w, RPanic)
  | Some x =>
      if i_poison x then (w, RErr LockError)
      else
        let '(w1, r) := impl_clear_r E rd rm w (h_inst hd) x in
        match r with
        | ROk _ =>
            match open_impl E w1 (h_path hd) (h_key hd) with
            | (w2, Some y) =>
                let old := default x (w_insts w1 !! h_inst hd) in
                if i_join old && match i_io old with IoDead => true | IoRun => false end
                then (set_inst w2 (h_inst hd) (i_with_poison y), RPanic)
                else (set_inst w2 (h_inst hd) y, ROk None)
            | (w2, None) =>
                (match w_insts w2 !! h_inst hd with
                 | Some z => set_inst w2 (h_inst hd) (i_with_poison z)
                 | None => w2
                 end, RPanic)
            end
        | _ => (w1, r)
        end
  end.

(** With nothing refused it is the [clear_data] of World.v. *)
Lemma run_job_r_none E w i : run_job_r E false false w i = run_job E w i.
Proof.
  unfold run_job_r, run_job. destruct (w_insts w !! i) as [x|]; [|reflexivity].
  destruct (i_io x), (i_queue x) as [|[m b|] q]; try reflexivity. cbn. rewrite andb_true_r. reflexivity.
Qed.

Lemma do_clear_r_none E w hd : do_clear_r E false false w hd = do_clear E w hd.
Proof.
  assert (A : forall w i, drain_r E false false w i = drain E w i).
  { intros w1 i. unfold drain_r, drain. destruct (w_insts w1 !! i) as [x|]; [|reflexivity].
    induction (length (i_queue x)) as [|k IH]; [reflexivity|]. rewrite !Nat.iter_succ, IH. apply run_job_r_none. }
  unfold do_clear_r, do_clear. destruct (w_insts w !! h_inst hd) as [x|]; [|reflexivity]. destruct (i_poison x); [reflexivity|].
  unfold impl_clear_r, impl_clear. destruct (i_valid x); cbn [negb]; [|reflexivity].
  destruct (post (i_invalid x) JRemove) as [x1 r]. rewrite A. reflexivity.
Qed.

(** A write is run as ever. *)
Lemma run_job_r_write E rd rm w i x m dup q : w_insts w !! i = Some x -> i_queue x = JWrite m dup :: q -> run_job_r E rd rm w i = run_job E w i.
Proof. intros Hx Hq. unfold run_job_r. rewrite Hx, Hq. destruct (i_io x); reflexivity. Qed.

(** A call, or a [clear_data] of handle [h] during which the system refuses to
    unlink the data file ([rd]) or the nonce file ([rm]). *)
Inductive uact := UCall (e : event) | UClear (h : N) (rd rm : bool).

Definition ucall (a : uact) : event := match a with UCall e => e | UClear h _ _ => EClear h end.

Definition ustep (E : env) (w : world) (a : uact) : option (world * result) :=
  match a with UCall e => step E w e | UClear h rd rm => with_handle w h (do_clear_r E rd rm w) end.

Fixpoint urun (E : env) (w : world) (l : list uact) : option (world * list result) :=
  match l with
  | [] => Some (w, [])
  | a :: l =>
      match ustep E w a with
      | Some (w1, r) => match urun E w1 l with Some (w2, rs) => Some (w2, r :: rs) | None => None end
      | None => None
      end
  end.

(** What the callers should expect: a [clear_data] whose data file could not be
    removed answers Ok and changes nothing at all; any other empties the map. *)
Definition uspec_step (canon : bytes -> bytes) (s : spec) (a : uact) : option (spec * result) :=
  match a with
  | UCall e => spec_step canon s e
  | UClear h rd _ => match sp_handles s !! h with Some d => Some (if rd then s else set_contents s d ∅, ROk None) | None => None end
  end.

Fixpoint uspec (canon : bytes -> bytes) (s : spec) (l : list uact) : option (spec * list result) :=
  match l with
  | [] => Some (s, [])
  | a :: l =>
      match uspec_step canon s a with
      | Some (s1, r) => match uspec canon s1 l with Some (s2, rs) => Some (s2, r :: rs) | None => None end
      | None => None
      end
  end.

(** In the encrypted build the data file is only refused together with its
    nonce file (both lie in one directory, whose permissions decide). *)
Definition refusal_ok (E : env) (a : uact) : Prop :=
  match a with UClear _ true rm => is_encrypted (e_feat E) = true -> rm = true | _ => True end.

(** * The step *)

Section Step.
Context (E : env) {Rp : rep E} {RL : rep_law E Rp} (HE : env_ok E) (keyof : bytes -> bytes) (U : bytes -> Prop).
Context (HU_dir : forall p, U p -> e_dir_ok E p = true).
Context (HU_key : forall p, U p -> feature_key (e_feat E) (keyof (e_canon E p)) <> None).
Context (HU_inj : forall p p', U p -> U p' -> e_canon E p = e_canon E p' -> p = p').

Notation P := (e_plat E).
Notation F := (e_feat E).
Notation canon := (e_canon E).
Notation WInv := (WInv E keyof U).

(** The writes before the remove job are run as ever. *)
Lemma run_writes_r rd rm q : forall w i x tl, w_insts w !! i = Some x -> i_queue x = map jw q ++ tl ->
  Nat.iter (length q) (fun w => run_job_r E rd rm w i) w = Nat.iter (length q) (fun w => run_job E w i) w.
Proof.
  induction q as [|[m dup] q IH]; intros w i x tl Hx Hq; [reflexivity|].
  cbn [length]. rewrite !Nat.iter_succ_r. cbn [map app] in Hq.
  rewrite (run_job_r_write E rd rm w i x m dup _ Hx Hq).
  destruct (i_io x) eqn:Hio.
  - assert (A : exists x', w_insts (run_job E w i) !! i = Some x' /\ i_queue x' = map jw q ++ tl).
    { unfold run_job. rewrite Hx, Hio, Hq. change (jw (m, dup)) with (JWrite m dup). cbn iota.
      destruct (write P (i_codec E x) (i_st w x) m dup) as [s ok].
      eexists. split; [cbn; apply lookup_insert|reflexivity]. }
    destruct A as (x' & Hx' & Hq'). apply (IH _ i x' tl Hx' Hq').
  - assert (A : run_job E w i = w). { unfold run_job. rewrite Hx, Hio. reflexivity. }
    assert (B : run_job_r E rd rm w i = w). { unfold run_job_r. rewrite Hx, Hio. exact A. }
    rewrite A. clear -A B. induction (length q) as [|k IH]; [reflexivity|]. rewrite !Nat.iter_succ, IH.
    assert (C : forall k, Nat.iter k (fun w => run_job E w i) w = w).
    { intros k'. induction k' as [|k' IH']; [reflexivity|]. rewrite Nat.iter_succ, IH'. exact A. }
    rewrite C, A, B. reflexivity.
Qed.

Lemma refused_step rd rm w sp H n h hd :
  WInv w sp H n -> w_handles w !! h = Some hd -> room E n -> (rd = true -> is_encrypted F = true -> rm = true) ->
  let d := canon (h_path hd) in
  let sp' := if rd then sp else set_contents sp d ∅ in
  exists w', do_clear_r E rd rm w hd = (w', ROk None) /\
    WInv w' sp' (fun d' k S => if decide (d' = d) then k = 0%nat /\ S = contents sp' d else H d' k S) n.
Proof.
  intros W Hh Hroom Href d sp'. destruct (handle_cases E keyof U w sp H n h hd W Hh) as (Hsp & Hun & Up & Hk & Hr & x & Hx & Dx & I).
  fold d in Hsp, Hk, Dx.
  unfold do_clear_r. rewrite Hx, (io_poison _ _ _ _ _ _ _ I).
  unfold impl_clear_r. rewrite (io_valid _ _ _ _ _ _ _ I). cbn [negb].
  unfold post. cbn [i_invalid i_sender i_io i_queue].
  rewrite (io_sender _ _ _ _ _ _ _ I), (io_run _ _ _ _ _ _ _ I).
  destruct (io_state _ _ _ _ _ _ _ I) as (q & rs & c & B1 & B2 & B3 & B4 & B5 & B6 & B7).
  set (x1 := i_with_queue (i_invalid x) (i_queue x ++ [JRemove])).
  set (w1 := set_inst w (h_inst hd) x1).
  assert (Hx1 : w_insts w1 !! h_inst hd = Some x1) by apply lookup_insert.
  assert (Hq1 : i_queue x1 = map jw q ++ [JRemove]) by (cbn; rewrite B1; reflexivity).
  assert (Hrun1 : i_io x1 = IoRun) by exact (io_run _ _ _ _ _ _ _ I).
  assert (B3' : r_ok (i_codec E x1) (i_st w1 x1) rs c) by (eapply r_ext; [..|exact B3]; reflexivity).
  destruct (run_writes E HE q w1 (h_inst hd) x1 rs c [JRemove] Hx1 Hrun1 Hq1 B2 B3') as (s & rs' & Er & Ws & Rs & _).
  { eapply room_mono; [|exact Hroom]. lia. }
  unfold drain_r. rewrite Hx1, Hq1, app_length, map_length. cbn [length].
  rewrite Nat.add_1_r. rewrite Nat.iter_succ. rewrite (run_writes_r rd rm q w1 (h_inst hd) x1 _ Hx1 Hq1). rewrite Er.
  set (w2 := set_seed _ _).
  set (dd2 := Dir (if rd then d_data (dir_of w2 (i_dir x1)) else None) (if is_encrypted F && negb rm then None else d_meta (dir_of w2 (i_dir x1)))).
  set (y2 := i_with_queue (i_after x1 [JRemove] IoRun s) []).
  assert (Erm : run_job_r E rd rm w2 (h_inst hd) = set_inst (set_dir w2 (i_dir x1) dd2) (h_inst hd) y2).
  { unfold run_job_r. unfold w2 at 1. cbn [set_seed set_inode set_inst set_insts w_insts]. rewrite lookup_insert. reflexivity. }
  rewrite Erm.
  change (w_insts (set_inst (set_dir w2 (i_dir x1) dd2) (h_inst hd) y2)) with (<[h_inst hd := y2]> (w_insts w2)).
  rewrite lookup_insert. cbn [y2 i_with_queue i_after i_io]. fold y2.
  match goal with |- context [open_impl E ?wa _ _] => set (w3 := wa) end.
  assert (Ddd : dir_of w2 d = dir_of w d) by reflexivity.
  assert (Hd3 : dir_of w3 d = dd2).
  { unfold w3. erewrite dir_of_insert by reflexivity. cbn [i_after i_dir x1 i_with_queue i_invalid]. rewrite Dx.
    destruct (decide (d = d)); [reflexivity|congruence]. }
  assert (Hdir3 : forall d', d' <> d -> dir_of w3 d' = dir_of w d').
  { intros d' Hne. unfold w3. erewrite dir_of_insert by reflexivity. cbn [i_after i_dir x1 i_with_queue i_invalid]. rewrite Dx.
    destruct (decide (d = d')); [congruence|reflexivity]. }
  assert (Dx1 : i_dir x1 = d) by exact Dx.
  pose proof (io_data _ _ _ _ _ _ _ I) as Hdata. rewrite Dx in Hdata.
  assert (Ino3 : inode w3 (i_ino x) = s_file s).
  { unfold w3, inode. cbn. rewrite lookup_insert. reflexivity. }
  assert (Hnext : w_next_ino w3 = w_next_ino w) by reflexivity.
  rewrite Hk.
  destruct (open_impl_ok E HE keyof U HU_dir HU_key HU_inj w3 (h_path hd) (contents sp' d) n Up) as
    (w4 & y & Eo & Dy & Iy & Qy & T1 & T2 & T3 & T4 & T5 & T6 & T7 & T8 & T9).
  { fold d. unfold WorldInv.dir_ok. rewrite Hd3. unfold dd2. cbn [d_data]. rewrite Dx1, Ddd, Hdata. destruct rd.
    - left. rewrite Ino3. exists rs', (i_nonce x), s. split_and!; [| reflexivity | |].
      + pose proof (io_meta _ _ _ _ _ _ _ I) as M. unfold meta_ok in *. rewrite Dx in M. rewrite Hd3. unfold dd2. cbn [d_meta].
        destruct F as [|A]; [exact Logic.I|]. rewrite (Href eq_refl eq_refl). cbn [is_encrypted negb andb]. rewrite Dx1, Ddd. exact M.
      + unfold i_codec in Ws. change (i_key x1) with (i_key x) in Ws. rewrite (io_key _ _ _ _ _ _ _ I), Dx in Ws.
        eapply r_mono; [|exact Ws]. lia.
      + rewrite Rs, <- B5. unfold sp'. rewrite <- Dx. exact B6.
    - unfold sp'. apply contents_set. }
  { fold d. rewrite Hd3, Hnext. unfold dd2. cbn [d_data]. rewrite Dx1, Ddd. destruct rd; [|discriminate].
    intros j Hj. eapply (wi_fresh _ _ _ _ _ _ _ W); exact Hj. }
  fold d in Eo, Dy, T7, T8, T9. rewrite Eo.
  assert (Hold : w_insts w3 !! h_inst hd = Some (i_quit y2)) by apply lookup_insert.
  rewrite Hold. cbn [default i_quit i_join andb].
  change (default x (Some (i_quit y2))) with (i_quit y2). cbn [i_quit i_join andb].
  eexists. split; [reflexivity|].
  assert (Hd3d : d_data (dir_of w3 d) = None \/ d_data (dir_of w3 d) = Some (i_ino x)).
  { rewrite Hd3. unfold dd2. cbn [d_data]. rewrite Dx1, Ddd, Hdata. destruct rd; auto. }
  eapply (WInv_update E keyof U HU_dir HU_key HU_inj w _ sp sp' H _ n n (h_inst hd) x y W Hx); cbn [set_inst set_insts w_handles w_reg w_poison w_next_inst w_next_ino w_insts].
  - rewrite Dy, Dx. reflexivity.
  - rewrite T2. reflexivity.
  - rewrite T3. reflexivity.
  - rewrite T4. apply (wi_poison _ _ _ _ _ _ _ W).
  - rewrite T5. reflexivity.
  - rewrite <- Hnext. exact T6.
  - rewrite T1. unfold w3. cbn. rewrite !insert_insert. reflexivity.
  - rewrite Dx. intros d' Hne. change (dir_of w4 d' = dir_of w d'). rewrite T7 by exact Hne. apply Hdir3, Hne.
  - intros j Hj Hne. change (inode w4 j = inode w j). rewrite T8; [|rewrite Hnext; exact Hj|right; destruct Hd3d as [-> | ->]; congruence].
    unfold w3, inode. cbn. rewrite lookup_insert_ne by congruence. reflexivity.
  - destruct T9 as [(X & _)|(X & Y & Z & _)].
    + left. destruct Hd3d as [R|R]; rewrite R in X; congruence.
    + right. rewrite Y, Z, Hnext. lia.
  - unfold sp'. destruct rd; reflexivity.
  - rewrite Dx. intros d' Hne. unfold sp'. destruct rd; [reflexivity|]. apply contents_set_ne. congruence.
  - rewrite Dx. intros d' Hne k S HS. rewrite decide_False by exact Hne. exact HS.
  - rewrite Dx, decide_True by reflexivity. auto.
  - lia.
  - rewrite Dx. eapply (inst_ok_frame E); [..|apply (Iy (fun k S => k = 0%nat /\ S = contents sp' d)); auto]; try reflexivity.
    intros k S HS. cbn beta. rewrite decide_True by reflexivity. exact HS.
Qed.

Lemma ustep_ok w sp H n a : WInv w sp H n -> call_ok E keyof (ucall a) -> in_U U (ucall a) -> refusal_ok E a -> room E (n + wcount (ucall a)) ->
  match ustep E w a, uspec_step canon sp a with
  | Some (w', r), Some (sp', r') => r = r' /\ exists H', WInv w' sp' H' (n + wcount (ucall a))
  | None, None => True
  | _, _ => False
  end.
Proof.
  intros W Hc HU Hr Hroom. destruct a as [e|h rd rm].
  - pose proof (step_ok E HE keyof U HU_dir HU_key HU_inj w sp H n e W Hc HU Hroom) as G. cbn [ustep uspec_step ucall] in *.
    destruct (step E w e) as [[w' r]|], (spec_step canon sp e) as [[sp' r']|]; try contradiction; [|exact Logic.I].
    destruct G as [-> W']. split; [reflexivity|]. eexists. exact W'.
  - cbn [ustep uspec_step ucall] in *. unfold with_handle. destruct (w_handles w !! h) as [hd|] eqn:Hh.
    + destruct (handle_cases E keyof U w sp H n h hd W Hh) as (Hsp & Hun & _). rewrite Hsp, Hun.
      destruct (refused_step rd rm w sp H n h hd W Hh) as (w' & Eq & W').
      { eapply room_mono; [|exact Hroom]. lia. }
      { intros -> He. exact (Hr He). }
      cbn zeta in *. rewrite Eq. split; [reflexivity|]. eexists. eapply (WInv_mono E keyof U); [|intros ? ? ? G; exact G|exact W']. lia.
    + rewrite (handle_none E keyof U w sp H n h W Hh). exact Logic.I.
Qed.

Lemma urun_ok l : forall w sp H n, WInv w sp H n -> Forall (call_ok E keyof) (map ucall l) -> Forall (in_U U) (map ucall l) -> Forall (refusal_ok E) l ->
  room E (n + writes (map ucall l)) -> option_map snd (urun E w l) = option_map snd (uspec canon sp l).
Proof.
  induction l as [|a l IH]; intros w sp H n W HF HU HR Hroom; [reflexivity|].
  cbn [map urun uspec] in *. inversion HF as [|? ? Hf HF']; subst. inversion HU as [|? ? Hu HU']; subst. inversion HR as [|? ? Hr HR']; subst.
  rewrite writes_cons in Hroom.
  pose proof (ustep_ok w sp H n a W Hf Hu Hr ltac:(eapply room_mono; [|exact Hroom]; unfold wcount; lia)) as G.
  destruct (ustep E w a) as [[w1 r]|], (uspec_step canon sp a) as [[sp1 r1]|]; cbn [option_map]; try contradiction; [|reflexivity].
  destruct G as (-> & H1 & W1). specialize (IH w1 sp1 _ _ W1 HF' HU' HR' ltac:(rewrite <- N.add_assoc; exact Hroom)).
  destruct (urun E w1 l) as [[w2 rs]|], (uspec canon sp1 l) as [[sp2 rs2]|]; cbn [option_map snd] in *; congruence.
Qed.

End Step.

(** * C84 *)

(** In every history of ordinary calls and of [clear_data]s whose files the
    system refuses to remove, all calls answer as a map for which such a
    [clear_data] did nothing -- and it answered Ok. *)
Theorem C84_refused_clears_do_nothing_and_answer_ok_partial E keyof l :
  ordinary E keyof (map ucall l) -> Forall (refusal_ok E) l ->
  option_map snd (urun E world0 l) = option_map snd (uspec (e_canon E) spec0 l).
Proof.
  intros HO HR. eapply (urun_ok E (or_env _ _ _ HO) keyof _ (PU_dir E keyof _ HO) (PU_key E keyof _ HO) (PU_inj E keyof _ HO)).
  - apply (WInv_init E keyof).
  - apply (or_calls _ _ _ HO).
  - apply (in_U_all (map ucall l) [] (map ucall l) []). rewrite app_nil_r. reflexivity.
  - exact HR.
  - rewrite N.add_0_l. apply (or_room _ _ _ HO).
Qed.

(** Two refused clears among other calls, then one that succeeds. *)
Definition ex_refused : list uact :=
  [UCall (ENew 0 dir_d ex_key); UCall (EPut 0 k1 (VI32 5)); UClear 0 true true; UCall (EGet 0 k1 TI32); UCall (EPut 0 k2 hello);
   UClear 0 true true; UCall (EDrop 0); UCall (ENew 1 dir_d ex_key); UCall (EGet 1 k1 TI32); UCall (EGet 1 k2 TStr);
   UClear 1 false true; UCall (EGet 1 k1 TI32); UCall (EPut 1 k1 (VI32 6)); UCall (EDrop 1); UCall (ENew 2 dir_d ex_key);
   UCall (EGet 2 k1 TI32); UClear 2 false false; UCall (EGet 2 k1 TI32)].

Definition ex_refused_answers : list result :=
  [ROk None; ROk None; ROk None; ROk (Some (VI32 5)); ROk None; ROk None; ROk None; ROk None; ROk (Some (VI32 5)); ROk (Some hello);
   ROk None; RErr KeyNotFound; ROk None; ROk None; ROk None; ROk (Some (VI32 6)); ROk None; RErr KeyNotFound].

Lemma C84_refused_clears_do_nothing_and_answer_ok_example : forall F, F = FPlain \/ F = FEncrypted toy_aead ->
  ordinary (ex_env F) ex_keyof (map ucall ex_refused) /\ Forall (refusal_ok (ex_env F)) ex_refused /\
  option_map snd (urun (ex_env F) world0 ex_refused) = Some ex_refused_answers.
Proof.
  intros F HF.
  assert (HO : ordinary (ex_env F) ex_keyof (map ucall ex_refused)).
  { destruct HF as [-> | ->]; (apply ordinaryb_ok; [apply ex_env_ok; first [exact Logic.I | exact toy_aead_correct]|vm_compute; reflexivity]). }
  assert (HR : Forall (refusal_ok (ex_env F)) ex_refused).
  { unfold ex_refused. repeat (apply Forall_cons; split; [cbn; first [exact Logic.I | intros _; reflexivity]|]). apply Forall_nil. exact Logic.I. }
  split; [exact HO|]. split; [exact HR|].
  rewrite (C84_refused_clears_do_nothing_and_answer_ok_partial _ _ _ HO HR). vm_compute. reflexivity.
Qed.

(** False of the code: "after a [clear_data] that answered Ok no key is found". *)
Theorem C84_ok_means_gone_refuted : ~ (forall E keyof l h rd rm key t w rs r,
  ordinary E keyof (map ucall (l ++ [UClear h rd rm; UCall (EGet h key t)])) -> Forall (refusal_ok E) (l ++ [UClear h rd rm]) ->
  urun E world0 (l ++ [UClear h rd rm; UCall (EGet h key t)]) = Some (w, rs ++ [ROk None; r]) -> r = RErr KeyNotFound).
Proof.
  intros A. set (l := [UCall (ENew 0 dir_d ex_key); UCall (EPut 0 k1 (VI32 5))]).
  assert (HO : ordinary (ex_env FPlain) ex_keyof (map ucall (l ++ [UClear 0 true true; UCall (EGet 0 k1 TI32)]))).
  { apply ordinaryb_ok; [apply ex_env_ok; exact Logic.I|vm_compute; reflexivity]. }
  assert (HR : Forall (refusal_ok (ex_env FPlain)) (l ++ [UClear 0 true true])).
  { unfold l. cbn [app]. repeat (apply Forall_cons; split; [cbn; first [exact Logic.I | intros _; reflexivity]|]). apply Forall_nil. exact Logic.I. }
  assert (T : option_map snd (urun (ex_env FPlain) world0 (l ++ [UClear 0 true true; UCall (EGet 0 k1 TI32)])) =
    Some ([ROk None; ROk None] ++ [ROk None; ROk (Some (VI32 5))])) by (vm_compute; reflexivity).
  destruct (urun (ex_env FPlain) world0 (l ++ [UClear 0 true true; UCall (EGet 0 k1 TI32)])) as [[w rs]|] eqn:Hr; [|discriminate T].
  cbn [option_map snd] in T. injection T as T. rewrite T in Hr.   specialize (A _ _ _ _ _ _ _ _ _ [ROk None; ROk None] (ROk (Some (VI32 5))) HO HR Hr). discriminate A.
Qed.

(** False of the code: "a cleared store is encrypted under a new nonce".  When
    only the nonce file stays, the same put leaves the same bytes again. *)
Theorem C84_cleared_store_gets_a_new_nonce_refuted : ~ (forall E keyof l h rm l' d w1 rs1 w2 rs2,
  ordinary E keyof (map ucall (l ++ [UClear h false rm] ++ l')) -> is_encrypted (e_feat E) = true ->
  urun E world0 l = Some (w1, rs1) -> urun E world0 (l ++ [UClear h false rm] ++ l') = Some (w2, rs2) ->
  is_Some (d_meta (dir_of w1 d)) -> d_meta (dir_of w2 d) <> d_meta (dir_of w1 d) \/ file_at w2 d <> file_at w1 d).
Proof.
  intros A. set (F := FEncrypted toy_aead). set (l := [UCall (ENew 0 dir_d ex_key); UCall (EPut 0 k1 (VI32 5)); UCall (EIo 0)]).
  set (l' := [UCall (EPut 0 k1 (VI32 5)); UCall (EIo 0)]).
  assert (HO : ordinary (ex_env F) ex_keyof (map ucall (l ++ [UClear 0 false true] ++ l'))).
  { apply ordinaryb_ok; [apply ex_env_ok; exact toy_aead_correct|vm_compute; reflexivity]. }
  assert (T1 : option_map (fun y => (d_meta (dir_of y.1 dir_d), file_at y.1 dir_d)) (urun (ex_env F) world0 l) =
    option_map (fun y => (d_meta (dir_of y.1 dir_d), file_at y.1 dir_d)) (urun (ex_env F) world0 (l ++ [UClear 0 false true] ++ l'))) by (vm_compute; reflexivity).
  assert (T2 : match urun (ex_env F) world0 l with Some (w, _) => match d_meta (dir_of w dir_d) with Some _ => true | None => false end | None => false end = true)
    by (vm_compute; reflexivity).
  destruct (urun (ex_env F) world0 l) as [[w1 rs1]|] eqn:H1; [|discriminate T2].
  destruct (urun (ex_env F) world0 (l ++ [UClear 0 false true] ++ l')) as [[w2 rs2]|] eqn:H2; [|discriminate T1].
  assert (S : is_Some (d_meta (dir_of w1 dir_d))).
  { destruct (d_meta (dir_of w1 dir_d)); [eexists; reflexivity|discriminate T2]. }
  cbn [option_map fst] in T1. pose proof (f_equal (option_map fst) T1) as M. pose proof (f_equal (option_map snd) T1) as G.
  cbn [option_map fst snd] in M, G. injection M as M. injection G as G.
  destruct (A _ _ _ _ _ _ dir_d _ _ _ _ HO eq_refl H1 H2 S) as [N1|N1]; apply N1; symmetry; [exact M|exact G].
Qed.
