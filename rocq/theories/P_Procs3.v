(** Several processes: what holds if they take turns (C65), and what the
    condition of README.md:25-26 alone does not give (C64). *)
From Verif Require Import Bytes Utf8 Proto ProtoFacts Crc8 Value Codec Store StoreFacts Encrypt World Spec Hyps Refine WorldInv WorldStep Main Frames Reach Examples P_Map P_Store Slots Damaged Crash P_Kill P_Kill2 P_Corrupt P_Enc P_Enc2 P_Damaged P_Wrong P_Fail Procs P_Procs P_Procs2.
From Coq Require Import ZifyBool ZifyNat ZifyN.
Local Open Scope N_scope.

(** How many writes to [d] the background threads of all processes still have
    to do. *)
Definition left_to_write (m : machine) (d : bytes) (k : nat) : Prop :=
  (exists p i x, p_insts (proc m p) !! i = Some x /\ i_dir x = d /\ i_queue x <> [] /\ k = length (i_queue x)) \/
  ((forall p i x, p_insts (proc m p) !! i = Some x -> i_dir x = d -> i_queue x = []) /\ k = 0%nat).

(** Processes that take turns ([turns], Procs.v) get, call by call, the answers
    of the specification with versions ([vrun], Procs.v): a writer reads the
    newest version, a guest the version that was in the file when it opened the
    directory; whatever the schedule of the background threads of all
    processes and whichever of them die, between two background writes, and
    when.  At the end the versions are one more than the writes left. *)
Theorem C65_processes_taking_turns E keyof guest hist m rs :
  ordinary_with_kills E keyof (map snd hist) -> turns (e_canon E) guest ∅ hist -> mrun E machine0 hist = Some (m, rs) ->
  exists s, vrun (e_canon E) guest vspec0 hist rs s /\ forall d k, left_to_write m d k -> length (versions s d) = S k.
Proof.
  intros [HE HC HP HR] Ht Hrun. set (es := map snd hist) in *.
  assert (HU : forall p, PU es p -> e_dir_ok E p = true /\ feature_key (e_feat E) (keyof (e_canon E p)) <> None).
  { intros p Hp. apply in_flat_map in Hp as (e & He & Hp). destruct e; cbn in Hp; try contradiction.
    destruct Hp as [<-|[]]. rewrite List.Forall_forall in HC. destruct (HC _ He) as [?|G]; [discriminate|].
    cbn in G. destruct G as (A & -> & B). auto. }
  assert (HI : Forall (in_U (PU es)) es).
  { apply List.Forall_forall. intros e He. destruct e; cbn; auto. unfold PU. apply in_flat_map. eexists. split; [exact He|]. left. reflexivity. }
  destruct (mrun_ok E HE keyof (PU es) guest (fun p H => proj1 (HU p H)) (fun p H => proj2 (HU p H)) HP hist
    machine0 world0 _ _ vspec0 ∅ 0 m rs (MInv_init E keyof (PU es) guest) HC HI ltac:(rewrite N.add_0_l; exact HR) Ht Hrun) as (w & own & gs & s & hs & A & M).
  exists s. split; [exact A|]. intros d k Hk. destruct (mi_V _ _ _ _ _ _ _ _ _ _ _ M) as [W Co]. apply Co.
  assert (View : forall p i x, p_insts (proc m p) !! i = Some x -> w_insts w !! i = Some x \/ i_queue x = []).
  { intros p i x Hx. change (p_insts (proc m p)) with (w_insts (join (m_disk m) (proc m p))) in Hx. rewrite (mi_view _ _ _ _ _ _ _ _ _ _ _ M p) in Hx.
    cbn [ext w_insts] in Hx. rewrite lookup_union_Some_raw in Hx. destruct Hx as [Hx|[_ Hx]].
    - apply core_insts in Hx as [Hx _]. auto.
    - right. apply (go_insts _ _ _ _ _ (mi_guest _ _ _ _ _ _ _ _ _ _ _ M p) i x Hx). }
  assert (Back : forall i x, w_insts w !! i = Some x -> p_insts (proc m (own i)) !! i = Some x).
  { intros i x Hx. change (p_insts (proc m (own i))) with (w_insts (join (m_disk m) (proc m (own i)))). rewrite (mi_view _ _ _ _ _ _ _ _ _ _ _ M (own i)).
    cbn [ext w_insts]. rewrite lookup_union_Some_raw. left. apply core_insts. auto. }
  destruct Hk as [(p & i & x & Hx & Dx & Hq & ->)|[Hn ->]].
  - left. exists i, x. destruct (View p i x Hx) as [?|?]; [auto|contradiction].
  - destruct (decide (Exists (fun z : N * inst => i_dir z.2 = d) (map_to_list (w_insts w)))) as [F|F].
    + apply Exists_exists in F as ([i x] & F1 & F2). apply elem_of_map_to_list in F1. cbn in F2. left. exists i, x. split_and!; auto.
      rewrite (Hn _ _ _ (Back i x F1) F2). reflexivity.
    + right. split; [|reflexivity]. intros i x Hx Hd. apply F, Exists_exists. exists (i, x). split; [apply elem_of_map_to_list, Hx|exact Hd].
Qed.


(** Calls made through a guest's handle. *)
Definition by_guest (guest : N -> bool) (e : event) : bool :=
  match e with
  | ENew h _ _ | EPut h _ _ | EPutPanic h _ | EGet h _ _ | EGetPanic h _ _ | EDelete h _ | EClear h | EDrop h => guest h
  | _ => false
  end.

(** The specification of one process that makes the calls of all writers. *)
Record alike (guest : N -> bool) (sp : spec) (s : vspec) : Prop := {
  al_handles : forall h d, sp_handles sp !! h = Some d <-> exists p, v_handles s !! h = Some (VH p d None);
  al_kind : forall h q d o, v_handles s !! h = Some (VH q d o) -> guest h = match o with None => false | Some _ => true end;
  al_contents : forall d, contents sp d = newest s d
}.

Lemma newest_put s d l d' : newest (put_versions s d l) d' = if decide (d = d') then hd ∅ l else newest s d'.
Proof. unfold newest, versions, put_versions. cbn. destruct (decide (d = d')) as [<-|Hne]; [rewrite lookup_insert|rewrite lookup_insert_ne by exact Hne]; reflexivity. Qed.

Lemma contents_set sp d S d' : contents (set_contents sp d S) d' = if decide (d = d') then S else contents sp d'.
Proof. unfold contents, set_contents. cbn. destruct (decide (d = d')) as [<-|Hne]; [rewrite lookup_insert|rewrite lookup_insert_ne by exact Hne]; reflexivity. Qed.

Lemma alike_versions guest sp s d l : alike guest sp s -> alike guest (set_contents sp d (hd ∅ l)) (put_versions s d l).
Proof.
  intros [A B C]. split; [exact A|exact B|]. intros d'. rewrite contents_set, newest_put. destruct (decide (d = d')); [reflexivity|apply C].
Qed.

Lemma alike_same guest sp s d l : alike guest sp s -> hd ∅ l = newest s d -> alike guest sp (put_versions s d l).
Proof.
  intros [A B C] Hl. split; [exact A|exact B|]. intros d'. rewrite newest_put. destruct (decide (d = d')) as [<-|_]; [rewrite Hl|]; apply C.
Qed.

Lemma alike_drop guest sp s h p d o : alike guest sp s -> v_handles s !! h = Some (VH p d o) ->
  alike guest (match o with None => Spec (sp_dirs sp) (delete h (sp_handles sp)) | Some _ => sp end) (VSpec (v_vers s) (delete h (v_handles s))).
Proof.
  intros [A B C] Hh. split.
  - intros h' d'. cbn. destruct (decide (h = h')) as [<-|Hne].
    + rewrite lookup_delete. destruct o; cbn; [|rewrite lookup_delete; split; [discriminate|intros (q & [=])]].
      rewrite A, Hh. split; intros (q & [=]).
    + rewrite lookup_delete_ne by exact Hne. destruct o; cbn; [|rewrite lookup_delete_ne by exact Hne]; apply A.
  - intros h' q d' o' Hd. cbn in Hd. apply lookup_delete_Some in Hd as [_ Hd]. apply (B _ _ _ _ Hd).
  - intros d'. destruct o; apply C.
Qed.

Lemma alike_step canon guest sp s p e r s' : alike guest sp s -> e <> EKill -> vstep canon guest s p e r s' ->
  exists sp', alike guest sp' s' /\ if by_guest guest e then sp' = sp else spec_step canon sp e = Some (sp', r).
Proof.
  intros Al He Hs. pose proof Al as [A B C].
  assert (HD : forall h d, v_handles s !! h = Some (VH p d None) -> sp_handles sp !! h = Some d /\ guest h = false) by (intros h d Hh; split; [apply A; eauto|apply (B _ _ _ _ Hh)]).
  destruct Hs as [h path key Hh Hg|h path key S Hh Hg Hf|h d key v Hh|h d key Hh Hk|h d key Hh Hk|h d Hh|h d key t Hh|h d S key t Hh|h d s' Hh -> Hw|h d s' Hh -> Hw|h d S Hh|i d l S Hw Hv Hl|i|s' _ _ _];
    cbn [by_guest spec_step].
  - rewrite Hg. destruct (sp_handles sp !! h) as [d|] eqn:X; [apply A in X as (q & X); congruence|]. eexists. split; [|reflexivity]. split.
    + intros h' d. cbn. destruct (decide (h = h')) as [<-|Hne]; [rewrite !lookup_insert|rewrite !lookup_insert_ne by exact Hne; apply A].
      split; [intros [= <-]; eauto|intros (q & [= _ <-]); reflexivity].
    + intros h' q d o. cbn. destruct (decide (h = h')) as [<-|Hne]; [rewrite lookup_insert; intros [= _ _ <-]; exact Hg|rewrite lookup_insert_ne by exact Hne; apply B].
    + intros d. apply C.
  - rewrite Hg. exists sp. split; [|reflexivity]. split.
    + intros h' d. cbn. destruct (decide (h = h')) as [<-|Hne]; [rewrite lookup_insert|rewrite lookup_insert_ne by exact Hne; apply A].
      rewrite A, Hh. split; intros (q & [=]).
    + intros h' q d o. cbn. destruct (decide (h = h')) as [<-|Hne]; [rewrite lookup_insert; intros [= _ _ <-]; exact Hg|rewrite lookup_insert_ne by exact Hne; apply B].
    + intros d. apply C.
  - destruct (HD h d Hh) as [X Hg]. rewrite Hg, X, C. eexists. split; [|reflexivity]. exact (alike_versions guest sp s d (_ :: _) Al).
  - destruct (HD h d Hh) as [X Hg]. rewrite Hg, X, C. eexists. split; [|reflexivity]. exact (alike_versions guest sp s d (_ :: _) Al).
  - destruct (HD h d Hh) as [X Hg]. rewrite Hg, X, C. eexists. split; [|reflexivity].
    split; [exact A|exact B|]. intros d'. rewrite contents_set. destruct (decide (d = d')) as [<-|]; [apply delete_notin, Hk|apply C].
  - destruct (HD h d Hh) as [X Hg]. rewrite Hg, X. eexists. split; [|reflexivity]. exact (alike_versions guest sp s d [∅] Al).
  - destruct (HD h d Hh) as [X Hg]. rewrite Hg, X, C. eauto.
  - rewrite (B _ _ _ _ Hh). eauto.
  - destruct (HD h d Hh) as [X Hg]. rewrite Hg, X. eexists. split; [|reflexivity]. apply alike_same; [apply (alike_drop guest sp s h p d None Al Hh)|reflexivity].
  - destruct (HD h d Hh) as [X Hg]. rewrite Hg, X. eexists. split; [|reflexivity]. apply (alike_drop guest sp s h p d None Al Hh).
  - rewrite (B _ _ _ _ Hh). exists sp. split; [|reflexivity]. apply (alike_drop guest sp s h p d (Some S) Al Hh).
  - eexists. split; [|reflexivity]. apply alike_same; [exact Al|]. unfold newest. rewrite Hv. destruct l; [contradiction|reflexivity].
  - eauto.
  - congruence.
Qed.

Lemma alike_run canon guest hist : forall sp s rs s', alike guest sp s -> Forall (fun x => snd x <> EKill) hist -> vrun canon guest s hist rs s' ->
  let l := List.filter (fun x => negb (by_guest guest (snd (fst x)))) (combine hist rs) in
  exists sp', spec_run canon sp (map (fun x => snd (fst x)) l) = Some (sp', map snd l).
Proof.
  induction hist as [|[p e] hist IH]; intros sp s rs s' Al Hk Hr; inversion Hr; subst; cbn [combine List.filter fst snd map]; [cbn; eauto|].
  apply Forall_cons in Hk as [Hk Hks]. cbn [snd] in Hk.
  destruct (alike_step canon guest sp s p e r s1 Al Hk ltac:(assumption)) as (sp1 & Al1 & X).
  destruct (IH sp1 s1 _ _ Al1 Hks ltac:(eassumption)) as (sp2 & Y). cbn zeta in Y. destruct (by_guest guest e); cbn [negb].
  - subst sp1. eauto.
  - cbn [map fst snd spec_run]. rewrite X, Y. eauto.
Qed.

(** Guests do not disturb the writers, and writers that hand a directory from
    process to process are like one process: leave out the calls of the guests,
    and the answers are those of C01's specification to one process that makes
    all the calls. *)
Theorem C65_guests_do_not_disturb E keyof guest hist m rs :
  ordinary_with_kills E keyof (map snd hist) -> turns (e_canon E) guest ∅ hist -> Forall (fun x => snd x <> EKill) hist ->
  mrun E machine0 hist = Some (m, rs) ->
  let l := List.filter (fun x => negb (by_guest guest (snd (fst x)))) (combine hist rs) in
  exists sp, spec_run (e_canon E) spec0 (map (fun x => snd (fst x)) l) = Some (sp, map snd l).
Proof.
  intros HO Ht Hk Hrun. destruct (C65_processes_taking_turns E keyof guest hist m rs HO Ht Hrun) as (s & A & _).
  eapply alike_run; [|exact Hk|exact A]. split.
  - intros h d. cbn. rewrite !lookup_empty. split; [discriminate|]. intros (p & [=]).
  - intros h q d o [=].
  - intros d. reflexivity.
Qed.

(** * A case that meets the hypotheses *)

Definition turnb (canon : bytes -> bytes) (guest : N -> bool) (hs : gmap N (N * bytes)) (p : N) (e : event) : bool :=
  match e with
  | ENew h path _ =>
      match hs !! h with None => true | Some _ => false end &&
      forallb (fun x : N * (N * bytes) =>
        negb (bool_decide (snd (snd x) = canon path)) ||
        (if decide (fst (snd x) = p) then Bool.eqb (guest (fst x)) (guest h) else guest h || guest (fst x))) (map_to_list hs)
  | EPut h _ _ | EDelete h _ | EClear h => negb (guest h)
  | _ => true
  end.

Fixpoint turnsb (canon : bytes -> bytes) (guest : N -> bool) (hs : gmap N (N * bytes)) (es : list (N * event)) : bool :=
  match es with
  | [] => true
  | (p, e) :: l => turnb canon guest hs p e && turnsb canon guest (opened canon hs p e) l
  end.

Lemma turnb_ok canon guest hs p e : turnb canon guest hs p e = true -> turn canon guest hs p e.
Proof.
  destruct e; cbn [turnb turn]; auto; try (intros H; apply negb_true_iff in H; exact H).
  rewrite andb_true_iff. intros [A B]. split; [destruct (hs !! h); [discriminate|reflexivity]|].
  intros h' q Hq. rewrite forallb_forall in B. specialize (B (h', (q, canon path))). cbn [fst snd] in B.
  rewrite bool_decide_eq_true_2 in B by reflexivity. cbn [negb orb] in B.
  assert (In (h', (q, canon path)) (map_to_list hs)) as X by (apply elem_of_list_In, elem_of_map_to_list, Hq). specialize (B X).
  destruct (decide (q = p)) as [->|Hne]; [left|right]; split; auto.
  - apply Bool.eqb_prop, B.
  - apply orb_true_iff in B. tauto.
Qed.

Lemma turnsb_ok canon guest es : forall hs, turnsb canon guest hs es = true -> turns canon guest hs es.
Proof.
  induction es as [|[p e] es IH]; intros hs; cbn [turnsb turns]; [auto|]. rewrite andb_true_iff. intros [A B]. split; [apply turnb_ok, A|apply IH, B].
Qed.

(** Handles from 10 on are guests. *)
Definition ex_guest (h : N) : bool := 10 <=? h.

(** Process 0 writes, process 1 looks on, before and after a background write;
    process 0 dies with a write left; process 2 takes over and hands the
    directory to process 0, reborn. *)
Definition ex_procs : list (N * event) :=
  [(0, ENew 0 dir_d ex_key); (0, EPut 0 k1 (VI32 5)); (0, EPut 0 k2 hello); (0, EIo 0);
   (1, ENew 10 dir_d ex_key); (1, EGet 10 k1 TI32); (1, EGet 10 k2 TStr); (0, EGet 0 k2 TStr); (0, EIo 0);
   (1, EGet 10 k2 TStr); (1, ENew 11 dir_d ex_key); (1, EGet 11 k2 TStr); (1, EDrop 10); (1, EDrop 11); (1, ENew 12 dir_d ex_key); (1, EGet 12 k2 TStr);
   (0, EPut 0 k1 (VI32 6)); (0, EGet 0 k1 TI32); (0, EKill);
   (2, ENew 1 dir_d ex_key); (2, EGet 1 k1 TI32); (2, EDelete 1 k1); (2, EPut 1 k2 (VI32 9)); (2, EDrop 1);
   (0, ENew 2 dir_d ex_key); (0, EGet 2 k1 TI32); (0, EGet 2 k2 TI32); (1, EGet 12 k2 TStr); (0, EClear 2); (3, ENew 13 dir_d ex_key); (3, EGet 13 k2 TI32)].

Lemma ex_procs_ok F : feature_ok F -> F = FPlain \/ F = FEncrypted toy_aead -> ordinary_with_kills (ex_env F) ex_keyof (map snd ex_procs).
Proof.
  intros HF HFF. split.
  - apply ex_env_ok, HF.
  - assert (H : forall e, In e (map snd ex_procs) -> e = EKill \/ call_okb (ex_env F) ex_keyof e = true).
    { intros e He. destruct HFF; subst F; cbn in He; repeat (destruct He as [<-|He]; [first [left; reflexivity|right; vm_compute; reflexivity]|]); contradiction. }
    apply List.Forall_forall. intros e He. destruct (H e He) as [?|?]; [left; assumption|right; apply call_okb_ok; assumption].
  - apply one_spellingb_ok. destruct HFF; subst F; vm_compute; reflexivity.
  - apply roomb_ok. destruct HFF; subst F; vm_compute; reflexivity.
Qed.

Lemma ex_procs_turns F : turns (e_canon (ex_env F)) ex_guest ∅ ex_procs.
Proof. apply turnsb_ok. vm_compute. reflexivity. Qed.

Definition ex_procs_answers (F : feature) : option (list result) :=
  match mrun (ex_env F) machine0 ex_procs with Some (_, rs) => Some rs | None => None end.

Example ex_procs_run :
  ex_procs_answers FPlain = Some
    [ROk None; ROk None; ROk None; ROk None;
     ROk None; ROk (Some (VI32 5)); RErr KeyNotFound; ROk (Some hello); ROk None;
     RErr KeyNotFound; ROk None; RErr KeyNotFound; ROk None; ROk None; ROk None; ROk (Some hello);
     ROk None; ROk (Some (VI32 6)); ROk None;
     ROk None; ROk (Some (VI32 5)); ROk None; ROk None; ROk None;
     ROk None; RErr KeyNotFound; ROk (Some (VI32 9)); ROk (Some hello); ROk None; ROk None; RErr KeyNotFound] /\
  ex_procs_answers (FEncrypted toy_aead) = ex_procs_answers FPlain.
Proof. split; vm_compute; reflexivity. Qed.

(** * C64: the condition of the README alone

    "Ensure that there is no competing write", read literally: whenever a
    process changes something, in a call or in the background, every write of
    every other process is finished. *)
Definition quiet_others (m : machine) (p : N) : Prop := forall q i x, q <> p -> p_insts (proc m q) !! i = Some x -> i_queue x = [].

Fixpoint no_competing_write (E : env) (m : machine) (es : list (N * event)) : Prop :=
  match es with
  | [] => True
  | (p, e) :: l =>
      match e with EPut _ _ _ | EDelete _ _ | EClear _ | EIo _ => quiet_others m p | _ => True end /\
      match mstep E m p e with Some (m', _) => no_competing_write E m' l | None => True end
  end.

(** The data are consistent: the answers are those of one process that makes
    all the calls. *)
Definition cross_process_consistent (E : env) : Prop :=
  forall keyof hist m rs, ordinary_with_kills E keyof (map snd hist) -> Forall (fun x => snd x <> EKill) hist ->
    NoDup (flat_map (fun x => match snd x with ENew h _ _ => [h] | _ => [] end) hist) ->
    no_competing_write E machine0 hist -> mrun E machine0 hist = Some (m, rs) ->
    exists sp, spec_run (e_canon E) spec0 (map snd hist) = Some (sp, rs).

Definition quiet_othersb (m : machine) (p : N) : bool :=
  forallb (fun x : N * mem => if decide (fst x = p) then true else forallb (fun y : N * inst => match i_queue (snd y) with [] => true | _ => false end) (map_to_list (p_insts (snd x))))
    (map_to_list (m_procs m)).

Lemma quiet_othersb_ok m p : quiet_othersb m p = true -> quiet_others m p.
Proof.
  intros H q i x Hq Hx. unfold proc in Hx. destruct (m_procs m !! q) as [g|] eqn:G; cbn in Hx; [|rewrite lookup_empty in Hx; discriminate].
  unfold quiet_othersb in H. rewrite forallb_forall in H. specialize (H (q, g)). cbn [fst snd] in H.
  assert (A : In (q, g) (map_to_list (m_procs m))) by (apply elem_of_list_In, elem_of_map_to_list, G). specialize (H A).
  destruct (decide (q = p)); [congruence|]. rewrite forallb_forall in H. specialize (H (i, x)). cbn [snd] in H.
  assert (B : In (i, x) (map_to_list (p_insts g))) by (apply elem_of_list_In, elem_of_map_to_list, Hx). specialize (H B). destruct (i_queue x); [reflexivity|discriminate].
Qed.

Fixpoint no_competing_writeb (E : env) (m : machine) (es : list (N * event)) : bool :=
  match es with
  | [] => true
  | (p, e) :: l =>
      match e with EPut _ _ _ | EDelete _ _ | EClear _ | EIo _ => quiet_othersb m p | _ => true end &&
      match mstep E m p e with Some (m', _) => no_competing_writeb E m' l | None => true end
  end.

Lemma no_competing_writeb_ok E es : forall m, no_competing_writeb E m es = true -> no_competing_write E m es.
Proof.
  induction es as [|[p e] es IH]; intros m; cbn [no_competing_writeb no_competing_write]; [auto|]. rewrite andb_true_iff. intros [A B]. split.
  - destruct e; auto; apply quiet_othersb_ok, A.
  - destruct (mstep E m p e) as [[m' r]|]; auto.
Qed.

(** Two processes have the directory open.  The first one's writes are finished
    before the second writes, and everything is closed before a third process
    opens the directory and reads.

    - Stale: the second process does not see what the first has written
      (mmkv_impl.rs:28-63 reads the file once).
    - Plain: the first process clears; what the second writes afterwards goes
      into the file that has been removed (config.rs:55-57), and is lost.
    - Encrypted: it is lost without a clear; the second process encrypts its
      record for the position it believes to be the next (writer.rs:39-44). *)
Definition ex_stale : list (N * event) :=
  [(0, ENew 0 dir_d ex_key); (1, ENew 1 dir_d ex_key); (0, EPut 0 k1 (VI32 5)); (0, EIo 0); (0, EDrop 0); (1, EGet 1 k1 TI32)].
Definition ex_lost : list (N * event) :=
  [(0, ENew 0 dir_d ex_key); (1, ENew 1 dir_d ex_key); (0, EClear 0); (0, EDrop 0);
   (1, EPut 1 k1 (VI32 5)); (1, EIo 1); (1, EDrop 1); (2, ENew 2 dir_d ex_key); (2, EGet 2 k1 TI32)].
Definition ex_lost_enc : list (N * event) :=
  [(0, ENew 0 dir_d ex_key); (1, ENew 1 dir_d ex_key); (0, EPut 0 k2 hello); (0, EIo 0); (0, EDrop 0);
   (1, EPut 1 k1 (VI32 5)); (1, EIo 1); (1, EDrop 1); (2, ENew 2 dir_d ex_key); (2, EGet 2 k2 TStr); (2, EGet 2 k1 TI32)].

Definition ex_answers (F : feature) (hist : list (N * event)) : option (list result) :=
  match mrun (ex_env F) machine0 hist with Some (_, rs) => Some rs | None => None end.

Example ex_stale_run : ex_answers FPlain ex_stale = Some [ROk None; ROk None; ROk None; ROk None; ROk None; RErr KeyNotFound].
Proof. vm_compute. reflexivity. Qed.
Example ex_lost_run : ex_answers FPlain ex_lost = Some [ROk None; ROk None; ROk None; ROk None; ROk None; ROk None; ROk None; ROk None; RErr KeyNotFound].
Proof. vm_compute. reflexivity. Qed.
Example ex_lost_enc_run : ex_answers (FEncrypted toy_aead) ex_lost_enc =
  Some [ROk None; ROk None; ROk None; ROk None; ROk None; ROk None; ROk None; ROk None; ROk None; ROk (Some hello); RErr KeyNotFound].
Proof. vm_compute. reflexivity. Qed.

Lemma lost_means_inconsistent F hist rs : feature_ok F -> ex_answers F hist = Some rs -> forallb (call_okb (ex_env F) ex_keyof) (map snd hist) = true ->
  one_spellingb (ex_env F) (map snd hist) = true -> roomb (ex_env F) (writes (map snd hist)) = true ->
  bool_decide (NoDup (flat_map (fun x : N * event => match snd x with ENew h _ _ => [h] | _ => [] end) hist)) = true ->
  no_competing_writeb (ex_env F) machine0 hist = true ->
  match spec_run (e_canon (ex_env F)) spec0 (map snd hist) with Some (_, l) => last l | None => None end = Some (ROk (Some (VI32 5))) ->
  last rs = Some (RErr KeyNotFound) -> ~ cross_process_consistent (ex_env F).
Proof.
  intros HF T Hc Hp Hm Hd Hw X HL H. unfold ex_answers in T. destruct (mrun (ex_env F) machine0 hist) as [[m rs']|] eqn:Hr; [|discriminate]. injection T as ->.
  rewrite forallb_forall in Hc.
  destruct (H ex_keyof hist m rs) as (sp & Hsp); [| | | |exact Hr|].
  - split; [apply ex_env_ok, HF| |apply one_spellingb_ok, Hp|apply roomb_ok, Hm].
    apply List.Forall_forall. intros e He. right. apply call_okb_ok, Hc, He.
  - apply List.Forall_forall. intros x Hx Hk. specialize (Hc (snd x) (in_map _ _ _ Hx)). rewrite Hk in Hc. discriminate.
  - apply bool_decide_eq_true in Hd. exact Hd.
  - apply no_competing_writeb_ok, Hw.
  - rewrite Hsp, HL in X. discriminate.
Qed.

Theorem C64_no_competing_write_refuted : ~ cross_process_consistent (ex_env FPlain) /\ ~ cross_process_consistent (ex_env (FEncrypted toy_aead)).
Proof.
  split.
  - apply (lost_means_inconsistent FPlain ex_lost _ Logic.I ex_lost_run); vm_compute; reflexivity.
  - apply (lost_means_inconsistent (FEncrypted toy_aead) ex_lost_enc _ toy_aead_correct ex_lost_enc_run); vm_compute; reflexivity.
Qed.

(** A reader alone can come to grief as well, while one process writes: opened
    in the instant between the two stores of an append, a directory makes
    [MMKV::new] panic (plain build; the slot behind the last record is still
    zero).  Process 0 has made the calls [es] and its background thread has done all
    but the last store of the job at the head of its queue; process 1 is new. *)
Theorem C64_open_during_append_panics E keyof es w rs0 i x m dup q a b h p :
  ordinary E keyof es -> run E world0 es = Some (w, rs0) -> w_insts w !! i = Some x -> i_queue x = JWrite m dup :: q ->
  e_feat E = FPlain -> ~ compacts E w i -> In p (paths es) -> e_canon E p = i_dir x ->
  last (job_effects E w i) = Some (FStore a b) ->
  let f' := apply_effs (removelast (job_effects E w i)) (inode w (i_ino x)) in
  take 4 (drop (N.to_nat a) f') = [x00; x00; x00; x00] ->
  exists m', mstep E (Machine (disk_of (set_inode w (i_ino x) f')) {[0 := mem_of w]}) 1 (ENew h p (keyof (i_dir x))) = Some (m', RPanic).
Proof.
  intros HO Hr Hx Hq HF Hnc Hp Hcn Hlast f' Hz.
  destruct (C22_length_without_record_unopenable E keyof es w rs0 i x m dup q a b h p HO Hr Hx Hq HF Hnc Hp Hcn Hlast Hz) as (w' & Hw).
  unfold mstep. cbn [m_disk]. unfold proc. cbn [m_procs]. rewrite lookup_singleton_ne by discriminate. cbn [default].
  assert (X : join (disk_of (set_inode w (i_ino x) f')) mem0 = crashed w i f') by (unfold crashed; rewrite Hx; reflexivity).
  rewrite X. fold f' in Hw. rewrite Hw. eauto.
Qed.

(** What suffices: a directory is open in one process at a time (handles are
    named uniquely). *)
Fixpoint one_at_a_time (canon : bytes -> bytes) (hs : gmap N (N * bytes)) (es : list (N * event)) : Prop :=
  match es with
  | [] => True
  | (p, e) :: l =>
      match e with
      | ENew h path _ => hs !! h = None /\ forall h' q, hs !! h' = Some (q, canon path) -> q = p
      | _ => True
      end /\ one_at_a_time canon (opened canon hs p e) l
  end.

Lemma one_at_a_time_turns canon es : forall hs, one_at_a_time canon hs es -> turns canon (fun _ => false) hs es.
Proof.
  induction es as [|[p e] es IH]; intros hs; cbn [one_at_a_time turns]; [auto|]. intros [A B]. split; [|apply IH, B].
  destruct e; cbn [turn]; auto. destruct A as [A1 A2]. split; [exact A1|]. intros h' q Hq. left. split; [eapply A2, Hq|reflexivity].
Qed.

Theorem C64_one_process_at_a_time_partial E keyof hist m rs :
  ordinary_with_kills E keyof (map snd hist) -> one_at_a_time (e_canon E) ∅ hist -> Forall (fun x => snd x <> EKill) hist ->
  mrun E machine0 hist = Some (m, rs) -> exists sp, spec_run (e_canon E) spec0 (map snd hist) = Some (sp, rs).
Proof.
  intros HO Ht Hk Hrun.
  destruct (C65_guests_do_not_disturb E keyof (fun _ => false) hist m rs HO (one_at_a_time_turns _ _ _ Ht) Hk Hrun) as (sp & Hsp).
  assert (G : forall e, by_guest (fun _ => false) e = false) by (intros []; reflexivity).
  assert (L : forall es m0 m1 rs1, mrun E m0 es = Some (m1, rs1) -> length rs1 = length es).
  { intros es. induction es as [|[p e] es IH]; intros m0 m1 rs1; cbn [mrun]; [intros [= _ <-]; reflexivity|].
    destruct (mstep E m0 p e) as [[m2 r]|]; [|discriminate]. destruct (mrun E m2 es) as [[m3 rs2]|] eqn:Er; [|discriminate]. intros [= _ <-]. cbn. f_equal. eapply IH, Er. }
  pose proof (L _ _ _ _ Hrun) as Hl. exists sp.
  rewrite (List.filter_ext _ (fun _ => true)) in Hsp by (intros a; rewrite G; reflexivity).
  assert (F : forall (l : list ((N * event) * result)), List.filter (fun _ => true) l = l) by (induction l as [|z l IH]; cbn; [reflexivity|rewrite IH; reflexivity]).
  rewrite F in Hsp. assert (X1 : map (fun x : N * event * result => snd (fst x)) (combine hist rs) = map snd hist /\ map snd (combine hist rs) = rs).
  { clear - Hl. revert rs Hl. induction hist as [|y hist IH]; intros [|r rs] Hl; try discriminate; [split; reflexivity|]. cbn. destruct (IH rs ltac:(cbn in Hl; lia)) as [-> ->]. split; reflexivity. }
  destruct X1 as [X1 X2]. rewrite X1, X2 in Hsp. exact Hsp.
Qed.
