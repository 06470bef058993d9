(** C34, C52, C53: the C interface; examples for C35. *)
From Verif Require Import Bytes Utf8 Proto ProtoFacts Value Codec Store StoreFacts Encrypt World Spec Hyps Refine WorldInv WorldStep Main Frames Reach Examples P_Map P_Store P_Fail Logging Ffi P_Ffi.
From Coq Require Import ZArith ZifyBool ZifyNat ZifyN.
Local Open Scope N_scope.

(** ** Executions by computation, for the examples *)

Definition allowedb (o : held) (c : ccall) : bool :=
  match c with
  | CNew _ | CLevel _ | CIo _ => true
  | CPut p _ v => match o !! p, v with Some HHandle, VUser _ _ => false | Some HHandle, _ => true | _, _ => false end
  | CGet p _ _ | CDelete p _ | CClear p | CClose p => match o !! p with Some HHandle => true | _ => false end
  | CFree p => match o !! p with Some (HResult _ _) => true | _ => false end
  end.

Lemma allowedb_ok o c : allowedb o c = true -> allowed o c.
Proof.
  destruct c; cbn; auto; try (destruct (o !! p) as [[|t r]|]; try discriminate; eauto; fail).
  destruct (o !! p) as [[|t r]|]; try discriminate. destruct v; try discriminate; intros _; (split; [reflexivity|discriminate]).
Qed.

Fixpoint play (pick : heap -> ptr) (text : err -> bytes) (E : env) (cs : list ccall) (s : cstate) (o : held) :
  option (list (ccall * cret) * cstate * held) :=
  match cs with
  | [] => Some ([], s, o)
  | c :: r =>
      if allowedb o c then
        match cstep pick text E s c with
        | Done (s1, x) =>
            match play pick text E r s1 (after o c x) with
            | Some (t, s2, o2) => Some ((c, x) :: t, s2, o2)
            | None => None
            end
        | _ => None
        end
      else None
  end.

Lemma play_exec pick text E cs : forall t0 s0 o0 t s o, cexec pick text E t0 s0 o0 ->
  play pick text E cs s0 o0 = Some (t, s, o) -> cexec pick text E (t0 ++ t) s o.
Proof.
  induction cs as [|c cs IH]; cbn [play]; intros t0 s0 o0 t s o X H.
  - injection H as <- <- <-. rewrite app_nil_r. exact X.
  - destruct (allowedb o0 c) eqn:A; [|discriminate]. apply allowedb_ok in A.
    destruct (cstep pick text E s0 c) as [[s1 x]| |] eqn:S; try discriminate.
    destruct (play pick text E cs s1 (after o0 c x)) as [[[t' s'] o']|] eqn:P; [|discriminate]. injection H as <- <- <-.
    change ((c, x) :: t') with ([(c, x)] ++ t'). rewrite app_assoc. eapply IH; [|exact P]. econstructor; eassumption.
Qed.

(** An allocator that reuses addresses. *)
Definition top (h : heap) : N := fold_right N.max 0 (map fst (map_to_list h)).
Definition ex_pick (h : heap) : ptr := top h + 1.

Lemma ex_pick_ok : allocator_ok ex_pick.
Proof.
  intros h. split; [|unfold ex_pick; lia]. destruct (h !! ex_pick h) as [c|] eqn:Hc; [exfalso|reflexivity].
  assert (T : ex_pick h <= top h); [|unfold ex_pick in T; lia].
  apply elem_of_map_to_list, elem_of_list_In in Hc. unfold top. revert Hc. generalize (ex_pick h) as p. clear.
  induction (map_to_list h) as [|[q d] l IH]; intros p; cbn; [tauto|]. intros [[= -> ->]|H]; [lia|]. specialize (IH p H). lia.
Qed.

Definition ex_text (e : err) : bytes := match e with DecodeFailed => [x41] | _ => [] end.

(** Results of every kind, freed in another order than made; the second array
    is empty. *)
Definition c_trace : list ccall :=
  [CNew dir_d; CPut 1 k1 (VI32s [1; -2]%Z); CGet 1 k1 CI32s; CPut 1 k2 (VF64s []); CGet 1 k2 CF64s; CGet 1 k2 CStr; CGet 1 k1 CI32s;
   CFree 2; CFree 6].
Definition c_end : list ccall := [CFree 5; CFree 8; CFree 10; CFree 13; CClose 1].

Lemma play_here E cs t s o : play ex_pick ex_text E cs cstate0 ∅ = Some (t, s, o) -> cexec ex_pick ex_text E t s o.
Proof. intros P. change t with ([] ++ t). eapply play_exec; [constructor|exact P]. Qed.

Example C35_example :
  allocator_ok ex_pick /\
  exists t s o, cexec ex_pick ex_text (ex_env FPlain) t s o /\ map fst t = c_trace /\ size (c_heap s) = 11%nat /\
    read_result (c_heap s) CI32s 5 = Some (SValue (VI32s [1; -2]%Z)) /\
    read_result (c_heap s) CF64s 8 = Some (SValue (VF64s [])) /\
    read_result (c_heap s) CStr 10 = Some (SError 2 None) /\
    exists t' s', cexec ex_pick ex_text (ex_env FPlain) t' s' ∅ /\ map fst t' = c_trace ++ c_end.
Proof.
  split; [exact ex_pick_ok|].
  assert (T : match play ex_pick ex_text (ex_env FPlain) c_trace cstate0 ∅, play ex_pick ex_text (ex_env FPlain) (c_trace ++ c_end) cstate0 ∅ with
    | Some (t, s, o), Some (t', s', o') => map fst t = c_trace /\ size (c_heap s) = 11%nat /\
       read_result (c_heap s) CI32s 5 = Some (SValue (VI32s [1; -2]%Z)) /\ read_result (c_heap s) CF64s 8 = Some (SValue (VF64s [])) /\
       read_result (c_heap s) CStr 10 = Some (SError 2 None) /\ map_to_list o' = [] /\ map fst t' = c_trace ++ c_end
    | _, _ => False end) by (vm_compute; repeat split).
  destruct (play ex_pick ex_text (ex_env FPlain) c_trace cstate0 ∅) as [[[t s] o]|] eqn:P; [|contradiction].
  destruct (play ex_pick ex_text (ex_env FPlain) (c_trace ++ c_end) cstate0 ∅) as [[[t' s'] o']|] eqn:P'; [|contradiction].
  destruct T as (T1 & T2 & T3 & T4 & T5 & T7 & T6). apply map_to_list_empty_iff in T7. subst o'.
  exists t, s, o. split; [exact (play_here _ _ _ _ _ P)|]. split_and!; auto. exists t', s'. split; [exact (play_here _ _ _ _ _ P')|exact T6].
Qed.

Section C34.
Context (pick : heap -> ptr) (text : err -> bytes) (PO : allocator_ok pick) (E : env).

(** The world of an execution is that of a run of the store. *)
Lemma crun_world cs s o : cexec pick text E cs s o -> exists rs, run E world0 (events cs) = Some (c_world s, rs).
Proof.
  induction 1 as [|cs s o c s' x X [rs IH] Al Hs]; [exists []; reflexivity|].
  unfold events. rewrite flat_map_app. cbn [flat_map fst snd]. rewrite app_nil_r. fold (events cs). rewrite run_app, IH.
  assert (G : forall e, events_of c x = [e] -> (exists r, step E (c_world s) e = Some (c_world s', r)) ->
    exists rs', match run E (c_world s) (events_of c x) with Some (w2, xs) => Some (w2, rs ++ xs) | None => None end = Some (c_world s', rs')).
  { intros e -> [r He]. cbn [run]. rewrite He. eauto. }
  destruct c as [dir|p key v|p key g|p key|p|p|p|z|i]; cbn [cstep] in Hs; try unfold arg in Hs.
  - destruct (utf8_valid _); [|discriminate]. destruct (alloc pick MHandle (c_heap s)) as [p h].
    destruct (step E (c_world s) (ENew p (cstr dir) [])) as [[w [r|r|]]|] eqn:Q; try discriminate. injection Hs as <- <-.
    eapply G; [reflexivity|]. eauto.
  - eapply G; [reflexivity|]. destruct (utf8_valid (cstr key)); [|discriminate].
    assert (W : forall g e, with_buffer pick text E s g e = Done (s', x) -> exists r, step E (c_world s) e = Some (c_world s', r)).
    { intros g e. unfold with_buffer. destruct (step E (c_world s) e) as [[w r]|]; [|discriminate]. destruct (finish _ _ _ _ _) as [[]| |]; try discriminate.
      cbn. intros [= <- <-]. eauto. }
    destruct v; try (eapply W, Hs); [|discriminate]. destruct (utf8_valid (cstr s0)); [|discriminate]. eapply W, Hs.
  - eapply G; [reflexivity|]. destruct (utf8_valid (cstr key)); [|discriminate]. unfold with_buffer in Hs.
    destruct (step E (c_world s) _) as [[w r]|]; [|discriminate]. destruct (finish _ _ _ _ _) as [[]| |]; try discriminate. injection Hs as <- <-. cbn. eauto.
  - eapply G; [reflexivity|]. destruct (utf8_valid (cstr key)); [|discriminate]. unfold with_buffer in Hs.
    destruct (step E (c_world s) _) as [[w r]|]; [|discriminate]. destruct (finish _ _ _ _ _) as [[]| |]; try discriminate. injection Hs as <- <-. cbn. eauto.
  - eapply G; [reflexivity|]. destruct (step E (c_world s) (EClear p)) as [[w [r|r|]]|]; try discriminate. injection Hs as <- <-. cbn. eauto.
  - eapply G; [reflexivity|]. destruct (c_heap s !! p) as [[]|]; try discriminate. destruct (step E (c_world s) (EDrop p)) as [[w [r|r|]]|]; try discriminate.
    destruct (dealloc _ _ _); try discriminate. injection Hs as <- <-. cbn. eauto.
  - destruct (free_buffer p (c_heap s)); try discriminate. injection Hs as <- <-. cbn. eauto.
  - destruct (of_code z); try discriminate. injection Hs as <- <-. cbn. eauto.
  - eapply G; [reflexivity|]. injection Hs as <- <-. cbn [step c_world]. eauto.
Qed.

(** The calls that answer with a result. *)
Definition answers (c : ccall) : bool := match c with CPut _ _ _ | CGet _ _ _ | CDelete _ _ => true | _ => false end.

(** What such a call does. *)
Lemma answer_call cs s o c e : cexec pick text E cs s o -> allowed o c -> texts_ok c -> answers c = true -> events_of c RUnit = [e] ->
  exists w r, step E (c_world s) e = Some (w, r) /\
  match expected text r with
  | Some x => exists s' p, cstep pick text E s c = Done (s', RBuffer p r) /\ c_world s' = w /\ read_result (c_heap s') (fun_of c) p = Some x
  | None => cstep pick text E s c = Abort
  end.
Proof.
  intros X Al Ht Ha He. destruct (CInv_exec pick text PO E cs s o X) as [own I].
  assert (Q : exists p0, o !! p0 = Some HHandle /\ cstep pick text E s c = with_buffer pick text E s (fun_of c) e /\
    ((exists k v, e = EPut p0 k v) \/ (exists k, e = EGet p0 k (c_type (fun_of c))) \/ (exists k, e = EDelete p0 k))).
  { destruct c as [dir|p key v|p key g|p key|p|p|p|z|i]; try discriminate Ha; cbn [events_of] in He; injection He as <-; cbn [texts_ok] in Ht; exists p;
      cbn [cstep]; unfold arg.
    - destruct Al as [Ho Hv], Ht as [-> Hx]. split; [exact Ho|]. split; [|eauto]. destruct v; try reflexivity; [rewrite Hx; reflexivity|destruct (Hv _ _ eq_refl)].
    - rewrite Ht. split; [exact Al|]. split; [reflexivity|]. eauto.
    - rewrite Ht. split; [exact Al|]. split; [reflexivity|]. eauto. }
  destruct Q as (p0 & Ho & Hc & Hk).
  assert (Al' := Al). destruct (buffer_step pick text PO E s o own _ e p0 I Ho Hk) as [A|(s' & p & r & own' & A & I' & Np & W & (w & Hs) & _)].
  - rewrite Hc. unfold with_buffer in A. destruct (step E (c_world s) e) as [[w r]|] eqn:Hs; [|discriminate]. exists w, r. split; [reflexivity|].
    destruct (expected text r) as [x|] eqn:Ex; [exfalso|unfold with_buffer; rewrite Hs; exact A].
    assert (T : forall v, r = ROk (Some v) -> type_of v = c_type (fun_of c)).
    { intros v ->. destruct Hk as [(k & u & ->)|[[k ->]|[k ->]]].
      - destruct (put_event_answer _ _ _ _ _ _ _ Hs v eq_refl).
      - eapply get_event_type, Hs.
      - destruct (delete_event_answer _ _ _ _ _ _ Hs v eq_refl). }
    destruct (finish_spec pick text PO (fun_of c) r (c_heap s) T ltac:(congruence)) as (p & b & h' & F & _). rewrite F in A. discriminate A.
  - exists w, r. split; [exact Hs|]. rewrite Hc.
    assert (R : read_result (c_heap s') (fun_of c) p = expected text r).
    { apply (ow_read _ _ _ _ _ (ci_result _ _ _ _ I' p (fun_of c) r (lookup_insert _ _ _))), part_sub. }
    destruct (expected text r) as [x|] eqn:Ex.
    + exists s', p. split; [exact A|]. split; [rewrite W, Hs; reflexivity|exact R].
    + exfalso. unfold with_buffer in A. rewrite Hs in A. destruct r as [[v|]|x|]; cbn in Ex; try discriminate. destruct x; discriminate.
Qed.

(** ** C34 *)

(** The errors with a code arrive with it, and with their text; the others
    abort the process. *)
Theorem C34_error_codes_partial cs s o c e w x :
  cexec pick text E cs s o -> allowed o c -> texts_ok c -> answers c = true -> events_of c RUnit = [e] ->
  step E (c_world s) e = Some (w, RErr x) ->
  match documented x with
  | Some z => exists s' p, cstep pick text E s c = Done (s', RBuffer p (RErr x)) /\ c_world s' = w /\
      read_result (c_heap s') (fun_of c) p = Some (SError z (if has_text x then Some (text x) else None))
  | None => cstep pick text E s c = Abort
  end.
Proof.
  intros X Al Ht Ha He Hs. destruct (answer_call cs s o c e X Al Ht Ha He) as (w' & r & Hs' & G). rewrite Hs in Hs'. injection Hs' as <- <-.
  cbn [expected] in G. destruct (documented x); exact G.
Qed.

End C34.

(** The property as wished for. *)
Definition errors_are_reported (E : env) : Prop :=
  forall pick text cs s o c e w x, allocator_ok pick -> cexec pick text E cs s o -> allowed o c -> texts_ok c -> events_of c RUnit = [e] ->
    step E (c_world s) e = Some (w, RErr x) -> cstep pick text E s c <> Abort.

(** It is false of the code: IOError has no code (ffi_buffer.rs:200-214 with
    ffi/mod.rs:206), and so a put after the death of the background thread
    (here on a value larger than a page) aborts; and clear_data cannot report
    anything (ffi/mod.rs:337). *)
Definition c_dead : list ccall := [CNew dir_d; CPut 1 k1 (VI32 5); CPut 1 k2 ex_big; CIo 0; CIo 0].

Theorem C34_error_codes_refuted : env_ok (ex_env FPlain) /\ ~ errors_are_reported (ex_env FPlain).
Proof.
  split; [apply ex_env_ok; exact Logic.I|]. intros H.
  assert (T : match play ex_pick ex_text (ex_env FPlain) c_dead cstate0 ∅ with
    | Some (t, s, o) => allowedb o (CPut 1 k1 (VI32 6)) = true /\ utf8_valid (cstr k1) = true /\
        (match step (ex_env FPlain) (c_world s) (EPut 1 (cstr k1) (VI32 6)) with Some (w, r) => r = RErr IOError | _ => False end) /\
        (match cstep ex_pick ex_text (ex_env FPlain) s (CPut 1 k1 (VI32 6)) with Abort => True | _ => False end)
    | _ => False end) by (vm_compute; repeat split).
  destruct (play ex_pick ex_text (ex_env FPlain) c_dead cstate0 ∅) as [[[t s] o]|] eqn:P; [|contradiction]. destruct T as (T1 & T2 & T3 & T4).
  destruct (step (ex_env FPlain) (c_world s) (EPut 1 (cstr k1) (VI32 6))) as [[w r]|] eqn:Hs; [|contradiction]. subst r.
  destruct (cstep ex_pick ex_text (ex_env FPlain) s (CPut 1 k1 (VI32 6))) eqn:Hc; try contradiction.
  refine (H ex_pick ex_text t s o (CPut 1 k1 (VI32 6)) _ w IOError ex_pick_ok (play_here _ _ _ _ _ P) (allowedb_ok _ _ T1) (conj T2 Logic.I) eq_refl Hs Hc).
Qed.

Theorem C34_clear_data_refuted : exists t s o w,
  cexec ex_pick ex_text (ex_env FPlain) t s o /\ allowed o (CClear 1) /\
  step (ex_env FPlain) (c_world s) (EClear 1) = Some (w, RErr IOError) /\ cstep ex_pick ex_text (ex_env FPlain) s (CClear 1) = Abort.
Proof.
  assert (T : match play ex_pick ex_text (ex_env FPlain) c_dead cstate0 ∅ with
    | Some (t, s, o) => allowedb o (CClear 1) = true /\
        (match step (ex_env FPlain) (c_world s) (EClear 1) with Some (w, r) => r = RErr IOError | _ => False end) /\
        (match cstep ex_pick ex_text (ex_env FPlain) s (CClear 1) with Abort => True | _ => False end)
    | _ => False end) by (vm_compute; repeat split).
  destruct (play ex_pick ex_text (ex_env FPlain) c_dead cstate0 ∅) as [[[t s] o]|] eqn:P; [|contradiction]. destruct T as (T1 & T3 & T4).
  destruct (step (ex_env FPlain) (c_world s) (EClear 1)) as [[w r]|] eqn:Hs; [|contradiction]. subst r.
  destruct (cstep ex_pick ex_text (ex_env FPlain) s (CClear 1)) eqn:Hc; try contradiction.
  exists t, s, o, w. split_and!; auto; [exact (play_here _ _ _ _ _ P)|apply allowedb_ok, T1].
Qed.

(** Nothing else aborts a call that answers with a result: if one does, a
    background thread has died, or there is a number or boolean with too few
    bytes, which the library never writes. *)
Section Sane.
Context (E : env).

Record sane (w : world) : Prop := {
  sa_inst : forall i x, w_insts w !! i = Some x -> i_poison x = false /\ i_valid x = true /\ i_sender x = true;
  sa_handle : forall h hd, w_handles w !! h = Some hd -> h_unreg hd = false /\ is_Some (w_insts w !! h_inst hd)
}.

Definition flags (x : inst) : bool * bool * bool := (i_poison x, i_valid x, i_sender x).

Definition same_flags (w w' : world) : Prop := forall i, flags <$> w_insts w' !! i = flags <$> w_insts w !! i.

Lemma same_flags_trans w1 w2 w3 : same_flags w1 w2 -> same_flags w2 w3 -> same_flags w1 w3.
Proof. intros A B i. rewrite B. apply A. Qed.

Lemma same_flags_set w i x y : w_insts w !! i = Some x -> flags y = flags x -> same_flags w (set_inst w i y).
Proof.
  intros Hx Hy j. cbn. destruct (decide (j = i)) as [->|Hne]; [rewrite lookup_insert, Hx; cbn; congruence|rewrite lookup_insert_ne by congruence; reflexivity].
Qed.

Lemma run_job_flags w i : same_flags w (run_job E w i).
Proof.
  unfold run_job. destruct (w_insts w !! i) as [x|] eqn:Hx; [|intros j; reflexivity].
  destruct (i_io x); [|intros j; reflexivity]. destruct (i_queue x) as [|[m dup|] q]; [intros j; reflexivity| |].
  - destruct (write _ _ _ _ _) as [s ok]. intros j. cbn. exact (same_flags_set w i x (i_after x q (if ok then IoRun else IoDead) s) Hx eq_refl j).
  - intros j. cbn. exact (same_flags_set w i x (i_with_queue x q) Hx eq_refl j).
Qed.

Lemma iter_flags n i : forall w, same_flags w (Nat.iter n (fun w => run_job E w i) w).
Proof. induction n as [|n IH]; intros w; [intros j; reflexivity|]. cbn. eapply same_flags_trans; [apply IH|apply run_job_flags]. Qed.

Lemma drain_flags w i : same_flags w (drain E w i).
Proof. unfold drain. destruct (w_insts w !! i); [apply iter_flags|intros j; reflexivity]. Qed.

Lemma sane_flags w w' : sane w -> same_flags w w' -> w_handles w' = w_handles w -> sane w'.
Proof.
  intros [A B] F H. split.
  - intros i x Hx. specialize (F i). rewrite Hx in F. destruct (w_insts w !! i) as [y|] eqn:Hy; [|discriminate]. cbn in F. injection F as F1 F2 F3.
    destruct (A i y Hy) as (Q1 & Q2 & Q3). split_and!; congruence.
  - intros h hd Hh. rewrite H in Hh. destruct (B h hd Hh) as [B1 [y B2]]. split; [exact B1|]. specialize (F (h_inst hd)). rewrite B2 in F.
    destruct (w_insts w' !! h_inst hd); [eauto|discriminate].
Qed.

Lemma post_flags x j : flags (post x j).1 = flags x.
Proof. unfold post. destruct (i_sender x) eqn:Q; unfold flags; cbn; rewrite Q; reflexivity. Qed.

Lemma open_impl_sender w p k w1 x : open_impl E w p k = (w1, Some x) -> i_sender x = true.
Proof.
  unfold open_impl. destruct (e_dir_ok E p); [|discriminate]. destruct (open_config E w _) as [w2 ino]. destruct (feature_key _ k); [|discriminate].
  destruct (open_nonce E w2 _) as [w3 n]. destruct (open_file _ _ _ _) as [[s m]|]; [|discriminate]. intros [= _ <-]. reflexivity.
Qed.

Lemma sane_step w e w' r : sane w -> step E w e = Some (w', r) -> r <> RPanic ->
  match e with EClear _ => exists o, r = ROk o | EDropReg _ | EDropArc _ | EKill => False | _ => True end -> sane w'.
Proof.
  intros S Hs Hr Hk. destruct e as [h p k|h key v|h key|h key t|h key t|h key|h|h|h|h|i|]; try contradiction; cbn [step] in Hs.
  - destruct (w_handles w !! h) eqn:Hh; [discriminate|]. injection Hs as Hs. unfold do_new in Hs. destruct (w_poison w); [congruence|].
    destruct (lookup_reg w p) as [i|] eqn:L.
    + injection Hs as <- _. split; cbn; [apply (sa_inst w S)|]. intros h' hd'. destruct (decide (h' = h)) as [->|Hne].
      * rewrite lookup_insert. intros [= <-]. cbn. split; [reflexivity|]. unfold lookup_reg in L. destruct (w_reg w !! p) as [j|]; [|discriminate].
        destruct (bool_decide _) eqn:B; [|discriminate]. injection L as <-. apply bool_decide_eq_true in B. exact B.
      * rewrite lookup_insert_ne by congruence. apply (sa_handle w S).
    + destruct (open_impl E w p k) as [w1 [x|]] eqn:Eo; [|congruence]. injection Hs as <- _.
      pose proof (open_impl_sender _ _ _ _ _ Eo). pose proof (open_impl_sub _ _ _ _ _ _ Eo) as (A & B & _ & _ & _ & D). destruct (D x eq_refl) as (_ & D1 & D2 & _).
      split; cbn.
      * intros i y. destruct (decide (i = w_next_inst w1)) as [->|Hne]; [rewrite lookup_insert; intros [= <-]; auto|].
        rewrite lookup_insert_ne, A by congruence. apply (sa_inst w S).
      * intros h' hd'. destruct (decide (h' = h)) as [->|Hne].
        { rewrite lookup_insert. intros [= <-]. cbn. rewrite lookup_insert. eauto. }
        rewrite lookup_insert_ne, B by congruence. intros Hh'. destruct (sa_handle w S _ _ Hh') as [Q1 Q2]. split; [exact Q1|].
        destruct (decide (h_inst hd' = w_next_inst w1)) as [->|Hi]; [rewrite lookup_insert; eauto|rewrite lookup_insert_ne, A by congruence; exact Q2].
  - apply with_handle_Some in Hs as (hd & Hh & _ & Hs). unfold on_inst in Hs. destruct (w_insts w !! h_inst hd) as [x|] eqn:Hx; [|congruence].
    destruct (inst_put x key v) as [y q] eqn:Q. injection Hs as <- <-. eapply sane_flags; [exact S| |reflexivity]. eapply same_flags_set; [exact Hx|].
    unfold inst_put in Q. destruct (i_poison x); [injection Q as <- _; reflexivity|]. destruct (buffer_new key v); [|injection Q as <- _; reflexivity|congruence].
    destruct (i_valid x) eqn:V; [|injection Q as <- _; reflexivity]. apply (f_equal fst) in Q. cbn [fst] in Q. subst y. rewrite post_flags. reflexivity.
  - apply with_handle_Some in Hs as (hd & Hh & _ & Hs). unfold on_inst in Hs. destruct (w_insts w !! h_inst hd) as [x|] eqn:Hx; [|congruence].
    unfold inst_put_panic in Hs. destruct (sa_inst w S _ _ Hx) as (P & _). rewrite P in Hs. congruence.
  - apply with_handle_Some in Hs as (hd & Hh & _ & Hs). unfold on_inst in Hs. destruct (w_insts w !! h_inst hd) as [x|] eqn:Hx; [|congruence].
    injection Hs as <- <-. eapply sane_flags; [exact S| |reflexivity]. eapply same_flags_set; [exact Hx|reflexivity].
  - apply with_handle_Some in Hs as (hd & Hh & _ & Hs). unfold on_inst in Hs. destruct (w_insts w !! h_inst hd) as [x|] eqn:Hx; [|congruence].
    injection Hs as <- <-. eapply sane_flags; [exact S| |reflexivity]. eapply same_flags_set; [exact Hx|reflexivity].
  - apply with_handle_Some in Hs as (hd & Hh & _ & Hs). unfold on_inst in Hs. destruct (w_insts w !! h_inst hd) as [x|] eqn:Hx; [|congruence].
    destruct (inst_delete x key) as [y q] eqn:Q. injection Hs as <- <-. eapply sane_flags; [exact S| |reflexivity]. eapply same_flags_set; [exact Hx|].
    unfold inst_delete in Q. destruct (i_poison x); [injection Q as <- _; reflexivity|].
    destruct (i_valid x) eqn:V; [|injection Q as <- _; reflexivity]. destruct (i_map x !! key); [|injection Q as <- _; reflexivity].
    apply (f_equal fst) in Q. cbn [fst] in Q. subst y. rewrite post_flags. reflexivity.
  - apply with_handle_Some in Hs as (hd & Hh & _ & Hs). destruct Hk as [o ->]. unfold do_clear in Hs.
    destruct (w_insts w !! h_inst hd) as [x|] eqn:Hx; [|congruence]. destruct (sa_inst w S _ _ Hx) as (P & V & SD). rewrite P in Hs.
    destruct (impl_clear E w (h_inst hd) x) as [w1 r1] eqn:Ec. pose proof (impl_clear_sub _ _ _ _ _ _ Hx Ec) as (_ & B1 & _ & _).
    assert (F1 : forall j, j <> h_inst hd -> flags <$> w_insts w1 !! j = flags <$> w_insts w !! j).
    { intros j Hj. unfold impl_clear in Ec. rewrite V in Ec. cbn [negb] in Ec. destruct (post (i_invalid x) JRemove) as [x1 rp].
      assert (Z : flags <$> w_insts (set_inst w (h_inst hd) x1) !! j = flags <$> w_insts w !! j) by (cbn; rewrite lookup_insert_ne by congruence; reflexivity).
      destruct rp; [|injection Ec as <- _; exact Z..].
      destruct (w_insts (drain E (set_inst w (h_inst hd) x1) (h_inst hd)) !! h_inst hd); injection Ec as <- _; cbn; rewrite ?lookup_insert_ne by congruence;
        rewrite drain_flags; exact Z. }
    destruct r1; [|congruence..].
    destruct (open_impl E w1 (h_path hd) (h_key hd)) as [w2 [y|]] eqn:Eo; [|destruct (w_insts w2 !! h_inst hd); congruence].
    pose proof (open_impl_sender _ _ _ _ _ Eo). pose proof (open_impl_sub _ _ _ _ _ _ Eo) as (A & B & _ & _ & _ & D). destruct (D y eq_refl) as (_ & D1 & D2 & _).
    destruct (i_join _ && _)%bool; [congruence|]. injection Hs as <-.
    split; cbn.
    + intros i z. destruct (decide (i = h_inst hd)) as [->|Hne]; [rewrite lookup_insert; intros [= <-]; auto|].
      rewrite lookup_insert_ne, A by congruence. intros Hz. specialize (F1 i Hne). rewrite Hz in F1. destruct (w_insts w !! i) as [u|] eqn:Hu; [|discriminate].
      cbn in F1. injection F1 as G1 G2 G3. destruct (sa_inst w S _ _ Hu) as (Q1 & Q2 & Q3). split_and!; congruence.
    + intros h' hd' Hh'. rewrite B, B1 in Hh'. destruct (sa_handle w S _ _ Hh') as [Q1 [u Q2]]. split; [exact Q1|].
      destruct (decide (h_inst hd' = h_inst hd)) as [Hi|Hi]; [rewrite Hi, lookup_insert; eauto|]. rewrite lookup_insert_ne, A by congruence.
      specialize (F1 _ Hi). rewrite Q2 in F1. destruct (w_insts w1 !! h_inst hd'); [eauto|discriminate].
  - apply with_handle_Some in Hs as (hd & Hh & Hu & Hs).
    destruct (do_drop_reg w h hd) as [w1 r1] eqn:E1. destruct (do_drop_arc E w1 h hd) as [w2 r2] eqn:E2. injection Hs as <- _.
    set (hd1 := Handle (h_path hd) (h_key hd) (h_inst hd) true) in *.
    assert (A1 : w_handles w1 = <[h := hd1]> (w_handles w) /\ w_insts w1 = w_insts w).
    { unfold do_drop_reg in E1. destruct (w_poison w); injection E1 as <- _; [split; reflexivity|]. cbn. destruct (Nat.eqb _ _); split; reflexivity. }
    destruct A1 as [A1 A2]. pose proof (strong_1 w1 h hd1) as S1. rewrite A1, lookup_insert in S1. specialize (S1 eq_refl). cbn [h_inst] in S1. change (h_inst hd1) with (h_inst hd) in S1.
    unfold do_drop_arc in E2. destruct (Nat.eqb_spec (strong w1 (h_inst hd)) 1) as [H1|H1]; injection E2 as <- _.
    + pose proof (drain_sub E w1 (h_inst hd)) as (_ & D1 & _). pose proof (drain_flags w1 (h_inst hd)) as D2. split; cbn.
      * intros i x Hx. apply lookup_delete_Some in Hx as [Hi Hx]. specialize (D2 i). rewrite Hx, A2 in D2.
        destruct (w_insts w !! i) as [y|] eqn:Hy; [|discriminate]. cbn in D2. injection D2 as F1 F2 F3. destruct (sa_inst w S _ _ Hy) as (Q1 & Q2 & Q3). split_and!; congruence.
      * intros h' hd' Hh'. apply lookup_delete_Some in Hh' as [Hne Hh']. rewrite D1, A1, lookup_insert_ne in Hh' by congruence.
        destruct (sa_handle w S _ _ Hh') as [Q1 [u Q2]]. split; [exact Q1|].
        assert (Hi : h_inst hd' <> h_inst hd).
        { intros Hi. apply Hne. symmetry. eapply (proj1 S1 H1); [|exact Hi]. rewrite lookup_insert_ne by congruence. exact Hh'. }
        rewrite lookup_delete_ne by congruence. specialize (D2 (h_inst hd')). rewrite A2, Q2 in D2. destruct (w_insts (drain _ _ _) !! h_inst hd'); [eauto|discriminate].
    + split; cbn.
      * rewrite A2. apply (sa_inst w S).
      * intros h' hd' Hh'. apply lookup_delete_Some in Hh' as [Hne Hh']. rewrite A1, lookup_insert_ne in Hh' by congruence. rewrite A2. apply (sa_handle w S _ _ Hh').
  - injection Hs as <- _. eapply sane_flags; [exact S|apply run_job_flags|]. apply run_job_sub.
Qed.

End Sane.

Section Sane2.
Context (pick : heap -> ptr) (text : err -> bytes) (PO : allocator_ok pick) (E : env).

Lemma buffer_world s g e s' x : with_buffer pick text E s g e = Done (s', x) -> exists r, step E (c_world s) e = Some (c_world s', r) /\ r <> RPanic.
Proof.
  unfold with_buffer. destruct (step E (c_world s) e) as [[w r]|]; [|discriminate].
  destruct (finish pick text g r (c_heap s)) as [[p h]| |] eqn:F; try discriminate. cbn. intros [= <- _]. exists r. split; [reflexivity|]. intros ->. discriminate F.
Qed.

Lemma sane_exec cs s o : cexec pick text E cs s o -> sane (c_world s).
Proof.
  induction 1 as [|cs s o c s' x X IH Al Hs]; [split; cbn; intros *; rewrite lookup_empty; discriminate|].
  destruct c as [dir|p key v|p key g|p key|p|p|p|z|i]; cbn [cstep] in Hs; try unfold arg in Hs.
  - destruct (utf8_valid _); [|discriminate]. destruct (alloc pick MHandle (c_heap s)) as [p h].
    destruct (step E (c_world s) (ENew p (cstr dir) [])) as [[w [r|r|]]|] eqn:Q; try discriminate. injection Hs as <- <-. cbn.
    eapply sane_step; [exact IH|exact Q|discriminate|exact Logic.I].
  - destruct (utf8_valid (cstr key)); [|discriminate].
    assert (W : forall g u, with_buffer pick text E s g (EPut p (cstr key) u) = Done (s', x) -> sane (c_world s')).
    { intros g u Q. apply buffer_world in Q as (r & Q & Hr). eapply sane_step; [exact IH|exact Q|exact Hr|exact Logic.I]. }
    destruct v; try (eapply W, Hs); [|discriminate]. destruct (utf8_valid (cstr s0)); [|discriminate]. eapply W, Hs.
  - destruct (utf8_valid (cstr key)); [|discriminate]. apply buffer_world in Hs as (r & Q & Hr). eapply sane_step; [exact IH|exact Q|exact Hr|exact Logic.I].
  - destruct (utf8_valid (cstr key)); [|discriminate]. apply buffer_world in Hs as (r & Q & Hr). eapply sane_step; [exact IH|exact Q|exact Hr|exact Logic.I].
  - destruct (step E (c_world s) (EClear p)) as [[w [r|r|]]|] eqn:Q; try discriminate. injection Hs as <- <-. cbn.
    eapply sane_step; [exact IH|exact Q|discriminate|]. cbn. eauto.
  - destruct (c_heap s !! p) as [[]|]; try discriminate. destruct (step E (c_world s) (EDrop p)) as [[w [r|r|]]|] eqn:Q; try discriminate.
    destruct (dealloc _ _ _); try discriminate. injection Hs as <- <-. cbn. eapply sane_step; [exact IH|exact Q|discriminate|exact Logic.I].
  - destruct (free_buffer p (c_heap s)); try discriminate. injection Hs as <- <-. exact IH.
  - destruct (of_code z); try discriminate. injection Hs as <- <-. exact IH.
  - injection Hs as <- <-. cbn. exact (sane_step E (c_world s) (EIo i) _ _ IH eq_refl ltac:(discriminate) Logic.I).
Qed.

Theorem C34_nothing_else_aborts_partial cs s o c :
  cexec pick text E cs s o -> allowed o c -> texts_ok c -> answers c = true -> cstep pick text E s c = Abort ->
  exists i x, w_insts (c_world s) !! i = Some x /\
    (i_io x = IoDead \/ exists k m t, i_map x !! k = Some m /\ type_token t = ROk (kv_type m) /\ from_bytes t (kv_value m) = RPanic).
Proof.
  intros X Al Ht Ha Hc. pose proof (sane_exec cs s o X) as S.
  assert (He : exists e, events_of c RUnit = [e]) by (destruct c; try discriminate Ha; cbn; eauto). destruct He as [e He].
  destruct (answer_call pick text PO E cs s o c e X Al Ht Ha He) as (w & r & Hs & G).
  destruct (expected text r) as [y|] eqn:Ex; [destruct G as (s' & p & G & _); congruence|]. clear G.
  assert (P : forall x j, flags x = (false, true, true) -> expected text (post x j).2 = None -> i_io x = IoDead).
  { intros x j F Q. unfold flags in F. injection F as F1 F2 F3. unfold post in Q. rewrite F3 in Q. cbn in Q. destruct (i_io x); [discriminate|reflexivity]. }
  destruct c as [dir|p key v|p key g|p key|p|p|p|z|i]; try discriminate Ha; cbn [events_of] in He; injection He as <-; cbn [step] in Hs;
    apply with_handle_Some in Hs as (hd & Hh & _ & Hs); destruct (sa_handle _ S _ _ Hh) as [_ [x Hx]]; destruct (sa_inst _ S _ _ Hx) as (F1 & F2 & F3);
    unfold on_inst in Hs; rewrite Hx in Hs; exists (h_inst hd), x; (split; [exact Hx|]).
  - left. destruct (inst_put x (cstr key) (cvalue v)) as [x' r'] eqn:Q. injection Hs as _ ->. unfold inst_put in Q. rewrite F1, F2 in Q.
    destruct Al as [_ Hv].
    assert (B : exists m, buffer_new (cstr key) (cvalue v) = ROk m).
    { unfold buffer_new. destruct v; cbn; eauto. destruct (Hv _ _ eq_refl). }
    destruct B as [m B]. rewrite B in Q. apply (f_equal snd) in Q. cbn [snd] in Q. subst r.
    match type of Ex with expected text (post ?y ?j).2 = None => refine (P y j _ Ex) end. unfold flags. cbn. congruence.
  - right. injection Hs as _ Hr. unfold inst_get in Hr. rewrite F1, F2 in Hr. destruct (i_map x !! cstr key) as [m|] eqn:Hm; [|subst r; discriminate].
    exists (cstr key), m, (c_type g). split; [exact Hm|]. unfold buffer_parse in Hr.
    destruct (type_token (c_type g)) as [tok|tok|] eqn:Tk; [|destruct g; discriminate Tk..].
    destruct (is_deleting m); [subst r; discriminate Ex|].
    destruct (Z.eqb_spec tok (kv_type m)) as [->|Hz]; [|subst r; discriminate Ex]. split; [reflexivity|].
    destruct (from_bytes (c_type g) (kv_value m)) as [u|e|] eqn:Fb; [subst r; discriminate Ex| |reflexivity].
    subst r. exfalso. clear -Fb Ex.
    destruct g; cbn in Fb; unfold number, numbers, res_map in Fb;
      repeat match type of Fb with context[match ?b with _ => _ end] => lazymatch b with context[match _ with _ => _ end] => fail | _ => destruct b end end;
      try discriminate Fb; injection Fb as <-; discriminate Ex.
  - left. destruct (inst_delete x (cstr key)) as [x' r'] eqn:Q. injection Hs as _ ->. unfold inst_delete in Q. rewrite F1, F2 in Q.
    destruct (i_map x !! cstr key); [|injection Q as _ <-; discriminate]. apply (f_equal snd) in Q. cbn [snd] in Q. subst r.
    match type of Ex with expected text (post ?y ?j).2 = None => refine (P y j _ Ex) end. unfold flags. cbn. congruence.
Qed.
End Sane2.

Example C34_example : exists t s o,
  cexec ex_pick ex_text (ex_env FPlain) t s o /\
  allowed o (CGet 1 k2 CBool) /\ texts_ok (CGet 1 k2 CBool) /\ answers (CGet 1 k2 CBool) = true /\
  option_map snd (step (ex_env FPlain) (c_world s) (EGet 1 k2 TBool)) = Some (RErr TypeMissMatch) /\
  option_map snd (step (ex_env FPlain) (c_world s) (EGet 1 dir_e TBool)) = Some (RErr KeyNotFound).
Proof.
  assert (T : match play ex_pick ex_text (ex_env FPlain) c_trace cstate0 ∅ with
    | Some (t, s, o) => allowedb o (CGet 1 k2 CBool) = true /\ utf8_valid (cstr k2) = true /\
        option_map snd (step (ex_env FPlain) (c_world s) (EGet 1 k2 TBool)) = Some (RErr TypeMissMatch) /\
        option_map snd (step (ex_env FPlain) (c_world s) (EGet 1 dir_e TBool)) = Some (RErr KeyNotFound)
    | _ => False end) by (vm_compute; repeat split).
  destruct (play ex_pick ex_text (ex_env FPlain) c_trace cstate0 ∅) as [[[t s] o]|] eqn:P; [|contradiction]. destruct T as (T1 & T2 & T3 & T4).
  exists t, s, o. split_and!; auto; [exact (play_here _ _ _ _ _ P)|apply allowedb_ok, T1].
Qed.

(** ** C52 *)

(** Setting the level from C selects the level with that number... *)
Definition level_names : list level := [Off; Error; Warn; Info; Debug; Verbose].

Theorem C52_levels_partial pick text E s n l : level_names !! n = Some l ->
  cstep pick text E s (CLevel (Z.of_nat n)) = Done (CState (c_world s) (c_heap s) (Z.of_nat n), RUnit) /\
  of_code (Z.of_nat n) = Some l /\ code l = Z.of_nat n.
Proof.
  intros H. assert (Q : of_code (Z.of_nat n) = Some l /\ code l = Z.of_nat n) by (do 6 (destruct n as [|n]; [injection H as <-; split; reflexivity|]); discriminate H).
  destruct Q as [Q1 Q2]. split; [|auto]. cbn [cstep]. rewrite Q1, Q2. reflexivity.
Qed.

(** ... and any other number is fatal. *)
Theorem C52_other_numbers_abort pick text E s z : cstep pick text E s (CLevel z) = Abort <-> (z < 0 \/ 5 < z)%Z.
Proof.
  cbn [cstep]. destruct (of_code z) as [l|] eqn:Q.
  - split; [discriminate|]. unfold of_code in Q. repeat match type of Q with context[(?a =? ?b)%Z] => destruct (Z.eqb_spec a b) end; cbn [code] in *; subst; intros; try lia; discriminate.
  - split; [intros _|reflexivity]. unfold of_code in Q. repeat match type of Q with context[(?a =? ?b)%Z] => destruct (Z.eqb_spec a b) end; try discriminate; cbn [code] in *; lia.
Qed.

(** The property as wished for. *)
Definition bad_levels_are_rejected : Prop :=
  forall pick text E cs s o z, allocator_ok pick -> cexec pick text E cs s o -> cstep pick text E s (CLevel z) <> Abort.

Theorem C52_levels_refuted : ~ bad_levels_are_rejected.
Proof. intros H. refine (H ex_pick ex_text (ex_env FPlain) [] cstate0 ∅ 6%Z ex_pick_ok (cx_nil _ _ _) _). apply C52_other_numbers_abort. lia. Qed.

(** ** C53: the C interface behaves like the map *)

Section C53.
Context (pick : heap -> ptr) (text : err -> bytes) (PO : allocator_ok pick) (E : env) (keyof : bytes -> bytes).
Notation canon := (e_canon E).

(** After any calls, a put, get or delete shows what the finite map answers. *)
Theorem C53_answers_of_a_map cs s o c e :
  cexec pick text E cs s o -> allowed o c -> texts_ok c -> answers c = true -> events_of c RUnit = [e] ->
  ordinary E keyof (events cs ++ [e]) ->
  exists sp rs sp' r s' p x,
    spec_run canon spec0 (events cs) = Some (sp, rs) /\ spec_step canon sp e = Some (sp', r) /\ expected text r = Some x /\
    cstep pick text E s c = Done (s', RBuffer p r) /\ read_result (c_heap s') (fun_of c) p = Some x.
Proof.
  intros X Al Ht Ha He HO. destruct (crun_world pick text E cs s o X) as [rs Hr].
  destruct (answer_call pick text PO E cs s o c e X Al Ht Ha He) as (w & r & Hs & G).
  assert (Hr2 : run E world0 (events cs ++ [e]) = Some (w, rs ++ [r])) by (rewrite run_app, Hr; cbn [run]; rewrite Hs; reflexivity).
  destruct (reach E keyof _ HO w _ Hr2) as (sp2 & Hsp & _).
  rewrite spec_run_app in Hsp. destruct (spec_run canon spec0 (events cs)) as [[sp rs1]|] eqn:Q1; [|discriminate].
  cbn [spec_run] in Hsp. destruct (spec_step canon sp e) as [[sp' r']|] eqn:Q2; [|discriminate]. injection Hsp as <- Hrs.
  assert (Hrr : rs1 = rs /\ r' = r) by (apply app_inj_tail, Hrs). destruct Hrr as [-> ->].
  pose proof (C10_no_call_fails E keyof _ w _ r HO Hr2 ltac:(apply in_or_app; right; left; reflexivity)) as N.
  destruct (expected text r) as [x|] eqn:Ex.
  - destruct G as (s' & p & G1 & G2 & G3). exists sp, rs, sp', r, s', p, x. split_and!; auto.
  - exfalso. destruct r as [[v|]|y|]; cbn in Ex; try discriminate; [|exact N]. destruct N as [-> | ->]; discriminate.
Qed.

(** The other calls return. *)
Theorem C53_other_calls_return cs s o c :
  cexec pick text E cs s o -> allowed o c -> texts_ok c ->
  match c with
  | CNew dir => forall p, ordinary E keyof (events cs ++ [ENew p (cstr dir) []])
  | CClear p => ordinary E keyof (events cs ++ [EClear p])
  | CClose p => ordinary E keyof (events cs ++ [EDrop p])
  | CLevel z => (0 <= z <= 5)%Z
  | CFree _ | CIo _ => True
  | _ => False
  end ->
  exists s' x, cstep pick text E s c = Done (s', x) /\ match c with CNew _ => exists p, x = RHandle p /\ o !! p = None | _ => x = RUnit end.
Proof.
  intros X Al Ht HO. destruct (crun_world pick text E cs s o X) as [rs Hr].
  destruct (CInv_exec pick text PO E cs s o X) as [own I].
  assert (NP : forall e w r, step E (c_world s) e = Some (w, r) -> ordinary E keyof (events cs ++ [e]) ->
    match e with ENew _ _ _ | EClear _ | EDrop _ => r = ROk None | _ => True end).
  { intros e w r Hs H. assert (Hr2 : run E world0 (events cs ++ [e]) = Some (w, rs ++ [r])) by (rewrite run_app, Hr; cbn [run]; rewrite Hs; reflexivity).
    destruct (reach E keyof _ H w _ Hr2) as (sp2 & Hsp & _).
    rewrite spec_run_app in Hsp. destruct (spec_run canon spec0 (events cs)) as [[sp rs1]|] eqn:Q1; [|discriminate].
    cbn [spec_run] in Hsp. destruct (spec_step canon sp e) as [[sp' r']|] eqn:Q2; [|discriminate]. injection Hsp as <- Hrs.
    assert (Hrr : rs1 = rs /\ r' = r) by (apply app_inj_tail, Hrs). destruct Hrr as [-> ->].
    destruct e; auto; cbn [spec_step] in Q2; destruct (sp_handles sp !! h); congruence. }
  assert (Q : exists s' x, cstep pick text E s c = Done (s', x)).
  { destruct (call_ok_step pick text PO E s o own c I Al) as [A|(s' & x & own' & A & _ & B)]; [exfalso|eauto].
    destruct c as [dir|p key v|p key g|p key|p|p|p|z|i]; try contradiction; cbn [cstep texts_ok] in *.
    - unfold arg in A. rewrite Ht in A. destruct (alloc pick MHandle (c_heap s)) as [p h].
      destruct (step E (c_world s) (ENew p (cstr dir) [])) as [[w r]|] eqn:Q; [|discriminate]. rewrite (NP _ _ _ Q (HO p)) in A. discriminate.
    - destruct (step E (c_world s) (EClear p)) as [[w r]|] eqn:Q; [|discriminate]. rewrite (NP _ _ _ Q HO) in A. discriminate.
    - destruct (c_heap s !! p) as [[]|]; try discriminate. destruct (step E (c_world s) (EDrop p)) as [[w r]|] eqn:Q; [|discriminate].
      rewrite (NP _ _ _ Q HO) in A. unfold dealloc in A. cbn [obind fst] in A. destruct (_ =? _); [discriminate|]. destruct (_ !! p); [|discriminate].
      destruct (decide _); discriminate.
    - destruct Al as (t & r & Ho). rewrite (ow_free _ _ _ _ _ (ci_result _ _ _ _ I p t r Ho) (c_heap s) (part_sub _ _ _)) in A. discriminate.
    - apply (C52_other_numbers_abort pick text E s z) in A. lia.
    - discriminate. }
  destruct Q as (s' & x & Q). exists s', x. split; [exact Q|].
  pose proof (C35_fresh_results pick text PO E cs s o c s' x X Al Q) as Fr.
  destruct c as [dir|p key v|p key g|p key|p|p|p|z|i]; try contradiction; cbn [cstep] in Q.
  - unfold arg in Q. destruct (utf8_valid _); [|discriminate]. destruct (alloc pick MHandle (c_heap s)) as [p h].
    destruct (step E (c_world s) (ENew p (cstr dir) [])) as [[w [r|r|]]|]; try discriminate. injection Q as <- <-. eauto.
  - destruct (step E (c_world s) (EClear p)) as [[w [r|r|]]|]; try discriminate. injection Q as _ <-. reflexivity.
  - destruct (c_heap s !! p) as [[]|]; try discriminate. destruct (step E (c_world s) (EDrop p)) as [[w [r|r|]]|]; try discriminate.
    destruct (dealloc _ _ _); try discriminate. injection Q as _ <-. reflexivity.
  - destruct (free_buffer _ _); try discriminate. injection Q as _ <-. reflexivity.
  - destruct (of_code z); try discriminate. injection Q as _ <-. reflexivity.
  - injection Q as _ <-. reflexivity.
Qed.
End C53.

(** A C program through all kinds of calls whose trace is ordinary. *)
Definition c_keyof (d : bytes) : bytes := [].

Example C53_example : exists t s o,
  cexec ex_pick ex_text (ex_env FPlain) t s o /\ map fst t = c_trace /\
  ordinary (ex_env FPlain) c_keyof (events t ++ [EGet 1 k1 TI32s]) /\
  allowed o (CGet 1 k1 CI32s) /\ texts_ok (CGet 1 k1 CI32s) /\ events_of (CGet 1 k1 CI32s) RUnit = [EGet 1 k1 TI32s].
Proof.
  assert (T : match play ex_pick ex_text (ex_env FPlain) c_trace cstate0 ∅ with
    | Some (t, s, o) => map fst t = c_trace /\ ordinaryb (ex_env FPlain) c_keyof (events t ++ [EGet 1 k1 TI32s]) = true /\
        allowedb o (CGet 1 k1 CI32s) = true /\ utf8_valid (cstr k1) = true
    | _ => False end) by (vm_compute; repeat split).
  destruct (play ex_pick ex_text (ex_env FPlain) c_trace cstate0 ∅) as [[[t s] o]|] eqn:P; [|contradiction]. destruct T as (T1 & T2 & T3 & T4).
  exists t, s, o. split_and!; auto; [exact (play_here _ _ _ _ _ P)| |apply allowedb_ok, T3]. apply ordinaryb_ok; [apply ex_env_ok; exact Logic.I|exact T2].
Qed.

Print Assumptions C34_nothing_else_aborts_partial.
Print Assumptions C35_free_releases_what_was_made.
Print Assumptions C53_answers_of_a_map.
