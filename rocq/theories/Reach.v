(** The refinement results for ordinary traces, in the form the property
    files use. *)
From Verif Require Import Bytes Utf8 Proto ProtoFacts Value Codec Store StoreFacts Encrypt World Spec Hyps Refine WorldInv WorldStep Main Frames.
From Coq Require Import ZifyBool ZifyNat ZifyN.
Local Open Scope N_scope.

Lemma spec_run_app canon a b : forall s,
  spec_run canon s (a ++ b) =
  match spec_run canon s a with
  | Some (s1, ra) => match spec_run canon s1 b with Some (s2, rb) => Some (s2, ra ++ rb) | None => None end
  | None => None
  end.
Proof.
  induction a as [|e a IH]; intros s; cbn [app spec_run].
  - destruct (spec_run canon s b) as [[s2 rb]|]; reflexivity.
  - destruct (spec_step canon s e) as [[s1 x]|]; [|reflexivity]. rewrite IH.
    destruct (spec_run canon s1 a) as [[s2 ra]|]; [|reflexivity]. destruct (spec_run canon s2 b) as [[s3 rb]|]; reflexivity.
Qed.

Lemma paths_app a b : paths (a ++ b) = paths a ++ paths b.
Proof. unfold paths. apply flat_map_app. Qed.

Lemma ordinary_app_l E keyof a b : ordinary E keyof (a ++ b) -> ordinary E keyof a.
Proof.
  intros [A B C D]. split.
  - exact A.
  - apply Forall_app in B as [B _]. exact B.
  - intros p p' Hp Hp'. apply C; rewrite paths_app; apply in_or_app; auto.
  - eapply room_mono; [|exact D]. rewrite writes_app. lia.
Qed.

(** The paths of a trace as the set [U] of the invariant. *)
Definition PU (es : list event) (p : bytes) : Prop := In p (paths es).

Section Reach.
Context (E : env) (keyof : bytes -> bytes) (es : list event) (HO : ordinary E keyof es).
Notation canon := (e_canon E).

Lemma PU_call p : PU es p -> e_dir_ok E p = true /\ feature_key (e_feat E) (keyof (canon p)) <> None.
Proof.
  intros Hp. apply in_flat_map in Hp as (e & He & Hp). destruct e; cbn in Hp; try contradiction.
  destruct Hp as [<-|[]]. pose proof (or_calls _ _ _ HO) as HF. rewrite List.Forall_forall in HF. specialize (HF _ He).
  cbn in HF. destruct HF as (A & -> & B). auto.
Qed.

Lemma PU_dir p : PU es p -> e_dir_ok E p = true.
Proof. apply PU_call. Qed.
Lemma PU_key p : PU es p -> feature_key (e_feat E) (keyof (canon p)) <> None.
Proof. apply PU_call. Qed.
Lemma PU_inj p p' : PU es p -> PU es p' -> canon p = canon p' -> p = p'.
Proof. apply (or_paths _ _ _ HO). Qed.

Lemma in_U_all a b c : es = a ++ b ++ c -> Forall (in_U (PU es)) b.
Proof.
  intros Ees. apply List.Forall_forall. intros e He. destruct e; cbn; auto. unfold PU. rewrite Ees, !paths_app.
  apply in_or_app. right. apply in_or_app. left. apply in_flat_map. eexists. split; [exact He|]. left. reflexivity.
Qed.

(** The invariant after a prefix of the trace, for the paths of the whole. *)
Lemma reach_prefix a b w rs : es = a ++ b -> run E world0 a = Some (w, rs) ->
  exists sp, spec_run canon spec0 a = Some (sp, rs) /\
    WInv E keyof (PU es) w sp (hist E spec0 (hist0 spec0) a) (writes a).
Proof.
  intros Ees Hrun. pose proof (or_calls _ _ _ HO) as HF. rewrite Ees in HF. apply Forall_app in HF as [HF _].
  pose proof (run_ok E (or_env _ _ _ HO) keyof (PU es) PU_dir PU_key PU_inj a world0 spec0 (hist0 spec0) 0
    (WInv_init E keyof (PU es)) HF (in_U_all [] a b Ees)) as G.
  rewrite N.add_0_l in G. rewrite Hrun in G.
  destruct (spec_run canon spec0 a) as [[sp rs']|]; cycle 1.
  { destruct G. eapply room_mono; [|apply (or_room _ _ _ HO)]. rewrite Ees, writes_app. lia. }
  destruct G as [-> W].
  { eapply room_mono; [|apply (or_room _ _ _ HO)]. rewrite Ees, writes_app. lia. }
  exists sp. auto.
Qed.

Lemma reach w rs : run E world0 es = Some (w, rs) ->
  exists sp, spec_run canon spec0 es = Some (sp, rs) /\
    WInv E keyof (PU es) w sp (hist E spec0 (hist0 spec0) es) (writes es).
Proof. apply (reach_prefix es []). symmetry. apply app_nil_r. Qed.

Theorem answers_ok : option_map snd (run E world0 es) = option_map snd (spec_run canon spec0 es).
Proof.
  pose proof (run_ok E (or_env _ _ _ HO) keyof (PU es) PU_dir PU_key PU_inj es world0 spec0 (hist0 spec0) 0
    (WInv_init E keyof (PU es)) (or_calls _ _ _ HO)) as G.
  specialize (G (in_U_all [] es [] ltac:(cbn; symmetry; apply app_nil_r))). rewrite N.add_0_l in G. specialize (G (or_room _ _ _ HO)).
  destruct (run E world0 es) as [[w rs]|], (spec_run canon spec0 es) as [[sp rs']|]; try contradiction; [|reflexivity].
  destruct G as [-> _]. reflexivity.
Qed.

End Reach.
