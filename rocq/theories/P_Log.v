(** C32 and C33: the level filter, and lines reach the logger installed when
    they were issued. *)
From Verif Require Import Bytes Looper P_Loop Logging.
From Coq Require Import ZArith ZifyBool ZifyNat ZifyN.
From stdpp Require Import sorting.
Local Open Scope N_scope.

Global Instance level_eq_dec : EqDecision level.
Proof. solve_decision. Defined.

(** ** C32 *)

Theorem C32_codes_round_trip l : of_code (code l) = Some l.
Proof. destruct l; reflexivity. Qed.

Theorem C32_codes_exact v : (forall l, of_code v = Some l <-> v = code l) /\ (of_code v = None <-> (v < 0 \/ 5 < v)%Z).
Proof.
  split.
  - intros l. split; [|intros ->; apply C32_codes_round_trip]. unfold of_code.
    repeat match goal with |- context[(?a =? ?b)%Z] => destruct (Z.eqb_spec a b) as [->|] end; intros [= <-]; reflexivity.
  - unfold of_code. repeat match goal with |- context[(?a =? ?b)%Z] => destruct (Z.eqb_spec a b) end; cbn [code] in *;
      split; intros Q; try discriminate Q; try reflexivity; lia.
Qed.

Lemma wanted_code t l : wanted t l = true <-> ~ (code t < code l)%Z.
Proof. destruct t, l; cbn; split; try discriminate; try reflexivity; lia. Qed.

Section Calls.
Context {J T : Type} (exec : J -> T -> T * bool) (cb : T).

Lemma calls_below ls l : lexec exec (loop0 cb) ls l -> forall c j, LCall c j ∈ ls -> c < l_next l.
Proof.
  induction 1 as [|ls l1 a l2 X IH S]; intros c j H; [inversion H|].
  assert (M : l_next l1 <= l_next l2) by (destruct S as [S|[S|S]]; destruct S; cbn; lia).
  apply elem_of_app in H as [H|H]; [apply IH in H; lia|]. apply elem_of_list_singleton in H. subst a.
  destruct S as [S|[S|S]]; inversion S; subst. cbn. lia.
Qed.

Lemma calls_unique ls l : lexec exec (loop0 cb) ls l -> forall c j j', LCall c j ∈ ls -> LCall c j' ∈ ls -> j = j'.
Proof.
  induction 1 as [|ls l1 a l2 X IH S]; intros c j j' H H'; [inversion H|].
  assert (N : forall j0, LCall c j0 ∈ ls -> forall j1, a <> LCall c j1).
  { intros j0 Q j1 ->. apply (calls_below _ _ X) in Q. destruct S as [S|[S|S]]; inversion S; subst. lia. }
  apply elem_of_app in H as [H|H], H' as [H'|H'].
  - eapply IH; eauto.
  - apply elem_of_list_singleton in H'. destruct (N _ H j'); auto.
  - apply elem_of_list_singleton in H. destruct (N _ H' j); auto.
  - apply elem_of_list_singleton in H, H'. congruence.
Qed.

(** A call is in progress or has returned. *)
Lemma call_returned ls l : lexec exec (loop0 cb) ls l -> forall c j, LCall c j ∈ ls ->
  (exists x, l_posts l !! c = Some x) \/ exists ok, LRet c ok ∈ ls.
Proof.
  induction 1 as [|ls l1 a l2 X IH S]; intros c j H; [inversion H|].
  setoid_rewrite elem_of_app. apply elem_of_app in H as [H|H].
  - destruct (IH c j H) as [[x Hx]|[ok Hok]]; [|eauto].
    destruct S as [S|[S|S]].
    + left. exists x. destruct S; exact Hx.
    + destruct S as [l j' K|l c' j' Hp Hl|l c' j' Hp|l c' j' Hp|l c' j' Hp Hs Ha|l c' j' Hp Hs]; cbn;
        (destruct (decide (c = l_next l)) as [->|Hn]; [|]).
      all: try (left; rewrite lookup_insert; eauto; fail).
      all: try (left; rewrite lookup_insert_ne by congruence; eauto; fail).
      all: try (left; destruct (decide (c = c')) as [->|]; [rewrite lookup_insert|rewrite lookup_insert_ne by congruence]; eauto; fail).
      all: try (left; destruct (decide (l_next l = c')) as [->|]; [rewrite lookup_insert|rewrite lookup_insert_ne by congruence]; eauto; fail).
      all: try (destruct (decide (c = c')) as [->|]; [right; eexists; right; left|left; rewrite lookup_delete_ne by congruence; eauto]; fail).
      all: try (destruct (decide (l_next l = c')) as [->|]; [right; eexists; right; left|left; rewrite lookup_delete_ne by congruence; eauto]; fail).
    + left. exists x. destruct S; exact Hx.
  - apply elem_of_list_singleton in H. subst a. left. destruct S as [S|[S|S]]; inversion S; subst. cbn. rewrite lookup_insert. eauto.
Qed.
End Calls.

Section Log.
Context (panics : option N -> level -> line -> bool).
Notation gexec := (gexec panics).
Notation lexec := (lexec (log_exec panics)).

Lemma threshold_snoc ls a : threshold (ls ++ [a]) = match a with GLevel l => l | _ => threshold ls end.
Proof. unfold threshold. rewrite fold_left_app. reflexivity. Qed.

Lemma labels_snoc ls a : loop_labels (ls ++ [a]) = loop_labels ls ++ loop_labels [a].
Proof. apply flat_map_app. Qed.

Lemma g_proj ls s : gexec logsys0 ls s ->
  lexec (loop0 (None, [])) (loop_labels ls) (g_loop s) /\ l_k (g_loop s) = KOpen /\ g_level s = code (threshold ls).
Proof.
  induction 1 as [|ls s1 a s2 _ (IH & IK & IL) X]; [split_and!; [constructor|reflexivity..]|].
  rewrite labels_snoc, threshold_snoc. destruct X as [s l|s lv m Hl|s lv m l Hl Hp|s o l Hp|s a l Hp Hn|s a l Hx]; cbn [loop_labels flat_map app].
  - rewrite app_nil_r. auto.
  - rewrite app_nil_r. auto.
  - split_and!; auto; [econstructor; [exact IH|]; right; left; exact Hp|]. inversion Hp; subst; exact IK.
  - split_and!; auto; [econstructor; [exact IH|]; right; left; exact Hp|]. inversion Hp; subst; exact IK.
  - split_and!; auto; [econstructor; [exact IH|]; right; left; exact Hp|]. inversion Hp; subst; exact IK.
  - split_and!; auto; [econstructor; [exact IH|]; left; exact Hx|]. cbn. destruct (xstep_k _ _ _ _ Hx) as [-> _]. exact IK.
Qed.

Lemma g_split ls1 : forall a ls2 s, gexec logsys0 (ls1 ++ a :: ls2) s -> exists s1 s2, gexec logsys0 ls1 s1 /\ gstep panics s1 a s2.
Proof.
  intros a ls2. induction ls2 as [|b ls2 IH] using rev_ind; intros s X.
  - inversion X as [E0|ls s1 a' s2 H1 H2 E1]; [destruct ls1; discriminate E0|]. apply app_inj_tail in E1 as [-> ->]. eauto.
  - change (ls1 ++ a :: ls2 ++ [b]) with (ls1 ++ (a :: ls2) ++ [b]) in X. rewrite app_assoc in X.
    inversion X as [E0|ls s1 a' s2 H1 H2 E1]; [destruct ls1; discriminate E0|]. apply app_inj_tail in E1 as [-> ->]. eauto.
Qed.

(** Every call was submitted to the logger thread if its level was wanted at
    the threshold of that moment, and dropped if not. *)
Theorem C32_filter ls s : gexec logsys0 ls s ->
  (forall l1 c lv m l2, ls = l1 ++ GLog c lv m :: l2 -> wanted (threshold l1) lv = true) /\
  (forall l1 lv m l2, ls = l1 ++ GSkip lv m :: l2 -> wanted (threshold l1) lv = false).
Proof.
  intros X. split.
  - intros l1 c lv m l2 ->. destruct (g_split _ _ _ _ X) as (s1 & s2 & Y & Z). destruct (g_proj _ _ Y) as (_ & _ & L).
    inversion Z; subst. apply wanted_code. rewrite <- L. assumption.
  - intros l1 lv m l2 ->. destruct (g_split _ _ _ _ X) as (s1 & s2 & Y & Z). destruct (g_proj _ _ Y) as (_ & _ & L).
    inversion Z as [|? ? ? Hlt| | | |]; subst. destruct (wanted (threshold l1) lv) eqn:W; [|reflexivity]. apply wanted_code in W. rewrite <- L in W. contradiction.
Qed.

(** At every moment a call can be made, and which of the two happens is
    decided by its level alone. *)
Theorem C32_decided_by_level ls s lv m : gexec logsys0 ls s ->
  if wanted (threshold ls) lv then exists s', gstep panics s (GLog (l_next (g_loop s)) lv m) s' else gstep panics s (GSkip lv m) s.
Proof.
  intros X. destruct (g_proj _ _ X) as (_ & K & L). destruct (wanted (threshold ls) lv) eqn:W.
  - apply wanted_code in W. rewrite <- L in W. eexists. apply g_log; [exact W|]. apply p_call, K.
  - constructor. destruct (Z_lt_dec (g_level s) (code lv)) as [H|H]; [exact H|]. rewrite L in H. apply wanted_code in H. congruence.
Qed.

(** Off silences every level a line can have. *)
Theorem C32_off ls s lv m : gexec logsys0 ls s -> threshold ls = Off -> lv <> Off -> gstep panics s (GSkip lv m) s /\
  forall c s', ~ gstep panics s (GLog c lv m) s'.
Proof.
  intros X T Hlv. assert (W : wanted (threshold ls) lv = false) by (rewrite T; destruct lv; try reflexivity; contradiction).
  pose proof (C32_decided_by_level ls s lv m X) as G. rewrite W in G. split; [exact G|]. intros c s' Y.
  inversion Y; subst. inversion G; subst. contradiction.
Qed.

(** ** C33 *)

Lemma installed_snoc js j : installed (js ++ [j]) = match j with JLogger o => o | _ => installed js end.
Proof. unfold installed. rewrite fold_left_app. reflexivity. Qed.

Lemma loggers_snoc js j : loggers (js ++ [j]) = loggers js ++ match j with JLogger (Some id) => [id] | _ => [] end.
Proof. unfold loggers. rewrite flat_map_app. cbn. rewrite app_nil_r. reflexivity. Qed.

Lemma deliveries_snoc js j : deliveries (js ++ [j]) = deliveries js ++
  match j with
  | JLine lv m => match installed js, lv with Some _, Off => [] | o, _ => [OLine o lv m] end
  | JLogger _ => match installed js with Some id => [ORelease id] | None => [] end
  end.
Proof.
  unfold deliveries. rewrite app_length. cbn [length]. rewrite seq_app, flat_map_app. f_equal.
  - rewrite !flat_map_concat_map. f_equal. apply map_ext_in. intros k Hk. apply in_seq in Hk.
    rewrite lookup_app_l by lia. rewrite take_app_le by lia. reflexivity.
  - cbn [seq flat_map Nat.add]. rewrite app_nil_r, lookup_app_r, Nat.sub_diag by lia. cbn [lookup list_lookup].
    rewrite take_app. reflexivity.
Qed.

Lemma exec_deliveries js : exec_all (log_exec panics) js (None, []) = (installed js, deliveries js).
Proof.
  induction js as [|j js IH] using rev_ind; [reflexivity|]. rewrite exec_all_snoc, IH, installed_snoc, deliveries_snoc.
  destruct j as [lv m|o]; cbn [log_exec fst snd].
  - destruct (installed js) as [id|], lv; cbn; rewrite ?app_nil_r; reflexivity.
  - reflexivity.
Qed.

Lemma gexec_calls ls s : gexec logsys0 ls s -> forall c j, GLoop (LCall c j) ∉ ls.
Proof.
  induction 1 as [|ls s1 a s2 _ IH X]; intros c j H; [inversion H|].
  apply elem_of_app in H as [H|H]; [exact (IH _ _ H)|]. apply elem_of_list_singleton in H. subst a.
  inversion X as [| | | |? ? ? Hp Hn|? ? ? Hx]; subst; [exact (Hn _ _ eq_refl)|]. inversion Hx.
Qed.

Definition is_request (ls : list glabel) (c : N) (j : ljob) : Prop :=
  match j with JLine lv m => GLog c lv m ∈ ls | JLogger o => GLogger c o ∈ ls end.

Lemma loop_labels_call ls s : gexec logsys0 ls s -> forall c j, LCall c j ∈ loop_labels ls -> is_request ls c j.
Proof.
  intros X c j H. apply elem_of_list_In, in_flat_map in H as (a & Ha & H). apply elem_of_list_In in Ha.
  destruct a as [| | | |a]; cbn in H; try contradiction.
  - destruct H as [[= <- <-]|[]]. exact Ha.
  - destruct H as [[= <- <-]|[]]. exact Ha.
  - destruct H as [->|[]]. destruct (gexec_calls _ _ X c j Ha).
Qed.

(** What has come out is what the requests, taken in an order of submission,
    put out. *)
Theorem C33_lines_to_the_installed_logger ls s : gexec logsys0 ls s ->
  exists order js, submission_order (loop_labels ls) order /\ runs (loop_labels ls) `prefix_of` order /\
    Forall2 (is_request ls) (runs (loop_labels ls)) js /\
    l_cb (g_loop s) = (installed js, deliveries js).
Proof.
  intros X. destruct (g_proj _ _ X) as (Y & _ & _).
  destruct (C17_runs_in_submission_order _ _ _ _ Y) as (order & A & B & js & C & D). exists order, js. split_and!; auto.
  - eapply Forall2_impl; [exact C|]. intros c j. apply (loop_labels_call _ _ X).
  - rewrite D. apply exec_deliveries.
Qed.

(** When no logger has panicked, no call is in progress and the log thread has
    nothing to do, every call has had its effect. *)
Theorem C33_nothing_is_lost ls s : gexec logsys0 ls s ->
  l_posts (g_loop s) = ∅ -> (forall a l', ~ xstep (log_exec panics) (g_loop s) a l') -> (forall c, GLoop (LRun c false) ∉ ls) ->
  exists js, submission_order (loop_labels ls) (runs (loop_labels ls)) /\
    Forall2 (is_request ls) (runs (loop_labels ls)) js /\
    (forall c j, is_request ls c j -> c ∈ runs (loop_labels ls)) /\
    l_cb (g_loop s) = (installed js, deliveries js).
Proof.
  intros X HP HX HN. destruct (g_proj _ _ X) as (Y & _ & _).
  assert (HN' : forall c, LRun c false ∉ loop_labels ls).
  { intros c H. apply elem_of_list_In, in_flat_map in H as (a & Ha & H). apply elem_of_list_In in Ha.
    destruct a as [| | | |a]; cbn in H; try contradiction; try (destruct H as [H|[]]; try discriminate H).
    subst a. exact (HN c Ha). }
  destruct (C17_all_acknowledged_jobs_run _ _ _ _ Y HP HX HN') as (order & A & B). subst order.
  destruct (C33_lines_to_the_installed_logger _ _ X) as (_ & js & _ & _ & C & D). exists js. split_and!; auto.
  intros c j R. assert (Q : LCall c j ∈ loop_labels ls).
  { apply elem_of_list_In, in_flat_map. destruct j as [lv m|o]; cbn in R; (eexists; split; [apply elem_of_list_In, R|cbn; auto]). }
  destruct (call_returned _ _ _ _ Y c j Q) as [[pc Hpc]|[[|] Rt]].
  - rewrite HP in Hpc. rewrite lookup_empty in Hpc. discriminate.
  - apply (so_returned _ _ A c Rt).
  - destruct (C18_post_fails_only_after_a_panic _ _ _ _ c Y Rt) as [d Hd]. destruct (HN' d Hd).
Qed.

(** ** Releases *)

Lemma installed_logger js id : installed js = Some id -> id ∈ loggers js.
Proof.
  induction js as [|j js IH] using rev_ind; [discriminate|]. rewrite installed_snoc, loggers_snoc.
  destruct j as [lv m|[o|]]; intros E; try discriminate; apply elem_of_app; [left; auto|right]. injection E as ->. left.
Qed.

Lemma outs_loggers js : forall id, (ORelease id ∈ deliveries js \/ (exists lv m, OLine (Some id) lv m ∈ deliveries js)) -> id ∈ loggers js.
Proof.
  induction js as [|j js IH] using rev_ind; intros id H; [destruct H as [H|(lv & m & H)]; inversion H|].
  rewrite deliveries_snoc in H. rewrite loggers_snoc. apply elem_of_app. left.
  setoid_rewrite elem_of_app in H.
  destruct (installed js) as [o|] eqn:I.
  - pose proof (installed_logger _ _ I) as L.
    destruct H as [[H|H]|(lv & m & [H|H])]; [apply IH; auto| |apply IH; eauto|].
    + destruct j as [[] m|o']; cbn in H; try (apply elem_of_list_singleton in H; injection H as <-; exact L); try (apply elem_of_list_singleton in H; discriminate H). inversion H.
    + destruct j as [[] m'|o']; cbn in H; try (apply elem_of_list_singleton in H; injection H as -> _ _; exact L); try (apply elem_of_list_singleton in H; discriminate H). inversion H.
  - destruct H as [[H|H]|(lv & m & [H|H])]; [apply IH; auto| |apply IH; eauto|].
    + destruct j as [[] m|o']; cbn in H; try (apply elem_of_list_singleton in H; discriminate H); inversion H.
    + destruct j as [[] m'|o']; cbn in H; try (apply elem_of_list_singleton in H; discriminate H); inversion H.
Qed.

(** A sequence of requests in which no logger object is installed twice
    releases exactly the loggers it replaced, once each, after their last line. *)
Definition releases (os : list out) (id : N) : nat :=
  length (List.filter (fun o => match o with ORelease i => i =? id | _ => false end) os).

Lemma releases_app o1 o2 id : releases (o1 ++ o2) id = (releases o1 id + releases o2 id)%nat.
Proof. unfold releases. rewrite List.filter_app, app_length. reflexivity. Qed.

Lemma releases_0 os id : ORelease id ∉ os -> releases os id = 0%nat.
Proof.
  unfold releases. induction os as [|o os IH]; intros H; [reflexivity|]. apply not_elem_of_cons in H as [H1 H2]. cbn.
  destruct o as [|i]; [auto|]. destruct (N.eqb_spec i id) as [->|]; [contradiction|auto].
Qed.

Lemma deliveries_release js : NoDup (loggers js) ->
  (forall id, installed js = Some id -> ORelease id ∉ deliveries js) /\
  (forall id, releases (deliveries js) id = if decide (id ∈ loggers js /\ installed js <> Some id) then 1%nat else 0%nat) /\
  (forall id o1 o2, deliveries js = o1 ++ ORelease id :: o2 -> forall lv m, OLine (Some id) lv m ∉ o2).
Proof.
  induction js as [|j js IH] using rev_ind; intros ND.
  { split_and!; [discriminate| |intros id [|? ?] o2 E; discriminate E]. intros id. rewrite decide_False; [reflexivity|]. intros [H _]. inversion H. }
  rewrite loggers_snoc in ND. apply NoDup_app in ND as (ND1 & ND2 & ND3). destruct (IH ND1) as (A & B & C).
  rewrite deliveries_snoc, installed_snoc, loggers_snoc. destruct j as [lv m|o].
  - assert (NR : forall id, ORelease id ∉ match installed js, lv with Some _, Off => [] | o, _ => [OLine o lv m] end).
    { intros id H. destruct (installed js), lv; try (apply elem_of_list_singleton in H; discriminate H); inversion H. }
    rewrite app_nil_r. split_and!.
    + intros id E H. apply elem_of_app in H as [H|H]; [exact (A id E H)|exact (NR id H)].
    + intros id. rewrite releases_app, B, (releases_0 _ id (NR id)). lia.
    + intros id o1 o2 E lv' m' H.
      set (x := match installed js, lv with Some _, Off => [] | o, _ => [OLine o lv m] end) in *.
      assert (Hx : x = [] \/ x = [OLine (installed js) lv m]) by (subst x; destruct (installed js), lv; auto).
      destruct Hx as [-> | ->]; [rewrite app_nil_r in E; exact (C _ _ _ E _ _ H)|].
      induction o2 as [|y o2 IHo] using rev_ind; [inversion H|].
      change (ORelease id :: o2 ++ [y]) with ((ORelease id :: o2) ++ [y]) in E. rewrite app_assoc in E. apply app_inj_tail in E as [E <-].
      apply elem_of_app in H as [H|H]; [exact (C _ _ _ E _ _ H)|]. apply elem_of_list_singleton in H. injection H as Hi _ _.
      apply (A id); [congruence|]. rewrite E. apply elem_of_app. right. left.
  - assert (F : forall id, o = Some id -> id ∉ loggers js).
    { intros id -> H. apply (ND2 id H). left. }
    split_and!.
    + intros id E H. apply elem_of_app in H as [H|H]; [apply (F id E), outs_loggers; auto|].
      destruct (installed js) as [i|] eqn:I; [|inversion H]. apply elem_of_list_singleton in H. injection H as ->.
      apply (F i E), installed_logger, I.
    + intros id. rewrite releases_app, B.
      assert (Hl : id ∈ loggers js ++ match o with Some i => [i] | None => [] end <-> id ∈ loggers js \/ o = Some id).
      { rewrite elem_of_app. destruct o as [i|]; [rewrite elem_of_list_singleton; split; intros [|]; subst; auto; right; congruence|].
        split; [intros [|H]; [auto|inversion H]|intros [|]; [auto|discriminate]]. }
      destruct (installed js) as [i|] eqn:I.
      * unfold releases. cbn [List.filter]. destruct (N.eqb_spec i id) as [->|Hne]; cbn [length].
        { rewrite (decide_False (P := id ∈ loggers js /\ Some id <> Some id)) by (intros [_ H]; congruence).
          rewrite decide_True; [reflexivity|]. split; [apply Hl; left; apply installed_logger, I|].
          intros E. apply (F id E), installed_logger, I. }
        destruct (decide (id ∈ loggers js)) as [Hin|Hin].
        { rewrite (decide_True (P := id ∈ loggers js /\ Some i <> Some id)) by (split; [exact Hin|congruence]).
          rewrite decide_True; [reflexivity|]. split; [apply Hl; auto|]. intros E. exact (F id E Hin). }
        rewrite (decide_False (P := id ∈ loggers js /\ Some i <> Some id)) by tauto.
        rewrite decide_False; [reflexivity|]. rewrite Hl. tauto.
      * unfold releases. cbn [List.filter length].
        destruct (decide (id ∈ loggers js)) as [Hin|Hin].
        { rewrite (decide_True (P := id ∈ loggers js /\ None <> Some id)) by (split; [exact Hin|congruence]).
          rewrite decide_True; [reflexivity|]. split; [apply Hl; auto|]. intros E. exact (F id E Hin). }
        rewrite (decide_False (P := id ∈ loggers js /\ None <> Some id)) by tauto.
        rewrite decide_False; [reflexivity|]. rewrite Hl. tauto.
    + intros id o1 o2 E lv' m' H. destruct (installed js) as [i|] eqn:I; [|rewrite app_nil_r in E; exact (C _ _ _ E _ _ H)].
      induction o2 as [|y o2 IHo] using rev_ind; [inversion H|].
      change (ORelease id :: o2 ++ [y]) with ((ORelease id :: o2) ++ [y]) in E. rewrite app_assoc in E. apply app_inj_tail in E as [E <-].
      apply elem_of_app in H as [H|H]; [exact (C _ _ _ E _ _ H)|]. apply elem_of_list_singleton in H. discriminate H.
Qed.

Lemma requests_nodup ls cs js :
  (forall c c' id, GLogger c (Some id) ∈ ls -> GLogger c' (Some id) ∈ ls -> c = c') ->
  NoDup cs -> Forall2 (is_request ls) cs js -> NoDup (loggers js) /\ forall id, id ∈ loggers js -> exists c, c ∈ cs /\ GLogger c (Some id) ∈ ls.
Proof.
  intros U ND F. induction F as [|c j cs js R F IH]; [split; [constructor|intros id H; inversion H]|].
  apply NoDup_cons in ND as [ND1 ND2]. destruct (IH ND2) as [A B]. clear IH.
  destruct j as [lv m|[o|]]; cbn [loggers flat_map app]; fold (loggers js).
  - split; [exact A|]. intros id H. destruct (B id H) as (c' & H1 & H2). exists c'. split; [right|]; auto.
  - split.
    + apply NoDup_cons. split; [|exact A]. intros H. destruct (B _ H) as (c' & H1 & H2). apply ND1. rewrite (U c c' o); auto.
    + intros id H. apply elem_of_cons in H as [->|H]; [exists c; split; [left|exact R]|]. destruct (B id H) as (c' & H1 & H2). exists c'. split; [right|]; auto.
  - split; [exact A|]. intros id H. destruct (B id H) as (c' & H1 & H2). exists c'. split; [right|]; auto.
Qed.

(** When every logger object is handed over once: at every moment every
    logger that has been replaced has been released exactly once, no other has
    been released, and a logger receives nothing after its release. *)
Theorem C33_released_once_after_its_last_line ls s : gexec logsys0 ls s ->
  (forall c c' id, GLogger c (Some id) ∈ ls -> GLogger c' (Some id) ∈ ls -> c = c') ->
  exists js, Forall2 (is_request ls) (runs (loop_labels ls)) js /\ l_cb (g_loop s) = (installed js, deliveries js) /\
    (forall id, releases (l_cb (g_loop s)).2 id = if decide (id ∈ loggers js /\ (l_cb (g_loop s)).1 <> Some id) then 1%nat else 0%nat) /\
    (forall id o1 o2, (l_cb (g_loop s)).2 = o1 ++ ORelease id :: o2 -> forall lv m, OLine (Some id) lv m ∉ o2).
Proof.
  intros X U. destruct (C33_lines_to_the_installed_logger _ _ X) as (order & js & A & B & C & D). exists js.
  assert (ND : NoDup (runs (loop_labels ls))).
  { destruct (g_proj _ _ X) as (Y & _ & _). exact (C17_at_most_once _ _ _ _ Y). }
  destruct (requests_nodup _ _ _ U ND C) as [E _]. destruct (deliveries_release js E) as (_ & F & G).
  split_and!; auto; rewrite D; cbn [fst snd]; auto.
Qed.

(** ** Which logger a line reaches *)

Lemma deliveries_at js k lv m : js !! k = Some (JLine lv m) -> lv <> Off ->
  exists o2, deliveries js = deliveries (take k js) ++ OLine (installed (take k js)) lv m :: o2.
Proof.
  intros H Hlv.
  enough (G : exists o2, deliveries (take k js ++ JLine lv m :: drop (S k) js) = deliveries (take k js) ++ OLine (installed (take k js)) lv m :: o2)
    by (rewrite take_drop_middle in G by exact H; exact G).
  change (take k js ++ JLine lv m :: drop (S k) js) with (take k js ++ [JLine lv m] ++ drop (S k) js). rewrite app_assoc.
  induction (drop (S k) js) as [|j l IH] using rev_ind.
  - rewrite app_nil_r, deliveries_snoc. eexists. f_equal. destruct (installed _), lv; try reflexivity; contradiction.
  - rewrite app_assoc, deliveries_snoc. destruct IH as [o2 ->]. rewrite <- app_assoc. cbn. eauto.
Qed.

Lemma installed_last js k o : js !! k = Some (JLogger o) -> (forall i o', (k < i)%nat -> js !! i <> Some (JLogger o')) -> installed js = o.
Proof.
  intros H N. enough (E : installed (take k js ++ JLogger o :: drop (S k) js) = o) by (rewrite take_drop_middle in E by exact H; exact E).
  assert (G : forall o', JLogger o' ∉ drop (S k) js).
  { intros o' Q. apply elem_of_list_lookup in Q as [i Q]. rewrite lookup_drop in Q. apply (N (S k + i)%nat o'); [lia|exact Q]. }
  change (take k js ++ JLogger o :: drop (S k) js) with (take k js ++ [JLogger o] ++ drop (S k) js). rewrite app_assoc.
  induction (drop (S k) js) as [|j l IH] using rev_ind.
  - rewrite app_nil_r, installed_snoc. reflexivity.
  - rewrite app_assoc, installed_snoc. destruct j as [lv m|o'].
    + apply IH. intros o' Q. apply (G o'), elem_of_app; auto.
    + exfalso. apply (G o'), elem_of_app. right. left.
Qed.

Lemma loop_labels_app l1 l2 : loop_labels (l1 ++ l2) = loop_labels l1 ++ loop_labels l2.
Proof. apply flat_map_app. Qed.

Lemma in_loop_labels ls c j : is_request ls c j -> LCall c j ∈ loop_labels ls.
Proof. intros R. apply elem_of_list_In, in_flat_map. destruct j as [lv m|o]; cbn in R; (eexists; split; [apply elem_of_list_In, R|cbn; auto]). Qed.

Lemma in_loop_ret ls c ok : GLoop (LRet c ok) ∈ ls -> LRet c ok ∈ loop_labels ls.
Proof. intros R. apply elem_of_list_In, in_flat_map. eexists; split; [apply elem_of_list_In, R|cbn; auto]. Qed.

Lemma earlier_loop ls c ok d j : (exists l1 l2, ls = l1 ++ l2 /\ GLoop (LRet c ok) ∈ l1 /\ is_request l2 d j) ->
  earlier (loop_labels ls) (LRet c ok) (LCall d j).
Proof.
  intros (l1 & l2 & -> & A & B). exists (loop_labels l1), (loop_labels l2). rewrite loop_labels_app.
  split_and!; [reflexivity|apply in_loop_ret, A|apply in_loop_labels, B].
Qed.

(** The return of request [c] came before request [d] was made. *)
Definition returned_before (ls : list glabel) (c d : N) : Prop :=
  exists ok j l1 l2, ls = l1 ++ l2 /\ GLoop (LRet c ok) ∈ l1 /\ is_request l2 d j.

Lemma prefix_order {A} (p o : list A) a i b k : p `prefix_of` o -> NoDup o -> earlier o a b -> p !! i = Some a -> p !! k = Some b -> (i < k)%nat.
Proof.
  intros [r ->] ND (l1 & l2 & E & A1 & B1) Hi Hk.
  apply elem_of_list_lookup in A1 as [x Hx]. apply elem_of_list_lookup in B1 as [y Hy].
  assert (Ei : (p ++ r) !! i = Some a) by (apply lookup_app_l_Some, Hi).
  assert (Ek : (p ++ r) !! k = Some b) by (apply lookup_app_l_Some, Hk).
  assert (Ex : (p ++ r) !! x = Some a) by (rewrite E; apply lookup_app_l_Some, Hx).
  assert (Ey : (p ++ r) !! (length l1 + y)%nat = Some b) by (rewrite E; apply lookup_app_Some; right; split; [lia|rewrite Nat.add_comm, Nat.add_sub; exact Hy]).
  pose proof (NoDup_lookup _ _ _ _ ND Ei Ex). pose proof (NoDup_lookup _ _ _ _ ND Ek Ey). apply lookup_lt_Some in Hx. lia.
Qed.

(** A line that has been written, issued after a call of set_logger returned,
    and such that every other call of set_logger is known to be older than
    that one or younger than the line, went to that logger. *)
Theorem C33_line_reaches_its_logger ls s c lv m d id : gexec logsys0 ls s ->
  GLog c lv m ∈ ls -> lv <> Off -> c ∈ runs (loop_labels ls) ->
  GLogger d (Some id) ∈ ls -> GLoop (LRet d true) ∈ ls -> returned_before ls d c ->
  (forall d' o, GLogger d' o ∈ ls -> d' <> d -> returned_before ls d' d \/ returned_before ls c d') ->
  OLine (Some id) lv m ∈ (l_cb (g_loop s)).2.
Proof.
  intros X Hc Hlv Hrun Hd Hret Hdc Hoth. destruct (g_proj _ _ X) as (Y & _ & _).
  destruct (C33_lines_to_the_installed_logger _ _ X) as (order & js & A & B & C & D). rewrite D. cbn [snd].
  assert (Uq : forall c j j', is_request ls c j -> is_request ls c j' -> j = j').
  { intros c0 j j' R R'. apply in_loop_labels in R, R'. exact (calls_unique _ _ _ _ Y _ _ _ R R'). }
  pose proof (so_nodup _ _ A) as ND. pose proof B as [rest Er].
  assert (Hord : forall a b, returned_before ls a b -> a ∈ order -> b ∈ order -> earlier order a b).
  { intros a b (ok & j & l1 & l2 & E & Q1 & Q2) Ha Hb. eapply (so_realtime _ _ A); [apply earlier_loop|exact Hb|exact Ha]. eauto 8. }
  assert (Hco : c ∈ order) by (rewrite Er; apply elem_of_app; auto).
  assert (Hdo : d ∈ order) by (apply (so_returned _ _ A), in_loop_ret, Hret).
  apply elem_of_list_lookup in Hrun as [k Hk].
  destruct (Forall2_lookup_l _ _ _ _ _ C Hk) as (j & Hj & Rj). pose proof (Uq _ _ (JLine lv m) Rj Hc) as ->.
  (* d is among the runs, before c *)
  assert (Hdr : exists i, (i < k)%nat /\ runs (loop_labels ls) !! i = Some d).
  { destruct (Hord d c Hdc Hdo Hco) as (l1 & l2 & E & A1 & B1).
    apply elem_of_list_lookup in A1 as [x Hx]. apply elem_of_list_lookup in B1 as [y Hy].
    assert (Ek : order !! k = Some c) by (rewrite Er; apply lookup_app_l_Some, Hk).
    assert (Ey : order !! (length l1 + y)%nat = Some c) by (rewrite E; apply lookup_app_Some; right; split; [lia|rewrite Nat.add_comm, Nat.add_sub; exact Hy]).
    pose proof (NoDup_lookup _ _ _ _ ND Ek Ey). pose proof (lookup_lt_Some _ _ _ Hx).
    exists x. split; [lia|]. assert (Ex : order !! x = Some d) by (rewrite E; apply lookup_app_l_Some, Hx).
    rewrite Er in Ex. rewrite lookup_app_l in Ex; [exact Ex|]. apply lookup_lt_Some in Hk. lia. }
  destruct Hdr as (i & Hik & Hi). destruct (Forall2_lookup_l _ _ _ _ _ C Hi) as (j & Hji & Rji). pose proof (Uq _ _ (JLogger (Some id)) Rji Hd) as ->.
  assert (I : installed (take k js) = Some id).
  { apply (installed_last _ i); [rewrite lookup_take by lia; exact Hji|]. intros x o' Hx Q.
    assert (Hxk : (x < k)%nat) by (apply lookup_lt_Some in Q; rewrite take_length in Q; lia).
    rewrite lookup_take in Q by lia. destruct (Forall2_lookup_r _ _ _ _ _ C Q) as (d' & Hd' & Rd'). cbn in Rd'.
    assert (Hne : d' <> d). { intros ->. pose proof (C17_at_most_once _ _ _ _ Y) as ND'. pose proof (NoDup_lookup _ _ _ _ ND' Hi Hd'). lia. }
    assert (Hd'o : d' ∈ order) by (rewrite Er; apply elem_of_app; left; eapply elem_of_list_lookup_2, Hd').
    destruct (Hoth d' o' Rd' Hne) as [H|H].
    - pose proof (prefix_order _ _ _ _ _ _ B ND (Hord _ _ H Hd'o Hdo) Hd' Hi). lia.
    - pose proof (prefix_order _ _ _ _ _ _ B ND (Hord _ _ H Hco Hd'o) Hk Hd'). lia. }
  destruct (deliveries_at js k lv m Hj Hlv) as [o2 ->]. rewrite I. apply elem_of_app. right. left.
Qed.


(** ** C51 *)

(** Submitting a line or a logger fails (and the caller panics, logger.rs:60,
    95) only after a logger panicked or a line could not be printed. *)
Theorem C51_logging_fails_only_after_a_panic_partial ls s c : gexec logsys0 ls s ->
  GLoop (LRet c false) ∈ ls -> exists d, GLoop (LRun d false) ∈ ls.
Proof.
  intros X H. destruct (g_proj _ _ X) as (Y & _ & _).
  destruct (C18_post_fails_only_after_a_panic _ _ _ _ c Y (in_loop_ret _ _ _ H)) as [d Hd]. exists d.
  apply elem_of_list_In, in_flat_map in Hd as (a & Ha & Hd). apply elem_of_list_In in Ha.
  destruct a as [| | | |a]; cbn in Hd; try contradiction; try (destruct Hd as [Hd|[]]; try discriminate Hd). subst a. exact Ha.
Qed.

(** If no logger panics and printing works, none fails. *)
Theorem C51_quiet_loggers_partial ls s c : (forall o lv m, panics o lv m = false) -> gexec logsys0 ls s -> GLoop (LRet c false) ∉ ls.
Proof.
  intros NP X H. destruct (C51_logging_fails_only_after_a_panic_partial _ _ _ X H) as [d Hd].
  clear H. induction X as [|ls s1 a s2 X IH S]; [inversion Hd|]. apply elem_of_app in Hd as [Hd|Hd]; [auto|].
  apply elem_of_list_singleton in Hd. subst a. inversion S as [| | | |? ? ? Hp Hn|? ? ? Hx]; subst; [inversion Hp|].
  inversion Hx as [| | | | | | |? ? j ? t Hx1 Hb He|]; subst. destruct j as [lv m|o]; cbn in He; [|discriminate].
  destruct (l_cb (g_loop s1)).1 as [id|]; [|rewrite NP in He; discriminate]. destruct lv; try discriminate; rewrite NP in He; discriminate.
Qed.

(** *** Concrete schedules *)

Inductive gchoice := HLevel (l : level) | HLog (lv : level) (m : line) | HLogger (o : option N) | HPost (c : N) | HX.

Definition gdo (h : gchoice) (s : logsys) : option (glabel * logsys) :=
  match h with
  | HLevel l => Some (GLevel l, LogSys (code l) (g_loop s))
  | HLog lv m =>
      if (g_level s <? code lv)%Z then Some (GSkip lv m, s)
      else match do_choice (log_exec panics) (ChCall (JLine lv m)) (g_loop s) with
           | Some (_, l) => Some (GLog (l_next (g_loop s)) lv m, LogSys (g_level s) l) | None => None end
  | HLogger o => match do_choice (log_exec panics) (ChCall (JLogger o)) (g_loop s) with
                 | Some (_, l) => Some (GLogger (l_next (g_loop s)) o, LogSys (g_level s) l) | None => None end
  | HPost c => match pdo c (g_loop s) with Some (a, l) => Some (GLoop a, LogSys (g_level s) l) | None => None end
  | HX => match xdo (log_exec panics) (g_loop s) with Some (a, l) => Some (GLoop a, LogSys (g_level s) l) | None => None end
  end.

Fixpoint gsched (hs : list gchoice) (s : logsys) : option (list glabel * logsys) :=
  match hs with
  | [] => Some ([], s)
  | h :: r => match gdo h s with
              | Some (a, s1) => match gsched r s1 with Some (ls, s2) => Some (a :: ls, s2) | None => None end
              | None => None
              end
  end.

Lemma gdo_ok h s a s' : gdo h s = Some (a, s') -> gstep panics s a s'.
Proof.
  destruct h as [l|lv m|o|c|]; cbn [gdo].
  - intros [= <- <-]. constructor.
  - destruct (Z.ltb_spec (g_level s) (code lv)) as [H|H]; [intros [= <- <-]; constructor; exact H|].
    destruct (do_choice _ _ _) as [[x l]|] eqn:D; [|discriminate]. intros [= <- <-]. constructor; [lia|].
    cbn in D. destruct (l_k (g_loop s)) eqn:K; try discriminate. injection D as <- <-. apply p_call, K.
  - destruct (do_choice _ _ _) as [[x l]|] eqn:D; [|discriminate]. intros [= <- <-]. constructor.
    cbn in D. destruct (l_k (g_loop s)) eqn:K; try discriminate. injection D as <- <-. apply p_call, K.
  - destruct (pdo c (g_loop s)) as [[x l]|] eqn:D; [|discriminate]. intros [= <- <-].
    assert (N : forall c' j', x <> LCall c' j').
    { intros c' j' ->. unfold pdo in D. destruct (l_posts (g_loop s) !! c) as [[[] j]|]; try discriminate; [destruct (l_lock (g_loop s)); discriminate D|].
      destruct (_ && _); discriminate D. }
    apply g_post; [|exact N].
    assert (Q : do_choice (log_exec panics) (ChPost c) (g_loop s) = Some (x, l)) by exact D.
    revert D. unfold pdo. destruct (l_posts (g_loop s) !! c) as [[[] j]|] eqn:Hp; try discriminate.
    + destruct (l_lock (g_loop s)) eqn:Hl; [discriminate|]. intros [= <- <-]. apply p_lock; assumption.
    + intros [= <- <-]. apply p_push; assumption.
    + intros [= <- <-]. eapply p_unlock; eassumption.
    + destruct (l_sender (g_loop s)) eqn:Hs, (alive (l_x (g_loop s))) eqn:Ha; intros [= <- <-]; [eapply p_send|eapply p_fail..]; eauto.
  - destruct (xdo _ (g_loop s)) as [[x l]|] eqn:D; [|discriminate]. intros [= <- <-]. apply g_thread, xdo_ok, D.
Qed.

Lemma gexec_cons s a s1 ls s2 : gstep panics s a s1 -> gexec s1 ls s2 -> gexec s (a :: ls) s2.
Proof.
  intros A. induction 1 as [|ls s2 b s3 _ IH B]; [exact (ge_snoc _ _ _ _ _ _ (ge_nil _ _) A)|].
  exact (ge_snoc _ _ (a :: ls) _ _ _ IH B).
Qed.

Lemma gsched_ok hs : forall s ls s', gsched hs s = Some (ls, s') -> gexec s ls s'.
Proof.
  induction hs as [|h hs IH]; intros s ls s'; cbn; [intros [= <- <-]; constructor|].
  destruct (gdo h s) as [[a s1]|] eqn:Ed; [|discriminate]. destruct (gsched hs s1) as [[ls1 s2]|] eqn:Es; [|discriminate].
  intros [= <- <-]. eapply gexec_cons; [eapply gdo_ok, Ed|apply IH, Es].
Qed.

End Log.

Definition whole (c : N) : list gchoice := [HPost c; HPost c; HPost c; HPost c].
Definition drain : list gchoice := [HX; HX; HX; HX; HX; HX].

(** Logger 7 panics on a line "!". *)
Definition ex_panics (o : option N) (_ : level) (m : line) : bool :=
  match o, m with Some id, [b] => (id =? 7) && (b2n b =? 33) | _, _ => false end.

(** There is no logger and standard output is closed. *)
Definition closed_stdout (o : option N) (_ : level) (_ : line) : bool := match o with None => true | Some _ => false end.

Definition w (n : N) : line := [n2b n].

(** A line is printed; logger 1 is installed; a line for it; the level is
    lowered, a line is dropped; logger 2 is installed; a line for it; the log
    thread runs in between and at the end. *)
Definition ex_log : list gchoice :=
  HLog Debug (w 1) :: whole 0 ++ HLogger (Some 1) :: whole 1 ++ HLog Error (w 2) :: whole 2 ++ drain ++
  [HLevel Warn; HLog Info (w 3); HLogger (Some 2)] ++ whole 3 ++ [HLog Warn (w 4)] ++ whole 4 ++ [HX; HX; HX; HX; HX; HX; HX; HX; HX; HX; HX; HX; HX; HX; HX; HX; HX; HX; HX; HX; HX; HX; HX; HX].

Example C32_C33_example : exists ls s, gexec ex_panics logsys0 ls s /\ threshold ls = Warn /\ GSkip Info (w 3) ∈ ls /\
  l_posts (g_loop s) = ∅ /\ (forall a l', ~ xstep (log_exec ex_panics) (g_loop s) a l') /\
  GLog 4 Warn (w 4) ∈ ls /\ GLogger 3 (Some 2) ∈ ls /\ GLoop (LRet 3 true) ∈ ls /\ returned_before ls 3 4 /\ returned_before ls 1 3 /\
  runs (loop_labels ls) = [0; 1; 2; 3; 4] /\
  l_cb (g_loop s) = (Some 2, [OLine None Debug (w 1); OLine (Some 1) Error (w 2); ORelease 1; OLine (Some 2) Warn (w 4)]).
Proof.
  assert (T : match gsched ex_panics ex_log logsys0 with
              | Some (ls, s) => threshold ls = Warn /\ In (GSkip Info (w 3)) ls /\ map_to_list (l_posts (g_loop s)) = [] /\
                  l_x (g_loop s) = XRecv /\ l_chan (g_loop s) = [] /\ l_sender (g_loop s) = true /\ In (GLog 4 Warn (w 4)) ls /\ In (GLogger 3 (Some 2)) ls /\
                  In (GLoop (LRet 3 true)) (take 28 ls) /\ In (GLog 4 Warn (w 4)) (drop 28 ls) /\
                  In (GLoop (LRet 1 true)) (take 20 ls) /\ In (GLogger 3 (Some 2)) (drop 20 ls) /\
                  runs (loop_labels ls) = [0; 1; 2; 3; 4] /\
                  l_cb (g_loop s) = (Some 2, [OLine None Debug (w 1); OLine (Some 1) Error (w 2); ORelease 1; OLine (Some 2) Warn (w 4)])
              | None => False
              end) by (vm_compute; repeat split; repeat (first [left; reflexivity|right])).
  destruct (gsched ex_panics ex_log logsys0) as [[ls s]|] eqn:Es; [|contradiction].
  destruct T as (T1 & T2 & T3 & T4 & T5 & T6 & T7 & T8 & T9 & T10 & T11 & T12 & T13 & T14).
  exists ls, s. split_and!; auto; try (apply elem_of_list_In; assumption).
  - eapply gsched_ok, Es.
  - apply map_to_list_empty_iff, T3.
  - intros a l' X. inversion X; subst; try congruence.
  - apply elem_of_list_In. rewrite <- (take_drop 28 ls). apply in_app_iff. auto.
  - exists true, (JLine Warn (w 4)), (take 28 ls), (drop 28 ls). rewrite take_drop. split_and!; [reflexivity|..]; apply elem_of_list_In; assumption.
  - exists true, (JLogger (Some 2)), (take 20 ls), (drop 20 ls). rewrite take_drop. split_and!; [reflexivity|..]; apply elem_of_list_In; assumption.
Qed.

(** A logger that panics on a line makes a later log call, from any thread,
    panic: C51 as stated is false of the code. *)
Theorem C51_refuted : exists ls s, gexec ex_panics logsys0 ls s /\ GLog 1 Info (w 33) ∈ ls /\ GLog 2 Info (w 1) ∈ ls /\ GLoop (LRet 2 false) ∈ ls.
Proof.
  assert (T : match gsched ex_panics (HLogger (Some 7) :: whole 0 ++ HLog Info (w 33) :: whole 1 ++ drain ++ HLog Info (w 1) :: whole 2) logsys0 with
              | Some (ls, s) => In (GLog 1 Info (w 33)) ls /\ In (GLog 2 Info (w 1)) ls /\ In (GLoop (LRet 2 false)) ls
              | None => False
              end) by (vm_compute; repeat split; repeat (first [left; reflexivity|right])).
  destruct (gsched _ _ _) as [[ls s]|] eqn:Es; [|contradiction]. destruct T as (T1 & T2 & T3).
  exists ls, s. split_and!; try (apply elem_of_list_In; assumption). eapply gsched_ok, Es.
Qed.

(** So does a closed standard output, without any logger installed. *)
Theorem C51_closed_stdout_refuted : exists ls s, gexec closed_stdout logsys0 ls s /\ (forall c o, GLogger c o ∉ ls) /\
  GLog 0 Info (w 1) ∈ ls /\ GLog 1 Info (w 2) ∈ ls /\ GLoop (LRet 1 false) ∈ ls.
Proof.
  assert (T : match gsched closed_stdout (HLog Info (w 1) :: whole 0 ++ [HX; HX; HX; HX; HX] ++ HLog Info (w 2) :: whole 1) logsys0 with
              | Some (ls, s) => In (GLog 0 Info (w 1)) ls /\ In (GLog 1 Info (w 2)) ls /\ In (GLoop (LRet 1 false)) ls /\
                  forallb (fun a => match a with GLogger _ _ => false | _ => true end) ls = true
              | None => False
              end) by (vm_compute; repeat split; repeat (first [left; reflexivity|right])).
  destruct (gsched _ _ _) as [[ls s]|] eqn:Es; [|contradiction]. destruct T as (T1 & T2 & T3 & T4).
  exists ls, s. split_and!; try (apply elem_of_list_In; assumption); [eapply gsched_ok, Es|].
  intros c o H. apply elem_of_list_In in H. rewrite forallb_forall in T4. discriminate (T4 _ H).
Qed.

Print Assumptions C32_codes_exact.
Print Assumptions C32_filter.
Print Assumptions C32_decided_by_level.
Print Assumptions C32_off.
Print Assumptions C33_lines_to_the_installed_logger.
Print Assumptions C33_nothing_is_lost.
Print Assumptions C33_released_once_after_its_last_line.
Print Assumptions C33_line_reaches_its_logger.
Print Assumptions C51_quiet_loggers_partial.
Print Assumptions C51_refuted.
Print Assumptions C51_closed_stdout_refuted.
