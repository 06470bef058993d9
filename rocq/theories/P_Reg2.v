(** C60: calls that open, use and close stores all return. *)
From Verif Require Import Bytes Utf8 Proto ProtoFacts Value Codec Store StoreFacts Encrypt World Spec Hyps Refine WorldInv WorldStep Main Frames Reach Examples P_Map P_Store P_Fail P_Alias Looper P_Loop Conc P_Conc P_Live Reg P_Reg.
From Coq Require Import ZifyBool ZifyNat ZifyN.
Local Open Scope N_scope.

(** ** Steps left *)

Definition qstage (p : rpc) : nat :=
  match p with
  | QWant => 12 | QRead => 11 | QWantW => 10 | QWrite => 9 | QOpen => 8 | QIns _ => 7 | QRem _ => 7 | QRel _ => 6 | QArc _ => 5 | QJoin _ => 4 | QDone _ => 1
  end.
Notation qm := (fun x : rpc * rop => qstage x.1).
Notation im := (fun x : inst => length (i_queue x)).

Definition jobs (w : world) : nat := mtotal im (w_insts w).
Definition rtodo (s : reg) : nat := (mtotal qm (r_ops s) + jobs (r_world s))%nat.

Lemma jobs_set w i x y : w_insts w !! i = Some x -> (jobs (set_inst w i y) + im x = jobs w + im y)%nat.
Proof. intros Hx. exact (mtotal_change im _ _ _ y Hx). Qed.

Section Live.
Context (E : env).

Lemma jobs_job w i : (jobs (run_job E w i) <= jobs w)%nat.
Proof.
  unfold run_job. destruct (w_insts w !! i) as [x|] eqn:Hx; [|lia]. destruct (i_io x), (i_queue x) as [|[m dup|] q] eqn:Hq; try lia.
  - destruct (write _ _ _ m dup) as [s ok]. pose proof (jobs_set w i x (i_after x q (if ok then IoRun else IoDead) s) Hx) as M. unfold jobs in *. cbn in *. rewrite Hq in M. cbn in M. lia.
  - pose proof (jobs_set w i x (i_with_queue x q) Hx) as M. unfold jobs in *. cbn in *. rewrite Hq in M. cbn in M. lia.
Qed.

Lemma jobs_job_less w i x : w_insts w !! i = Some x -> i_queue x <> [] -> i_io x = IoRun -> (jobs (run_job E w i) < jobs w)%nat.
Proof.
  intros Hx Hn Hi. unfold run_job. rewrite Hx, Hi. destruct (i_queue x) as [|[m dup|] q] eqn:Hq; [congruence|..].
  - destruct (write _ _ _ m dup) as [s ok]. pose proof (jobs_set w i x (i_after x q (if ok then IoRun else IoDead) s) Hx) as M. unfold jobs in *. cbn in *. rewrite Hq in M. cbn in M. lia.
  - pose proof (jobs_set w i x (i_with_queue x q) Hx) as M. unfold jobs in *. cbn in *. rewrite Hq in M. cbn in M. lia.
Qed.

Lemma jobs_drain w i : (jobs (drain E w i) <= jobs w)%nat.
Proof.
  unfold drain. destruct (w_insts w !! i) as [x|]; [|lia]. induction (length (i_queue x)) as [|n IH]; [cbn; lia|].
  rewrite Nat.iter_succ. pose proof (jobs_job (Nat.iter n (fun w => run_job E w i) w) i). lia.
Qed.

Lemma open_queue w p k w1 x : open_impl E w p k = (w1, Some x) -> i_queue x = [].
Proof.
  unfold open_impl. destruct (e_dir_ok E p); [|discriminate]. destruct (open_config _ w _) as [w2 ino]. destruct (feature_key _ k); [|discriminate].
  destruct (open_nonce _ _ _) as [w3 nonce]. destruct (open_file _ _ _ _) as [[s m]|]; [|discriminate]. intros [= _ <-]. reflexivity.
Qed.

Lemma jobs_open w p k w1 o : open_impl E w p k = (w1, o) -> jobs w1 = jobs w.
Proof. intros H. apply open_impl_sub in H as (A & _). unfold jobs. rewrite A. reflexivity. Qed.

Lemma post_queue x j x' r : post x j = (x', r) -> im x' = (im x + 1)%nat.
Proof. unfold post. destruct (i_sender x); intros [= <- _]; cbn; rewrite app_length; cbn; lia. Qed.

Lemma jobs_on w i f w' r : (forall x x' r, f x = (x', r) -> (im x' <= im x + 1)%nat) -> on_inst w i f = (w', r) -> (jobs w' <= jobs w + 1)%nat.
Proof.
  intros Hf. unfold on_inst. destruct (w_insts w !! i) as [x|] eqn:Hx; [|intros [= <- _]; lia]. destruct (f x) as [y r'] eqn:Hy. intros [= <- _].
  pose proof (jobs_set w i x y Hx). specialize (Hf _ _ _ Hy). cbn beta in *. lia.
Qed.

Lemma jobs_clear w hd w' r : do_clear E w hd = (w', r) -> (jobs w' <= jobs w + 1)%nat.
Proof.
  unfold do_clear. destruct (w_insts w !! h_inst hd) as [x|] eqn:Hx; [|intros [= <- _]; lia]. destruct (i_poison x); [intros [= <- _]; lia|].
  destruct (impl_clear E w (h_inst hd) x) as [w1 r1] eqn:Ec.
  assert (J : (jobs w1 <= jobs w + 1)%nat).
  { unfold impl_clear in Ec. destruct (negb (i_valid x)); [injection Ec as <- _; lia|]. destruct (post (i_invalid x) JRemove) as [x1 r0] eqn:Ep.
    pose proof (post_queue _ _ _ _ Ep) as Q. cbn in Q. pose proof (jobs_set w _ x x1 Hx) as M. cbn beta in M.
    destruct r0; try (injection Ec as <- _; lia). pose proof (jobs_drain (set_inst w (h_inst hd) x1) (h_inst hd)) as D.
    destruct (w_insts (drain E _ _) !! h_inst hd) as [x2|] eqn:H2; injection Ec as <- _; [|lia].
    pose proof (jobs_set _ _ x2 (i_quit x2) H2) as M2. cbn beta in M2. change (i_queue (i_quit x2)) with (i_queue x2) in M2. lia. }
  destruct r1; [|intros [= <- _]; exact J..].
  pose proof (benign_impl_clear E _ _ _ _ _ Hx Ec) as B1.
  destruct (open_impl E w1 (h_path hd) (h_key hd)) as [w2 o] eqn:Eo. pose proof (benign_trans _ _ _ B1 (benign_open E _ _ _ _ _ Eo)) as B2. pose proof (jobs_open _ _ _ _ _ Eo) as J2.
  assert (Hi : exists y, w_insts w2 !! h_inst hd = Some y) by (apply (b_insts _ _ B2); eauto). destruct Hi as [y Hy].
  destruct o as [z|].
  - pose proof (open_queue _ _ _ _ _ Eo) as Qz.
    destruct (_ && _); intros [= <- _]; [pose proof (jobs_set w2 _ y (i_with_poison z) Hy) as M|pose proof (jobs_set w2 _ y z Hy) as M]; cbn in M; rewrite Qz in M; cbn in M; lia.
  - rewrite Hy. intros [= <- _]. pose proof (jobs_set w2 _ y (i_with_poison y) Hy) as M. cbn in M. lia.
Qed.

Lemma jobs_call w h o w' r : step E w (event_of h o) = Some (w', r) -> (jobs w' <= jobs w + 1)%nat.
Proof.
  destruct o as [key v|key t|key|]; cbn [event_of step]; intros H; apply with_handle_Some in H as (hd & Hh & _ & H).
  - eapply jobs_on; [|exact H]. intros x x' r'. unfold inst_put. destruct (i_poison x); [intros [= <- _]; lia|].
    destruct (buffer_new key v); [destruct (i_valid x)|..]; try (intros [= <- _]; cbn; lia). intros Hp. apply post_queue in Hp. cbn in Hp. cbn beta. lia.
  - eapply jobs_on; [|exact H]. intros x x' r' [= <- _]. lia.
  - eapply jobs_on; [|exact H]. intros x x' r'. unfold inst_delete. destruct (i_poison x); [intros [= <- _]; lia|].
    destruct (i_valid x); [destruct (i_map x !! key)|]; try (intros [= <- _]; cbn; lia). intros Hp. apply post_queue in Hp. cbn in Hp. cbn beta. lia.
  - eapply jobs_clear, H.
Qed.

Lemma step_rtodo s a s' : LK s -> HN s -> rstep E s a s' -> (forall c o, a <> RInv c o) -> (rtodo s' < rtodo s)%nat.
Proof.
  intros L HH X Hn.
  assert (Mv : forall c p o p' w, r_ops s !! c = Some (p, o) -> (qstage p' + jobs w < qstage p + jobs (r_world s))%nat ->
    (mtotal qm (<[c := (p', o)]> (r_ops s)) + jobs w < rtodo s)%nat).
  { intros c p o p' w Hc Hl. pose proof (mtotal_change qm (r_ops s) c _ (p', o) Hc) as M. cbn -[mtotal qstage] in M. unfold rtodo. lia. }
  destruct X as [s path key|s h o U|s h U Nc|s c path key Hc Hw|s c path key Hc Hp|s c path key i Hc Hp Hf|s c path key Hc Hp Hf|s c o Hc Hw Hr|s c path key Hc Hp
    |s c path key i Hc Hp Hf|s c path key Hc Hp Hf|s c path key w x Hc Ho|s c path key w Hc Ho|s c path key i Hc|s c h hd Hc Hp Hh|s c h hd Hc Hp Hh|s c h hd last Hc Hh
    |s c o r Hc|s c h hd r Hc Hh Hs|s c h hd r Hc Hh Hs|s c h hd r x Hc Hh Hx Hq|s c h o w r Hc Hs|s i x Hx Hq Hi|s c o r Hc];
    try (exfalso; eapply Hn; reflexivity); unfold rtodo at 1; cbn [set_op set_w set_lk set_dead r_ops r_world];
    try (eapply Mv; [exact Hc|unfold jobs; cbn; lia]; fail).
  - (* build *)
    eapply Mv; [exact Hc|]. pose proof (jobs_open _ _ _ _ _ Ho) as J. pose proof (open_queue _ _ _ _ _ Ho) as Q.
    unfold jobs in *. cbn [w_insts]. rewrite mtotal_insert; [rewrite Q; cbn [length qstage]; rewrite J; lia|].
    apply open_impl_sub in Ho as (A & B & C & D & F & _). rewrite A, ?D, ?C, ?F. destruct (w_insts (r_world s) !! _) as [y|] eqn:Hy; [|reflexivity].
    apply (n_ibound _ HH) in Hy. lia.
  - eapply Mv; [exact Hc|]. pose proof (jobs_open _ _ _ _ _ Ho) as J. unfold jobs in *. cbn. lia.
  - eapply Mv; [exact Hc|]. destruct last; unfold jobs; cbn; lia.
  - eapply Mv; [exact Hc|]. destruct o; cbn; lia.
  - eapply Mv; [exact Hc|]. unfold jobs. cbn [w_insts set_handles set_insts]. pose proof (mtotal_delete im _ _ _ Hx) as M. cbn [qstage]. rewrite M. cbn beta. clear. lia.
  - eapply Mv; [exact Hc|]. pose proof (jobs_call _ _ _ _ _ Hs). cbn [qstage]. lia.
  - pose proof (jobs_job_less _ _ _ Hx Hq Hi). unfold rtodo. lia.
  - pose proof (mtotal_delete qm (r_ops s) c _ Hc) as M. cbn -[mtotal] in M. unfold rtodo. lia.
Qed.

(** ** Some step is possible *)

Definition waiting (p : rpc) : bool := match p with QWant | QWantW => true | _ => false end.

Lemma can_move s c p o : LK s -> HN s -> r_ops s !! c = Some (p, o) -> waiting p = false -> exists a s', rstep E s a s' /\ forall c o, a <> RInv c o.
Proof.
  intros L HH Hc Hw. pose proof (n_op _ HH _ _ _ Hc) as Ok.
  assert (T : forall s', rstep E s RTau s' -> exists a s', rstep E s a s' /\ forall c o, a <> RInv c o) by (intros s' X; exists RTau, s'; split; [exact X|discriminate]).
  destruct p as [| | | | |i|last|r|r|r|r]; try discriminate Hw.
  - destruct o as [path key|h|h o]; try destruct Ok. destruct (w_poison (r_world s)) eqn:P; [eapply T, q_read_poisoned; eassumption|].
    destruct (find s path) eqn:F; [eapply T, q_hit; eassumption|eapply T, q_miss; eassumption].
  - destruct o as [path key|h|h o]; try (destruct Ok; fail).
    + destruct (w_poison (r_world s)) eqn:P; [eapply T, q_write_poisoned; eassumption|].
      destruct (find s path) eqn:F; [eapply T, q_again; eassumption|eapply T, q_absent; eassumption].
    + destruct Ok as (hd & Hh & Hu). destruct (w_poison (r_world s)) eqn:P; [eapply T, q_close_poisoned; eassumption|eapply T, q_count; eassumption].
  - destruct o as [path key|h|h o]; try (destruct Ok; fail). destruct (open_impl E (r_world s) path key) as [w [x|]] eqn:Ho; [eapply T, q_build; eassumption|eapply T, q_build_panic; eassumption].
  - destruct o as [path key|h|h o]; try (destruct Ok; fail). eapply T, q_insert; eassumption.
  - destruct o as [path key|h|h o]; try (destruct Ok; fail). destruct Ok as (hd & Hh & Hu). eapply T, q_remove; eassumption.
  - eapply T, q_release; eassumption.
  - destruct o as [path key|h|h o]; try (destruct Ok; fail). destruct Ok as (hd & Hh & Hu).
    destruct (decide (strong (r_world s) (h_inst hd) = 1%nat)) as [S1|S1]; [eapply T, q_arc_last; eassumption|eapply T, q_arc; eassumption].
  - destruct o as [path key|h|h o]; try (destruct Ok; fail). destruct Ok as (hd & Hh & Hu & _). destruct (n_inst _ HH _ _ Hh) as [[x Hx] _].
    destruct (i_queue x) eqn:Q; [eapply T, q_joined; eauto|]. destruct (i_io x) eqn:Io; [eapply T, q_io; eauto; rewrite Q; discriminate|eapply T, q_joined; eauto].
  - exists (RRet c r). eexists. split; [eapply q_return; eassumption|discriminate].
Qed.

Lemma move_or_none s : LK s -> HN s -> (exists a s', rstep E s a s' /\ forall c o, a <> RInv c o) \/ r_ops s = ∅.
Proof.
  intros L HH. destruct (decide (r_ops s = ∅)) as [Z|Z]; [auto|left]. apply map_choose in Z as (c & [p o] & Hc).
  assert (W : (exists d, r_writer s = Some d) \/ r_writer s = None) by (destruct (r_writer s); eauto).
  destruct W as [[d W]|W].
  { destruct (k_w _ L _ W) as (q & oq & X & Y). eapply can_move; [exact L|exact HH|exact X|]. destruct q; (reflexivity || discriminate Y). }
  destruct (decide (r_readers s = ∅)) as [R|R].
  - destruct (waiting p) eqn:Wp; [|eapply can_move; eassumption]. pose proof (n_op _ HH _ _ _ Hc) as Ok. exists RTau.
    destruct p; try discriminate Wp.
    + destruct o as [path key|h|h o]; [eexists; split; [eapply q_read; eassumption|discriminate]|destruct Ok|].
      destruct Ok as (hd & Hh & Hu).
      assert (exists w r, step E (r_world s) (event_of h o) = Some (w, r)) as (w & r & Hs).
      { destruct o; cbn [event_of step]; unfold with_handle; rewrite Hh, Hu; match goal with |- exists w r, Some ?x = _ => destruct x as [w r]; exists w, r; reflexivity end. }
      eexists. split; [eapply q_do; eassumption|discriminate].
    + eexists. split; [eapply q_write; eassumption|discriminate].
  - apply set_choose_L in R as [d R]. destruct (k_r _ L _ R) as (q & oq & X & Y). eapply can_move; [exact L|exact HH|exact X|].
    destruct Y as [-> |Y]; [reflexivity|]. destruct q; (reflexivity || discriminate Y).
Qed.

Lemma rexec_app s1 ls1 s2 ls2 s3 : rexec E s1 ls1 s2 -> rexec E s2 ls2 s3 -> rexec E s1 (ls1 ++ ls2) s3.
Proof. intros A. induction 1 as [|ls s a s' _ IH X]; [rewrite app_nil_r; exact A|]. rewrite app_assoc. econstructor; eassumption. Qed.

(** A call has returned or is under way. *)
Lemma began_ret ls s : rexec E reg0 ls s -> forall c o, RInv c o ∈ ls -> (exists r, RRet c r ∈ ls) \/ is_Some (r_ops s !! c).
Proof.
  induction 1 as [|ls s1 a s2 _ IH X]; intros c o Hi; [inversion Hi|].
  apply in_rsnoc in Hi as [Hi|<-].
  - destruct (IH c o Hi) as [[r Hr]|Hs]; [left; exists r; apply in_rsnoc; auto|].
    assert (I : forall d y, is_Some (<[d := y]> (r_ops s1) !! c)) by (intros d y; at_op c d; eauto).
    destruct X; cbn; auto. destruct (decide (c = c0)) as [->|Hne]; [left; exists r; apply in_rsnoc; auto|right; rewrite lookup_delete_ne by congruence; exact Hs].
  - right. inversion X; subst; cbn; rewrite lookup_insert; eauto.
Qed.

(** From every state the threads can reach, in every environment and whatever
    was called: a continuation without new calls has at most [n] steps, and
    until every call has returned some thread can take a step.  So opening,
    closing and using stores cannot deadlock. *)
Theorem C60_calls_return ls s : rexec E reg0 ls s ->
  exists n, forall ls' s', rexec E s ls' s' -> (forall c o, RInv c o ∉ ls') ->
    (length ls' <= n)%nat /\
    ((exists a s'', rstep E s' a s'' /\ forall c o, a <> RInv c o) \/ (forall c o, RInv c o ∈ ls -> exists r, RRet c r ∈ ls ++ ls')).
Proof.
  intros X. exists (rtodo s). intros ls' s' Y Hn. split.
  - assert (G : (length ls' + rtodo s' <= rtodo s)%nat /\ LK s' /\ HN s'); [|lia].
    destruct (HN_exec E ls s X) as [L HH]. clear X.
    induction Y as [|ls' s1 a s2 Y IH S]; [split; [cbn; lia|auto]|].
    destruct IH as [IH [L1 H1]]; [intros c o D; apply (Hn c o); apply elem_of_app; auto|].
    split; [|split; [eapply LK_step; eassumption|eapply HN_step; eassumption]]. rewrite app_length. cbn [length].
    pose proof (step_rtodo s1 a s2 L1 H1 S) as M. assert (forall c o, a <> RInv c o) as Ha; [|specialize (M Ha); lia].
    intros c o ->. apply (Hn c o). apply elem_of_app. right. left.
  - pose proof (rexec_app _ _ _ _ _ X Y) as Z. destruct (HN_exec E _ _ Z) as [L HH].
    destruct (move_or_none s' L HH) as [M|M]; [left; exact M|right]. intros c o D.
    destruct (began_ret _ _ Z c o) as [R|[y Hy]]; [apply elem_of_app; auto|exact R|]. rewrite M, lookup_empty in Hy. discriminate Hy.
Qed.

Theorem C60_every_call_completes ls s : rexec E reg0 ls s ->
  exists ls' s', rexec E s ls' s' /\ (forall c o, RInv c o ∉ ls') /\ (forall c o, RInv c o ∈ ls -> exists r, RRet c r ∈ ls ++ ls').
Proof.
  intros X. destruct (C60_calls_return ls s X) as (n & N).
  assert (G : forall m ls1 s1, rexec E s ls1 s1 -> (forall c o, RInv c o ∉ ls1) -> (n - length ls1 < m)%nat ->
            exists ls' s', rexec E s ls' s' /\ (forall c o, RInv c o ∉ ls') /\ (forall c o, RInv c o ∈ ls -> exists r, RRet c r ∈ ls ++ ls')).
  { induction m as [|m IH]; intros ls1 s1 Y Hn Hm; [lia|]. destruct (N ls1 s1 Y Hn) as [Hl [(a & s2 & S & Ha)|D]].
    - assert (Y2 : rexec E s (ls1 ++ [a]) s2) by (econstructor; eassumption).
      assert (Hn2 : forall c o, RInv c o ∉ ls1 ++ [a]).
      { intros c o D. apply elem_of_app in D as [D|D]; [eapply Hn, D|]. apply elem_of_list_singleton in D. eapply Ha. symmetry. exact D. }
      pose proof (N _ _ Y2 Hn2) as [Hl2 _]. rewrite app_length in Hl2. cbn in Hl2. eapply IH; [exact Y2|exact Hn2|rewrite app_length; cbn; lia].
    - exists ls1, s1. auto. }
  apply (G (Datatypes.S n) [] s); [constructor|intros c o D; inversion D|cbn; lia].
Qed.

End Live.
