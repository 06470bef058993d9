(** C87: loggers that call the library. *)
From Verif Require Import Bytes Logging P_Log Echo.
From Coq Require Import ZArith ZifyBool ZifyNat ZifyN.
From Coq Require String. Import (notations) String.

Section Echo.
Context (says : N -> level -> line -> list ljob) (bye : N -> list ljob).
Notation reaches := (reaches says bye).
Notation thread_step := (thread_step says bye).
Notation thread_steps := (thread_steps says bye).
Notation requests := (requests says bye).

(** The past and the future of the requests; no push without a signal. *)
Record EInv (s : elog) (ran : list ljob) : Prop := {
  ei_posted : e_posted s = ran ++ e_buf s ++ e_queue s;
  ei_out : e_out s = deliveries ran;
  ei_logger : e_logger s = installed ran;
  ei_buf : (e_x s = EIdle \/ e_x s = ESwap) -> e_buf s = [];
  ei_signal : e_queue s <> [] -> (1 <= e_sig s + e_unsent s)%nat \/ e_x s = ESwap \/ exists r, e_x s = ESend r
}.

Lemma einv_0 : EInv elog0 [].
Proof. split; try reflexivity. intros H. contradiction H. reflexivity. Qed.

Lemma einv_prog s s' ran : EInv s ran -> prog_step s s' -> EInv s' ran.
Proof.
  intros [A B C D F] St. destruct St as [s l|s j Hp|s n Hn]; split; cbn; auto.
  - rewrite A, !app_assoc. reflexivity.
  - intros _. left. lia.
  - intros H. left. lia.
Qed.

Lemma puts_deliveries ran j : deliveries (ran ++ [j]) = deliveries ran ++ puts_out (installed ran) j.
Proof. rewrite deliveries_snoc. destruct j as [lv m|o]; [destruct (installed ran), lv; reflexivity|reflexivity]. Qed.

Lemma einv_thread s s' ran : EInv s ran -> thread_step s s' -> exists ran', EInv s' ran'.
Proof.
  intros [A B C D F] St. destruct St as [s n Hx Hn|s Hx|s j b Hx Hb|s Hx Hb|s j r Hx Hp|s j r Hx Hp|s r Hx|s Hx].
  - exists ran. split; cbn; auto.
  - exists ran. rewrite (D (or_intror Hx)) in *. split; cbn; auto.
    + rewrite app_nil_r. exact A.
    + intros [H|H]; discriminate H.
    + intros H. contradiction H. reflexivity.
  - exists (ran ++ [j]). split; cbn.
    + rewrite A, Hb, <- app_assoc. reflexivity.
    + rewrite puts_deliveries, B, C. reflexivity.
    + rewrite installed_snoc, C. destruct j; reflexivity.
    + intros [H|H]; discriminate H.
    + intros H. destruct (F H) as [G|[G|[r G]]]; [left; exact G|congruence|congruence].
  - exists ran. split; cbn; auto. intros H. destruct (F H) as [G|[G|[r G]]]; [left; exact G|congruence|congruence].
  - exists ran. split; cbn; auto.
    + rewrite A, !app_assoc. reflexivity.
    + intros [H|H]; discriminate H.
    + intros _. right. right. eauto.
  - exists ran. split; cbn; auto.
    + intros [H|H]; discriminate H.
    + intros H. destruct (F H) as [G|[G|[r' G]]]; [left; exact G|congruence|congruence].
  - exists ran. split; cbn; auto.
    + intros [H|H]; discriminate H.
    + intros H. left. lia.
  - exists ran. split; cbn; auto.
    + intros [H|H]; discriminate H.
    + intros H. destruct (F H) as [G|[G|[r G]]]; [left; exact G|congruence|congruence].
Qed.

Lemma einv s : reaches s -> exists ran, EInv s ran.
Proof.
  induction 1 as [|s s' _ [ran IH] St|s s' _ [ran IH] St]; [exists []; apply einv_0|exists ran; eapply einv_prog; eauto|eapply einv_thread; eauto].
Qed.

(** The thread can always go on unless it is at rest. *)
Lemma goes_on s : reaches s -> e_unsent s = 0%nat -> at_rest s \/ exists s', thread_step s s'.
Proof.
  intros R Hu. destruct (einv s R) as [ran [A B C D F]]. destruct (e_x s) as [| | |[|j r]|r] eqn:Hx.
  - destruct (e_sig s) as [|n] eqn:Hn; [|right; eexists; eapply th_next; eauto]. left. split; [exact Hx|]. split; [|apply D; auto].
    destruct (e_queue s); [reflexivity|]. destruct F as [G|[G|[r G]]]; [discriminate|lia|discriminate|discriminate].
  - right. eexists. apply th_swap, Hx.
  - right. destruct (e_buf s) as [|j b] eqn:Hb; eexists; [eapply th_empty; eauto|eapply th_run; eauto].
  - right. eexists. apply th_done, Hx.
  - right. destruct (passes s j) eqn:Hp; eexists; [eapply th_push; eauto|eapply th_skip; eauto].
  - right. eexists. eapply th_send, Hx.
Qed.

Lemma thread_keeps s s' : thread_step s s' -> e_unsent s' = e_unsent s.
Proof. destruct 1; reflexivity. Qed.

(** A measure: every request costs what it asks for. *)
Context (wt : ljob -> nat).
Definition weight (js : list ljob) : nat := list_sum (map (fun j => S (wt j)) js).
Definition modest : Prop := forall cur j, (weight (requests cur j) < wt j)%nat.
Definition total (js : list ljob) : nat := list_sum (map wt js).

Definition here (x : epc) : nat :=
  match x with EIdle => 0 | ESwap => 2 | ERun => 1 | EIn r => 2 + 7 * weight r | ESend r => 8 + 7 * weight r end.
Definition cost (s : elog) : nat := 7 * total (e_queue s) + 7 * total (e_buf s) + 3 * e_sig s + here (e_x s).

Lemma cost_step s s' : modest -> thread_step s s' -> (cost s' < cost s)%nat.
Proof.
  intros M St. unfold cost. destruct St as [s n Hx Hn|s Hx|s j b Hx Hb|s Hx Hb|s j r Hx Hp|s j r Hx Hp|s r Hx|s Hx]; cbn [e_queue e_buf e_sig e_x push]; rewrite Hx; cbn [here].
  - lia.
  - lia.
  - rewrite Hb. unfold total at 4. cbn [map list_sum]. change (list_sum (map wt b)) with (total b). pose proof (M (e_logger s) j). unfold list_sum. cbn [fold_right]. fold (list_sum (map wt b)).
    change (list_sum (map wt b)) with (total b). lia.
  - lia.
  - assert (T : total (e_queue s ++ [j]) = (total (e_queue s) + wt j)%nat) by (unfold total; rewrite map_app, list_sum_app; cbn; lia). rewrite T.
    unfold weight. cbn [map]. change (list_sum (S (wt j) :: map (fun j => S (wt j)) r)) with (S (wt j) + list_sum (map (fun j => S (wt j)) r))%nat. lia.
  - unfold weight. cbn [map]. change (list_sum (S (wt j) :: map (fun j => S (wt j)) r)) with (S (wt j) + list_sum (map (fun j => S (wt j)) r))%nat. lia.
  - lia.
  - unfold weight. cbn. lia.
Qed.

Lemma cost_steps n s s' : modest -> thread_steps n s s' -> (n + cost s' <= cost s)%nat.
Proof.
  intros M. induction 1 as [|n s s1 s2 St _ IH]; [lia|]. pose proof (cost_step _ _ M St). lia.
Qed.

End Echo.

(** * C87 *)

(** Whatever loggers do when they are given a line or released: every request
    that has been made -- theirs included -- is carried out once, in the order in
    which the requests were made, lines by the logger installed by the requests
    before them; what has not been is still waiting. *)
Theorem C87_every_line_in_order says bye s : reaches says bye s ->
  exists ran, e_posted s = ran ++ e_buf s ++ e_queue s /\ e_out s = deliveries ran.
Proof. intros R. destruct (einv says bye s R) as [ran [A B C D F]]. exists ran. auto. Qed.

(** Nobody waits for anybody: in every state every thread may make a request that
    passes the level, and send its signal, at once; and the log thread, unless it has
    nothing to do, can go on as soon as nobody is between the two. *)
Theorem C87_no_deadlock says bye s : reaches says bye s ->
  (forall j, passes s j = true -> exists s', prog_step s s' /\ e_posted s' = e_posted s ++ [j]) /\
  (e_unsent s <> 0%nat -> exists s', prog_step s s' /\ S (e_unsent s') = e_unsent s) /\
  (e_unsent s = 0%nat -> at_rest s \/ exists s', thread_step says bye s s').
Proof.
  intros R. split; [|split].
  - intros j Hp. eexists. split; [apply pr_push, Hp|reflexivity].
  - intros Hu. destruct (e_unsent s) as [|n] eqn:Hn; [contradiction|]. eexists. split; [eapply pr_send, Hn|reflexivity].
  - exact (goes_on says bye s R).
Qed.

(** The wish: when the program stops logging, the log thread comes to rest. *)
Definition log_comes_to_rest (says : N -> level -> line -> list ljob) (bye : N -> list ljob) : Prop :=
  forall s, reaches says bye s -> e_unsent s = 0%nat -> exists bound, forall n s', thread_steps says bye n s s' ->
    (n <= bound)%nat /\ (at_rest s' \/ exists s'', thread_step says bye s' s'').

(** It does if requests of loggers do not lead to requests for ever: each kind of
    request has a finite weight, greater than those of the requests it causes. *)
Theorem C87_modest_loggers_partial says bye : (exists wt, modest says bye wt) -> log_comes_to_rest says bye.
Proof.
  intros [wt M] s R Hu. exists (cost wt s). intros n s' St. split; [pose proof (cost_steps says bye wt _ _ _ M St); lia|].
  assert (G : reaches says bye s' /\ e_unsent s' = 0%nat).
  { clear M. revert R Hu. induction St as [|n s s1 s2 St _ IH]; [auto|]. intros R Hu. apply IH; [eapply rc_thread; eauto|]. rewrite (thread_keeps _ _ _ _ St). exact Hu. }
  destruct G as [R' Hu']. apply goes_on; assumption.
Qed.

(** The loggers of the C interface: delivering a line makes no request (the
    copies made for it are not logged, ffi_buffer.rs:23, 38), the destructor one
    line (ffi/mod.rs:64). *)
Corollary C87_c_loggers_partial text : log_comes_to_rest (fun _ _ _ => []) (fun id => [JLine Verbose (text id)]).
Proof.
  apply C87_modest_loggers_partial. exists (fun j => match j with JLine _ _ => 1 | JLogger _ => 3 end%nat).
  intros cur [lv m|o]; cbn; [destruct cur, lv; cbn; lia|destruct cur; cbn; lia].
Qed.

(** But a logger that, on every line, calls one function of the library that
    writes a line (opening a store, say, or any call of the C interface) keeps the log
    thread busy for ever once a single line has been written. *)
Definition chatty (id : N) (lv : level) (m : line) : list ljob := [JLine Verbose m].

Definition nobye (_ : N) : list ljob := [].
Definition at5 (q b : list ljob) (sg un : nat) (x : epc) (o : option N) (out : list Logging.out) (posted : list ljob) : elog := ELog 5 q b sg un x o out posted.

Lemma cycle m out posted : let L := JLine Verbose m in let id := Some 0%N in
  thread_steps chatty nobye 7 (at5 [L] [] 1 0 EIdle id out posted) (at5 [L] [] 1 0 EIdle id (out ++ [OLine id Verbose m]) (posted ++ [L])).
Proof.
  intros L id. set (out' := out ++ [OLine id Verbose m]). set (posted' := posted ++ [L]).
  apply (ts_S _ _ _ _ (at5 [L] [] 0 0 ESwap id out posted)); [exact (th_next _ _ (at5 [L] [] 1 0 EIdle id out posted) 0 eq_refl eq_refl)|].
  apply (ts_S _ _ _ _ (at5 [] [L] 0 0 ERun id out posted)); [exact (th_swap _ _ (at5 [L] [] 0 0 ESwap id out posted) eq_refl)|].
  apply (ts_S _ _ _ _ (at5 [] [] 0 0 (EIn [L]) id out' posted)); [exact (th_run _ _ (at5 [] [L] 0 0 ERun id out posted) L [] eq_refl eq_refl)|].
  apply (ts_S _ _ _ _ (at5 [L] [] 0 0 (ESend []) id out' posted')); [exact (th_push _ _ (at5 [] [] 0 0 (EIn [L]) id out' posted) L [] eq_refl eq_refl)|].
  apply (ts_S _ _ _ _ (at5 [L] [] 1 0 (EIn []) id out' posted')); [exact (th_send _ _ (at5 [L] [] 0 0 (ESend []) id out' posted') [] eq_refl)|].
  apply (ts_S _ _ _ _ (at5 [L] [] 1 0 ERun id out' posted')); [exact (th_done _ _ (at5 [L] [] 1 0 (EIn []) id out' posted') eq_refl)|].
  apply (ts_S _ _ _ _ (at5 [L] [] 1 0 EIdle id out' posted')); [exact (th_empty _ _ (at5 [L] [] 1 0 ERun id out' posted') eq_refl eq_refl)|].
  apply ts_0.
Qed.

Lemma steps_app says bye n s s1 k s2 : thread_steps says bye n s s1 -> thread_steps says bye k s1 s2 -> thread_steps says bye (n + k) s s2.
Proof. induction 1 as [|n s s1 s2' St _ IH]; intros H; [exact H|]. eapply ts_S; [exact St|]. apply IH, H. Qed.

Lemma for_ever m k : forall out posted, exists s', thread_steps chatty nobye (k * 7) (at5 [JLine Verbose m] [] 1 0 EIdle (Some 0%N) out posted) s'.
Proof.
  induction k as [|k IH]; intros out posted; [eexists; apply ts_0|]. destruct (IH (out ++ [OLine (Some 0%N) Verbose m]) (posted ++ [JLine Verbose m])) as [s' H].
  exists s'. cbn [Nat.mul]. eapply steps_app; [apply cycle|exact H].
Qed.

(** One line after set_logger. *)
Lemma chatty_reached says m : reaches says nobye (at5 [JLine Verbose m] [] 1 0 EIdle (Some 0%N) [] [JLogger (Some 0%N); JLine Verbose m]).
Proof.
  set (G := JLogger (Some 0%N)). set (L := JLine Verbose m). set (id := Some 0%N).
  assert (R1 : reaches says nobye (at5 [G] [] 0 1 EIdle None [] [G])) by exact (rc_prog _ _ _ _ (rc_start _ _) (pr_push elog0 G eq_refl)).
  assert (R2 : reaches says nobye (at5 [G] [] 1 0 EIdle None [] [G])) by exact (rc_prog _ _ _ _ R1 (pr_send (at5 [G] [] 0 1 EIdle None [] [G]) 0 eq_refl)).
  assert (R3 : reaches says nobye (at5 [G] [] 0 0 ESwap None [] [G])) by exact (rc_thread _ _ _ _ R2 (th_next _ _ (at5 [G] [] 1 0 EIdle None [] [G]) 0 eq_refl eq_refl)).
  assert (R4 : reaches says nobye (at5 [] [G] 0 0 ERun None [] [G])) by exact (rc_thread _ _ _ _ R3 (th_swap _ _ (at5 [G] [] 0 0 ESwap None [] [G]) eq_refl)).
  assert (R5 : reaches says nobye (at5 [] [] 0 0 (EIn []) id [] [G])) by exact (rc_thread _ _ _ _ R4 (th_run _ _ (at5 [] [G] 0 0 ERun None [] [G]) G [] eq_refl eq_refl)).
  assert (R6 : reaches says nobye (at5 [] [] 0 0 ERun id [] [G])) by exact (rc_thread _ _ _ _ R5 (th_done _ _ (at5 [] [] 0 0 (EIn []) id [] [G]) eq_refl)).
  assert (R7 : reaches says nobye (at5 [] [] 0 0 EIdle id [] [G])) by exact (rc_thread _ _ _ _ R6 (th_empty _ _ (at5 [] [] 0 0 ERun id [] [G]) eq_refl eq_refl)).
  assert (R8 : reaches says nobye (at5 [L] [] 0 1 EIdle id [] [G; L])) by exact (rc_prog _ _ _ _ R7 (pr_push (at5 [] [] 0 0 EIdle id [] [G]) L eq_refl)).
  exact (rc_prog _ _ _ _ R8 (pr_send (at5 [L] [] 0 1 EIdle id [] [G; L]) 0 eq_refl)).
Qed.

Theorem C87_chatty_logger_refuted : ~ forall says bye, log_comes_to_rest says bye.
Proof.
  intros H. destruct (H _ _ _ (chatty_reached chatty []) eq_refl) as [b Hb].
  destruct (for_ever [] (S b) [] [JLogger (Some 0%N); JLine Verbose []]) as [s' St]. destruct (Hb _ _ St) as [G _]. lia.
Qed.

(** In general: a logger that answers every line with lines that pass the level
    never lets the log thread rest again, and if it answers with two or more, what is
    waiting grows by one with every line delivered. *)
Theorem C87_answering_logger_partial says bye id s : reaches says bye s -> e_unsent s = 0%nat -> e_logger s = Some id ->
  (forall lv m, says id lv m <> [] /\ Forall (loud (e_level s)) (says id lv m)) ->
  pending s <> [] -> Forall (loud (e_level s)) (pending s) ->
  forall n s', thread_steps says bye n s s' ->
    (~ at_rest s' /\ exists s'', thread_step says bye s' s'') /\
    ((forall lv m, (2 <= length (says id lv m))%nat) -> (length (pending s) + length (e_out s') <= length (pending s') + length (e_out s))%nat).
Proof.
  intros R Hu Hl Hs Hp Hf n s' St.
  assert (G : reaches says bye s' /\ e_unsent s' = 0%nat /\ e_logger s' = Some id /\ e_level s' = e_level s /\ pending s' <> [] /\ Forall (loud (e_level s)) (pending s') /\
    ((forall lv m, (2 <= length (says id lv m))%nat) -> (length (pending s) + length (e_out s') <= length (pending s') + length (e_out s))%nat)).
  2:{ destruct G as (R' & Hu' & _ & _ & Hp' & _ & HL). split; [|exact HL]. assert (NR : ~ at_rest s').
      { intros (X & Y & Z). apply Hp'. unfold pending. rewrite X, Y, Z. reflexivity. }
      split; [exact NR|]. destruct (goes_on says bye s' R' Hu') as [X|X]; [contradiction|exact X]. }
  induction St as [s|n s s1 s2 St Sts IH].
  { split; [exact R|]. split; [exact Hu|]. split; [exact Hl|]. split; [reflexivity|]. split; [exact Hp|]. split; [exact Hf|]. lia. }
  assert (P1 : e_logger s1 = Some id /\ e_level s1 = e_level s /\ pending s1 <> [] /\ Forall (loud (e_level s)) (pending s1) /\
    ((forall lv m, (2 <= length (says id lv m))%nat) -> (length (pending s) + length (e_out s1) <= length (pending s1) + length (e_out s))%nat)).
  { unfold pending in *. destruct St as [s k Hx Hn|s Hx|s j b Hx Hb|s Hx Hb|s j r Hx Hps|s j r Hx Hps|s r Hx|s Hx]; cbn [push e_logger e_level e_buf e_queue e_x e_out] in *; rewrite ?Hx in *; cbn [app] in *.
    - split_and!; auto.
    - rewrite !app_nil_r in *. split_and!; auto.
      + intros H. apply app_eq_nil in H as [H1 H2]. apply Hp. rewrite H1, H2. reflexivity.
      + rewrite Forall_app in *. tauto.
      + intros _. rewrite !app_length. lia.
    - rewrite Hb in *. rewrite app_nil_r in *. cbn [app] in Hf. apply Forall_cons in Hf as [Hj Hf]. destruct j as [lv m|o]; [|contradiction Hj]. destruct Hj as [Hj1 Hj2].
      assert (Eq : Echo.requests says bye (e_logger s) (JLine lv m) = says id lv m) by (rewrite Hl; destruct lv; [contradiction|reflexivity..]).
      assert (Ep : puts_out (e_logger s) (JLine lv m) = [OLine (Some id) lv m]) by (rewrite Hl; destruct lv; [contradiction|reflexivity..]).
      rewrite Eq, Ep. destruct (Hs lv m) as [H1 H2]. split_and!; auto.
      + intros H. apply app_eq_nil in H as [_ H]. apply app_eq_nil in H as [_ H]. exact (H1 H).
      + rewrite app_assoc. apply Forall_app. split; assumption.
      + intros H3. specialize (H3 lv m). cbn [app length]. rewrite !app_length. cbn [length]. lia.
    - split_and!; auto.
    - split_and!; auto.
      + intros H. apply app_eq_nil in H as [_ H]. rewrite <- app_assoc in H. apply app_eq_nil in H as [_ H]. discriminate H.
      + rewrite <- app_assoc. exact Hf.
      + intros _. rewrite !app_length. cbn [length]. lia.
    - exfalso. apply Forall_app in Hf as [_ Hf]. apply Forall_app in Hf as [_ Hf]. apply Forall_cons in Hf as [Hf _]. destruct j as [lv m|o]; [|contradiction Hf]. destruct Hf as [_ Hf]. cbn [passes] in Hps.
      destruct (Z.ltb_spec (e_level s) (code lv)); [lia|discriminate Hps].
    - split_and!; auto.
    - split_and!; auto. }
  destruct P1 as (Q1 & Q2 & Q3 & Q4 & Q5).
  destruct IH as (I1 & I2 & I3 & I4 & I5 & I6 & I7).
  - eapply rc_thread; eauto.
  - rewrite (thread_keeps _ _ _ _ St). exact Hu.
  - exact Q1.
  - intros lv m. rewrite Q2. apply Hs.
  - exact Q3.
  - rewrite Q2. exact Q4.
  - rewrite Q2 in I4, I6. split; [exact I1|]. split; [exact I2|]. split; [exact I3|]. split; [exact I4|]. split; [exact I5|]. split; [exact I6|].
    intros H. specialize (I7 H). specialize (Q5 H). lia.
Qed.

(** Two lines for every line (a get of the C interface writes more): the
    hypotheses are met right after set_logger and one line, so that from there on
    nothing ever comes to rest and the queue grows with every line. *)
Lemma C87_answering_example m : let says := fun (_ : N) (_ : level) (x : line) => [JLine Verbose x; JLine Debug x] in
  let s := at5 [JLine Verbose m] [] 1 0 EIdle (Some 0%N) [] [JLogger (Some 0%N); JLine Verbose m] in
  reaches says nobye s /\ e_unsent s = 0%nat /\ e_logger s = Some 0%N /\
  (forall lv x, says 0%N lv x <> [] /\ Forall (loud (e_level s)) (says 0%N lv x)) /\ pending s <> [] /\ Forall (loud (e_level s)) (pending s) /\
  (forall lv x, (2 <= length (says 0%N lv x))%nat).
Proof.
  intros says s. split; [apply chatty_reached|]. split; [reflexivity|]. split; [reflexivity|]. split.
  - intros lv x. split; [discriminate|]. repeat constructor; cbn; (discriminate || lia).
  - split; [discriminate|]. split; [repeat constructor; cbn; (discriminate || lia)|]. intros. cbn. lia.
Qed.

(** A logger that makes something of some lines only: it writes an error line for
    every warning, and its destructor a warning. *)
Lemma C87_modest_example : log_comes_to_rest (fun id lv m => match lv with Warn => [JLine Error m] | _ => [] end) (fun id => [JLine Warn []]).
Proof.
  apply C87_modest_loggers_partial. exists (fun j => match j with JLine Warn _ => 3 | JLine _ _ => 1 | JLogger _ => 5 end%nat).
  intros cur [lv m|o]; cbn; [destruct cur, lv; cbn; lia|destruct cur; cbn; lia].
Qed.
