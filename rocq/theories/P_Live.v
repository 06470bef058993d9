(** C56: every call returns.  However the threads are scheduled, once no new
    calls begin the schedule ends after a bounded number of steps, and it
    cannot end before every call has returned and the background thread has
    finished its work: no deadlock and no livelock. *)
From Verif Require Import Bytes Utf8 Proto ProtoFacts Value Codec Store StoreFacts Encrypt World Spec Hyps Refine WorldInv WorldStep Main Frames Reach Examples P_Map P_Store P_Fail Looper P_Loop Conc P_Conc.
From Coq Require Import ZifyBool ZifyNat ZifyN.
Local Open Scope N_scope.

(** ** A measure *)

Definition mtotal {A} (f : A -> nat) (m : gmap N A) : nat := map_fold (fun _ x n => (f x + n)%nat) 0%nat m.

Lemma mtotal_insert {A} (f : A -> nat) (m : gmap N A) k x : m !! k = None -> mtotal f (<[k := x]> m) = (f x + mtotal f m)%nat.
Proof. intros H. unfold mtotal. rewrite map_fold_insert_L; [reflexivity|intros; lia|exact H]. Qed.

Lemma mtotal_delete {A} (f : A -> nat) (m : gmap N A) k x : m !! k = Some x -> mtotal f m = (f x + mtotal f (delete k m))%nat.
Proof. intros H. rewrite <- (insert_delete m k x H) at 1. apply mtotal_insert, lookup_delete. Qed.

Lemma mtotal_change {A} (f : A -> nat) (m : gmap N A) k x y : m !! k = Some x -> (mtotal f (<[k := y]> m) + f x = mtotal f m + f y)%nat.
Proof.
  intros H. rewrite (mtotal_delete f m k x H), <- insert_delete_insert, mtotal_insert by apply lookup_delete. lia.
Qed.

Definition stage (p : apc) : nat :=
  match p with
  | AWant => 60 | AHeld => 59 | APost _ => 58 | AWait _ => 40 | AQuit => 30 | AJoin => 20 | AOpen => 15 | ARet _ => 5 | ADone _ => 4
  end.
Definition pstage (p : ppc) : nat := match p with PLock => 12 | PHold => 11 | PRel => 9 | PSend => 8 end.

Definition todo (s : conc) : nat :=
  (work (c_loop s) + mtotal (fun x => stage x.1) (c_calls s) + mtotal (fun x => pstage x.1) (l_posts (c_loop s)))%nat.

Section Live.
Context (E : env) (i : N).

Notation pm := (fun x : ppc * job => pstage x.1).
Notation cm := (fun x : apc * (N * cop) => stage x.1).

Lemma pstep_todo (l l' : loop job world) a : SInv l -> pstep l a l' ->
  (work l' + mtotal pm (l_posts l') + match a with LCall _ _ => 0 | LRet _ _ => 3 | _ => 1 end
   <= work l + mtotal pm (l_posts l) + match a with LCall _ _ => 12 | _ => 0 end)%nat.
Proof.
  intros SI X. destruct X as [l j K|l c j Hp Hl|l c j Hp|l c j Hp|l c j Hp Hs Ha|l c j Hp Hs];
    unfold work; cbn [set_next set_posts set_lock set_queue set_chan l_chan l_buf l_queue l_x l_posts]; rewrite ?app_length; cbn [length].
  - rewrite mtotal_insert; [cbn; lia|]. destruct (l_posts l !! l_next l) as [y|] eqn:Y; [|reflexivity]. apply (s_next _ SI) in Y. lia.
  - pose proof (mtotal_change pm (l_posts l) c _ (PHold, j) Hp) as M. cbn -[work mtotal] in M. lia.
  - pose proof (mtotal_change pm (l_posts l) c _ (PRel, j) Hp) as M. cbn -[work mtotal] in M. lia.
  - pose proof (mtotal_change pm (l_posts l) c _ (PSend, j) Hp) as M. cbn -[work mtotal] in M. lia.
  - pose proof (mtotal_delete pm (l_posts l) c _ Hp) as M. cbn -[work mtotal] in M. lia.
  - pose proof (mtotal_delete pm (l_posts l) c _ Hp) as M. cbn -[work mtotal] in M. lia.
Qed.

Lemma step_todo s a s' : LInv s -> cstep E i s a s' -> (forall c h o, a <> HInv c h o) -> (todo s' < todo s)%nat.
Proof.
  intros L X Hn. pose proof (k_loop _ L) as SI.
  destruct X as [s h o|s c h o Hc He Hw|s c h o Hc He Hw Hr|s c h o f r Hc Hb|s c h o f j Hc Hb|s c h o f Hc Hb|s c h o j l Hc Hp|s l Hp|s c h o lc ok l Hc Hp
    |s c h o l Hc Hk Hch|s c h o l Hc Hk|s c h o ok l Hc Hk|s c h o hd w y Hc Hh Ho Hk|s c h o hd w y Hc Hh Ho Hk Ha|s c h o hd w Hc Hh Ho|s a l Hx|s c h o r Hc|s c h o r Hc];
    unfold todo; cbn [set_call set_rw set_front set_loop c_calls c_loop].
  - exfalso. eapply Hn. reflexivity.
  - pose proof (mtotal_change cm (c_calls s) c _ (AHeld, (h, o)) Hc) as M. cbn -[work mtotal] in M. lia.
  - pose proof (mtotal_change cm (c_calls s) c _ (AHeld, (h, o)) Hc) as M. cbn -[work mtotal] in M. lia.
  - pose proof (mtotal_change cm (c_calls s) c _ (ARet r, (h, o)) Hc) as M. cbn -[work mtotal] in M. lia.
  - pose proof (mtotal_change cm (c_calls s) c _ (APost j, (h, o)) Hc) as M. cbn -[work mtotal] in M. lia.
  - pose proof (mtotal_change cm (c_calls s) c _ (AOpen, (h, o)) Hc) as M. cbn -[work mtotal] in M. lia.
  - pose proof (mtotal_change cm (c_calls s) c _ (AWait (l_next (c_loop s)), (h, o)) Hc) as M. cbn -[work mtotal] in M.
    pose proof (pstep_todo _ _ _ SI Hp) as P. cbn -[work mtotal] in P. lia.
  - pose proof (pstep_todo _ _ _ SI Hp) as P. cbn -[work mtotal] in P. lia.
  - set (q := if ok then _ else _). pose proof (mtotal_change cm (c_calls s) c _ (q, (h, o)) Hc) as M. cbn -[work mtotal] in M.
    assert (stage q <= 30)%nat by (unfold q; destruct ok; [destruct o|]; cbn; lia).
    pose proof (pstep_todo _ _ _ SI Hp) as P. cbn -[work mtotal] in P. lia.
  - pose proof (mtotal_change cm (c_calls s) c _ (AJoin, (h, o)) Hc) as M. cbn -[work mtotal] in M.
    assert (l_posts l = l_posts (c_loop s) /\ (work l = work (c_loop s) + 5)%nat) as [-> ->].
    { inversion Hk; subst; unfold work; cbn in *; [rewrite app_length; cbn; split; [reflexivity|lia]|].
      exfalso. apply (f_equal length) in Hch. rewrite app_length in Hch. cbn in Hch. lia. }
    lia.
  - pose proof (mtotal_change cm (c_calls s) c _ (ARet (RErr IOError), (h, o)) Hc) as M. cbn -[work mtotal] in M.
    assert (l_posts l = l_posts (c_loop s) /\ work l = work (c_loop s)) as [-> ->] by (inversion Hk; subst; split; reflexivity). lia.
  - set (q := if ok then _ else _). pose proof (mtotal_change cm (c_calls s) c _ (q, (h, o)) Hc) as M. cbn -[work mtotal] in M.
    assert (stage q <= 15)%nat by (unfold q; destruct ok; cbn; lia).
    assert (l_posts l = l_posts (c_loop s) /\ work l = work (c_loop s)) as [-> ->] by (inversion Hk; subst; split; reflexivity). lia.
  - pose proof (mtotal_change cm (c_calls s) c _ (ARet (ROk None), (h, o)) Hc) as M. cbn -[work mtotal] in M.
    change (work (loop0 (set_inst w i y))) with 1%nat. change (mtotal pm (l_posts (loop0 (set_inst w i y)))) with 0%nat. lia.
  - set (r := match l_x (c_loop s) with XDead => RPanic | _ => ROk None end). pose proof (mtotal_change cm (c_calls s) c _ (ARet r, (h, o)) Hc) as M. cbn -[work mtotal] in M.
    change (work (loop0 (set_inst w i y))) with 1%nat. change (mtotal pm (l_posts (loop0 (set_inst w i y)))) with 0%nat. lia.
  - pose proof (mtotal_change cm (c_calls s) c _ (ARet RPanic, (h, o)) Hc) as M. cbn -[work mtotal] in M.
    change (work (set_cb (c_loop s) w)) with (work (c_loop s)). change (l_posts (set_cb (c_loop s) w)) with (l_posts (c_loop s)). lia.
  - pose proof (xstep_work _ _ _ _ Hx) as W. destruct (xstep_k _ _ _ _ Hx) as [_ ->]. lia.
  - pose proof (mtotal_change cm (c_calls s) c _ (ADone r, (h, o)) Hc) as M. cbn -[work mtotal] in M. lia.
  - pose proof (mtotal_delete cm (c_calls s) c _ Hc) as M. cbn -[work mtotal] in M |- *. lia.
Qed.

(** Something other than a new call can happen. *)
Definition moves (s : conc) : Prop := exists a s', cstep E i s a s' /\ forall c h o, a <> HInv c h o.

Lemma moves_1 s a s' : cstep E i s a s' -> (forall c h o, a <> HInv c h o) -> moves s.
Proof. intros X N. exists a, s'. auto. Qed.
Lemma moves_tau s s' : cstep E i s HTau s' -> moves s.
Proof. intros X. eapply moves_1; [exact X|discriminate]. Qed.

Lemma move_posts s : LInv s -> moves s \/ l_posts (c_loop s) = ∅.
Proof.
  intros L. pose proof (k_loop _ L) as SI. destruct (decide (l_posts (c_loop s) = ∅)) as [P|P]; [right; exact P|left].
  apply map_choose in P as (lc & [pc j] & Y).
  assert (NT : forall l', pstep (c_loop s) LTau l' -> moves s) by (intros l' X; eapply moves_tau, c_posting, X).
  assert (NX : forall a l', xstep (cexec E i) (c_loop s) a l' -> moves s) by (intros a l' X; eapply moves_tau, c_background, X).
  destruct pc.
  - destruct (l_lock (c_loop s)) as [[c|]|] eqn:El.
    + destruct (s_lockp _ SI c El) as (pc & j' & Hp & Hh). destruct (p_progress (c_loop s) c pc j' Hp Hh) as (a & l' & Z & ->). eapply NT, Z.
    + apply (s_lockx _ SI) in El. destruct (l_x (c_loop s)) eqn:Ex; try discriminate El; eapply NX; [apply x_swap|apply x_unlock]; exact Ex.
    + eapply NT, p_lock; eassumption.
  - eapply NT, p_push; eassumption.
  - eapply NT, p_unlock; eassumption.
  - destruct (k_post _ L _ _ Y) as (c & h & o & Hc).
    destruct (l_sender (c_loop s)) eqn:A, (alive (l_x (c_loop s))) eqn:B; eapply moves_tau.
    1: apply (c_posted E i s c h o lc true _ Hc (p_send _ _ _ Y A B)).
    all: apply (c_posted E i s c h o lc false _ Hc (p_fail _ _ _ Y ltac:(tauto))).
Qed.

Context (keyof : bytes -> bytes) (es0 : list event) (w0 : world) (rs0 : list result) (x0 : inst).
Context (HO : ordinary E keyof es0) (Hrun0 : run E world0 es0 = Some (w0, rs0)) (Hx0 : w_insts w0 !! i = Some x0) (Hq0 : i_queue x0 = []).

Definition idle (l : loop job world) : Prop := l_chan l = [] /\ l_sender l = true /\ l_x l = XRecv.

Lemma move_x s : LInv s -> l_posts (c_loop s) = ∅ -> alive (l_x (c_loop s)) = true -> moves s \/ idle (c_loop s).
Proof.
  intros L P Al. pose proof (k_loop _ L) as SI.
  assert (Go : l_chan (c_loop s) <> [] \/ l_sender (c_loop s) = false \/ l_x (c_loop s) <> XRecv -> moves s).
  { intros Z. destruct (x_progress (cexec E i) _ SI Al Z) as [(a & l' & X)|(c & pc & j & _ & Hp & _)]; [eapply moves_tau, c_background, X|].
    rewrite P, lookup_empty in Hp. discriminate Hp. }
  destruct (l_chan (c_loop s)) eqn:Ec; [|left; apply Go; left; discriminate].
  destruct (l_sender (c_loop s)) eqn:Es; [|left; apply Go; auto].
  destruct (l_x (c_loop s)) eqn:Ex; try (left; apply Go; right; right; discriminate). right. repeat split; assumption.
Qed.

Definition wants (x : apc * (N * cop)) : Prop := match x.1 with AWant => True | _ => False end.
Global Instance wants_dec x : Decision (wants x).
Proof. destruct x as [[] ?]; cbn; apply _. Defined.

Lemma move_call ls s c p h o : LInv s -> Good E keyof i w0 x0 ls s -> calls_fit E keyof i es0 w0 x0 ls -> l_posts (c_loop s) = ∅ ->
  c_calls s !! c = Some (p, (h, o)) -> ~ wants (p, (h, o)) -> moves s.
Proof.
  intros L G Fit P Hc Hn. pose proof (k_loop _ L) as SI. destruct p as [| |j|lc| | | |r|r]; [destruct Hn; exact Logic.I|..].
  - destruct (body (c_front s) o) as [f [r|j|]] eqn:Hb; eapply moves_tau; [eapply c_body_ret|eapply c_body_job|eapply c_body_open]; eassumption.
  - assert (K : l_k (c_loop s) = KOpen).
    { destruct G as [(lin & es & rs & x & af & S)|(lin & es & rs & x & af & c0 & h0 & wa & xa & pend & S)].
      - apply (sm_calm _ _ _ _ _ _ _ _ _ _ _ _ S).
      - exfalso. destruct (SimC_others E keyof i es0 w0 rs0 x0 HO Hrun0 Hx0 Hq0 _ _ _ _ _ _ _ _ _ _ _ _ _ _ _ _ L S Hc) as [(p & Hc0 & Hp & _) N].
        destruct (decide (c = c0)) as [->|Hne]; [|discriminate (N Hne)]. rewrite Hc in Hc0. injection Hc0 as <- _ _. exact Hp. }
    eapply moves_tau, c_post; [exact Hc|apply p_call, K].
  - destruct (k_wait _ L _ _ _ _ Hc) as [y Y]. rewrite P, lookup_empty in Y. discriminate Y.
  - assert (K : l_k (c_loop s) = KOpen).
    { destruct G as [(lin & es & rs & x & af & S)|(lin & es & rs & x & af & c0 & h0 & wa & xa & pend & S)].
      - exfalso. apply (proj2 (sm_calm _ _ _ _ _ _ _ _ _ _ _ _ S) _ _ _ _ Hc).
      - destruct (SimC_others E keyof i es0 w0 rs0 x0 HO Hrun0 Hx0 Hq0 _ _ _ _ _ _ _ _ _ _ _ _ _ _ _ _ L S Hc) as [(p & Hc0 & Hp & _) N].
        destruct (decide (c = c0)) as [->|Hne]; [|discriminate (N Hne)]. rewrite Hc in Hc0. injection Hc0 as <- _ _. exact Hp. }
    destruct (alive (l_x (c_loop s))) eqn:Al.
    + eapply moves_tau, c_quit; [exact Hc|apply k_quit; assumption|reflexivity].
    + eapply moves_tau, c_quit_failed; [exact Hc|apply k_quit_failed; assumption].
  - assert (K : l_k (c_loop s) = KJoin).
    { destruct G as [(lin & es & rs & x & af & S)|(lin & es & rs & x & af & c0 & h0 & wa & xa & pend & S)].
      - exfalso. apply (proj2 (sm_calm _ _ _ _ _ _ _ _ _ _ _ _ S) _ _ _ _ Hc).
      - destruct (SimC_others E keyof i es0 w0 rs0 x0 HO Hrun0 Hx0 Hq0 _ _ _ _ _ _ _ _ _ _ _ _ _ _ _ _ L S Hc) as [(p & Hc0 & Hp & _) N].
        destruct (decide (c = c0)) as [->|Hne]; [|discriminate (N Hne)]. rewrite Hc in Hc0. injection Hc0 as <- _ _. exact Hp. }
    destruct (alive (l_x (c_loop s))) eqn:Al.
    + destruct (move_x s L P Al) as [M|(_ & Sn & _)]; [exact M|]. destruct (s_closed _ SI) as [_ Sf]; congruence.
    + destruct (l_x (c_loop s)) eqn:Ex; try discriminate Al; eapply moves_tau.
      * apply (c_join E i s c h o true); [exact Hc|apply k_join_ok; assumption].
      * apply (c_join E i s c h o false); [exact Hc|apply k_join_err; assumption].
  - destruct G as [(lin & es & rs & x & af & S)|(lin & es & rs & x & af & c0 & h0 & wa & xa & pend & S)].
    { destruct (proj2 (sm_calm _ _ _ _ _ _ _ _ _ _ _ _ S) _ _ _ _ Hc). }
    destruct (SimC_others E keyof i es0 w0 rs0 x0 HO Hrun0 Hx0 Hq0 _ _ _ _ _ _ _ _ _ _ _ _ _ _ _ _ L S Hc) as [(p & Hc0 & Hp & _) N].
    destruct (decide (c = c0)) as [->|Hne]; [|discriminate (N Hne)]. rewrite Hc in Hc0. injection Hc0 as <- -> ->. cbn in Hp.
    destruct (SimC_clear E keyof i es0 w0 rs0 x0 HO Hrun0 _ _ _ _ _ _ _ _ _ _ _ _ S Fit) as (hd & w & Hhd & _ & _ & _ & _).
    rewrite <- (sc_handles _ _ _ _ _ _ _ _ _ _ _ _ _ _ _ _ _ S) in Hhd.
    destruct (open_impl E (l_cb (c_loop s)) (h_path hd) (h_key hd)) as [w1 [y|]] eqn:Ho.
    + eapply moves_tau, c_reopen; eauto.
    + eapply moves_tau, c_reopen_failed; eauto.
  - eapply moves_tau, c_release, Hc.
  - eapply moves_1; [apply (c_return E i s c h o r Hc)|discriminate].
Qed.

Lemma move_or_done ls s : LInv s -> Good E keyof i w0 x0 ls s -> calls_fit E keyof i es0 w0 x0 ls ->
  moves s \/ c_calls s = ∅ /\ l_buf (c_loop s) = [] /\ l_queue (c_loop s) = [].
Proof.
  intros L G Fit. pose proof (k_loop _ L) as SI. destruct (move_posts s L) as [M|P]; [left; exact M|].
  destruct (decide (map_Forall (fun (_ : N) x => wants x) (c_calls s))) as [F|F].
  2:{ left. apply map_not_Forall in F; [|apply _]. destruct F as (c & [p [h o]] & Hc & Hn). eapply move_call; eassumption. }
  assert (NC : forall c p h o, c_calls s !! c = Some (p, (h, o)) -> p = AWant).
  { intros c p h o Hc. apply F in Hc. destruct p; try contradiction. reflexivity. }
  assert (Hw : c_writer s = None).
  { destruct (c_writer s) as [c|] eqn:W; [|reflexivity]. destruct (k_writer _ L c W) as (p & h & o & Hc & Ho & _). rewrite (NC _ _ _ _ Hc) in Ho. discriminate Ho. }
  assert (Hr : c_readers s = ∅).
  { apply set_eq. intros c. split; [|set_solver]. intros Hin. destruct (k_readers _ L c Hin) as (p & h & o & Hc & Ho & _). rewrite (NC _ _ _ _ Hc) in Ho. discriminate Ho. }
  destruct (decide (c_calls s = ∅)) as [C|C].
  2:{ left. apply map_choose in C as (c & [p [h o]] & Hc). pose proof (NC _ _ _ _ Hc) as ->.
      destruct (exclusive o) eqn:He; eapply moves_tau; [eapply c_write|eapply c_read]; eassumption. }
  destruct G as [(lin & es & rs & x & af & S)|(lin & es & rs & x & af & c0 & h0 & wa & xa & pend & S)].
  - destruct (sm_calm _ _ _ _ _ _ _ _ _ _ _ _ S) as [K _]. pose proof (sm_alive _ _ _ _ _ _ _ _ _ _ _ _ S) as Al.
    assert (alive (l_x (c_loop s)) = true) as Al'.
    { destruct (l_x (c_loop s)) eqn:Ex; try reflexivity; [|contradiction]. destruct (s_done _ SI Ex). contradiction. }
    destruct (move_x s L P Al') as [M|(I1 & I2 & I3)]; [left; exact M|right]. pose proof (s_buf _ SI) as SB. rewrite I3 in SB. split_and!; [exact C|exact SB|].
    destruct (l_queue (c_loop s)) as [|z q] eqn:Q; [reflexivity|]. exfalso.
    destruct (s_wake _ SI Al') as [(c & pc & j & Hp & _)|[Y|[Y|Y]]]; rewrite ?I1, ?I3 in *; try congruence.
    + rewrite P, lookup_empty in Hp. discriminate Hp.
    + inversion Y.
  - exfalso. destruct (sc_call _ _ _ _ _ _ _ _ _ _ _ _ _ _ _ _ _ S) as (p & Hc & _). rewrite C, lookup_empty in Hc. discriminate Hc.
Qed.

End Live.

(** ** C56 *)

Section Main.
Context (E : env) (keyof : bytes -> bytes) (es0 : list event) (w0 : world) (rs0 : list result) (sp0 : spec) (i : N) (x0 : inst).

Lemma cexecn_app s ls1 s1 ls2 s2 : cexecn E i s ls1 s1 -> cexecn E i s1 ls2 s2 -> cexecn E i s (ls1 ++ ls2) s2.
Proof.
  intros A B. induction B as [|ls2 t1 a t2 B IH S]; [rewrite app_nil_r; exact A|]. rewrite app_assoc. econstructor; eassumption.
Qed.

Lemma called_ret ls s : cexecn E i (conc0 w0 x0) ls s -> forall c h o, HInv c h o ∈ ls -> (exists r, HRet c r ∈ ls) \/ is_Some (c_calls s !! c).
Proof.
  induction 1 as [|ls s1 a s2 _ IH X]; intros c h o Hi; [inversion Hi|].
  apply in_csnoc in Hi as [Hi|<-].
  - destruct (IH c h o Hi) as [[r Hr]|Hs]; [left; exists r; apply in_csnoc; auto|].
    destruct X; cbn; auto; try (right; destruct (decide (c0 = c)) as [->|Hne]; [rewrite lookup_insert; eauto|rewrite lookup_insert_ne by congruence; exact Hs]).
    + right. destruct (decide (c_next s = c)) as [->|Hne]; [rewrite lookup_insert; eauto|rewrite lookup_insert_ne by congruence; exact Hs].
    + destruct (decide (c0 = c)) as [->|Hne]; [left; exists r; apply in_csnoc; auto|right; rewrite lookup_delete_ne by congruence; exact Hs].
  - right. inversion X; subst. cbn. rewrite lookup_insert. eauto.
Qed.

(** From every state the threads can reach: a continuation without new calls
    has at most [n] steps, and unless every call has returned and the
    background thread has done all its work some thread can take a step. *)
Theorem C56_calls_return ls s :
  start E keyof es0 w0 rs0 sp0 i x0 -> calls_ok E keyof es0 sp0 x0 ls -> cexecn E i (conc0 w0 x0) ls s ->
  exists n, forall ls' s', cexecn E i s ls' s' -> (forall c h o, HInv c h o ∉ ls') ->
    (length ls' <= n)%nat /\
    ((exists a s'', cstep E i s' a s'' /\ forall c h o, a <> HInv c h o) \/
     (forall c h o, HInv c h o ∈ ls -> exists r, HRet c r ∈ ls ++ ls') /\ c_calls s' = ∅ /\ l_buf (c_loop s') = [] /\ l_queue (c_loop s') = []).
Proof.
  intros St Ok X. exists (todo s). intros ls' s' Y Hn.
  pose proof St as [HO Hr Hsp Hx Hq].
  assert (Ids : inv_ids (ls ++ ls') = inv_ids ls).
  { unfold inv_ids. rewrite flat_map_app. match goal with |- ?a ++ ?b = _ => assert (b = []) as -> end; [|apply app_nil_r].
    clear -Hn. induction ls' as [|a ls' IH]; [reflexivity|]. cbn. rewrite IH; [|intros c h o D; apply (Hn c h o); right; exact D].
    destruct a as [|c h o|]; try reflexivity. exfalso. apply (Hn c h o). left. }
  assert (Ok' : calls_ok E keyof es0 sp0 x0 (ls ++ ls')).
  { destruct Ok as [A B]. split; [|rewrite Ids; exact B]. intros c h o D. apply elem_of_app in D as [D|D]; [eauto|]. exfalso. eapply Hn, D. }
  pose proof (cexecn_app _ _ _ _ _ X Y) as Z.
  split.
  - assert (G : (length ls' + todo s' <= todo s)%nat /\ LInv s'); [|lia].
    pose proof (calls_ok_fit E keyof es0 w0 rs0 sp0 i x0 ls St Ok) as Fit.
    destruct (Sim_exec E keyof i es0 w0 rs0 x0 HO Hr Hx Hq ls s X Fit) as [L _].
    clear -Y Hn L. induction Y as [|ls' s1 a s2 Y IH S]; [split; [cbn; lia|exact L]|].
    destruct IH as [IH L1]; [intros c h o D; apply (Hn c h o); apply elem_of_app; auto|].
    split; [|eapply LInv_step; eassumption]. rewrite app_length. cbn [length].
    pose proof (step_todo E i s1 a s2 L1 S) as M. assert (forall c h o, a <> HInv c h o) as Ha; [|specialize (M Ha); lia].
    intros c h o ->. apply (Hn c h o). apply elem_of_app. right. left.
  - pose proof (calls_ok_fit E keyof es0 w0 rs0 sp0 i x0 _ St Ok') as Fit.
    destruct (Sim_exec E keyof i es0 w0 rs0 x0 HO Hr Hx Hq _ _ Z Fit) as [L G].
    destruct (move_or_done E i keyof es0 w0 rs0 x0 HO Hr Hx Hq _ _ L G Fit) as [M|(C & B & Q)]; [left; exact M|right]. split_and!; auto.
    intros c h o D. destruct (called_ret _ _ Z c h o) as [[r Hret]|[y Hy]]; [apply elem_of_app; auto|eauto|]. rewrite C, lookup_empty in Hy. discriminate Hy.
Qed.

(** So the threads, left alone, complete every call. *)
Theorem C56_every_call_completes ls s :
  start E keyof es0 w0 rs0 sp0 i x0 -> calls_ok E keyof es0 sp0 x0 ls -> cexecn E i (conc0 w0 x0) ls s ->
  exists ls' s', cexecn E i s ls' s' /\ (forall c h o, HInv c h o ∉ ls') /\
    (forall c h o, HInv c h o ∈ ls -> exists r, HRet c r ∈ ls ++ ls') /\ c_calls s' = ∅ /\ l_buf (c_loop s') = [] /\ l_queue (c_loop s') = [].
Proof.
  intros St Ok X. destruct (C56_calls_return ls s St Ok X) as (n & N).
  assert (G : forall m ls1 s1, cexecn E i s ls1 s1 -> (forall c h o, HInv c h o ∉ ls1) -> (n - length ls1 < m)%nat ->
            exists ls' s', cexecn E i s ls' s' /\ (forall c h o, HInv c h o ∉ ls') /\
              (forall c h o, HInv c h o ∈ ls -> exists r, HRet c r ∈ ls ++ ls') /\ c_calls s' = ∅ /\ l_buf (c_loop s') = [] /\ l_queue (c_loop s') = []).
  { induction m as [|m IH]; intros ls1 s1 Y Hn Hm; [lia|]. destruct (N ls1 s1 Y Hn) as [Hl [(a & s2 & S & Ha)|D]].
    - assert (Y2 : cexecn E i s (ls1 ++ [a]) s2) by (econstructor; eassumption).
      assert (Hn2 : forall c h o, HInv c h o ∉ ls1 ++ [a]).
      { intros c h o D. apply elem_of_app in D as [D|D]; [eapply Hn, D|]. apply elem_of_list_singleton in D. eapply Ha. symmetry. exact D. }
      pose proof (N _ _ Y2 Hn2) as [Hl2 _]. rewrite app_length in Hl2. cbn in Hl2. eapply IH; [exact Y2|exact Hn2|rewrite app_length; cbn; lia].
    - exists ls1, s1. auto. }
  apply (G (Datatypes.S n) [] s); [constructor|intros c h o D; inversion D|cbn; lia].
Qed.

End Main.

(** The hypotheses hold in the middle of a schedule with a put, a get and a
    clear_data under way. *)
Example C56_example : exists w0 rs0 sp0 x0 s,
  start (ex_env FPlain) ex_keyof ex_start w0 rs0 sp0 0 x0 /\ calls_ok (ex_env FPlain) ex_keyof ex_start sp0 x0 (take 12 ex_clear_labels) /\
  cexecn (ex_env FPlain) 0 (conc0 w0 x0) (take 12 ex_clear_labels) s /\ inv_ids (take 12 ex_clear_labels) = [0; 1; 2] /\
  (forall c r, HRet c r ∉ take 12 ex_clear_labels).
Proof.
  destruct C19_clear_example as (w0 & rs0 & sp0 & x0 & s & St & Ok & X & _).
  assert (P : forall ls s', cexecn (ex_env FPlain) 0 (conc0 w0 x0) ls s' -> forall n, exists s1, cexecn (ex_env FPlain) 0 (conc0 w0 x0) (take n ls) s1).
  { induction 1 as [|ls s1 a s2 Y IH S]; intros n; [rewrite take_nil; eexists; constructor|].
    destruct (decide (n <= length ls)%nat) as [Hn|Hn]; [rewrite take_app_le by exact Hn; apply IH|].
    rewrite take_ge by (rewrite app_length; cbn; lia). exists s2. econstructor; eassumption. }
  destruct (P _ _ X 12%nat) as [s1 X1]. exists w0, rs0, sp0, x0, s1. split_and!; [exact St| |exact X1|reflexivity|].
  - destruct Ok as [A B]. split.
    + intros c h o D. apply (A c h o). rewrite <- (take_drop 12 ex_clear_labels). apply elem_of_app. auto.
    + apply roomb_ok. vm_compute. reflexivity.
  - intros c r D. apply elem_of_list_In in D. cbn in D. repeat (destruct D as [D|D]; [discriminate D|]). exact D.
Qed.
