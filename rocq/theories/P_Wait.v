(** C69 and C70: what a call waits for.  Gets do not wait for each other, and
    neither gets nor puts nor deletes wait for the files. *)
From Verif Require Import Bytes Utf8 Proto ProtoFacts Value Codec Store StoreFacts Encrypt World Spec Hyps Refine WorldInv WorldStep Main Frames Reach Examples P_Map P_Store P_Fail Looper P_Loop Conc P_Conc P_Live.
From Coq Require Import ZifyBool ZifyNat ZifyN.
Local Open Scope N_scope.

Section Wait.
Context (E : env) (i : N) (w0 : world) (x0 : inst).

Lemma LInv_exec ls s : cexecn E i (conc0 w0 x0) ls s -> LInv s.
Proof. induction 1 as [|ls s1 a s2 _ IH X]; [apply LInv_0|eapply LInv_step; eassumption]. Qed.

(** The calls in progress are those that began and have not returned. *)
Lemma in_progress ls s : cexecn E i (conc0 w0 x0) ls s ->
  (forall c r, HRet c r ∈ ls -> c < c_next s /\ c_calls s !! c = None) /\
  (forall c p h o, c_calls s !! c = Some (p, (h, o)) -> HInv c h o ∈ ls).
Proof.
  induction 1 as [|ls s1 a s2 Y [IH1 IH2] X]; [split; [intros c r D; inversion D|intros c p h o D; cbn in D; rewrite lookup_empty in D; discriminate D]|].
  pose proof (LInv_exec _ _ Y) as L.
  assert (Nx : match a with HInv c _ _ => c = c_next s1 /\ c_next s2 = c_next s1 + 1 | _ => c_next s2 = c_next s1 end) by (destruct X; cbn; auto).
  split.
  - intros c r D. apply in_csnoc in D as [D|<-].
    + apply IH1 in D as [D1 D2]. split; [destruct a; lia|].
      destruct X; cbn; auto; try (rewrite lookup_insert_ne by (first [lia|congruence]); exact D2).
      rewrite lookup_delete_ne by congruence. exact D2.
    + inversion X; subst. cbn. split; [eapply (k_next _ L); eassumption|apply lookup_delete].
  - intros c p h o D. destruct X; cbn in D;
      try (apply in_csnoc; left; eapply IH2; exact D);
      try (destruct (decide (c0 = c)) as [->|Hne]; [rewrite lookup_insert in D; injection D as <- <- <-; apply in_csnoc; left; eapply IH2; eassumption
           |rewrite lookup_insert_ne in D by congruence; apply in_csnoc; left; eapply IH2; exact D]).
    + destruct (decide (c_next s = c)) as [<-|Hne]; [rewrite lookup_insert in D; injection D as <- <- <-; apply in_csnoc; right; congruence|].
      rewrite lookup_insert_ne in D by congruence. apply in_csnoc. left. eapply IH2, D.
    + apply lookup_delete_Some in D as [_ D]. apply in_csnoc. left. eapply IH2, D.
Qed.

Definition only_gets (ls : list clabel) : Prop :=
  forall c h o, HInv c h o ∈ ls -> (exists key t, o = CGet key t) \/ exists r, HRet c r ∈ ls.

Lemma no_writer ls s : cexecn E i (conc0 w0 x0) ls s -> only_gets ls -> c_writer s = None.
Proof.
  intros X G. destruct (c_writer s) as [c|] eqn:W; [|reflexivity]. exfalso.
  destruct (k_writer _ (LInv_exec _ _ X) c W) as (p & h & o & Hc & _ & Ho). destruct (in_progress _ _ X) as [A B].
  destruct (G c h o (B _ _ _ _ Hc)) as [(key & t & ->)|[r Hr]]; [discriminate Ho|]. apply A in Hr as [_ Hr]. congruence.
Qed.

Lemma get_body f key t : exists r, body f (CGet key t) = (f, NRet r).
Proof. unfold body. destruct (f_poison f); eauto. Qed.

(** A get under way can be carried to its end. *)
Lemma get_done s c h key t p : c_writer s = None -> LInv s -> c_calls s !! c = Some (p, (h, CGet key t)) ->
  exists n r s', (n <= 3)%nat /\ cexecn E i s (repeat HTau n ++ [HRet c r]) s' /\ c_calls s' = delete c (c_calls s).
Proof.
  assert (S4 : forall s r, c_calls s !! c = Some (ADone r, (h, CGet key t)) -> exists s', cexecn E i s ([] ++ [HRet c r]) s' /\ c_calls s' = delete c (c_calls s)).
  { intros s1 r Hc. eexists. split; [eapply ce_snoc; [apply ce_nil|apply (c_return _ _ _ _ _ _ _ Hc)]|reflexivity]. }
  assert (K : forall n s s1 r, cstep E i s HTau s1 -> delete c (c_calls s1) = delete c (c_calls s) ->
     (exists s', cexecn E i s1 (repeat HTau n ++ [HRet c r]) s' /\ c_calls s' = delete c (c_calls s1)) ->
     exists s', cexecn E i s (repeat HTau (S n) ++ [HRet c r]) s' /\ c_calls s' = delete c (c_calls s)).
  { intros n s1 s2 r X D (s' & Y & Hs). exists s'. split; [|congruence]. change (repeat HTau (S n) ++ [HRet c r]) with ([HTau] ++ repeat HTau n ++ [HRet c r]).
    eapply cexecn_app; [|exact Y]. eapply (ce_snoc E i _ []); [apply ce_nil|exact X]. }
  assert (S3 : forall s r, c_calls s !! c = Some (ARet r, (h, CGet key t)) -> exists s', cexecn E i s (repeat HTau 1 ++ [HRet c r]) s' /\ c_calls s' = delete c (c_calls s)).
  { intros s1 r Hc. eapply K; [apply (c_release _ _ _ _ _ _ _ Hc)|cbn; apply delete_insert_delete|]. apply S4. cbn. apply lookup_insert. }
  assert (S2 : forall s, c_calls s !! c = Some (AHeld, (h, CGet key t)) -> exists r s', cexecn E i s (repeat HTau 2 ++ [HRet c r]) s' /\ c_calls s' = delete c (c_calls s)).
  { intros s1 Hc. destruct (get_body (c_front s1) key t) as [r Hb]. exists r. eapply K; [apply (c_body_ret _ _ _ _ _ _ _ _ Hc Hb)|cbn; apply delete_insert_delete|].
    apply S3. cbn. apply lookup_insert. }
  assert (S1 : forall s, c_writer s = None -> c_calls s !! c = Some (AWant, (h, CGet key t)) -> exists r s', cexecn E i s (repeat HTau 3 ++ [HRet c r]) s' /\ c_calls s' = delete c (c_calls s)).
  { intros s1 Hw Hc. pose proof (c_read E i _ _ _ _ Hc eq_refl Hw) as X.
    destruct (S2 (set_call (set_rw s1 ({[c]} ∪ c_readers s1) (c_writer s1)) c AHeld (h, CGet key t))) as (r & Y); [cbn; apply lookup_insert|].
    exists r. eapply K; [exact X|cbn; apply delete_insert_delete|exact Y]. }
  intros Hw L Hc. destruct p as [| |j|lc| | | |r|r];
    try (discriminate (k_posting _ L _ _ _ _ Hc eq_refl)).
  - destruct (S1 s Hw Hc) as (r & s' & Y). exists 3%nat, r, s'. split; [lia|exact Y].
  - destruct (S2 s Hc) as (r & s' & Y). exists 2%nat, r, s'. split; [lia|exact Y].
  - destruct (S3 s r Hc) as (s' & Y). exists 1%nat, r, s'. split; [lia|exact Y].
  - destruct (S4 s r Hc) as (s' & Y). exists 0%nat, r, s'. split; [lia|exact Y].
Qed.

(** Whatever has happened to the store, at every moment at which the only
    calls in progress are gets, any number of them, each at any place:

    a get that is called now can return after three steps of its own thread,
    all other calls staying exactly where they are; *)
Theorem C69_a_new_get_does_not_wait ls s h key t :
  cexecn E i (conc0 w0 x0) ls s -> only_gets ls ->
  exists n r s', (n <= 3)%nat /\ cexecn E i s ([HInv (c_next s) h (CGet key t)] ++ repeat HTau n ++ [HRet (c_next s) r]) s' /\
    forall c, c_calls s' !! c = c_calls s !! c.
Proof.
  intros X G. pose proof (no_writer _ _ X G) as Hw. pose proof (LInv_exec _ _ X) as L.
  pose proof (c_call E i s h (CGet key t)) as X1. pose proof (LInv_step _ _ _ _ _ L X1) as L1. set (s1 := Conc _ _ _ _ _ _) in X1, L1.
  destruct (get_done s1 (c_next s) h key t AWant) as (n & r & s' & Hn & Y & Hs); [exact Hw|exact L1|cbn; apply lookup_insert|].
  exists n, r, s'. split; [exact Hn|]. split; [eapply cexecn_app; [eapply (ce_snoc E i _ []); [apply ce_nil|exact X1]|exact Y]|].
  intros c. rewrite Hs. cbn. destruct (decide (c = c_next s)) as [->|Hne]; [rewrite lookup_delete|rewrite lookup_delete_ne, lookup_insert_ne by congruence; reflexivity].
  destruct (c_calls s !! c_next s) as [y|] eqn:Hy; [|reflexivity]. apply (k_next _ L) in Hy. lia.
Qed.

(** and so can each of the gets in progress. *)
Theorem C69_gets_do_not_wait_for_each_other ls s c h key t :
  cexecn E i (conc0 w0 x0) ls s -> only_gets ls -> HInv c h (CGet key t) ∈ ls -> (forall r, HRet c r ∉ ls) ->
  exists n r s', (n <= 3)%nat /\ cexecn E i s (repeat HTau n ++ [HRet c r]) s' /\
    forall d, d <> c -> c_calls s' !! d = c_calls s !! d.
Proof.
  intros X G Hi Hn. pose proof (no_writer _ _ X G) as Hw. pose proof (LInv_exec _ _ X) as L.
  destruct (called_ret E w0 i x0 ls s X c h _ Hi) as [[r Hr]|[[p [h' o']] Hc]]; [destruct (Hn r Hr)|].
  destruct (inv_once E w0 i x0 ls s X) as [_ Once]. destruct (in_progress _ _ X) as [_ B].
  injection (Once _ _ _ _ _ Hi (B _ _ _ _ Hc)) as <- <-.
  destruct (get_done s c h key t p Hw L Hc) as (n & r & s' & Hle & Y & Hs). exists n, r, s'. split; [exact Hle|]. split; [exact Y|].
  intros d Hd. rewrite Hs. apply lookup_delete_ne. congruence.
Qed.
End Wait.

(** ** The files *)

(** How far a call, a [post] and the background thread's hold on the queue are
    from the end. *)
Definition qst (p : apc) : nat := match p with AWant => 9 | AHeld => 8 | APost _ => 7 | ARet _ => 2 | ADone _ => 1 | _ => 3 end.
Definition qpost (p : ppc) : nat := match p with PLock => 3 | PHold => 2 | PRel => 1 | PSend => 0 end.
Definition qx (x : xpc) : nat := match x with XHold => 2 | XRel => 1 | _ => 0 end.
Definition quick (s : conc) : nat :=
  (mtotal (fun x => qst x.1) (c_calls s) + mtotal (fun x => qpost x.1) (l_posts (c_loop s)) + qx (l_x (c_loop s)))%nat.

(** No clear_data is under way. *)
Definition no_clear (s : conc) : Prop := forall c p h, c_calls s !! c <> Some (p, (h, CClear)).

Section Disk.
Context (E : env) (i : N) (keyof : bytes -> bytes) (es0 : list event) (w0 : world) (rs0 : list result) (sp0 : spec) (x0 : inst).

Notation pm := (fun x : ppc * job => qpost x.1).
Notation cm := (fun x : apc * (N * cop) => qst x.1).

(** A step that leaves the files alone and brings the end nearer. *)
Definition quickly (s : conc) : Prop :=
  exists a s', cstep E i s a s' /\ (forall c h o, a <> HInv c h o) /\ l_cb (c_loop s') = l_cb (c_loop s) /\ no_clear s' /\ (quick s' < quick s)%nat.

Lemma no_clear_insert s c p h o s' : no_clear s -> o <> CClear -> c_calls s' = <[c := (p, (h, o))]> (c_calls s) -> no_clear s'.
Proof.
  intros N Ho Hs d q k D. rewrite Hs in D. destruct (decide (c = d)) as [->|Hne].
  - rewrite lookup_insert in D. injection D as _ _ ->. apply Ho. reflexivity.
  - rewrite lookup_insert_ne in D by exact Hne. eapply N, D.
Qed.

Lemma quickly_call s c p q h o l a s' : no_clear s -> c_calls s !! c = Some (p, (h, o)) -> cstep E i s a s' -> (forall c h o, a <> HInv c h o) ->
  c_calls s' = <[c := (q, (h, o))]> (c_calls s) -> c_loop s' = l -> l_cb l = l_cb (c_loop s) ->
  (qst q + mtotal pm (l_posts l) + qx (l_x l) < qst p + mtotal pm (l_posts (c_loop s)) + qx (l_x (c_loop s)))%nat -> quickly s.
Proof.
  intros N Hc X Ha Hs Hl Hcb Hm. exists a, s'. split; [exact X|]. split; [exact Ha|]. split; [congruence|]. split.
  - eapply no_clear_insert; [exact N| |exact Hs]. intros ->. eapply N, Hc.
  - unfold quick. rewrite Hs, Hl. pose proof (mtotal_change cm (c_calls s) c _ (q, (h, o)) Hc) as M. cbn -[mtotal] in M. lia.
Qed.

Lemma quickly_loop s l a s' : no_clear s -> cstep E i s a s' -> (forall c h o, a <> HInv c h o) -> s' = set_loop s l -> l_cb l = l_cb (c_loop s) ->
  (mtotal pm (l_posts l) + qx (l_x l) < mtotal pm (l_posts (c_loop s)) + qx (l_x (c_loop s)))%nat -> quickly s.
Proof.
  intros N X Ha -> Hcb Hm. exists a, (set_loop s l). split; [exact X|]. split; [exact Ha|]. split; [exact Hcb|]. split; [exact N|].
  unfold quick. cbn [set_loop c_calls c_loop]. lia.
Qed.

Lemma quickly_post s : LInv s -> no_clear s -> quickly s \/ l_posts (c_loop s) = ∅.
Proof.
  intros L NC. pose proof (k_loop _ L) as SI. destruct (decide (l_posts (c_loop s) = ∅)) as [P|P]; [right; exact P|left].
  apply map_choose in P as (lc & [pc j] & Y).
  assert (H1 : forall c j', l_posts (c_loop s) !! c = Some (PHold, j') -> quickly s).
  { intros c j' Hp. eapply quickly_loop; [exact NC|eapply c_posting, p_push, Hp|discriminate|reflexivity|reflexivity|].
    pose proof (mtotal_change pm (l_posts (c_loop s)) c _ (PRel, j') Hp) as M. cbn -[mtotal] in M |- *. lia. }
  assert (H2 : forall c j', l_posts (c_loop s) !! c = Some (PRel, j') -> quickly s).
  { intros c j' Hp. eapply quickly_loop; [exact NC|eapply c_posting, p_unlock, Hp|discriminate|reflexivity|reflexivity|].
    pose proof (mtotal_change pm (l_posts (c_loop s)) c _ (PSend, j') Hp) as M. cbn -[mtotal] in M |- *. lia. }
  destruct pc; [|eauto..|].
  - destruct (l_lock (c_loop s)) as [[c|]|] eqn:El.
    + destruct (s_lockp _ SI c El) as (pc & j' & Hp & Hh). destruct pc; try discriminate Hh; eauto.
    + apply (s_lockx _ SI) in El. destruct (l_x (c_loop s)) eqn:Ex; try discriminate El.
      * eapply quickly_loop; [exact NC|eapply c_background, x_swap, Ex|discriminate|reflexivity|reflexivity|]. cbn. rewrite Ex. cbn. lia.
      * eapply quickly_loop; [exact NC|eapply c_background, x_unlock, Ex|discriminate|reflexivity|reflexivity|]. cbn. rewrite Ex. cbn. lia.
    + eapply quickly_loop; [exact NC|eapply c_posting, p_lock; eassumption|discriminate|reflexivity|reflexivity|].
      pose proof (mtotal_change pm (l_posts (c_loop s)) lc _ (PHold, j) Y) as M. cbn -[mtotal] in M |- *. lia.
  - destruct (k_post _ L _ _ Y) as (c & h & o & Hc). pose proof (mtotal_delete pm (l_posts (c_loop s)) lc _ Y) as M. cbn -[mtotal] in M.
    assert (Ho : match o with CClear => AQuit | _ => ARet (ROk None) end = ARet (ROk None)) by (destruct o; try reflexivity; destruct (NC _ _ _ Hc)).
    destruct (l_sender (c_loop s)) eqn:A, (alive (l_x (c_loop s))) eqn:B.
    1: { eapply quickly_call; [exact NC|exact Hc|apply (c_posted E i s c h o lc true _ Hc (p_send _ _ _ Y A B))|discriminate|reflexivity|reflexivity|reflexivity|]. rewrite Ho. cbn -[mtotal]. lia. }
    all: eapply quickly_call; [exact NC|exact Hc|apply (c_posted E i s c h o lc false _ Hc (p_fail _ _ _ Y ltac:(tauto)))|discriminate|reflexivity|reflexivity|reflexivity|]; cbn -[mtotal]; lia.
Qed.

Lemma quickly_or_done ls s lin es rs x af : LInv s -> no_clear s -> Sim E keyof i w0 x0 ls s lin es rs x af -> quickly s \/ c_calls s = ∅.
Proof.
  intros L NC S. destruct (quickly_post s L NC) as [Q|P]; [left; exact Q|]. destruct (sm_calm _ _ _ _ _ _ _ _ _ _ _ _ S) as [K Calm].
  destruct (decide (map_Forall (fun (_ : N) x => wants x) (c_calls s))) as [F|F].
  - destruct (decide (c_calls s = ∅)) as [C|C]; [right; exact C|left].
    assert (Np : forall c p h o, c_calls s !! c = Some (p, (h, o)) -> p = AWant).
    { intros c p h o Hc. apply F in Hc. destruct p; try contradiction. reflexivity. }
    assert (Hw : c_writer s = None).
    { destruct (c_writer s) as [c|] eqn:W; [|reflexivity]. destruct (k_writer _ L c W) as (p & h & o & Hc & Ho & _). rewrite (Np _ _ _ _ Hc) in Ho. discriminate Ho. }
    assert (Hr : c_readers s = ∅).
    { apply set_eq. intros c. split; [|set_solver]. intros Hin. destruct (k_readers _ L c Hin) as (p & h & o & Hc & Ho & _). rewrite (Np _ _ _ _ Hc) in Ho. discriminate Ho. }
    apply map_choose in C as (c & [p [h o]] & Hc). pose proof (Np _ _ _ _ Hc) as ->.
    destruct (exclusive o) eqn:He; (eapply quickly_call; [exact NC|exact Hc|first [eapply c_write; eassumption|eapply c_read; eassumption]|discriminate|reflexivity|reflexivity|reflexivity|]); cbn -[mtotal]; lia.
  - left. apply map_not_Forall in F; [|apply _]. destruct F as (c & [p [h o]] & Hc & Hn).
    assert (Ho : o <> CClear) by (intros ->; eapply NC, Hc).
    destruct p as [| |j|lc| | | |r|r]; [destruct Hn; exact Logic.I|..].
    + destruct (body (c_front s) o) as [f [r|j|]] eqn:Hb.
      * eapply quickly_call; [exact NC|exact Hc|eapply c_body_ret; eassumption|discriminate|reflexivity|reflexivity|reflexivity|]. cbn -[mtotal]. lia.
      * eapply quickly_call; [exact NC|exact Hc|eapply c_body_job; eassumption|discriminate|reflexivity|reflexivity|reflexivity|]. cbn -[mtotal]. lia.
      * exfalso. unfold body in Hb. repeat case_match; congruence.
    + eapply quickly_call; [exact NC|exact Hc|eapply c_post; [exact Hc|apply p_call, K]|discriminate|reflexivity|reflexivity|reflexivity|].
      cbn -[mtotal]. rewrite mtotal_insert; [cbn -[mtotal]; lia|]. rewrite P. apply lookup_empty.
    + destruct (k_wait _ L _ _ _ _ Hc) as [y Y]. rewrite P, lookup_empty in Y. discriminate Y.
    + destruct (Calm _ _ _ _ Hc).
    + destruct (Calm _ _ _ _ Hc).
    + destruct (Calm _ _ _ _ Hc).
    + eapply quickly_call; [exact NC|exact Hc|eapply c_release, Hc|discriminate|reflexivity|reflexivity|reflexivity|]. cbn -[mtotal]. lia.
    + eexists (HRet c r), _. split; [apply (c_return _ _ _ _ _ _ _ Hc)|]. split; [discriminate|]. split; [reflexivity|]. split.
      * intros d q k D. cbn in D. apply lookup_delete_Some in D as [_ D]. eapply NC, D.
      * unfold quick. cbn [c_calls c_loop]. pose proof (mtotal_delete cm (c_calls s) c _ Hc) as M. cbn -[mtotal] in M |- *. lia.
Qed.

(** At most one call is inside [post]. *)
Lemma quick_le s : LInv s -> (quick s <= 9 * size (c_calls s) + 5)%nat.
Proof.
  intros L. assert (A : (mtotal cm (c_calls s) <= 9 * size (c_calls s))%nat).
  { generalize (c_calls s). intros m. induction m as [|k x m Hm IH] using map_ind; [unfold mtotal; rewrite map_size_empty, map_fold_empty; lia|].
    rewrite mtotal_insert, map_size_insert_None by exact Hm. assert (qst x.1 <= 9)%nat by (destruct x.1; cbn; lia). lia. }
  assert (B : (mtotal pm (l_posts (c_loop s)) <= 3)%nat).
  { destruct (decide (l_posts (c_loop s) = ∅)) as [P|P]; [rewrite P; unfold mtotal; rewrite map_fold_empty; lia|]. apply map_choose in P as (lc & [pc j] & Y).
    pose proof (mtotal_delete pm _ _ _ Y) as M. assert (D : delete lc (l_posts (c_loop s)) = ∅).
    { apply map_empty. intros lc'. destruct (delete lc _ !! lc') as [y|] eqn:Y'; [|reflexivity]. exfalso. apply lookup_delete_Some in Y' as [Hne Y'].
      destruct (k_post _ L _ _ Y) as (c & h & o & Hc). destruct (k_post _ L _ _ Y') as (c' & h' & o' & Hc').
      pose proof (k_own _ L _ _ _ _ Hc eq_refl) as O. rewrite (k_posting _ L _ _ _ _ Hc eq_refl) in O.
      pose proof (k_own _ L _ _ _ _ Hc' eq_refl) as O'. rewrite (k_posting _ L _ _ _ _ Hc' eq_refl) in O'. congruence. }
    rewrite D in M. change (mtotal pm ∅) with 0%nat in M. assert (qpost pc <= 3)%nat by (destruct pc; cbn; lia). cbn -[mtotal] in M. lia. }
  unfold quick. assert (qx (l_x (c_loop s)) <= 2)%nat by (destruct (l_x (c_loop s)); cbn; lia). lia.
Qed.

(** At every moment of every schedule at which no clear_data is in progress:
    all calls in progress can return, within nine steps per call and five
    more, without the background thread executing anything.  However many
    jobs it has to do, and however long each takes: nobody waits for the
    files, which stay exactly as they are ([l_cb]: all that jobs work on). *)
Theorem C70_nobody_waits_for_the_files ls s :
  start E keyof es0 w0 rs0 sp0 i x0 -> calls_ok E keyof es0 sp0 x0 ls -> cexecn E i (conc0 w0 x0) ls s ->
  (forall c h, HInv c h CClear ∈ ls -> exists r, HRet c r ∈ ls) ->
  exists ls' s', cexecn E i s ls' s' /\ (forall c h o, HInv c h o ∉ ls') /\
    (forall c h o, HInv c h o ∈ ls -> exists r, HRet c r ∈ ls ++ ls') /\
    l_cb (c_loop s') = l_cb (c_loop s) /\ (length ls' <= 9 * size (c_calls s) + 5)%nat.
Proof.
  intros St Ok X Hcl. pose proof (LInv_exec _ _ _ _ _ _ X) as L.
  assert (NC : no_clear s).
  { intros c p h Hc. destruct (in_progress _ _ _ _ _ _ X) as [A B]. destruct (Hcl c h (B _ _ _ _ Hc)) as [r Hr]. apply A in Hr as [_ Hr]. congruence. }
  pose proof St as [HO Hr Hsp Hx Hq].
  assert (G : forall m ls1 s1, cexecn E i s ls1 s1 -> (forall c h o, HInv c h o ∉ ls1) -> no_clear s1 -> l_cb (c_loop s1) = l_cb (c_loop s) ->
            (length ls1 + quick s1 <= quick s)%nat -> (quick s1 < m)%nat ->
            exists ls' s', cexecn E i s ls' s' /\ (forall c h o, HInv c h o ∉ ls') /\ c_calls s' = ∅ /\
              l_cb (c_loop s') = l_cb (c_loop s) /\ (length ls' <= quick s)%nat).
  { induction m as [|m IH]; intros ls1 s1 Y Hn N1 Cb Hl Hm; [lia|].
    assert (Ids : inv_ids (ls ++ ls1) = inv_ids ls).
    { unfold inv_ids. rewrite flat_map_app. match goal with |- ?a ++ ?b = _ => assert (b = []) as -> end; [|apply app_nil_r].
      clear -Hn. induction ls1 as [|a ls1 IH]; [reflexivity|]. cbn. rewrite IH; [|intros c h o D; apply (Hn c h o); right; exact D].
      destruct a as [|c h o|]; try reflexivity. exfalso. apply (Hn c h o). left. }
    assert (Ok' : calls_ok E keyof es0 sp0 x0 (ls ++ ls1)).
    { destruct Ok as [A B]. split; [|rewrite Ids; exact B]. intros c h o D. apply elem_of_app in D as [D|D]; [eauto|]. exfalso. eapply Hn, D. }
    pose proof (cexecn_app _ _ _ _ _ _ _ X Y) as Z. pose proof (calls_ok_fit E keyof es0 w0 rs0 sp0 i x0 _ St Ok') as Fit.
    destruct (Sim_exec E keyof i es0 w0 rs0 x0 HO Hr Hx Hq _ _ Z Fit) as [L1 [(lin & es & rs & x & af & S)|(lin & es & rs & x & af & c0 & h0 & wa & xa & pend & S)]].
    2:{ destruct (sc_call _ _ _ _ _ _ _ _ _ _ _ _ _ _ _ _ _ S) as (p & Hc & _). destruct (N1 _ _ _ Hc). }
    destruct (quickly_or_done _ _ _ _ _ _ _ L1 N1 S) as [(a & s2 & X2 & Ha & Cb2 & N2 & Q)|C]; [|exists ls1, s1; split_and!; auto; lia].
    apply (IH (ls1 ++ [a]) s2); [econstructor; eassumption| |exact N2|congruence|rewrite app_length; cbn; lia|lia].
    intros c h o D. apply elem_of_app in D as [D|D]; [eapply Hn, D|]. apply elem_of_list_singleton in D. eapply Ha. symmetry. exact D. }
  destruct (G (Datatypes.S (quick s)) [] s) as (ls' & s' & Y & Hn & C & Cb & Hl); [constructor|intros c h o D; inversion D|exact NC|reflexivity|cbn; lia|lia|].
  exists ls', s'. split_and!; auto.
  - intros c h o D. pose proof (cexecn_app _ _ _ _ _ _ _ X Y) as Z. destruct (called_ret _ _ _ _ _ _ Z c h o) as [[r Hret]|[y Hy]]; [apply elem_of_app; auto|eauto|].
    rewrite C, lookup_empty in Hy. discriminate Hy.
  - pose proof (quick_le s L). lia.
Qed.
End Disk.

(** * Examples *)

(** A get holds the lock, another has been called. *)
Example C69_example : exists w0 rs0 x0 s,
  run (ex_env FPlain) world0 ex_start = Some (w0, rs0) /\ w_insts w0 !! 0 = Some x0 /\
  cexecn (ex_env FPlain) 0 (conc0 w0 x0) [HInv 0 0 (CGet k1 TI32); HTau; HInv 1 1 (CGet k2 TI32)] s /\
  only_gets [HInv 0 0 (CGet k1 TI32); HTau; HInv 1 1 (CGet k2 TI32)] /\ c_readers s = {[0]} /\ c_writer s = None.
Proof.
  assert (T : match run (ex_env FPlain) world0 ex_start with
              | Some (w, rs) => match w_insts w !! 0 with
                | Some x => match csched (ex_env FPlain) 0 [KCall 0 (CGet k1 TI32); KStep 0; KCall 1 (CGet k2 TI32)] (conc0 w x) with
                  | Some (ls, s) => ls = [HInv 0 0 (CGet k1 TI32); HTau; HInv 1 1 (CGet k2 TI32)] /\ bool_decide (c_readers s = {[0]}) = true /\ c_writer s = None
                  | None => False end
                | None => False end
              | _ => False end) by (vm_compute; repeat split).
  destruct (run (ex_env FPlain) world0 ex_start) as [[w0 rs0]|] eqn:Hr; [|contradiction].
  destruct (w_insts w0 !! 0) as [x0|] eqn:Hx; [|contradiction].
  destruct (csched _ _ _ _) as [[ls s]|] eqn:Hc; [|contradiction]. destruct T as (-> & T1 & T2).
  exists w0, rs0, x0, s. split_and!; auto; [apply csched_ok in Hc; exact Hc| |apply bool_decide_eq_true in T1; exact T1].
  intros c h o D. repeat (apply elem_of_cons in D as [D|D]); try discriminate D; [..|inversion D]; injection D as -> -> ->; left; eauto.
Qed.

(** A put waits for its lock while a job has not been started. *)
Definition ex_wait_labels : list clabel := [HInv 0 0 (CPut k1 (VI32 7)); HTau; HTau; HTau; HTau; HTau; HTau; HTau; HTau; HRet 0 (ROk None); HInv 1 1 (CPut k2 (VI32 8))].
Definition ex_wait_sched : list cchoice := KCall 0 (CPut k1 (VI32 7)) :: repeat (KStep 0) 9 ++ [KCall 1 (CPut k2 (VI32 8))].

Example C70_example : exists w0 rs0 sp0 x0 s,
  start (ex_env FPlain) ex_keyof ex_start w0 rs0 sp0 0 x0 /\ calls_ok (ex_env FPlain) ex_keyof ex_start sp0 x0 ex_wait_labels /\
  cexecn (ex_env FPlain) 0 (conc0 w0 x0) ex_wait_labels s /\ length (l_queue (c_loop s)) = 1%nat /\ size (c_calls s) = 1%nat /\
  (forall c h, HInv c h CClear ∉ ex_wait_labels).
Proof.
  assert (T : match run (ex_env FPlain) world0 ex_start, spec_run (e_canon (ex_env FPlain)) spec0 ex_start with
              | Some (w, rs), Some (sp, rs') => rs' = rs /\
                match w_insts w !! 0 with
                | Some x => is_nil (i_queue x) = true /\ sp_handles sp !! 0 = Some (i_dir x) /\ sp_handles sp !! 1 = Some (i_dir x) /\
                  match csched (ex_env FPlain) 0 ex_wait_sched (conc0 w x) with
                  | Some (ls, s) => ls = ex_wait_labels /\ length (l_queue (c_loop s)) = 1%nat /\ size (c_calls s) = 1%nat
                  | None => False end
                | None => False end
              | _, _ => False end) by (vm_compute; repeat split).
  destruct (run (ex_env FPlain) world0 ex_start) as [[w0 rs0]|] eqn:Hr; [|contradiction].
  destruct (spec_run (e_canon (ex_env FPlain)) spec0 ex_start) as [[sp0 rs1]|] eqn:Hs; [|contradiction]. destruct T as [-> T].
  destruct (w_insts w0 !! 0) as [x0|] eqn:Hx; [|contradiction]. destruct T as (T1 & T2 & T3 & T).
  destruct (csched (ex_env FPlain) 0 ex_wait_sched (conc0 w0 x0)) as [[ls s]|] eqn:Hc; [|contradiction]. destruct T as (-> & T4 & T5).
  exists w0, rs0, sp0, x0, s. split_and!; auto.
  - split; auto; [apply ordinaryb_ok; [apply ex_env_ok; exact Logic.I|vm_compute; reflexivity]|apply is_nil_ok, T1].
  - split.
    + intros c h o X. repeat (apply elem_of_cons in X as [X|X]); try discriminate X; [..|inversion X]; injection X as -> -> ->;
        (split; [apply put_okb_ok; vm_compute; reflexivity|assumption]).
    + apply roomb_ok. vm_compute. reflexivity.
  - apply csched_ok in Hc. exact Hc.
  - intros c h D. apply elem_of_list_In in D. cbn in D. repeat (destruct D as [D|D]; [discriminate D|]). exact D.
Qed.
