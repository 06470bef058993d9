(** C19 and C20: concurrent calls are linearizable, and what reaches the file
    is the in-memory map. *)
From Verif Require Import Bytes Utf8 Proto ProtoFacts Value Codec Store StoreFacts Encrypt World Spec Hyps Refine WorldInv WorldStep Main Frames Reach Examples P_Map P_Store P_Fail Looper P_Loop Conc.
From Coq Require Import ZifyBool ZifyNat ZifyN.
Local Open Scope N_scope.

(** ** The lock *)

Definition owns (p : apc) : bool := match p with AWant | ADone _ => false | _ => true end.
Definition posting (p : apc) : bool := match p with APost _ | AWait _ | AQuit | AJoin | AOpen => true | _ => false end.

Record LInv (s : conc) : Prop := {
  k_writer : forall c, c_writer s = Some c -> exists p h o, c_calls s !! c = Some (p, (h, o)) /\ owns p = true /\ exclusive o = true;
  k_readers : forall c, c ∈ c_readers s -> exists p h o, c_calls s !! c = Some (p, (h, o)) /\ owns p = true /\ exclusive o = false;
  k_wr : c_readers s <> ∅ -> c_writer s = None;
  k_own : forall c p h o, c_calls s !! c = Some (p, (h, o)) -> owns p = true -> if exclusive o then c_writer s = Some c else c ∈ c_readers s;
  k_posting : forall c p h o, c_calls s !! c = Some (p, (h, o)) -> posting p = true -> exclusive o = true;
  k_next : forall c x, c_calls s !! c = Some x -> c < c_next s;
  k_wait : forall c lc h o, c_calls s !! c = Some (AWait lc, (h, o)) -> is_Some (l_posts (c_loop s) !! lc);
  k_post : forall lc x, l_posts (c_loop s) !! lc = Some x -> exists c h o, c_calls s !! c = Some (AWait lc, (h, o));
  k_loop : SInv (c_loop s)
}.

Lemma LInv_0 w x : LInv (conc0 w x).
Proof.
  split; cbn; try discriminate; try (intros; rewrite lookup_empty in *; discriminate); try set_solver; auto. apply SInv_0.
Qed.

Section LockProof.
Context (E : env) (i : N).

Ltac lk := repeat match goal with
  | H : <[?c := _]> _ !! ?d = Some _ |- _ => destruct (decide (d = c)) as [->|?]; [rewrite lookup_insert in H; injection H as <- <- <-|rewrite lookup_insert_ne in H by congruence]
  | H : delete ?c _ !! ?d = Some _ |- _ => apply lookup_delete_Some in H as [? H]
  end.

Ltac own := eexists _, _, _; split_and!; [reflexivity|repeat case_match; reflexivity|assumption].

(** Changing the place of call [c] without touching lock or looper. *)
Lemma LInv_call s c p q h o : LInv s -> c_calls s !! c = Some (p, (h, o)) -> owns p = owns q ->
  (forall lc, p <> AWait lc) -> (forall lc, q <> AWait lc) -> (posting q = true -> exclusive o = true) ->
  forall f, LInv (set_call (set_front s f) c q (h, o)).
Proof.
  intros [A1 A2 A3 A4 A5 A6 A7 A8 A9] Hc Ho Hp Hq He f. split; cbn; auto.
  - intros d Hd. destruct (A1 d Hd) as (p' & h' & o' & X & Y & Z). destruct (decide (d = c)) as [->|Hne].
    + rewrite lookup_insert. exists q, h, o. rewrite Hc in X. injection X as <- <- <-. split_and!; congruence.
    + rewrite lookup_insert_ne by congruence. eauto.
  - intros d Hd. destruct (A2 d Hd) as (p' & h' & o' & X & Y & Z). destruct (decide (d = c)) as [->|Hne].
    + rewrite lookup_insert. exists q, h, o. rewrite Hc in X. injection X as <- <- <-. split_and!; congruence.
    + rewrite lookup_insert_ne by congruence. eauto.
  - intros d p' h' o' X Y. destruct (decide (d = c)) as [->|Hne].
    + rewrite lookup_insert in X. injection X as <- <- <-. apply (A4 c p h o Hc). congruence.
    + rewrite lookup_insert_ne in X by congruence. apply (A4 _ _ _ _ X Y).
  - intros d p' h' o' X Y. destruct (decide (d = c)) as [->|Hne].
    + rewrite lookup_insert in X. injection X as <- <- <-. auto.
    + rewrite lookup_insert_ne in X by congruence. eauto.
  - intros d x X. destruct (decide (d = c)) as [->|Hne]; [eauto|]. rewrite lookup_insert_ne in X by congruence. eauto.
  - intros d lc h' o' X. destruct (decide (d = c)) as [->|Hne].
    + rewrite lookup_insert in X. injection X as X _ _. destruct (Hq lc X).
    + rewrite lookup_insert_ne in X by congruence. eauto.
  - intros lc x X. destruct (A8 lc x X) as (d & h' & o' & Y). exists d, h', o'. rewrite lookup_insert_ne; [exact Y|].
    intros <-. rewrite Hc in Y. injection Y as Y _ _. destruct (Hp lc Y).
Qed.

(** A step of the looper that neither begins nor ends a post. *)
Lemma LInv_loop s l : LInv s -> SInv l ->
  (forall lc, is_Some (l_posts l !! lc) <-> is_Some (l_posts (c_loop s) !! lc)) -> LInv (set_loop s l).
Proof.
  intros [A1 A2 A3 A4 A5 A6 A7 A8 A9] SI Hp. split; cbn; auto.
  - intros c lc h o X. apply Hp. eauto.
  - intros lc x X. destruct (proj1 (Hp lc) (ex_intro _ x X)) as [y Y]. eauto.
Qed.

Lemma pstep_tau (l l' : loop job world) : pstep l LTau l' ->
  l_k l' = l_k l /\ l_x l' = l_x l /\ l_cb l' = l_cb l /\ l_buf l' = l_buf l /\
  exists lc p q j, l_posts l !! lc = Some (p, j) /\ l_posts l' = <[lc := (q, j)]> (l_posts l) /\
    ((p = PLock /\ q = PHold /\ l_queue l' = l_queue l) \/ (p = PHold /\ q = PRel /\ l_queue l' = l_queue l ++ [(lc, j)]) \/
     (p = PRel /\ q = PSend /\ l_queue l' = l_queue l)).
Proof.
  intros X. inversion X as [|? c j Hp Hl|? c j Hp|? c j Hp| |]; subst; cbn; split_and!; auto; eexists c, _, _, j;
    (split; [exact Hp|]); (split; [reflexivity|]); auto.
Qed.

Lemma pstep_ret (l l' : loop job world) lc ok : pstep l (LRet lc ok) l' ->
  exists j, l_posts l !! lc = Some (PSend, j) /\ l_posts l' = delete lc (l_posts l) /\ l_k l' = l_k l /\ l_x l' = l_x l /\ l_cb l' = l_cb l /\
    l_buf l' = l_buf l /\ l_queue l' = l_queue l /\ (ok = false -> l_sender l = false \/ alive (l_x l) = false).
Proof.
  intros X. inversion X as [| | | |? c j Hp Hs Ha|? c j Hp Hs]; subst; exists j; cbn; split_and!; auto; discriminate.
Qed.

Lemma pstep_call (l l' : loop job world) j : pstep l (LCall (l_next l) j) l' ->
  l_posts l' = <[l_next l := (PLock, j)]> (l_posts l) /\ l_k l' = l_k l /\ l_x l' = l_x l /\ l_cb l' = l_cb l /\ l_buf l' = l_buf l /\ l_queue l' = l_queue l.
Proof. intros X. inversion X; subst; cbn. auto 10. Qed.

(** Changing the place of a closing call and the state of its looper. *)
Lemma LInv_call' s c p q h o l : LInv s -> c_calls s !! c = Some (p, (h, o)) -> owns p = true -> owns q = true -> posting p = true ->
  (forall lc, p <> AWait lc) -> (forall lc, q <> AWait lc) -> SInv l -> l_posts l = l_posts (c_loop s) -> LInv (set_call (set_loop s l) c q (h, o)).
Proof.
  intros L Hc O1 O2 Hpp Hp Hq SI Hl. apply (LInv_call (set_loop s l) c p q h o) with (f := c_front s); auto; [|congruence|].
  - apply LInv_loop; auto. intros lc. rewrite Hl. reflexivity.
  - intros _. eapply (k_posting _ L), Hpp. exact Hc.
Qed.

(** While a call holds the write lock and does not wait for a post, there is no post. *)
Lemma no_posts s c p h o : LInv s -> c_calls s !! c = Some (p, (h, o)) -> owns p = true -> posting p = true -> (forall lc, p <> AWait lc) ->
  l_posts (c_loop s) = ∅.
Proof.
  intros L Hc Ho Hp Hn. apply map_empty. intros lc. destruct (l_posts (c_loop s) !! lc) as [y|] eqn:Y; [|reflexivity]. exfalso.
  destruct (k_post _ L _ _ Y) as (d & h' & o' & Hd).
  pose proof (k_own _ L _ _ _ _ Hd eq_refl) as W. rewrite (k_posting _ L _ _ _ _ Hd eq_refl) in W.
  pose proof (k_own _ L _ _ _ _ Hc Ho) as W'. rewrite (k_posting _ L _ _ _ _ Hc Hp) in W'.
  assert (d = c) as -> by congruence. rewrite Hc in Hd. injection Hd as Hd _ _. eapply Hn, Hd.
Qed.

Lemma LInv_new s c p q h o f w : LInv s -> c_calls s !! c = Some (p, (h, o)) -> owns p = true -> owns q = true -> posting p = true ->
  (forall lc, p <> AWait lc) -> (forall lc, q <> AWait lc) -> LInv (set_call (set_loop (set_front s f) (loop0 w)) c q (h, o)).
Proof.
  intros L Hc O1 O2 Hpp Hp Hq. pose proof (no_posts s c p h o L Hc O1 Hpp Hp) as No.
  apply (LInv_call (set_loop s (loop0 w)) c p q h o) with (f := f); auto; [|congruence|].
  - apply LInv_loop; auto; [apply SInv_0|]. intros lc. rewrite No. reflexivity.
  - intros _. eapply (k_posting _ L), Hpp. exact Hc.
Qed.

Lemma LInv_front s f : LInv s -> LInv (set_front s f).
Proof. intros [A1 A2 A3 A4 A5 A6 A7 A8 A9]. split; auto. Qed.

Lemma LInv_step s a s' : LInv s -> cstep E i s a s' -> LInv s'.
Proof.
  intros L X. destruct X as [s h o|s c h o Hc He Hw|s c h o Hc He Hw Hr|s c h o f r Hc Hb|s c h o f j Hc Hb|s c h o f Hc Hb|s c h o j l Hc Hp|s l Hp|s c h o lc ok l Hc Hp
    |s c h o l Hc Hk Hch|s c h o l Hc Hk|s c h o ok l Hc Hk|s c h o hd w y Hc Hh Ho Hk|s c h o hd w y Hc Hh Ho Hk Ha|s c h o hd w Hc Hh Ho|s a l Hx|s c h o r Hc|s c h o r Hc].
  - destruct L as [A1 A2 A3 A4 A5 A6 A7 A8 A9]. split; cbn; auto.
    + intros d Hd. destruct (A1 d Hd) as (p' & h' & o' & Z & Y). exists p', h', o'. split; [|exact Y]. rewrite lookup_insert_ne; [exact Z|]. apply A6 in Z. lia.
    + intros d Hd. destruct (A2 d Hd) as (p' & h' & o' & Z & Y). exists p', h', o'. split; [|exact Y]. rewrite lookup_insert_ne; [exact Z|]. apply A6 in Z. lia.
    + intros d p' h' o' X Y. lk; [discriminate Y|]. apply (A4 _ _ _ _ X Y).
    + intros d p' h' o' X Y. lk; [discriminate Y|]. eauto.
    + intros d x X. destruct (decide (d = c_next s)) as [->|Hne]; [lia|]. rewrite lookup_insert_ne in X by congruence. apply A6 in X. lia.
    + intros d lc h' o' X. destruct (decide (d = c_next s)) as [->|Hne]; [rewrite lookup_insert in X; discriminate X|].
      rewrite lookup_insert_ne in X by congruence. eauto.
    + intros lc x X. destruct (A8 lc x X) as (d & h' & o' & Y). exists d, h', o'. rewrite lookup_insert_ne; [exact Y|]. apply A6 in Y. lia.
  - destruct L as [A1 A2 A3 A4 A5 A6 A7 A8 A9]. split; cbn; auto.
    + congruence.
    + intros d Hd. destruct (decide (d = c)) as [->|Hne]; [rewrite lookup_insert; exists AHeld, h, o; auto|].
      rewrite lookup_insert_ne by congruence. apply A2. set_solver.
    + intros d p' h' o' X Y. lk; [rewrite He; set_solver|]. specialize (A4 _ _ _ _ X Y). destruct (exclusive o'); [exact A4|set_solver].
    + intros d p' h' o' X Y. lk; [discriminate Y|]. eauto.
    + intros d x X. destruct (decide (d = c)) as [->|Hne]; [eauto|]. rewrite lookup_insert_ne in X by congruence. eauto.
    + intros d lc h' o' X. destruct (decide (d = c)) as [->|Hne]; [rewrite lookup_insert in X; discriminate X|].
      rewrite lookup_insert_ne in X by congruence. eauto.
    + intros lc x X. destruct (A8 lc x X) as (d & h' & o' & Y). exists d, h', o'. rewrite lookup_insert_ne; [exact Y|]. intros <-. rewrite Hc in Y. discriminate Y.
  - destruct L as [A1 A2 A3 A4 A5 A6 A7 A8 A9]. split; cbn; auto.
    + intros d [= <-]. rewrite lookup_insert. exists AHeld, h, o. auto.
    + rewrite Hr. set_solver.
    + congruence.
    + intros d p' h' o' X Y. lk; [rewrite He; reflexivity|]. specialize (A4 _ _ _ _ X Y). destruct (exclusive o'); [congruence|exact A4].
    + intros d p' h' o' X Y. lk; [discriminate Y|]. eauto.
    + intros d x X. destruct (decide (d = c)) as [->|Hne]; [eauto|]. rewrite lookup_insert_ne in X by congruence. eauto.
    + intros d lc h' o' X. destruct (decide (d = c)) as [->|Hne]; [rewrite lookup_insert in X; discriminate X|].
      rewrite lookup_insert_ne in X by congruence. eauto.
    + intros lc x X. destruct (A8 lc x X) as (d & h' & o' & Y). exists d, h', o'. rewrite lookup_insert_ne; [exact Y|]. intros <-. rewrite Hc in Y. discriminate Y.
  - eapply LInv_call; [exact L|exact Hc|..]; try reflexivity; discriminate.
  - eapply LInv_call; [exact L|exact Hc|..]; try reflexivity; try discriminate. intros _.
    unfold body in Hb. destruct (f_poison _); [discriminate Hb|]. destruct o; [reflexivity|discriminate Hb|reflexivity..].
  - eapply LInv_call; [exact L|exact Hc|..]; try reflexivity; try discriminate. intros _.
    unfold body in Hb. destruct (f_poison _); [discriminate Hb|]. destruct o; [reflexivity|discriminate Hb|reflexivity..].
  - pose proof (SInv_p (cexec E i) _ _ _ (k_loop _ L) Hp) as SI. apply pstep_call in Hp as (P1 & P2 & _).
    destruct L as [A1 A2 A3 A4 A5 A6 A7 A8 A9]. split; cbn; auto; try congruence.
    + intros d Hd. destruct (A1 d Hd) as (p' & h' & o' & X & Y & Z). destruct (decide (d = c)) as [->|Hne].
      * rewrite lookup_insert. rewrite Hc in X. injection X as <- <- <-. own.
      * rewrite lookup_insert_ne by congruence. eauto.
    + intros d Hd. destruct (A2 d Hd) as (p' & h' & o' & X & Y & Z). destruct (decide (d = c)) as [->|Hne].
      * rewrite lookup_insert. rewrite Hc in X. injection X as <- <- <-. own.
      * rewrite lookup_insert_ne by congruence. eauto.
    + intros d p' h' o' X Y. lk; [apply (A4 _ _ _ _ Hc eq_refl)|apply (A4 _ _ _ _ X Y)].
    + intros d p' h' o' X Y. lk; eauto.
    + intros d x X. destruct (decide (d = c)) as [->|Hne]; [eauto|]. rewrite lookup_insert_ne in X by congruence. eauto.
    + intros d lc h' o' X. rewrite P1. destruct (decide (d = c)) as [->|Hne].
      * rewrite lookup_insert in X. injection X as <- _ _. rewrite lookup_insert. eauto.
      * rewrite lookup_insert_ne in X by congruence. destruct (A7 d lc h' o' X) as [y Y]. rewrite lookup_insert_ne; [eauto|]. apply (s_next _ A9) in Y. lia.
    + intros lc x X. rewrite P1 in X. destruct (decide (lc = l_next (c_loop s))) as [->|Hne].
      * exists c, h, o. apply lookup_insert.
      * rewrite lookup_insert_ne in X by congruence. destruct (A8 lc x X) as (d & h' & o' & Y). exists d, h', o'. rewrite lookup_insert_ne; [exact Y|].
        intros <-. rewrite Hc in Y. discriminate Y.
  - pose proof (SInv_p (cexec E i) _ _ _ (k_loop _ L) Hp) as SI. apply pstep_tau in Hp as (P1 & _ & _ & _ & lc & p & q & j & P2 & P3 & _).
    apply LInv_loop; auto. intros lc'. rewrite P3. destruct (decide (lc' = lc)) as [->|Hne].
    + rewrite lookup_insert, P2. split; eauto.
    + rewrite lookup_insert_ne by congruence. reflexivity.
  - pose proof (SInv_p (cexec E i) _ _ _ (k_loop _ L) Hp) as SI. apply pstep_ret in Hp as (j & P1 & P2 & P3 & _).
    destruct L as [A1 A2 A3 A4 A5 A6 A7 A8 A9].
    assert (One : forall d h' o', c_calls s !! d = Some (AWait lc, (h', o')) -> d = c).
    { intros d h' o' X. pose proof (A4 _ _ _ _ X eq_refl) as W. rewrite (A5 _ _ _ _ X eq_refl) in W.
      pose proof (A4 _ _ _ _ Hc eq_refl) as W'. rewrite (A5 _ _ _ _ Hc eq_refl) in W'. congruence. }
    split; cbn; auto; try congruence.
    + intros d Hd. destruct (A1 d Hd) as (p' & h' & o' & X & Y & Z). destruct (decide (d = c)) as [->|Hne].
      * rewrite lookup_insert. rewrite Hc in X. injection X as <- <- <-. own.
      * rewrite lookup_insert_ne by congruence. eauto.
    + intros d Hd. destruct (A2 d Hd) as (p' & h' & o' & X & Y & Z). destruct (decide (d = c)) as [->|Hne].
      * rewrite lookup_insert. rewrite Hc in X. injection X as <- <- <-. own.
      * rewrite lookup_insert_ne by congruence. eauto.
    + intros d p' h' o' X Y. lk; [apply (A4 _ _ _ _ Hc eq_refl)|apply (A4 _ _ _ _ X Y)].
    + intros d p' h' o' X Y. lk; eauto.
    + intros d x X. destruct (decide (d = c)) as [->|Hne]; [eauto|]. rewrite lookup_insert_ne in X by congruence. eauto.
    + intros d lc' h' o' X. rewrite P2. destruct (decide (d = c)) as [->|Hne].
      * rewrite lookup_insert in X. destruct ok; [destruct o|]; discriminate X.
      * rewrite lookup_insert_ne in X by congruence. destruct (A7 d lc' h' o' X) as [y Y]. rewrite lookup_delete_ne; [eauto|].
        intros <-. apply Hne. eauto.
    + intros lc' x X. rewrite P2 in X. apply lookup_delete_Some in X as [Hne X]. destruct (A8 lc' x X) as (d & h' & o' & Y). exists d, h', o'.
      rewrite lookup_insert_ne; [exact Y|]. intros <-. rewrite Hc in Y. injection Y as Y _ _. congruence.
  - eapply LInv_call'; [exact L|exact Hc|reflexivity|reflexivity|reflexivity|discriminate|discriminate|apply (SInv_k _ _ _ (k_loop _ L) Hk)|]. inversion Hk; subst; reflexivity.
  - eapply LInv_call'; [exact L|exact Hc|reflexivity|reflexivity|reflexivity|discriminate|discriminate|apply (SInv_k _ _ _ (k_loop _ L) Hk)|]. inversion Hk; subst; reflexivity.
  - eapply LInv_call'; [exact L|exact Hc|reflexivity|destruct ok; reflexivity|reflexivity|discriminate|destruct ok; discriminate|apply (SInv_k _ _ _ (k_loop _ L) Hk)|]. inversion Hk; subst; reflexivity.
  - eapply LInv_new; [exact L|exact Hc|reflexivity|reflexivity|reflexivity|discriminate|discriminate].
  - eapply LInv_new; [exact L|exact Hc|reflexivity|reflexivity|reflexivity|discriminate|discriminate].
  - eapply LInv_call'; [apply LInv_front, L|exact Hc|reflexivity|reflexivity|reflexivity|discriminate|discriminate| |reflexivity].
    destruct (k_loop _ L). split; auto.
  - pose proof (SInv_x _ _ _ _ (k_loop _ L) Hx) as SI. apply xstep_k in Hx as [P1 P2].
    apply LInv_loop; auto. intros lc. rewrite P2. reflexivity.
  - destruct L as [A1 A2 A3 A4 A5 A6 A7 A8 A9]. split; cbn; auto.
    + intros d Hd. destruct (decide (c_writer s = Some c)) as [Hw|Hw]; [discriminate Hd|].
      destruct (A1 d Hd) as (p' & h' & o' & X & Y). rewrite lookup_insert_ne; [eauto|]. congruence.
    + intros d Hd. destruct (A2 d) as (p' & h' & o' & X & Y); [set_solver|]. rewrite lookup_insert_ne; [eauto|]. set_solver.
    + intros Hr. destruct (decide _); [reflexivity|]. apply A3. set_solver.
    + intros d p' h' o' X Y. lk; [discriminate Y|]. specialize (A4 _ _ _ _ X Y). destruct (exclusive o').
      * destruct (decide _); congruence.
      * set_solver.
    + intros d p' h' o' X Y. lk; [discriminate Y|]. eauto.
    + intros d x X. destruct (decide (d = c)) as [->|Hne]; [eauto|]. rewrite lookup_insert_ne in X by congruence. eauto.
    + intros d lc h' o' X. destruct (decide (d = c)) as [->|Hne]; [rewrite lookup_insert in X; discriminate X|].
      rewrite lookup_insert_ne in X by congruence. eauto.
    + intros lc x X. destruct (A8 lc x X) as (d & h' & o' & Y). exists d, h', o'. rewrite lookup_insert_ne; [exact Y|]. intros <-. rewrite Hc in Y. discriminate Y.
  - destruct L as [A1 A2 A3 A4 A5 A6 A7 A8 A9]. split; cbn; auto.
    + intros d Hd. destruct (A1 d Hd) as (p' & h' & o' & X & Y & Z). rewrite lookup_delete_ne; [eauto 10|]. intros <-. rewrite Hc in X. injection X as <- _ _. discriminate Y.
    + intros d Hd. destruct (A2 d Hd) as (p' & h' & o' & X & Y & Z). rewrite lookup_delete_ne; [eauto 10|]. intros <-. rewrite Hc in X. injection X as <- _ _. discriminate Y.
    + intros d p' h' o' X Y. lk. apply (A4 _ _ _ _ X Y).
    + intros d p' h' o' X Y. lk. eauto.
    + intros d x X. lk. eauto.
    + intros d lc h' o' X. lk. eauto.
    + intros lc x X. destruct (A8 lc x X) as (d & h' & o' & Y). exists d, h', o'. rewrite lookup_delete_ne; [exact Y|]. intros <-. rewrite Hc in Y. discriminate Y.
Qed.

End LockProof.

(** ** Histories *)

Notation lid := (fun x : N * (N * cop) * result => x.1.1).

(** [st c]: the call [c] in progress and its result if it has taken effect. *)
Record HistInv (ls : list clabel) (st : N -> option ((N * cop) * option result)) (n : N) (lin : list (N * (N * cop) * result)) : Prop := {
  hi_nodup : NoDup (map lid lin);
  hi_called : forall c h o r, (c, (h, o), r) ∈ lin -> HInv c h o ∈ ls;
  hi_bound : forall c h o, HInv c h o ∈ ls -> c < n;
  hi_before : forall c h o, st c = Some ((h, o), None) -> HInv c h o ∈ ls /\ c ∉ map lid lin;
  hi_after : forall c h o r, st c = Some ((h, o), Some r) -> (c, (h, o), r) ∈ lin;
  hi_ret : forall c r, HRet c r ∈ ls -> (exists h o, (c, (h, o), r) ∈ lin) /\ st c = None;
  hi_rt : forall c r d h o, earlier ls (HRet c r) (HInv d h o) -> d ∈ map lid lin -> earlier (map lid lin) c d
}.

Lemma in_ids c ho r lin : (c, ho, r) ∈ lin -> c ∈ map lid lin.
Proof. intros X. apply elem_of_list_In, in_map_iff. exists (c, ho, r). split; [reflexivity|]. apply elem_of_list_In, X. Qed.

Lemma in_csnoc (ls : list clabel) a b : a ∈ ls ++ [b] <-> a ∈ ls \/ a = b.
Proof. rewrite elem_of_app, elem_of_list_singleton. reflexivity. Qed.

Lemma Hist_tau ls st st' n lin : HistInv ls st n lin -> (forall c, st' c = st c) -> HistInv (ls ++ [HTau]) st' n lin.
Proof.
  intros [A1 A2 A3 A4 A5 A6 A7] Es. split; auto.
  - intros c h o r X. apply in_csnoc. eauto.
  - intros c h o X. apply in_csnoc in X as [X|X]; [eauto|discriminate X].
  - intros c h o X. rewrite Es in X. destruct (A4 c h o X). split; [apply in_csnoc; auto|assumption].
  - intros c h o r X. rewrite Es in X. eauto.
  - intros c r X. rewrite Es. apply in_csnoc in X as [X|X]; [eauto|discriminate X].
  - intros c r d h o X Y. apply earlier_snoc in X as [X|[X _]]; [eauto|discriminate X].
Qed.

Lemma Hist_lin ls st st' n lin c h o r : HistInv ls st n lin -> st c = Some ((h, o), None) ->
  (forall d, st' d = if decide (d = c) then Some ((h, o), Some r) else st d) ->
  HistInv (ls ++ [HTau]) st' n (lin ++ [(c, (h, o), r)]).
Proof.
  intros [A1 A2 A3 A4 A5 A6 A7] Hc Es. destruct (A4 c h o Hc) as [Hi Hn].
  split; rewrite ?map_app; cbn [map fst].
  - apply NoDup_app. split_and!; auto; [|apply NoDup_singleton]. intros d D D'. apply elem_of_list_singleton in D'. cbn in D'. congruence.
  - intros d h' o' r' X. apply in_csnoc. left. apply elem_of_app in X as [X|X]; [eauto|]. apply elem_of_list_singleton in X. injection X as -> -> -> ->. exact Hi.
  - intros d h' o' X. apply in_csnoc in X as [X|X]; [eauto|discriminate X].
  - intros d h' o' X. rewrite Es in X. destruct (decide (d = c)) as [->|Hne]; [discriminate X|]. destruct (A4 d h' o' X) as [B C].
    split; [apply in_csnoc; auto|]. rewrite elem_of_app, elem_of_list_singleton. intros [D|D]; [auto|congruence].
  - intros d h' o' r' X. rewrite Es in X. apply elem_of_app. destruct (decide (d = c)) as [->|Hne]; [|left; eauto].
    injection X as -> -> ->. right. left.
  - intros d r' X. apply in_csnoc in X as [X|X]; [|discriminate X]. destruct (A6 d r' X) as [(h' & o' & B) C].
    assert (Hne : d <> c) by (intros ->; congruence). split; [exists h', o'; apply elem_of_app; auto|]. rewrite Es, decide_False by assumption. exact C.
  - intros d r' e h' o' X Y. apply earlier_snoc in X as [X|[X _]]; [|discriminate X]. apply elem_of_app in Y as [Y|Y]; [apply earlier_app; eauto|].
    exists (map lid lin), [c]. split_and!; auto. destruct X as (l1 & l2 & -> & Hd & _).
    destruct (A6 d r') as [(h'' & o'' & B) _]; [apply elem_of_app; auto|]. eapply in_ids, B.
Qed.

Lemma Hist_call ls st st' n lin h o : HistInv ls st n lin -> (forall c x, st c = Some x -> c < n) ->
  (forall d, st' d = if decide (d = n) then Some ((h, o), None) else st d) ->
  HistInv (ls ++ [HInv n h o]) st' (n + 1) lin.
Proof.
  intros [A1 A2 A3 A4 A5 A6 A7] Hb Es.
  assert (Fr : n ∉ map lid lin).
  { intros X. apply elem_of_list_In, in_map_iff in X as ([[c [h' o']] r] & Ec & X). cbn in Ec. subst c. apply elem_of_list_In, A2, A3 in X. lia. }
  split; auto.
  - intros d h' o' r X. apply in_csnoc. eauto.
  - intros d h' o' X. apply in_csnoc in X as [X|X]; [apply A3 in X; lia|]. injection X as -> _ _. lia.
  - intros d h' o' X. rewrite Es in X. destruct (decide (d = n)) as [->|Hne].
    + injection X as -> ->. split; [apply in_csnoc; auto|exact Fr].
    + destruct (A4 d h' o' X). split; [apply in_csnoc; auto|assumption].
  - intros d h' o' r X. rewrite Es in X. destruct (decide (d = n)) as [->|Hne]; [discriminate X|eauto].
  - intros d r X. apply in_csnoc in X as [X|X]; [|discriminate X]. destruct (A6 d r X) as [(h' & o' & B) C]. split; [eauto|].
    rewrite Es, decide_False; [exact C|]. intros ->. apply Fr. eapply in_ids, B.
  - intros d r e h' o' X Y. apply earlier_snoc in X as [X|[X _]]; [eauto|]. injection X as -> _ _. contradiction.
Qed.

Lemma Hist_return ls st st' n lin c h o r : HistInv ls st n lin -> st c = Some ((h, o), Some r) ->
  (forall d, st' d = if decide (d = c) then None else st d) -> HistInv (ls ++ [HRet c r]) st' n lin.
Proof.
  intros [A1 A2 A3 A4 A5 A6 A7] Hc Es. split; auto.
  - intros d h' o' r' X. apply in_csnoc. eauto.
  - intros d h' o' X. apply in_csnoc in X as [X|X]; [eauto|discriminate X].
  - intros d h' o' X. rewrite Es in X. destruct (decide (d = c)) as [->|Hne]; [discriminate X|]. destruct (A4 d h' o' X). split; [apply in_csnoc; auto|assumption].
  - intros d h' o' r' X. rewrite Es in X. destruct (decide (d = c)) as [->|Hne]; [discriminate X|eauto].
  - intros d r' X. rewrite Es. apply in_csnoc in X as [X|X].
    + destruct (A6 d r' X) as [B C]. split; [exact B|]. destruct (decide (d = c)); auto.
    + injection X as -> ->. split; [eauto|]. rewrite decide_True by reflexivity. reflexivity.
  - intros d r' e h' o' X Y. apply earlier_snoc in X as [X|[X _]]; [eauto|discriminate X].
Qed.

Lemma Hist_length ls st n lin : HistInv ls st n lin -> (length lin <= length (inv_ids ls))%nat.
Proof.
  intros H. rewrite <- (map_length lid lin). apply submseteq_length. apply NoDup_submseteq; [apply H|].
  intros c X. apply elem_of_list_In, in_map_iff in X as ([[c' [h o]] r] & Ec & X). cbn in Ec. subst c'.
  apply elem_of_list_In in X. apply (hi_called _ _ _ _ H) in X. apply elem_of_list_In, in_flat_map. exists (HInv c h o).
  split; [apply elem_of_list_In, X|left; reflexivity].
Qed.

Lemma Hist_0 : HistInv [] (fun _ => None) 0 [].
Proof.
  split; cbn; try discriminate; try (intros; match goal with H : _ ∈ [] |- _ => inversion H end).
  constructor.
Qed.

(** ** The world *)

(** The instance [x] with the memory part [f] and the pending jobs [q]. *)
Definition i_glue (x : inst) (f : front) (q : list job) : inst :=
  Inst (f_map f) (f_valid f) (f_poison f) q (i_io x) (i_sender x) (i_join x) (i_dir x) (i_ino x) (i_key x) (i_nonce x) (i_ml x) (i_pos x) (i_trim x).

Section WorldSim.
Context (E : env) (i : N).

Lemma cexec_glue w x j w' ok f q : w_insts w !! i = Some x -> i_io x = IoRun -> cexec E i j w = (w', ok) ->
  exists x', w_insts w' !! i = Some x' /\ (ok = true <-> i_io x' = IoRun) /\ w_handles w' = w_handles w /\ i_dir x' = i_dir x /\
    run_job E (set_inst w i (i_glue x f (j :: q))) i = set_inst w' i (i_glue x' f q).
Proof.
  intros Hx Hio. unfold cexec. rewrite Hx. unfold run_job.
  cbn [set_inst set_insts w_insts]. rewrite !lookup_insert. cbn [i_with_queue i_glue i_io i_queue]. rewrite Hio.
  destruct j as [m dup|].
  - change (i_codec E (i_glue x f (JWrite m dup :: q))) with (i_codec E x). change (i_codec E (i_with_queue x [JWrite m dup])) with (i_codec E x).
    change (i_st (set_inst w i (i_with_queue x [JWrite m dup])) (i_with_queue x [JWrite m dup])) with (i_st w x).
    change (i_st (set_inst w i (i_glue x f (JWrite m dup :: q))) (i_glue x f (JWrite m dup :: q))) with (i_st w x).
    destruct (write _ _ _ m dup) as [s b]. cbn [set_seed set_inode set_inst set_insts w_insts]. rewrite !insert_insert, lookup_insert.
    intros [= <- <-]. eexists. split; [cbn [w_insts]; apply lookup_insert|]. split_and!.
    + cbn [i_after i_io]. destruct b; split; try reflexivity; discriminate.
    + reflexivity.
    + reflexivity.
    + unfold set_seed, set_inode, set_inst, set_insts. cbn. rewrite !insert_insert. reflexivity.
  - cbn [set_dir set_inst set_insts w_insts]. rewrite !insert_insert, lookup_insert. cbn [i_with_queue i_io]. rewrite Hio.
    intros [= <- <-]. eexists. split; [cbn [w_insts]; apply lookup_insert|]. split_and!.
    + cbn [i_with_queue i_io]. rewrite Hio. split; reflexivity.
    + reflexivity.
    + reflexivity.
    + unfold set_dir, set_inst, set_insts. cbn. rewrite !insert_insert. reflexivity.
Qed.

(** A call of World.v in terms of [body]. *)
Lemma step_body w x f q h hd o : o <> CClear -> w_handles w !! h = Some hd -> h_unreg hd = false -> h_inst hd = i -> i_sender x = true -> i_io x = IoRun ->
  step E (set_inst w i (i_glue x f q)) (event_of h o) =
  Some (set_inst w i (i_glue x (body f o).1 (match (body f o).2 with NPost j => q ++ [j] | _ => q end)),
        match (body f o).2 with NRet r => r | _ => ROk None end).
Proof.
  intros Hcl Hh Hu Hi Hs Hio.
  assert (Self : forall y, set_inst (set_inst w i (i_glue x f q)) i y = set_inst w i y).
  { intros y. unfold set_inst, set_insts. cbn. rewrite insert_insert. reflexivity. }
  assert (WH : forall g, with_handle (set_inst w i (i_glue x f q)) h g = Some (g hd)).
  { intros g. unfold with_handle. cbn [set_inst set_insts w_handles]. rewrite Hh, Hu. reflexivity. }
  destruct o as [key v|key t|key|]; [..|contradiction]; cbn [event_of step]; rewrite WH; unfold on_inst; rewrite Hi; cbn [set_inst set_insts w_insts]; rewrite lookup_insert.
  - unfold inst_put, body. cbn [i_glue i_poison i_valid i_map]. destruct (f_poison f) eqn:Ep; [cbn; rewrite Self; reflexivity|].
    destruct (buffer_new key v); cbn.
    + destruct (f_valid f) eqn:Ev.
      * unfold post. cbn. rewrite Hs, Hio. rewrite Self. cbn. do 4 f_equal. unfold i_glue. cbn. rewrite ?Ev, ?Ep, ?Hs, ?Hio. reflexivity.
      * rewrite Self. reflexivity.
    + rewrite Self. reflexivity.
    + rewrite Self. reflexivity.
  - unfold inst_get, body. cbn [i_glue i_poison i_valid i_map]. rewrite Self. destruct (f_poison f); [reflexivity|].
    destruct (f_valid f); [destruct (f_map f !! key)|]; reflexivity.
  - unfold inst_delete, body. cbn [i_glue i_poison i_valid i_map]. destruct (f_poison f) eqn:Ep; [cbn; rewrite Self; reflexivity|].
    destruct (f_valid f) eqn:Ev; [|cbn; rewrite Self; reflexivity].
    destruct (f_map f !! key); [|cbn; rewrite Self; reflexivity]. unfold post. cbn. rewrite Hs, Hio, Self. cbn. do 4 f_equal.
    unfold i_glue. cbn. rewrite ?Ev, ?Ep, ?Hs, ?Hio. reflexivity.
Qed.

(** Opening the files does not look at the open instances. *)
Lemma open_config_set w z d : open_config E (set_inst w i z) d = let '(w1, n) := open_config E w d in (set_inst w1 i z, n).
Proof. unfold open_config. change (dir_of (set_inst w i z) d) with (dir_of w d). destruct (d_data _); reflexivity. Qed.
Lemma open_nonce_set w z d : open_nonce E (set_inst w i z) d = let '(w1, n) := open_nonce E w d in (set_inst w1 i z, n).
Proof.
  unfold open_nonce. change (dir_of (set_inst w i z) d) with (dir_of w d). change (w_rng (set_inst w i z)) with (w_rng w).
  destruct (is_encrypted _); [|reflexivity]. destruct (init_nonce _ _). reflexivity.
Qed.
Lemma open_impl_set w z p k : open_impl E (set_inst w i z) p k = let '(w1, o) := open_impl E w p k in (set_inst w1 i z, o).
Proof.
  unfold open_impl. destruct (e_dir_ok E p); [|reflexivity].
  rewrite open_config_set. destruct (open_config E w _) as [w1 n].
  destruct (feature_key _ k) as [kk|]; [|reflexivity]. rewrite open_nonce_set. destruct (open_nonce E w1 _) as [w2 nn].
  change (w_seed (set_inst w2 i z)) with (w_seed w2). change (inode (set_inst w2 i z) n) with (inode w2 n).
  destruct (open_file _ _ _ _) as [[s m]|]; reflexivity.
Qed.

Lemma run_job_dead w x : w_insts w !! i = Some x -> i_io x = IoDead -> run_job E w i = w.
Proof. intros Hx Hd. unfold run_job. rewrite Hx, Hd. reflexivity. Qed.

Lemma iter_dead n : forall w x, w_insts w !! i = Some x -> i_io x = IoDead -> Nat.iter n (fun w => run_job E w i) w = w.
Proof. induction n as [|n IH]; intros w x Hx Hd; [reflexivity|]. rewrite Nat.iter_succ. erewrite IH by eassumption. eapply run_job_dead; eassumption. Qed.

(** clear_data of World.v: if the thread gets through the queue, the files
    are opened again; if it dies on the way, the call fails. *)
Lemma clear_glue wa xa af pend h hd k t x q : w_handles wa !! h = Some hd -> h_unreg hd = false -> h_inst hd = i -> i_sender xa = true -> i_io xa = IoRun ->
  f_poison af = false -> f_valid af = true ->
  Nat.iter k (fun w => run_job E w i) (set_inst wa i (i_glue xa (Front ∅ false (f_poison af)) (pend ++ [JRemove]))) =
    set_inst t i (i_glue x (Front ∅ false (f_poison af)) q) ->
  (k + length q = S (length pend))%nat ->
  exists w r, step E (set_inst wa i (i_glue xa af pend)) (EClear h) = Some (w, r) /\
    (i_io x = IoDead -> r = RErr IOError) /\
    (i_io x = IoRun -> q = [] -> let '(w1, o) := open_impl E t (h_path hd) (h_key hd) in
      match o with Some y => w = set_inst w1 i y /\ r = ROk None | None => r = RPanic end).
Proof.
  intros Hh Hu Hi Hs Hio Hp Hv It Len.
  assert (Self : forall u y z, set_inst (set_inst u i y) i z = set_inst u i z).
  { intros u y z. unfold set_inst, set_insts. cbn. rewrite insert_insert. reflexivity. }
  cbn [step]. unfold with_handle. cbn [set_inst set_insts w_handles]. rewrite Hh, Hu.
  unfold do_clear. rewrite Hi. fold (set_insts wa (<[i := i_glue xa af pend]> (w_insts wa))). fold (set_inst wa i (i_glue xa af pend)).
  change (w_insts (set_inst wa i (i_glue xa af pend)) !! i) with (<[i := i_glue xa af pend]> (w_insts wa) !! i). rewrite lookup_insert.
  change (i_poison (i_glue xa af pend)) with (f_poison af). rewrite Hp.
  unfold impl_clear. change (i_valid (i_glue xa af pend)) with (f_valid af). rewrite Hv. cbn [negb].
  unfold post. change (i_sender (i_invalid (i_glue xa af pend))) with (i_sender xa). rewrite Hs.
  change (i_io (i_invalid (i_glue xa af pend))) with (i_io xa). rewrite Hio. rewrite Self.
  change (i_with_queue (i_invalid (i_glue xa af pend)) (i_queue (i_invalid (i_glue xa af pend)) ++ [JRemove])) with
    (i_glue xa (Front ∅ false (f_poison af)) (pend ++ [JRemove])).
  unfold drain. cbn [set_inst set_insts w_insts]. rewrite lookup_insert. cbn [i_glue i_queue]. rewrite app_length. cbn [length].
  fold (i_glue xa (Front ∅ false (f_poison af)) (pend ++ [JRemove])).
  match goal with |- context [Nat.iter _ _ ?a] => change a with (set_inst wa i (i_glue xa (Front ∅ false (f_poison af)) (pend ++ [JRemove]))) end.
  replace (length pend + 1)%nat with (length q + k)%nat by lia.
  rewrite Nat.iter_add, It.
  destruct (i_io x) eqn:Ex.
  - destruct q as [|j q].
    + match goal with |- context [Nat.iter (length []) ?f ?X] => change (Nat.iter (length []) f X) with X end. cbn [set_inst set_insts w_insts]. rewrite lookup_insert. cbn [i_glue i_io]. rewrite Ex.
      match goal with |- context [open_impl E ?u _ _] => change u with (set_inst (set_inst t i (i_glue x (Front ∅ false (f_poison af)) [])) i
        (i_quit (i_glue x (Front ∅ false (f_poison af)) []))) end.
      rewrite !open_impl_set. destruct (open_impl E t (h_path hd) (h_key hd)) as [w1 [y|]].
      * cbn [set_inst set_insts w_insts]. rewrite lookup_insert. cbn [default i_quit i_join andb].
        eexists _, _. split; [reflexivity|]. split; [discriminate|]. intros _ _. split; [|reflexivity].
        unfold set_inst, set_insts. cbn. rewrite !insert_insert. reflexivity.
      * cbn [set_inst set_insts w_insts]. rewrite lookup_insert.
        eexists _, _. split; [reflexivity|]. split; [discriminate|]. intros _ _. reflexivity.
    + match goal with |- context [w_insts ?u !! i] => set (u1 := u) end.
      match goal with |- exists w r, Some ?a = Some (w, r) /\ _ => destruct a as [w r] end.
      exists w, r. split; [reflexivity|]. split; [discriminate|]. intros _ X. discriminate X.
  - rewrite (iter_dead _ _ (i_glue x (Front ∅ false (f_poison af)) q)); [|apply lookup_insert|exact Ex].
    cbn [set_inst set_insts w_insts]. rewrite lookup_insert. cbn [i_glue i_io]. rewrite Ex. eexists _, _. split; [reflexivity|].
    split; [reflexivity|discriminate].
Qed.

End WorldSim.

(** ** The simulation *)

(** The calls of a trace with their answers, without background events. *)
Fixpoint answered (es : list event) (rs : list result) : list (event * result) :=
  match es, rs with
  | EIo _ :: es, _ :: rs => answered es rs
  | e :: es, r :: rs => (e, r) :: answered es rs
  | _, _ => []
  end.

Definition linev (x : N * (N * cop) * result) : event * result := (event_of x.1.2.1 x.1.2.2, x.2).

Lemma answered_app es rs es' rs' : length es = length rs -> answered (es ++ es') (rs ++ rs') = answered es rs ++ answered es' rs'.
Proof.
  revert rs. induction es as [|e es IH]; intros [|r rs] L; cbn in L; try discriminate; [reflexivity|].
  injection L as L. cbn. destruct e; cbn; rewrite IH by exact L; reflexivity.
Qed.

Lemma spec_answered canon es : forall sp sp' rs, spec_run canon sp es = Some (sp', rs) ->
  spec_run canon sp (map fst (answered es rs)) = Some (sp', map snd (answered es rs)).
Proof.
  induction es as [|e es IH]; intros sp sp' rs; cbn [spec_run].
  - intros [= <- <-]. reflexivity.
  - destruct (spec_step canon sp e) as [[s1 x]|] eqn:Es; [|discriminate].
    destruct (spec_run canon s1 es) as [[s2 xs]|] eqn:Er; [|discriminate]. intros [= <- <-].
    specialize (IH s1 s2 xs Er).
    destruct e; cbn [answered map fst snd spec_run]; try (rewrite Es, IH; reflexivity).
    cbn in Es. injection Es as <- _. exact IH.
Qed.

Definition linres (posts : gmap N (ppc * job)) (o : cop) (p : apc) : option result :=
  match p with
  | AWant | AHeld | APost _ | AQuit | AJoin | AOpen => None
  | AWait lc => match o with CClear => None | _ => match posts !! lc with Some (PLock, _) | Some (PHold, _) => None | _ => Some (ROk None) end end
  | ARet r | ADone r => Some r
  end.

(** A clear_data that has queued its job is in its late phase; [early] calls
    are all others. *)
Definition early (posts : gmap N (ppc * job)) (o : cop) (p : apc) : Prop :=
  match p with
  | AQuit | AJoin | AOpen => False
  | AWait lc => o = CClear -> forall q j, posts !! lc = Some (q, j) -> pushed q = false
  | _ => True
  end.
Definition calm (s : conc) : Prop :=
  l_k (c_loop s) = KOpen /\ forall c p h o, c_calls s !! c = Some (p, (h, o)) -> early (l_posts (c_loop s)) o p.

Lemma calm_call s s' c q h o : calm s -> c_calls s' = <[c := (q, (h, o))]> (c_calls s) -> l_posts (c_loop s') = l_posts (c_loop s) ->
  l_k (c_loop s') = l_k (c_loop s) -> early (l_posts (c_loop s)) o q -> calm s'.
Proof.
  intros [K A] Hs Hp Hk He. split; [congruence|]. intros d p' h' o' X. rewrite Hs in X. rewrite Hp. destruct (decide (d = c)) as [->|Hne].
  - rewrite lookup_insert in X. injection X as <- <- <-. exact He.
  - rewrite lookup_insert_ne in X by congruence. eauto.
Qed.

Lemma calm_loop s s' : calm s -> c_calls s' = c_calls s -> l_posts (c_loop s') = l_posts (c_loop s) -> l_k (c_loop s') = l_k (c_loop s) -> calm s'.
Proof. intros [K A] Hs Hp Hk. split; [congruence|]. rewrite Hs, Hp. exact A. Qed.

Definition status (s : conc) (c : N) : option ((N * cop) * option result) :=
  match c_calls s !! c with Some (p, ho) => Some (ho, linres (l_posts (c_loop s)) ho.2 p) | None => None end.

(** The job of a call that has changed the map but not queued yet. *)
Definition behind (posts : gmap N (ppc * job)) (p : apc) : option job :=
  match p with
  | APost j => Some j
  | AWait lc => match posts !! lc with Some (PLock, j) | Some (PHold, j) => Some j | _ => None end
  | _ => None
  end.

Definition front_rel (s : conc) (af : front) : Prop :=
  (exists c p h o j, c_calls s !! c = Some (p, (h, o)) /\ behind (l_posts (c_loop s)) p = Some j /\ body af o = (c_front s, NPost j)) \/
  ((forall c p ho, c_calls s !! c = Some (p, ho) -> behind (l_posts (c_loop s)) p = None) /\ af = c_front s).

Lemma behind_posting posts p j : behind posts p = Some j -> posting p = true.
Proof. destruct p; cbn; auto; discriminate. Qed.

Lemma behind_writer s c p h o j : LInv s -> c_calls s !! c = Some (p, (h, o)) -> behind (l_posts (c_loop s)) p = Some j -> c_writer s = Some c.
Proof.
  intros L Hc Hb. apply behind_posting in Hb. pose proof (k_own _ L _ _ _ _ Hc) as G. rewrite (k_posting _ L _ _ _ _ Hc Hb) in G.
  apply G. destruct p; try discriminate Hb; reflexivity.
Qed.

(** A call that holds the lock without being behind sees the current state. *)
Lemma front_alone s af c p h o : LInv s -> front_rel s af -> c_calls s !! c = Some (p, (h, o)) -> owns p = true ->
  behind (l_posts (c_loop s)) p = None -> af = c_front s /\ forall d q ho, c_calls s !! d = Some (q, ho) -> behind (l_posts (c_loop s)) q = None.
Proof.
  intros L [(c' & p' & h' & o' & j & Hc' & Hb & _)|[A B]] Hc Ho Hn; [exfalso|auto].
  pose proof (behind_writer s c' p' h' o' j L Hc' Hb) as W. pose proof (k_own _ L _ _ _ _ Hc Ho) as G. destruct (exclusive o).
  - assert (c = c') as <- by congruence. rewrite Hc in Hc'. injection Hc' as <- <- <-. congruence.
  - rewrite (k_wr _ L) in W; [discriminate W|]. set_solver.
Qed.

Section Sim.
Context (E : env) (keyof : bytes -> bytes) (i : N) (es0 : list event) (w0 : world) (rs0 : list result) (x0 : inst).
Context (HO : ordinary E keyof es0) (Hrun0 : run E world0 es0 = Some (w0, rs0)) (Hx0 : w_insts w0 !! i = Some x0) (Hq0 : i_queue x0 = []).

Record Sim (ls : list clabel) (s : conc) (lin : list (N * (N * cop) * result)) (es : list event) (rs : list result) (x : inst) (af : front) : Prop := {
  sm_run : run E w0 es = Some (set_inst (l_cb (c_loop s)) i (i_glue x af (map snd (l_buf (c_loop s) ++ l_queue (c_loop s)))), rs);
  sm_ans : answered es rs = map linev lin;
  sm_ok : Forall (call_ok E keyof) es;
  sm_paths : paths es = [];
  sm_writes : writes es <= N.of_nat (length lin);
  sm_inst : w_insts (l_cb (c_loop s)) !! i = Some x;
  sm_handles : w_handles (l_cb (c_loop s)) = w_handles w0;
  sm_dir : i_dir x = i_dir x0;
  sm_alive : l_x (c_loop s) <> XDead;
  sm_front : front_rel s af;
  sm_calm : calm s;
  sm_hist : HistInv ls (status s) (c_next s) lin
}.

(** What the calls of a history must satisfy. *)
Definition calls_fit (ls : list clabel) : Prop :=
  (forall c h o, HInv c h o ∈ ls -> call_ok E keyof (event_of h o) /\ exists hd, w_handles w0 !! h = Some hd /\ h_inst hd = i /\ e_canon E (h_path hd) = i_dir x0) /\
  room E (writes es0 + N.of_nat (length (inv_ids ls))).

Lemma run_length' es : forall w w' rs, run E w es = Some (w', rs) -> length es = length rs.
Proof.
  induction es as [|e es IH]; intros w w' rs; cbn [run].
  - intros [= _ <-]. reflexivity.
  - destruct (step E w e) as [[w1 r]|]; [|discriminate]. destruct (run E w1 es) as [[w2 r2]|] eqn:Er; [|discriminate].
    intros [= _ <-]. cbn. f_equal. eapply IH, Er.
Qed.

Lemma ordinary_ext es n : Forall (call_ok E keyof) es -> paths es = [] -> writes es <= n -> room E (writes es0 + n) -> ordinary E keyof (es0 ++ es).
Proof.
  intros A B C D. split.
  - apply HO.
  - apply Forall_app. split; [apply HO|exact A].
  - intros p p'. rewrite paths_app, B, app_nil_r. apply (or_paths _ _ _ HO).
  - eapply room_mono; [|exact D]. rewrite writes_app. lia.
Qed.

(** The glued world is one of ordinary use. *)
Lemma glued_ok es n y w rs : Forall (call_ok E keyof) es -> paths es = [] -> writes es <= n -> room E (writes es0 + n) ->
  run E w0 es = Some (set_inst w i y, rs) -> i_io y = IoRun /\ i_sender y = true /\ i_poison y = false /\ i_valid y = true /\
    forall h hd, w_handles w !! h = Some hd -> h_unreg hd = false.
Proof.
  intros A B C D R. pose proof (ordinary_ext es n A B C D) as O'.
  destruct (reach E keyof (es0 ++ es) O' (set_inst w i y) (rs0 ++ rs)) as (sp & _ & W); [rewrite run_app, Hrun0, R; reflexivity|].
  destruct (wi_insts _ _ _ _ _ _ _ W i y) as (_ & I & _); [apply lookup_insert|].
  split; [apply (io_run _ _ _ _ _ _ _ I)|]. split; [apply (io_sender _ _ _ _ _ _ _ I)|].
  split; [apply (io_poison _ _ _ _ _ _ _ I)|]. split; [apply (io_valid _ _ _ _ _ _ _ I)|]. intros h hd Hh. destruct (handle_cases E keyof (PU (es0 ++ es)) _ sp _ _ h hd W Hh) as (_ & G & _). exact G.
Qed.

Lemma Sim_0 : Sim [] (conc0 w0 x0) [] [] [] x0 (Front (i_map x0) (i_valid x0) (i_poison x0)).
Proof.
  split; cbn; auto.
  - f_equal. f_equal. symmetry. apply set_inst_same. rewrite Hx0. f_equal. destruct x0. cbn in *. rewrite Hq0. reflexivity.
  - right. split; [|reflexivity]. intros c p ho X. cbn in X. rewrite lookup_empty in X. discriminate X.
  - split; [reflexivity|]. intros c p h o X. cbn in X. rewrite lookup_empty in X. discriminate X.
  - eapply (fun X => X). pose proof Hist_0 as [A1 A2 A3 A4 A5 A6 A7]. split; auto; unfold status; cbn; intros; rewrite lookup_empty in *; try discriminate; auto.
Qed.

Lemma Sim_silent ls s s' lin es rs x af : Sim ls s lin es rs x af ->
  l_cb (c_loop s') = l_cb (c_loop s) -> map snd (l_buf (c_loop s') ++ l_queue (c_loop s')) = map snd (l_buf (c_loop s) ++ l_queue (c_loop s)) ->
  l_x (c_loop s') <> XDead -> (forall c, status s' c = status s c) -> c_next s' = c_next s -> front_rel s' af -> calm s' ->
  Sim (ls ++ [HTau]) s' lin es rs x af.
Proof.
  intros [A1 A2 A3 A4 A5 A6 A7 Ad A8 A9 Ac A10] B1 B2 B3 B4 B5 B6 B7. split; rewrite ?B1, ?B2, ?B5; auto.
  eapply Hist_tau; eassumption.
Qed.

(** A call takes effect. *)
Lemma Sim_lin ls s s' lin es rs x af c p h o : Sim ls s lin es rs x af -> calls_fit ls ->
  c_calls s !! c = Some (p, (h, o)) -> linres (l_posts (c_loop s)) o p = None -> o <> CClear ->
  l_cb (c_loop s') = l_cb (c_loop s) ->
  map snd (l_buf (c_loop s') ++ l_queue (c_loop s')) =
    map snd (l_buf (c_loop s) ++ l_queue (c_loop s)) ++ match (body af o).2 with NPost j => [j] | _ => [] end ->
  l_x (c_loop s') <> XDead -> c_next s' = c_next s -> front_rel s' (body af o).1 -> calm s' ->
  (forall d, status s' d = if decide (d = c) then Some ((h, o), Some (match (body af o).2 with NRet r => r | _ => ROk None end)) else status s d) ->
  exists lin' es' rs' x' af', Sim (ls ++ [HTau]) s' lin' es' rs' x' af'.
Proof.
  intros [A1 A2 A3 A4 A5 A6 A7 Ad A8 A9 Ac A10] [F1 F2] Hc Hn Hnc B1 B2 B3 B5 B6 B7 B4.
  assert (Hs : status s c = Some ((h, o), None)) by (unfold status; rewrite Hc; cbn [snd]; rewrite Hn; reflexivity).
  destruct (hi_before _ _ _ _ A10 c h o Hs) as [Hin _].
  destruct (F1 c h o Hin) as (Hok & hd & Hhd & Hi & _).
  pose proof (Hist_length _ _ _ _ A10) as HL.
  assert (R : room E (writes es0 + N.of_nat (length lin))) by (eapply room_mono; [|exact F2]; lia).
  destruct (glued_ok es _ _ _ rs A3 A4 A5 R A1) as (Gio & Gs & _ & _ & Gh). cbn in Gio, Gs.
  rewrite <- A7 in Hhd.
  pose proof (step_body E i (l_cb (c_loop s)) x af (map snd (l_buf (c_loop s) ++ l_queue (c_loop s))) h hd o Hnc Hhd (Gh h hd Hhd) Hi Gs Gio) as St.
  set (r := match (body af o).2 with NRet r => r | _ => ROk None end) in *.
  exists (lin ++ [(c, (h, o), r)]), (es ++ [event_of h o]), (rs ++ [r]), x, (body af o).1. split.
  - rewrite run_app, A1. cbn [run]. rewrite St. rewrite B1, B2. destruct (body af o).2; [rewrite app_nil_r; reflexivity|reflexivity|rewrite app_nil_r; reflexivity].
  - rewrite answered_app by (eapply run_length', A1). rewrite A2, map_app. f_equal. cbn [map].
    destruct o; reflexivity.
  - apply Forall_app. split; [exact A3|]. constructor; [exact Hok|constructor].
  - rewrite paths_app, A4. destruct o; reflexivity.
  - rewrite writes_app, app_length. cbn [length]. assert (writes [event_of h o] <= 1) by (destruct o; cbn; lia). lia.
  - rewrite B1. exact A6.
  - rewrite B1. exact A7.
  - exact Ad.
  - exact B3.
  - exact B6.
  - exact B7.
  - rewrite B5. eapply Hist_lin; [exact A10|exact Hs|exact B4].
Qed.

(** Changing the place of one call, the looper's calls staying the same. *)
Lemma status_call s s' c p q ho : c_calls s !! c = Some (p, ho) -> c_calls s' = <[c := (q, ho)]> (c_calls s) -> l_posts (c_loop s') = l_posts (c_loop s) ->
  forall d, status s' d = if decide (d = c) then Some (ho, linres (l_posts (c_loop s)) ho.2 q) else status s d.
Proof.
  intros Hc Hs Hp d. unfold status. rewrite Hs, Hp. destruct (decide (d = c)) as [->|Hne]; [rewrite lookup_insert; reflexivity|].
  rewrite lookup_insert_ne by congruence. reflexivity.
Qed.

Lemma status_call_same s s' c p q ho : c_calls s !! c = Some (p, ho) -> c_calls s' = <[c := (q, ho)]> (c_calls s) -> l_posts (c_loop s') = l_posts (c_loop s) ->
  linres (l_posts (c_loop s)) ho.2 q = linres (l_posts (c_loop s)) ho.2 p -> forall d, status s' d = status s d.
Proof.
  intros Hc Hs Hp Hl d. rewrite (status_call s s' c p q ho Hc Hs Hp d). destruct (decide (d = c)) as [->|]; [|reflexivity].
  unfold status. rewrite Hc, Hl. reflexivity.
Qed.

Lemma front_call_same s s' c p q ho af : c_calls s !! c = Some (p, ho) -> c_calls s' = <[c := (q, ho)]> (c_calls s) -> l_posts (c_loop s') = l_posts (c_loop s) ->
  c_front s' = c_front s -> behind (l_posts (c_loop s)) q = behind (l_posts (c_loop s)) p -> front_rel s af -> front_rel s' af.
Proof.
  intros Hc Hs Hp Hf Hb [(d & p' & h & o & j & X1 & X2 & X3)|[X1 X2]].
  - left. destruct (decide (d = c)) as [->|Hne].
    + rewrite Hc in X1. injection X1 as <- ->. exists c, q, h, o, j. rewrite Hs, Hp, Hf, lookup_insert. split_and!; congruence.
    + exists d, p', h, o, j. rewrite Hs, Hp, Hf, lookup_insert_ne by congruence. auto.
  - right. rewrite Hf, Hp, Hs. split; [|exact X2]. intros d p' ho' X. destruct (decide (d = c)) as [->|Hne].
    + rewrite lookup_insert in X. injection X as <- <-. rewrite Hb. eauto.
    + rewrite lookup_insert_ne in X by congruence. eauto.
Qed.

Lemma front_loop s s' af : c_calls s' = c_calls s -> c_front s' = c_front s -> l_posts (c_loop s') = l_posts (c_loop s) -> front_rel s af -> front_rel s' af.
Proof. intros H1 H2 H3. unfold front_rel. rewrite H1, H2, H3. auto. Qed.

Lemma status_loop s s' : c_calls s' = c_calls s -> l_posts (c_loop s') = l_posts (c_loop s) -> forall d, status s' d = status s d.
Proof. intros H1 H2 d. unfold status. rewrite H1, H2. reflexivity. Qed.

Lemma calls_fit_l ls a : calls_fit (ls ++ [a]) -> calls_fit ls.
Proof.
  intros [A B]. split.
  - intros c h o X. apply (A c). apply in_csnoc. auto.
  - eapply room_mono; [|exact B]. unfold inv_ids. rewrite flat_map_app, app_length. lia.
Qed.

Lemma Sim_front ls s lin es rs x af : Sim ls s lin es rs x af -> calls_fit ls ->
  i_io x = IoRun /\ i_sender x = true /\ f_poison af = false /\ f_valid af = true.
Proof.
  intros [A1 A2 A3 A4 A5 A6 A7 Ad A8 A9 Ac A10] Fit.
  assert (R : room E (writes es0 + N.of_nat (length lin))).
  { eapply room_mono; [|apply (proj2 Fit)]. pose proof (Hist_length _ _ _ _ A10). lia. }
  destruct (glued_ok es _ _ _ rs A3 A4 A5 R A1) as (G1 & G2 & G3 & G4 & _). auto.
Qed.

(** The late phase of clear_data, the write lock held by call [c]: the run of
    World.v is still before the clear, from the world [wa] with the jobs
    [pend] queued; the background thread has done some of its work. *)
Definition cleared (af : front) : front := Front ∅ false (f_poison af).

Definition phase (l : loop job world) (p : apc) : Prop :=
  match p with
  | AWait lc => (exists q j, l_posts l !! lc = Some (q, j) /\ pushed q = true) /\ l_k l = KOpen
  | AQuit => l_k l = KOpen
  | AJoin => l_k l = KJoin
  | AOpen => l_k l = KClosed true
  | _ => False
  end.

Record SimC (ls : list clabel) (s : conc) (lin : list (N * (N * cop) * result)) (es : list event) (rs : list result) (x : inst) (af : front)
    (c h : N) (wa : world) (xa : inst) (pend : list job) : Prop := {
  sc_run : run E w0 es = Some (set_inst wa i (i_glue xa af pend), rs);
  sc_ans : answered es rs = map linev lin;
  sc_ok : Forall (call_ok E keyof) es;
  sc_paths : paths es = [];
  sc_writes : writes es <= N.of_nat (length lin);
  sc_inst : w_insts (l_cb (c_loop s)) !! i = Some x;
  sc_handles : w_handles (l_cb (c_loop s)) = w_handles w0;
  sc_handlesa : w_handles wa = w_handles w0;
  sc_dir : i_dir x = i_dir x0;
  sc_alive : l_x (c_loop s) <> XDead;
  sc_call : exists p, c_calls s !! c = Some (p, (h, CClear)) /\ phase (c_loop s) p;
  sc_front : c_front s = cleared af;
  sc_jobs : exists k, (k + length (l_buf (c_loop s) ++ l_queue (c_loop s)) = S (length pend))%nat /\
    Nat.iter k (fun w => run_job E w i) (set_inst wa i (i_glue xa (cleared af) (pend ++ [JRemove]))) =
    set_inst (l_cb (c_loop s)) i (i_glue x (cleared af) (map snd (l_buf (c_loop s) ++ l_queue (c_loop s))));
  sc_hist : HistInv ls (status s) (c_next s) lin
}.

Definition Good (ls : list clabel) (s : conc) : Prop :=
  (exists lin es rs x af, Sim ls s lin es rs x af) \/
  (exists lin es rs x af c h wa xa pend, SimC ls s lin es rs x af c h wa xa pend).

Lemma Sim_step ls s a s' lin es rs x af : LInv s -> Sim ls s lin es rs x af -> calls_fit (ls ++ [a]) -> cstep E i s a s' ->
  Good (ls ++ [a]) s'.
Proof.
  intros L S Fit X. pose proof (calls_fit_l _ _ Fit) as Fit'.
  destruct (Sim_front _ _ _ _ _ _ _ S Fit') as (Fio & Fs & Fp & Fv).
  destruct X as [s h o|s c h o Hc He Hw|s c h o Hc He Hw Hr|s c h o f r Hc Hb|s c h o f j Hc Hb|s c h o f Hc Hb|s c h o j l Hc Hp|s l Hp|s c h o lc ok l Hc Hp
    |s c h o l Hc Hk Hch|s c h o l Hc Hk|s c h o ok l Hc Hk|s c h o hd w y Hc Hh Ho Hk|s c h o hd w y Hc Hh Ho Hk Ha|s c h o hd w Hc Hh Ho|s a l Hx|s c h o r Hc|s c h o r Hc].
  - (* call *)
    left; exists lin, es, rs, x, af. destruct S as [A1 A2 A3 A4 A5 A6 A7 Ad A8 A9 Ac A10]. split; auto.
    + destruct A9 as [(d & p' & h' & o' & j & X1 & X2 & X3)|[X1 X2]].
      * left. exists d, p', h', o', j. cbn. rewrite lookup_insert_ne; auto. apply (k_next _ L) in X1. lia.
      * right. cbn. split; [|exact X2]. intros d p' ho' X. destruct (decide (d = c_next s)) as [->|Hne].
        -- rewrite lookup_insert in X. injection X as <- _. reflexivity.
        -- rewrite lookup_insert_ne in X by congruence. eauto.
    + eapply calm_call; [exact Ac|reflexivity..|exact Logic.I].
    + cbn [c_next]. eapply Hist_call; [exact A10| |].
      * intros c y Y. unfold status in Y. destruct (c_calls s !! c) as [z|] eqn:Hz; [|discriminate]. eapply (k_next _ L), Hz.
      * intros d. unfold status. cbn. destruct (decide (d = c_next s)) as [->|Hne]; [rewrite lookup_insert; reflexivity|].
        rewrite lookup_insert_ne by congruence. reflexivity.
  - (* read lock *)
    left; exists lin, es, rs, x, af. eapply Sim_silent; [exact S|..]; try reflexivity; [apply S|..].
    + eapply status_call_same; [exact Hc|reflexivity..].
    + eapply front_call_same; [exact Hc|reflexivity..|apply S].
    + eapply calm_call; [apply S|reflexivity..|exact Logic.I].
  - (* write lock *)
    left; exists lin, es, rs, x, af. eapply Sim_silent; [exact S|..]; try reflexivity; [apply S|..].
    + eapply status_call_same; [exact Hc|reflexivity..].
    + eapply front_call_same; [exact Hc|reflexivity..|apply S].
    + eapply calm_call; [apply S|reflexivity..|exact Logic.I].
  - (* body with a result *)
    destruct (front_alone s af c AHeld h o L (sm_front _ _ _ _ _ _ _ S) Hc eq_refl eq_refl) as [-> Al].
    left; eapply Sim_lin; [exact S|exact Fit'|exact Hc|..]; try reflexivity; rewrite ?Hb; cbn [fst snd].
    + intros ->. unfold body in Hb. rewrite Fp, Fv in Hb. discriminate Hb.
    + symmetry. apply app_nil_r.
    + apply S.
    + right. cbn. split; [|reflexivity]. intros d p' ho' X. destruct (decide (d = c)) as [->|Hne].
      * rewrite lookup_insert in X. injection X as <- _. reflexivity.
      * rewrite lookup_insert_ne in X by congruence. eauto.
    + eapply calm_call; [apply S|reflexivity..|exact Logic.I].
    + intros d. erewrite status_call; [|exact Hc|reflexivity..]. reflexivity.
  - (* body with a job *)
    destruct (front_alone s af c AHeld h o L (sm_front _ _ _ _ _ _ _ S) Hc eq_refl eq_refl) as [-> Al].
    left; exists lin, es, rs, x, (c_front s). eapply Sim_silent; [exact S|..]; try reflexivity; [apply S|..].
    + eapply status_call_same; [exact Hc|reflexivity..].
    + left. exists c, (APost j), h, o, j. cbn. rewrite lookup_insert. auto.
    + eapply calm_call; [apply S|reflexivity..|exact Logic.I].
  - (* body, reopening: the store is valid *)
    exfalso. destruct (front_alone s af c AHeld h o L (sm_front _ _ _ _ _ _ _ S) Hc eq_refl eq_refl) as [-> Al].
    unfold body in Hb. rewrite Fp, Fv in Hb. destruct o; [destruct (buffer_new _ _)|..|]; try discriminate Hb. destruct (f_map _ !! _); discriminate Hb.
  - (* post is entered *)
    apply pstep_call in Hp as (P1 & P2 & P3 & P4 & P5 & P6).
    left; exists lin, es, rs, x, af. eapply Sim_silent; [exact S|..]; cbn; try congruence.
    + rewrite P3. apply S.
    + intros d. unfold status. cbn. rewrite P1. destruct (decide (d = c)) as [->|Hne].
      * rewrite lookup_insert, Hc. cbn. rewrite lookup_insert. destruct o; reflexivity.
      * rewrite lookup_insert_ne by congruence. destruct (c_calls s !! d) as [[p' [h' o']]|] eqn:Hd; [|reflexivity]. do 2 f_equal.
        destruct p'; try reflexivity. cbn. destruct (k_wait _ L _ _ _ _ Hd) as [y Y]. rewrite lookup_insert_ne; [reflexivity|].
        apply (s_next _ (k_loop _ L)) in Y. lia.
    + left. exists c, (AWait (l_next (c_loop s))), h, o, j. cbn. rewrite lookup_insert, P1, lookup_insert. split_and!; auto.
      destruct (sm_front _ _ _ _ _ _ _ S) as [(d & p' & h' & o' & j' & X1 & X2 & X3)|[X1 X2]].
      * pose proof (behind_writer _ _ _ _ _ _ L X1 X2) as W1. pose proof (behind_writer _ _ _ _ _ _ L Hc eq_refl) as W2.
        assert (d = c) as -> by congruence. rewrite Hc in X1. injection X1 as <- <- <-. cbn in X2. injection X2 as <-. exact X3.
      * specialize (X1 _ _ _ Hc). discriminate X1.
    + destruct (sm_calm _ _ _ _ _ _ _ S) as [K A]. split; [cbn; congruence|]. intros d p' h' o' Y. cbn in Y |- *. rewrite P1.
      destruct (decide (d = c)) as [->|Hne].
      * rewrite lookup_insert in Y. injection Y as <- <- <-. cbn. intros _ q' j'. rewrite lookup_insert. intros [= <- _]. reflexivity.
      * rewrite lookup_insert_ne in Y by congruence. pose proof (A _ _ _ _ Y) as B. destruct p'; try exact B. cbn in B |- *.
        intros Ho q' j'. destruct (k_wait _ L _ _ _ _ Y) as [z Z]. rewrite lookup_insert_ne; [eauto|]. apply (s_next _ (k_loop _ L)) in Z. lia.
  - (* inside post *)
    apply pstep_tau in Hp as (P1 & P2 & P3 & P4 & lc & p & q & j & P5 & P6 & P7).
    destruct (k_post _ L _ _ P5) as (c & h & o & Hc).
    assert (Hst : forall d, status (set_loop s l) d = if decide (d = c) then Some ((h, o), linres (l_posts l) o (AWait lc)) else status s d).
    { intros d. unfold status. cbn. destruct (decide (d = c)) as [->|Hne]; [rewrite Hc; reflexivity|].
      destruct (c_calls s !! d) as [[p' [h' o']]|] eqn:Hd; [|reflexivity]. do 2 f_equal. destruct p' as [| | |lc'| | | | |]; try reflexivity. cbn. rewrite P6.
      rewrite lookup_insert_ne; [reflexivity|]. intros <-. apply Hne.
      pose proof (k_own _ L _ _ _ _ Hd eq_refl) as W. rewrite (k_posting _ L _ _ _ _ Hd eq_refl) in W.
      pose proof (k_own _ L _ _ _ _ Hc eq_refl) as W'. rewrite (k_posting _ L _ _ _ _ Hc eq_refl) in W'. congruence. }
    assert (Hoth : forall d p' ho', c_calls s !! d = Some (p', ho') -> d <> c -> behind (l_posts l) p' = None /\ behind (l_posts (c_loop s)) p' = None).
    { intros d p' [h' o'] Hd Hne. assert (posting p' = false) as Hpp.
      { destruct (posting p') eqn:Hpp; [|reflexivity]. exfalso. apply Hne.
        pose proof (k_own _ L _ _ _ _ Hd) as W. rewrite (k_posting _ L _ _ _ _ Hd Hpp) in W. specialize (W ltac:(destruct p'; try discriminate Hpp; reflexivity)).
        pose proof (k_own _ L _ _ _ _ Hc eq_refl) as W'. rewrite (k_posting _ L _ _ _ _ Hc eq_refl) in W'. congruence. }
      destruct p'; try discriminate Hpp; auto. }
    assert (Hbeh : forall j', behind (l_posts (c_loop s)) (AWait lc) = Some j' -> body af o = (c_front s, NPost j')).
    { intros j' Hj. destruct (sm_front _ _ _ _ _ _ _ S) as [(d & p' & h' & o' & j2 & X1 & X2 & X3)|[X1 X2]].
      - pose proof (behind_writer _ _ _ _ _ _ L X1 X2) as W1. pose proof (behind_writer _ _ _ _ _ _ L Hc Hj) as W2.
        assert (d = c) as -> by congruence. rewrite Hc in X1. injection X1 as <- <- <-. congruence.
      - specialize (X1 _ _ _ Hc). congruence. }
    assert (Hcalm : (o = CClear -> pushed q = false) -> calm (set_loop s l)).
    { intros Hq. destruct (sm_calm _ _ _ _ _ _ _ S) as [K A]. split; [cbn; congruence|]. intros d p' h' o' Y. cbn in Y |- *.
      pose proof (A _ _ _ _ Y) as B. destruct p' as [| | |lc'| | | | |]; try exact B. cbn in B |- *. intros Ho q' j'. rewrite P6.
      destruct (decide (lc' = lc)) as [->|Hne]; [|rewrite lookup_insert_ne by congruence; eauto].
      rewrite lookup_insert. intros [= <- _]. apply Hq.
      pose proof (k_own _ L _ _ _ _ Y eq_refl) as W. rewrite (k_posting _ L _ _ _ _ Y eq_refl) in W.
      pose proof (k_own _ L _ _ _ _ Hc eq_refl) as W'. rewrite (k_posting _ L _ _ _ _ Hc eq_refl) in W'.
      assert (d = c) as -> by congruence. rewrite Hc in Y. injection Y as <- <-. exact Ho. }
    destruct P7 as [(-> & -> & P7)|[(-> & -> & P7)|(-> & -> & P7)]].
    + left; exists lin, es, rs, x, af. eapply Sim_silent; [exact S|..]; cbn; try congruence.
      * rewrite P2. apply S.
      * intros d. rewrite Hst. destruct (decide (d = c)) as [->|]; [|reflexivity]. unfold status. rewrite Hc. cbn. rewrite P6, P5, lookup_insert. destruct o; reflexivity.
      * left. exists c, (AWait lc), h, o, j. cbn. rewrite P6, lookup_insert. split_and!; auto. apply Hbeh. cbn. rewrite P5. reflexivity.
      * apply Hcalm. reflexivity.
    + assert (Hbody : body af o = (c_front s, NPost j)) by (apply Hbeh; cbn; rewrite P5; reflexivity).
      assert (o = CClear \/ o <> CClear) as [->|Hnc] by (destruct o; [right; discriminate..|left; reflexivity]).
      { (* the job of clear_data is queued *)
        unfold body in Hbody. rewrite Fp, Fv in Hbody. injection Hbody as Hf <-.
        destruct S as [A1 A2 A3 A4 A5 A6 A7 Ad A8 A9 Ac A10]. right.
        exists lin, es, rs, x, af, c, h, (l_cb (c_loop s)), x, (map snd (l_buf (c_loop s) ++ l_queue (c_loop s))).
        split; cbn [set_loop c_loop c_next c_calls c_front]; rewrite ?P3, ?P2; auto.
        - exists (AWait lc). split; [exact Hc|]. cbn. rewrite P6, lookup_insert. split; [exists PRel, JRemove; auto|]. rewrite P1. apply Ac.
        - unfold cleared. rewrite Fp. congruence.
        - exists 0%nat. rewrite P4, P7, app_assoc. split; [rewrite app_length, map_length; cbn; lia|]. rewrite (map_app snd (_ ++ _) [_]). reflexivity.
        - eapply Hist_tau; [exact A10|]. intros d. rewrite Hst. destruct (decide (d = c)) as [->|]; [|reflexivity]. unfold status. rewrite Hc. reflexivity. }
      left; eapply Sim_lin; [exact S|exact Fit'|exact Hc|..]; cbn [set_loop c_loop c_next]; rewrite ?Hbody; cbn [fst snd]; try congruence.
      * cbn. rewrite P5. destruct o; reflexivity.
      * rewrite P7, P4, app_assoc, map_app. reflexivity.
      * rewrite P2. apply S.
      * right. cbn. split; [|reflexivity]. intros d p' ho' X. destruct (decide (d = c)) as [->|Hne].
        -- rewrite Hc in X. injection X as <- _. cbn. rewrite P6, lookup_insert. reflexivity.
        -- apply (Hoth d p' ho' X Hne).
      * apply Hcalm. intros ->. contradiction.
      * intros d. rewrite Hst. cbn. rewrite P6, lookup_insert. destruct o; [reflexivity..|contradiction].
    + left; exists lin, es, rs, x, af. eapply Sim_silent; [exact S|..]; cbn; try congruence.
      * rewrite P2. apply S.
      * intros d. rewrite Hst. destruct (decide (d = c)) as [->|]; [|reflexivity]. unfold status. rewrite Hc. cbn. rewrite P6, P5, lookup_insert. destruct o; reflexivity.
      * destruct (front_alone s af c (AWait lc) h o L (sm_front _ _ _ _ _ _ _ S) Hc eq_refl) as [-> Al]; [cbn; rewrite P5; reflexivity|].
        right. cbn. split; [|reflexivity]. intros d p' ho' X. destruct (decide (d = c)) as [->|Hne].
        -- rewrite Hc in X. injection X as <- _. cbn. rewrite P6, lookup_insert. reflexivity.
        -- apply (Hoth d p' ho' X Hne).
      * apply Hcalm. intros ->. destruct (sm_calm _ _ _ _ _ _ _ S) as [K A]. specialize (A _ _ _ _ Hc eq_refl _ _ P5). discriminate A.
  - (* post returns *)
    apply pstep_ret in Hp as (j & P1 & P2 & P3 & P4 & P5 & P6 & P7 & P8).
    assert (ok = true) as ->.
    { destruct ok; [reflexivity|]. exfalso. pose proof (k_loop _ L) as SI. destruct (s_open _ SI (proj1 (sm_calm _ _ _ _ _ _ _ S))) as [Os _].
      destruct (P8 eq_refl) as [P|P]; [congruence|]. destruct (l_x (c_loop s)) eqn:Ex; try discriminate P.
      - apply (s_done _ SI Ex). apply S.
      - apply (sm_alive _ _ _ _ _ _ _ S), Ex. }
    assert (Hnc : o <> CClear).
    { intros ->. destruct (sm_calm _ _ _ _ _ _ _ S) as [K A]. specialize (A _ _ _ _ Hc eq_refl _ _ P1). discriminate A. }
    assert (Ho : match o with CClear => AQuit | _ => ARet (ROk None) end = ARet (ROk None)) by (destruct o; [reflexivity..|contradiction]).
    rewrite Ho. clear Ho.
    assert (Hone : forall d p' h' o', c_calls s !! d = Some (p', (h', o')) -> d <> c -> posting p' = false).
    { intros d p' h' o' Hd Hne. destruct (posting p') eqn:Hpp; [|reflexivity]. exfalso. apply Hne.
      pose proof (k_own _ L _ _ _ _ Hd) as W. rewrite (k_posting _ L _ _ _ _ Hd Hpp) in W. specialize (W ltac:(destruct p'; try discriminate Hpp; reflexivity)).
      pose proof (k_own _ L _ _ _ _ Hc eq_refl) as W'. rewrite (k_posting _ L _ _ _ _ Hc eq_refl) in W'. congruence. }
    left; exists lin, es, rs, x, af. eapply Sim_silent; [exact S|..]; cbn; try congruence.
    + rewrite P4. apply S.
    + intros d. unfold status. cbn. destruct (decide (d = c)) as [->|Hne].
      * rewrite lookup_insert, Hc. cbn. rewrite P1. destruct o; [reflexivity..|contradiction].
      * rewrite lookup_insert_ne by congruence. destruct (c_calls s !! d) as [[p' [h' o']]|] eqn:Hd; [|reflexivity]. do 2 f_equal.
        specialize (Hone _ _ _ _ Hd Hne). destruct p'; try discriminate Hone; reflexivity.
    + destruct (front_alone s af c (AWait lc) h o L (sm_front _ _ _ _ _ _ _ S) Hc eq_refl) as [-> Al]; [cbn; rewrite P1; reflexivity|].
      right. cbn. split; [|reflexivity]. intros d p' [h' o'] X. destruct (decide (d = c)) as [->|Hne].
      * rewrite lookup_insert in X. injection X as <- _ _. reflexivity.
      * rewrite lookup_insert_ne in X by congruence. specialize (Hone _ _ _ _ X Hne). destruct p'; try discriminate Hone; reflexivity.
    + destruct (sm_calm _ _ _ _ _ _ _ S) as [K A]. split; [cbn; congruence|]. intros d p' h' o' Y. cbn in Y |- *. destruct (decide (d = c)) as [->|Hne].
      * rewrite lookup_insert in Y. injection Y as <- <- <-. exact Logic.I.
      * rewrite lookup_insert_ne in Y by congruence. pose proof (A _ _ _ _ Y) as B. specialize (Hone _ _ _ _ Y Hne). destruct p'; try discriminate Hone; exact B.
  - exfalso. apply (proj2 (sm_calm _ _ _ _ _ _ _ S)) in Hc. exact Hc.
  - exfalso. apply (proj2 (sm_calm _ _ _ _ _ _ _ S)) in Hc. exact Hc.
  - exfalso. apply (proj2 (sm_calm _ _ _ _ _ _ _ S)) in Hc. exact Hc.
  - exfalso. apply (proj2 (sm_calm _ _ _ _ _ _ _ S)) in Hc. exact Hc.
  - exfalso. apply (proj2 (sm_calm _ _ _ _ _ _ _ S)) in Hc. exact Hc.
  - exfalso. apply (proj2 (sm_calm _ _ _ _ _ _ _ S)) in Hc. exact Hc.
  - (* background *)
    destruct (xstep_k _ _ _ _ Hx) as [_ Hposts].
    pose proof (s_buf _ (k_loop _ L)) as SB.
    inversion Hx as [? ch Y1 Y2|? ch Y1 Y2|? Y1 Y2 Y3|? Y1 Y2|? Y1|? Y1|? c j b t Y1 Y2 Y3|? c j b t Y1 Y2 Y3|? Y1 Y2]; subst; rewrite Y1 in SB.
    1-6, 9: (left; exists lin, es, rs, x, af; eapply Sim_silent; 
      [exact S|reflexivity|first [reflexivity|cbn; rewrite SB, app_nil_r; reflexivity]|cbn; discriminate|apply status_loop; reflexivity
      |reflexivity|eapply front_loop; [..|apply S]; reflexivity|eapply calm_loop; [apply S|reflexivity..]]).
    + (* a job *)
      pose proof S as [A1 A2 A3 A4 A5 A6 A7 Ad A8 A9 Ac A10].
      assert (R : room E (writes es0 + N.of_nat (length lin))).
      { eapply room_mono; [|apply (proj2 Fit')]. pose proof (Hist_length _ _ _ _ A10). lia. }
      destruct (glued_ok es _ _ _ rs A3 A4 A5 R A1) as (Gio & _). cbn in Gio.
      destruct (cexec_glue E i (l_cb (c_loop s)) x j t true af (map snd (b ++ l_queue (c_loop s))) A6 Gio Y3) as (x' & Z1 & Z2 & Z3 & Zd & Z4).
      left; exists lin, (es ++ [EIo i]), (rs ++ [ROk None]), x', af. split; cbn.
      * rewrite run_app, A1. cbn [run step]. rewrite Y2. cbn [app map snd]. rewrite Z4. reflexivity.
      * rewrite answered_app by (eapply run_length', A1). cbn. rewrite app_nil_r. exact A2.
      * apply Forall_app. split; [exact A3|]. constructor; [exact Logic.I|constructor].
      * rewrite paths_app, A4. reflexivity.
      * rewrite writes_app. change (writes [EIo i]) with 0. lia.
      * exact Z1.
      * congruence.
      * congruence.
      * congruence.
      * eapply front_loop; [..|exact A9]; reflexivity.
      * eapply calm_loop; [exact Ac|reflexivity..].
      * eapply Hist_tau; [exact A10|]. apply status_loop; reflexivity.
    + (* a panicking job *)
      exfalso. pose proof S as [A1 A2 A3 A4 A5 A6 A7 Ad A8 A9 Ac A10].
      assert (R : room E (writes es0 + N.of_nat (length lin))).
      { eapply room_mono; [|apply (proj2 Fit')]. pose proof (Hist_length _ _ _ _ A10). lia. }
      destruct (glued_ok es _ _ _ rs A3 A4 A5 R A1) as (Gio & _). cbn in Gio.
      destruct (cexec_glue E i (l_cb (c_loop s)) x j t false af (map snd (b ++ l_queue (c_loop s))) A6 Gio Y3) as (x' & Z1 & Z2 & Z3 & Zd & Z4).
      destruct (glued_ok (es ++ [EIo i]) (N.of_nat (length lin)) (i_glue x' af (map snd (b ++ l_queue (c_loop s)))) t (rs ++ [ROk None])) as (G & _).
      * apply Forall_app. split; [exact A3|]. constructor; [exact Logic.I|constructor].
      * rewrite paths_app, A4. reflexivity.
      * rewrite writes_app. change (writes [EIo i]) with 0. lia.
      * exact R.
      * rewrite run_app, A1. cbn [run step]. rewrite Y2. cbn [app map snd]. rewrite Z4. reflexivity.
      * cbn in G. apply Z2 in G. discriminate G.
  - (* release *)
    left; exists lin, es, rs, x, af. eapply Sim_silent; [exact S|..]; try reflexivity; [apply S|..].
    + eapply status_call_same; [exact Hc|reflexivity..].
    + eapply front_call_same; [exact Hc|reflexivity..|apply S].
    + eapply calm_call; [apply S|reflexivity..|exact Logic.I].
  - (* return *)
    left; exists lin, es, rs, x, af. destruct S as [A1 A2 A3 A4 A5 A6 A7 Ad A8 A9 Ac A10]. split; auto.
    + destruct A9 as [(d & p' & h' & o' & j & X1 & X2 & X3)|[X1 X2]].
      * left. exists d, p', h', o', j. cbn. rewrite lookup_delete_ne; auto. intros <-. rewrite Hc in X1. injection X1 as <- _ _. discriminate X2.
      * right. cbn. split; [|exact X2]. intros d p' ho' X. apply lookup_delete_Some in X as [_ X]. eauto.
    + destruct Ac as [K A]. split; [exact K|]. intros d p' h' o' Y. cbn in Y |- *. apply lookup_delete_Some in Y as [_ Y]. eauto.
    + cbn [c_next]. eapply Hist_return; [exact A10| |].
      * unfold status. rewrite Hc. reflexivity.
      * intros d. unfold status. cbn. destruct (decide (d = c)) as [->|Hne]; [rewrite lookup_delete; reflexivity|].
        rewrite lookup_delete_ne by congruence. reflexivity.
Qed.

(** While a clear is in its late phase every other call waits for the lock or
    has released it. *)
Lemma SimC_others ls s lin es rs x af c h wa xa pend d p' h' o' : LInv s -> SimC ls s lin es rs x af c h wa xa pend ->
  c_calls s !! d = Some (p', (h', o')) -> (exists p, c_calls s !! c = Some (p, (h, CClear)) /\ phase (c_loop s) p /\ owns p = true /\ posting p = true /\ c_writer s = Some c) /\
  (d <> c -> owns p' = false).
Proof.
  intros L S Hd. destruct (sc_call _ _ _ _ _ _ _ _ _ _ _ _ S) as (p & Hc & Hp).
  assert (Ho : owns p = true) by (destruct p; try contradiction; reflexivity).
  assert (Hpo : posting p = true) by (destruct p; try contradiction; reflexivity).
  pose proof (k_own _ L _ _ _ _ Hc Ho) as W. cbn in W. split; [eauto 10|]. intros Hne.
  destruct (owns p') eqn:O'; [|reflexivity]. exfalso. pose proof (k_own _ L _ _ _ _ Hd O') as W'. destruct (exclusive o'); [congruence|].
  rewrite (k_wr _ L) in W; [discriminate W|]. set_solver.
Qed.

Lemma SimC_silent ls s s' lin es rs x af c h wa xa pend : SimC ls s lin es rs x af c h wa xa pend ->
  l_cb (c_loop s') = l_cb (c_loop s) -> l_buf (c_loop s') ++ l_queue (c_loop s') = l_buf (c_loop s) ++ l_queue (c_loop s) ->
  l_x (c_loop s') <> XDead -> (forall d, status s' d = status s d) -> c_next s' = c_next s -> c_front s' = c_front s ->
  (exists p, c_calls s' !! c = Some (p, (h, CClear)) /\ phase (c_loop s') p) ->
  SimC (ls ++ [HTau]) s' lin es rs x af c h wa xa pend.
Proof.
  intros [A1 A2 A3 A4 A5 A6 A7 Aa Ad A8 A9 Ac Aj A10] B1 B2 B3 B4 B5 B6 B7. split; rewrite ?B1, ?B2, ?B5, ?B6; auto.
  eapply Hist_tau; eassumption.
Qed.

(** The next call of World.v would be the clear. *)
Lemma SimC_clear ls s lin es rs x af c h wa xa pend : SimC ls s lin es rs x af c h wa xa pend -> calls_fit ls ->
  exists hd w, w_handles w0 !! h = Some hd /\ e_canon E (h_path hd) = i_dir x0 /\ i_io x = IoRun /\
    step E (set_inst wa i (i_glue xa af pend)) (EClear h) = Some (w, ROk None) /\
    (l_buf (c_loop s) ++ l_queue (c_loop s) = [] ->
     exists w1 y, open_impl E (l_cb (c_loop s)) (h_path hd) (h_key hd) = (w1, Some y) /\ w = set_inst w1 i y).
Proof.
  intros [A1 A2 A3 A4 A5 A6 A7 Aa Ad A8 A9 Ac Aj A10] [F1 F2].
  destruct A9 as (p & Hc & Hp).
  assert (Hs : status s c = Some ((h, CClear), None)).
  { unfold status. rewrite Hc. cbn [snd]. destruct p; try contradiction; reflexivity. }
  destruct (hi_before _ _ _ _ A10 c h CClear Hs) as [Hin _]. destruct (F1 c h CClear Hin) as (Hok & hd & Hhd & Hi & Hcan).
  pose proof (Hist_lin _ _ (fun d => if decide (d = c) then Some ((h, CClear), Some (ROk None)) else status s d) _ _ c h CClear (ROk None) A10 Hs (fun d => eq_refl)) as H2.
  pose proof (Hist_length _ _ _ _ H2) as HL. unfold inv_ids in HL. rewrite flat_map_app, !app_length in HL. cbn [length flat_map app] in HL. fold (inv_ids ls) in HL.
  assert (R : room E (writes es0 + N.of_nat (length lin))) by (eapply room_mono; [|exact F2]; lia).
  assert (R' : room E (writes es0 + N.of_nat (S (length lin)))) by (eapply room_mono; [|exact F2]; lia).
  destruct (glued_ok es _ _ _ rs A3 A4 A5 R A1) as (Gio & Gs & Gp & Gv & Gh). cbn in Gio, Gs, Gp, Gv.
  assert (Hhd' := Hhd). rewrite <- Aa in Hhd'.
  destruct Aj as (k & Hk & Hit).
  destruct (clear_glue E i wa xa af pend h hd k (l_cb (c_loop s)) x (map snd (l_buf (c_loop s) ++ l_queue (c_loop s))) Hhd' (Gh h hd Hhd') Hi Gs Gio Gp Gv Hit)
    as (w & r & Hst & Dead & Run); [rewrite map_length; exact Hk|].
  (* the answer of the specification *)
  assert (O' : ordinary E keyof (es0 ++ es ++ [EClear h])).
  { eapply (ordinary_ext _ (N.of_nat (S (length lin)))); [|rewrite paths_app, A4; reflexivity| |exact R'].
    - apply Forall_app. split; [exact A3|]. constructor; [exact Hok|constructor].
    - rewrite writes_app. assert (writes [EClear h] <= 1) by (cbn; lia). lia. }
  pose proof (answers_ok E keyof _ O') as An. rewrite run_app, Hrun0, run_app, A1 in An. cbn [run] in An. rewrite Hst in An. cbn in An.
  assert (r = ROk None) as ->.
  { destruct (spec_run (e_canon E) spec0 (es0 ++ es ++ [EClear h])) as [[sp' rs']|] eqn:Es; [|discriminate An]. cbn in An. injection An as An.
    rewrite app_assoc, spec_run_app in Es. destruct (spec_run _ _ (es0 ++ es)) as [[s1 r1]|]; [|discriminate Es]. cbn in Es.
    destruct (sp_handles s1 !! h); [|discriminate Es]. injection Es as _ <-. rewrite app_assoc in An.
    apply app_inj_tail in An as [_ An]. exact An. }
  assert (Hx : i_io x = IoRun) by (destruct (i_io x); [reflexivity|specialize (Dead eq_refl); discriminate Dead]).
  exists hd, w. split_and!; auto. intros Hn. rewrite Hn in Run. specialize (Run Hx eq_refl).
  destruct (open_impl E _ _ _) as [w1 [y|]]; [|discriminate Run]. destruct Run as [-> _]. eauto.
Qed.

Lemma SimC_step ls s a s' lin es rs x af c0 h0 wa xa pend : LInv s -> SimC ls s lin es rs x af c0 h0 wa xa pend -> calls_fit (ls ++ [a]) -> cstep E i s a s' ->
  Good (ls ++ [a]) s'.
Proof.
  intros L S Fit X. pose proof (calls_fit_l _ _ Fit) as Fit'.
  pose proof (fun d p' h' o' => SimC_others ls s lin es rs x af c0 h0 wa xa pend d p' h' o' L S) as Oth.
  destruct X as [s h o|s c h o Hc He Hw|s c h o Hc He Hw Hr|s c h o f r Hc Hb|s c h o f j Hc Hb|s c h o f Hc Hb|s c h o j l Hc Hp|s l Hp|s c h o lc ok l Hc Hp
    |s c h o l Hc Hk Hch|s c h o l Hc Hk|s c h o ok l Hc Hk|s c h o hd w y Hc Hh Ho Hk|s c h o hd w y Hc Hh Ho Hk Ha|s c h o hd w Hc Hh Ho|s a l Hx|s c h o r Hc|s c h o r Hc].
  - (* call *)
    right; exists lin, es, rs, x, af, c0, h0, wa, xa, pend. destruct S as [A1 A2 A3 A4 A5 A6 A7 Aa Ad A8 A9 Ac Aj A10]. split; auto.
    + destruct A9 as (p & Hc & Hp). exists p. split; [|exact Hp]. cbn. rewrite lookup_insert_ne; [exact Hc|]. apply (k_next _ L) in Hc. lia.
    + cbn [c_next]. eapply Hist_call; [exact A10| |].
      * intros c y Y. unfold status in Y. destruct (c_calls s !! c) as [z|] eqn:Hz; [|discriminate]. eapply (k_next _ L), Hz.
      * intros d. unfold status. cbn. destruct (decide (d = c_next s)) as [->|Hne]; [rewrite lookup_insert; reflexivity|].
        rewrite lookup_insert_ne by congruence. reflexivity.
  - exfalso. destruct (Oth _ _ _ _ Hc) as [(p & _ & _ & _ & _ & W) _]. congruence.
  - exfalso. destruct (Oth _ _ _ _ Hc) as [(p & _ & _ & _ & _ & W) _]. congruence.
  - exfalso. destruct (Oth _ _ _ _ Hc) as [(p & Hc0 & Hp & _) N]. destruct (decide (c = c0)) as [->|Hne]; [|discriminate (N Hne)].
    rewrite Hc in Hc0. injection Hc0 as <- _ _. exact Hp.
  - exfalso. destruct (Oth _ _ _ _ Hc) as [(p & Hc0 & Hp & _) N]. destruct (decide (c = c0)) as [->|Hne]; [|discriminate (N Hne)].
    rewrite Hc in Hc0. injection Hc0 as <- _ _. exact Hp.
  - exfalso. destruct (Oth _ _ _ _ Hc) as [(p & Hc0 & Hp & _) N]. destruct (decide (c = c0)) as [->|Hne]; [|discriminate (N Hne)].
    rewrite Hc in Hc0. injection Hc0 as <- _ _. exact Hp.
  - exfalso. destruct (Oth _ _ _ _ Hc) as [(p & Hc0 & Hq & _) N]. destruct (decide (c = c0)) as [->|Hne]; [|discriminate (N Hne)].
    rewrite Hc in Hc0. injection Hc0 as <- _ _. exact Hq.
  - (* inside post *)
    apply pstep_tau in Hp as (P1 & P2 & P3 & P4 & lc & p & q & j & P5 & P6 & P7).
    destruct (k_post _ L _ _ P5) as (c & h & o & Hc).
    destruct (Oth _ _ _ _ Hc) as [(p' & Hc0 & Hp & _) N]. destruct (decide (c = c0)) as [->|Hne]; [|discriminate (N Hne)].
    rewrite Hc in Hc0. injection Hc0 as <- -> ->. destruct Hp as [(q' & j' & Hq & Hpu) K]. rewrite P5 in Hq. injection Hq as -> ->.
    destruct P7 as [(-> & -> & P7)|[(-> & -> & P7)|(-> & -> & P7)]]; try discriminate Hpu.
    right; exists lin, es, rs, x, af, c0, h0, wa, xa, pend. eapply SimC_silent; [exact S|..]; cbn; try congruence.
    + rewrite P2. apply S.
    + intros d. unfold status. cbn. destruct (c_calls s !! d) as [[p' [h' o']]|] eqn:Hd; [|reflexivity]. do 2 f_equal. cbn [snd].
      destruct (Oth _ _ _ _ Hd) as [_ N']. destruct (decide (d = c0)) as [->|Hne].
      * rewrite Hc in Hd. injection Hd as <- <- <-. reflexivity.
      * specialize (N' Hne). destruct p'; try discriminate N'; reflexivity.
    + exists (AWait lc). split; [exact Hc|]. cbn. rewrite P6, lookup_insert. split; [exists PSend, j'; auto|congruence].
  - (* post returns *)
    apply pstep_ret in Hp as (j & P1 & P2 & P3 & P4 & P5 & P6 & P7 & P8).
    destruct (Oth _ _ _ _ Hc) as [(p' & Hc0 & Hp & _) N]. destruct (decide (c = c0)) as [->|Hne]; [|discriminate (N Hne)].
    rewrite Hc in Hc0. injection Hc0 as <- -> ->. destruct Hp as [_ K].
    assert (ok = true) as ->.
    { destruct ok; [reflexivity|]. exfalso. pose proof (k_loop _ L) as SI. destruct (s_open _ SI K) as [Os _].
      destruct (P8 eq_refl) as [P|P]; [congruence|]. destruct (l_x (c_loop s)) eqn:Ex; try discriminate P.
      - apply (s_done _ SI Ex). exact K.
      - apply (sc_alive _ _ _ _ _ _ _ _ _ _ _ _ S), Ex. }
    right; exists lin, es, rs, x, af, c0, h0, wa, xa, pend. eapply SimC_silent; [exact S|..]; cbn; try congruence.
    + rewrite P4. apply S.
    + intros d. unfold status. cbn. destruct (decide (d = c0)) as [->|Hne].
      * rewrite lookup_insert, Hc. reflexivity.
      * rewrite lookup_insert_ne by congruence. destruct (c_calls s !! d) as [[p' [h' o']]|] eqn:Hd; [|reflexivity]. do 2 f_equal. cbn [snd].
        destruct (Oth _ _ _ _ Hd) as [_ N']. specialize (N' Hne). destruct p'; try discriminate N'; reflexivity.
    + exists AQuit. rewrite lookup_insert. split; [reflexivity|]. cbn. congruence.
  - (* quit *)
    destruct (Oth _ _ _ _ Hc) as [(p' & Hc0 & Hp & _) N]. destruct (decide (c = c0)) as [->|Hne]; [|discriminate (N Hne)].
    rewrite Hc in Hc0. injection Hc0 as <- -> ->. cbn in Hp.
    assert (P : l_posts l = l_posts (c_loop s) /\ l_x l = l_x (c_loop s) /\ l_cb l = l_cb (c_loop s) /\ l_buf l = l_buf (c_loop s) /\ l_queue l = l_queue (c_loop s) /\ l_k l = KJoin)
      by (inversion Hk; subst; cbn; auto 10).
    destruct P as (P1 & P2 & P3 & P4 & P5 & P6).
    right; exists lin, es, rs, x, af, c0, h0, wa, xa, pend. eapply SimC_silent; [exact S|..]; cbn; try congruence.
    + rewrite P2. apply S.
    + eapply status_call_same; [exact Hc|reflexivity|exact P1|reflexivity].
    + exists AJoin. rewrite lookup_insert. auto.
  - (* quit fails *)
    exfalso. destruct (Oth _ _ _ _ Hc) as [(p' & Hc0 & Hp & _) N]. destruct (decide (c = c0)) as [->|Hne]; [|discriminate (N Hne)].
    rewrite Hc in Hc0. injection Hc0 as <- -> ->. cbn in Hp. inversion Hk as [|? K P Al| | |]; subst. destruct (l_x (c_loop s)) eqn:Ex; try discriminate Al.
    + apply (s_done _ (k_loop _ L) Ex). exact K.
    + apply (sc_alive _ _ _ _ _ _ _ _ _ _ _ _ S), Ex.
  - (* join *)
    destruct (Oth _ _ _ _ Hc) as [(p' & Hc0 & Hp & _) N]. destruct (decide (c = c0)) as [->|Hne]; [|discriminate (N Hne)].
    rewrite Hc in Hc0. injection Hc0 as <- -> ->. cbn in Hp.
    assert (P : l_posts l = l_posts (c_loop s) /\ l_x l = l_x (c_loop s) /\ l_cb l = l_cb (c_loop s) /\ l_buf l = l_buf (c_loop s) /\ l_queue l = l_queue (c_loop s) /\ l_k l = KClosed ok /\ (ok = false -> l_x (c_loop s) = XDead))
      by (inversion Hk; subst; cbn; split_and!; auto; discriminate).
    destruct P as (P1 & P2 & P3 & P4 & P5 & P6 & P7).
    destruct ok; [|exfalso; apply (sc_alive _ _ _ _ _ _ _ _ _ _ _ _ S); auto].
    right; exists lin, es, rs, x, af, c0, h0, wa, xa, pend. eapply SimC_silent; [exact S|..]; cbn; try congruence.
    + rewrite P2. apply S.
    + eapply status_call_same; [exact Hc|reflexivity|exact P1|reflexivity].
    + exists AOpen. rewrite lookup_insert. auto.
  - (* reopen: here the call takes effect *)
    destruct (Oth _ _ _ _ Hc) as [(p' & Hc0 & Hp & Ow & Po & _) N]. destruct (decide (c = c0)) as [->|Hne]; [|discriminate (N Hne)].
    rewrite Hc in Hc0. injection Hc0 as <- -> ->. cbn in Hp.
    destruct (SimC_clear _ _ _ _ _ _ _ _ _ _ _ _ S Fit') as (hd' & w' & Hhd & Hcan & Hio & Hst & Hop).
    pose proof (k_loop _ L) as SI. pose proof (s_join _ SI true Hp) as J. destruct (s_done _ SI J) as [_ Q]. pose proof (s_buf _ SI) as SB. rewrite J in SB.
    destruct Hop as (w1 & y1 & Ho1 & ->); [rewrite SB, Q; reflexivity|].
    destruct S as [A1 A2 A3 A4 A5 A6 A7 Aa Ad A8 A9 Ac Aj A10].
    rewrite A7, Hhd in Hh. injection Hh as ->. rewrite Ho in Ho1. injection Ho1 as <- <-.
    destruct (open_impl_sub E _ _ _ _ _ Ho) as (O1 & O2 & _ & _ & _ & O3). destruct (O3 y eq_refl) as (Y1 & Y2 & Y3 & Y4 & Y5).
    assert (Hs : status s c0 = Some ((h0, CClear), None)) by (unfold status; rewrite Hc; reflexivity).
    destruct (hi_before _ _ _ _ A10 _ _ _ Hs) as [Hin _]. destruct (proj1 Fit' _ _ _ Hin) as (Hok & _).
    assert (G : i_glue y (Front (i_map y) (i_valid y) (i_poison y)) [] = y) by (destruct y; cbn in *; rewrite Y5; reflexivity).
    left. exists (lin ++ [(c0, (h0, CClear), ROk None)]), (es ++ [EClear h0]), (rs ++ [ROk None]), y, (Front (i_map y) (i_valid y) (i_poison y)).
    split; cbn [set_call set_loop set_front c_front c_loop c_calls c_next loop0 l_cb l_buf l_queue l_x app map].
    + rewrite run_app, A1. cbn [run]. rewrite Hst, G. do 2 f_equal. unfold set_inst, set_insts. cbn. rewrite insert_insert. reflexivity.
    + rewrite answered_app by (eapply run_length', A1). rewrite A2, map_app. reflexivity.
    + apply Forall_app. split; [exact A3|]. constructor; [exact Hok|constructor].
    + rewrite paths_app, A4. reflexivity.
    + rewrite writes_app, app_length. cbn [length]. assert (writes [EClear h0] <= 1) by (cbn; lia). lia.
    + apply lookup_insert.
    + change (w_handles (set_inst w i y)) with (w_handles w). congruence.
    + congruence.
    + discriminate.
    + right. cbn. split; [|reflexivity]. intros d p' [h' o'] X. destruct (decide (d = c0)) as [->|Hne].
      * rewrite lookup_insert in X. injection X as <- _ _. reflexivity.
      * rewrite lookup_insert_ne in X by congruence. destruct (Oth _ _ _ _ X) as [_ N']. specialize (N' Hne). destruct p'; try discriminate N'; reflexivity.
    + split; [reflexivity|]. cbn. intros d p' h' o' X. destruct (decide (d = c0)) as [->|Hne].
      * rewrite lookup_insert in X. injection X as <- _ _. exact Logic.I.
      * rewrite lookup_insert_ne in X by congruence. destruct (Oth _ _ _ _ X) as [_ N']. specialize (N' Hne). destruct p'; try discriminate N'; exact Logic.I.
    + eapply Hist_lin; [exact A10|exact Hs|]. intros d. unfold status. cbn. destruct (decide (d = c0)) as [->|Hne].
      * rewrite lookup_insert. reflexivity.
      * rewrite lookup_insert_ne by congruence. destruct (c_calls s !! d) as [[p' [h' o']]|] eqn:Hd; [|reflexivity]. do 2 f_equal. cbn [snd].
        destruct (Oth _ _ _ _ Hd) as [_ N']. specialize (N' Hne). destruct p'; try discriminate N'; reflexivity.
  - (* reopen without join *)
    exfalso. destruct (Oth _ _ _ _ Hc) as [(p' & Hc0 & Hp & _) N]. destruct (decide (c = c0)) as [->|Hne]; [|discriminate (N Hne)].
    rewrite Hc in Hc0. injection Hc0 as <- -> ->. cbn in Hp. eapply Hk, Hp.
  - (* reopen fails *)
    exfalso. destruct (Oth _ _ _ _ Hc) as [(p' & Hc0 & Hp & _) N]. destruct (decide (c = c0)) as [->|Hne]; [|discriminate (N Hne)].
    rewrite Hc in Hc0. injection Hc0 as <- -> ->. cbn in Hp.
    destruct (SimC_clear _ _ _ _ _ _ _ _ _ _ _ _ S Fit') as (hd' & w' & Hhd & Hcan & Hio & Hst & Hop).
    pose proof (k_loop _ L) as SI. pose proof (s_join _ SI true Hp) as J. destruct (s_done _ SI J) as [_ Q]. pose proof (s_buf _ SI) as SB. rewrite J in SB.
    destruct Hop as (w1 & y1 & Ho1 & ->); [rewrite SB, Q; reflexivity|].
    rewrite (sc_handles _ _ _ _ _ _ _ _ _ _ _ _ S), Hhd in Hh. injection Hh as ->. congruence.
  - (* background *)
    destruct (xstep_k _ _ _ _ Hx) as [Hkk Hposts].
    pose proof (s_buf _ (k_loop _ L)) as SB.
    assert (Ph : forall l', l_posts l' = l_posts (c_loop s) -> l_k l' = l_k (c_loop s) -> exists p, c_calls s !! c0 = Some (p, (h0, CClear)) /\ phase l' p).
    { intros l' P K. destruct (sc_call _ _ _ _ _ _ _ _ _ _ _ _ S) as (p & Hc & Hp). exists p. split; [exact Hc|]. destruct p; cbn in *; rewrite ?P, ?K; auto. }
    destruct (SimC_clear _ _ _ _ _ _ _ _ _ _ _ _ S Fit') as (hd' & w' & Hhd & Hcan & Hio & Hst & Hop).
    inversion Hx as [? ch Y1 Y2|? ch Y1 Y2|? Y1 Y2 Y3|? Y1 Y2|? Y1|? Y1|? c j b t Y1 Y2 Y3|? c j b t Y1 Y2 Y3|? Y1 Y2]; subst; rewrite Y1 in SB.
    1-6, 9: (right; exists lin, es, rs, x, af, c0, h0, wa, xa, pend; eapply SimC_silent;
      [exact S|reflexivity|first [reflexivity|cbn; rewrite SB, app_nil_r; reflexivity]|cbn; discriminate|apply status_loop; reflexivity
      |reflexivity|reflexivity|apply Ph; reflexivity]).
    + pose proof S as [A1 A2 A3 A4 A5 A6 A7 Aa Ad A8 A9 Ac Aj A10].
      destruct (cexec_glue E i (l_cb (c_loop s)) x j t true (cleared af) (map snd (b ++ l_queue (c_loop s))) A6 Hio Y3) as (x' & Z1 & Z2 & Z3 & Zd & Z4).
      right; exists lin, es, rs, x', af, c0, h0, wa, xa, pend. split; cbn; auto; try congruence.
      * destruct Aj as (k & Hk & Hit). exists (Datatypes.S k). rewrite Y2 in Hk. cbn [app length] in Hk. split; [lia|]. rewrite Nat.iter_succ, Hit, Y2. exact Z4.
      * eapply Hist_tau; [exact A10|]. apply status_loop; reflexivity.
    + (* a panicking job *)
      exfalso. pose proof S as [A1 A2 A3 A4 A5 A6 A7 Aa Ad A8 A9 Ac Aj A10].
      destruct (cexec_glue E i (l_cb (c_loop s)) x j t false (cleared af) (map snd (b ++ l_queue (c_loop s))) A6 Hio Y3) as (x' & Z1 & Z2 & Z3 & Zd & Z4).
      assert (S' : SimC (ls ++ [HTau]) (set_loop s (set_x (set_cb (set_buf (c_loop s) b) t) XRun)) lin es rs x' af c0 h0 wa xa pend).
      { split; cbn; auto; try congruence.
        - destruct Aj as (k & Hk & Hit). exists (Datatypes.S k). rewrite Y2 in Hk. cbn [app length] in Hk. split; [lia|]. rewrite Nat.iter_succ, Hit, Y2. exact Z4.
        - eapply Hist_tau; [exact A10|]. apply status_loop; reflexivity. }
      destruct (SimC_clear _ _ _ _ _ _ _ _ _ _ _ _ S' Fit) as (_ & _ & _ & _ & Hio' & _). apply Z2 in Hio'. discriminate Hio'.
  - (* release *)
    exfalso. destruct (Oth _ _ _ _ Hc) as [(p' & Hc0 & Hp & _) N]. destruct (decide (c = c0)) as [->|Hne]; [|discriminate (N Hne)].
    rewrite Hc in Hc0. injection Hc0 as <- _ _. exact Hp.
  - (* return *)
    destruct (Oth _ _ _ _ Hc) as [(p' & Hc0 & Hp & Ow & _) N]. assert (Hne : c <> c0) by (intros ->; rewrite Hc in Hc0; injection Hc0 as <- _ _; exact Hp).
    right; exists lin, es, rs, x, af, c0, h0, wa, xa, pend. destruct S as [A1 A2 A3 A4 A5 A6 A7 Aa Ad A8 A9 Ac Aj A10]. split; auto.
    + exists p'. split; [cbn; rewrite lookup_delete_ne; auto|exact Hp].
    + cbn [c_next]. eapply Hist_return; [exact A10| |].
      * unfold status. rewrite Hc. reflexivity.
      * intros d. unfold status. cbn. destruct (decide (d = c)) as [->|Hne']; [rewrite lookup_delete; reflexivity|].
        rewrite lookup_delete_ne by congruence. reflexivity.
Qed.

Lemma Sim_exec ls s : cexecn E i (conc0 w0 x0) ls s -> calls_fit ls -> LInv s /\ Good ls s.
Proof.
  induction 1 as [|ls s1 a s2 _ IH X]; intros Fit.
  - split; [apply LInv_0|]. left. exists [], [], [], x0, (Front (i_map x0) (i_valid x0) (i_poison x0)). apply Sim_0.
  - destruct (IH (calls_fit_l _ _ Fit)) as (L & [(lin & es & rs & x & af & S)|(lin & es & rs & x & af & c & h & wa & xa & pend & S)]);
      (split; [eapply LInv_step; eassumption|]); [eapply Sim_step|eapply SimC_step]; eassumption.
Qed.

(** ** After the calls: closing *)

Record Closing (f : front) (lin : list (N * (N * cop) * result)) (l : loop job world) (es : list event) (rs : list result) (x : inst) : Prop := {
  cl_run : run E w0 es = Some (set_inst (l_cb l) i (i_glue x f (map snd (l_buf l ++ l_queue l))), rs);
  cl_ans : answered es rs = map linev lin;
  cl_ok : Forall (call_ok E keyof) es;
  cl_paths : paths es = [];
  cl_writes : writes es <= N.of_nat (length lin);
  cl_inst : w_insts (l_cb l) !! i = Some x;
  cl_dir : i_dir x = i_dir x0;
  cl_alive : l_x l <> XDead;
  cl_sinv : SInv l;
  cl_posts : l_posts l = ∅
}.

Lemma Closing_0 ls s lin es rs x af : LInv s -> Sim ls s lin es rs x af -> c_calls s = ∅ -> Closing (c_front s) lin (c_loop s) es rs x.
Proof.
  intros L [A1 A2 A3 A4 A5 A6 A7 Ad A8 A9 Ac A10] Hc.
  assert (af = c_front s) as ->.
  { destruct A9 as [(c & p & h & o & j & X & _)|[_ X]]; [|exact X]. rewrite Hc, lookup_empty in X. discriminate X. }
  split; auto; [apply L|]. apply map_empty. intros lc. destruct (l_posts (c_loop s) !! lc) as [y|] eqn:Y; [|reflexivity].
  destruct (k_post _ L _ _ Y) as (c & h & o & X). rewrite Hc, lookup_empty in X. discriminate X.
Qed.

Lemma Closing_step f lin l es rs x a l' : Closing f lin l es rs x -> room E (writes es0 + N.of_nat (length lin)) ->
  lstep (cexec E i) l a l' -> (forall c j, a <> LCall c j) -> exists es' rs' x', Closing f lin l' es' rs' x'.
Proof.
  intros C R X Hn. pose proof (SInv_step (cexec E i) _ _ _ (cl_sinv _ _ _ _ _ _ C) X) as SI.
  destruct C as [A1 A2 A3 A4 A5 A6 Ad A7 A8 A9]. pose proof (s_buf _ A8) as SB. destruct X as [Hx|[Hp|Hk]].
  - destruct (xstep_k _ _ _ _ Hx) as [_ Hposts].
    inversion Hx as [? ch Y1 Y2|? ch Y1 Y2|? Y1 Y2 Y3|? Y1 Y2|? Y1|? Y1|? c j b t Y1 Y2 Y3|? c j b t Y1 Y2 Y3|? Y1 Y2]; subst; rewrite Y1 in SB.
    1-6, 9: (exists es, rs, x; split; auto; try discriminate;
      try (cbn [l_buf l_queue l_cb set_x set_buf set_queue set_lock set_chan]; rewrite SB, app_nil_r in *; exact A1)).
    + destruct (glued_ok es _ _ _ rs A3 A4 A5 R A1) as (Gio & _). cbn in Gio.
      destruct (cexec_glue E i (l_cb l) x j t true f (map snd (b ++ l_queue l)) A6 Gio Y3) as (x' & Z1 & Z2 & Z3 & Zd & Z4).
      exists (es ++ [EIo i]), (rs ++ [ROk None]), x'. split; cbn; auto.
      * rewrite run_app, A1. cbn [run step]. rewrite Y2. cbn [app map snd]. rewrite Z4. reflexivity.
      * rewrite answered_app by (eapply run_length', A1). cbn. rewrite app_nil_r. exact A2.
      * apply Forall_app. split; [exact A3|]. constructor; [exact Logic.I|constructor].
      * rewrite paths_app, A4. reflexivity.
      * rewrite writes_app. change (writes [EIo i]) with 0. lia.
      * congruence.
    + exfalso. destruct (glued_ok es _ _ _ rs A3 A4 A5 R A1) as (Gio & _). cbn in Gio.
      destruct (cexec_glue E i (l_cb l) x j t false f (map snd (b ++ l_queue l)) A6 Gio Y3) as (x' & Z1 & Z2 & Z3 & Zd & Z4).
      destruct (glued_ok (es ++ [EIo i]) (N.of_nat (length lin)) (i_glue x' f (map snd (b ++ l_queue l))) t (rs ++ [ROk None])) as (G & _).
      * apply Forall_app. split; [exact A3|]. constructor; [exact Logic.I|constructor].
      * rewrite paths_app, A4. reflexivity.
      * rewrite writes_app. change (writes [EIo i]) with 0. lia.
      * exact R.
      * rewrite run_app, A1. cbn [run step]. rewrite Y2. cbn [app map snd]. rewrite Z4. reflexivity.
      * cbn in G. apply Z2 in G. discriminate G.
  - exfalso. inversion Hp as [? j Y1|? c j Y1|? c j Y1|? c j Y1|? c j Y1|? c j Y1]; subst; try (rewrite A9, lookup_empty in Y1; discriminate Y1).
    eapply Hn. reflexivity.
  - exists es, rs, x. inversion Hk; subst; split; auto.
Qed.

Lemma Closing_exec f lin l es rs x ls' l' : Closing f lin l es rs x -> room E (writes es0 + N.of_nat (length lin)) ->
  lexec (cexec E i) l ls' l' -> (forall c j, LCall c j ∉ ls') -> exists es' rs' x', Closing f lin l' es' rs' x'.
Proof.
  intros C R. induction 1 as [|ls' l1 a l2 _ IH X]; intros Hn; [eauto|].
  destruct IH as (es1 & rs1 & x1 & C1); [intros c j D; apply (Hn c j); apply elem_of_app; auto|].
  eapply Closing_step; [exact C1|exact R|exact X|]. intros c j ->. apply (Hn c j). apply elem_of_app. right. left.
Qed.

End Sim.

(** ** C19: linearizability *)

Section Main.
Context (E : env) (keyof : bytes -> bytes) (es0 : list event) (w0 : world) (rs0 : list result) (sp0 : spec) (i : N) (x0 : inst).
Notation canon := (e_canon E).

(** The setting: after a sequence of ordinary calls, instance [i] (of the
    directory [i_dir x0]) is open and its background thread has nothing to do. *)
Record start : Prop := {
  st_ordinary : ordinary E keyof es0;
  st_run : run E world0 es0 = Some (w0, rs0);
  st_spec : spec_run canon spec0 es0 = Some (sp0, rs0);
  st_inst : w_insts w0 !! i = Some x0;
  st_idle : i_queue x0 = []
}.

(** The concurrent calls are ordinary puts, gets, deletes and clears through
    handles of that directory, and there is room for them. *)
Definition calls_ok (ls : list clabel) : Prop :=
  (forall c h o, HInv c h o ∈ ls -> call_ok E keyof (event_of h o) /\ sp_handles sp0 !! h = Some (i_dir x0)) /\
  room E (writes es0 + N.of_nat (length (inv_ids ls))).

Lemma calls_ok_fit ls : start -> calls_ok ls -> calls_fit E keyof i es0 w0 x0 ls.
Proof.
  intros [HO Hr Hsp Hx Hq] [A B]. split; [|exact B]. intros c h o X. destruct (A c h o X) as [Hok Hh]. split; [exact Hok|].
  destruct (reach E keyof es0 HO w0 rs0 Hr) as (sp & Hsp' & W). rewrite Hsp in Hsp'. injection Hsp' as <-.
  destruct (w_handles w0 !! h) as [hd|] eqn:Hw; [|rewrite (handle_none E keyof (PU es0) _ _ _ _ _ W Hw) in Hh; discriminate Hh].
  exists hd. split; [reflexivity|]. destruct (handle_cases E keyof (PU es0) _ _ _ _ _ _ W Hw) as (Hs & _ & _ & _ & _ & y & Hy & Dy & _).
  split; [|congruence]. eapply (inst_unique E keyof (PU es0) (PU_inj E keyof es0 HO)); [exact W|exact Hy|exact Hx|]. congruence.
Qed.

Lemma linev_event lin : map fst (map linev lin) = map lin_event lin.
Proof. rewrite map_map. reflexivity. Qed.
Lemma linev_res lin : map snd (map linev lin) = map snd lin.
Proof. rewrite map_map. reflexivity. Qed.

Lemma lin_spec lin es rs w n : start -> run E w0 es = Some (w, rs) -> answered es rs = map linev lin ->
  Forall (call_ok E keyof) es -> paths es = [] -> writes es <= n -> room E (writes es0 + n) ->
  exists sp, spec_run canon sp0 (map lin_event lin) = Some (sp, map snd lin) /\ sp_handles sp = sp_handles sp0 /\
    ordinary E keyof (es0 ++ es) /\ run E world0 (es0 ++ es) = Some (w, rs0 ++ rs) /\ spec_run canon spec0 (es0 ++ es) = Some (sp, rs0 ++ rs).
Proof.
  intros [HO Hr Hsp Hx Hq] A1 A2 A3 A4 A5 R.
  pose proof (ordinary_ext E keyof es0 HO es n A3 A4 A5 R) as O'.
  assert (Hr' : run E world0 (es0 ++ es) = Some (w, rs0 ++ rs)) by (rewrite run_app, Hr, A1; reflexivity).
  destruct (reach E keyof (es0 ++ es) O' _ _ Hr') as (sp & Hs & W).
  pose proof Hs as Hs'. rewrite spec_run_app, Hsp in Hs. destruct (spec_run canon sp0 es) as [[sp' rs']|] eqn:Es; [|discriminate Hs].
  injection Hs as Hsp' Hrs. apply app_inv_head in Hrs. subst sp' rs'.
  apply spec_answered in Es. rewrite A2, linev_event, linev_res in Es.
  exists sp. split_and!; auto.
  clear -Es. revert sp0 sp Es. induction lin as [|[[c [h o]] r] lin IH]; intros sp0 sp; cbn [map spec_run]; [intros [= <-]; reflexivity|].
  destruct (spec_step canon sp0 _) as [[s1 r1]|] eqn:Est; [|discriminate]. destruct (spec_run canon s1 _) as [[s2 r2]|] eqn:Er; [|discriminate].
  intros [= -> -> ->]. rewrite (IH _ _ Er). destruct o; cbn in Est; destruct (sp_handles sp0 !! h); try discriminate Est; injection Est as <- _; reflexivity.
Qed.

Lemma hist_lin ls st n lin : HistInv ls st n lin -> linearization ls lin.
Proof.
  intros [A1 A2 A3 A4 A5 A6 A7]. split; auto. intros c r X. apply (A6 c r X).
Qed.

Lemma inv_once ls s : cexecn E i (conc0 w0 x0) ls s ->
  (forall c h o, HInv c h o ∈ ls -> c < c_next s) /\ forall c h o h' o', HInv c h o ∈ ls -> HInv c h' o' ∈ ls -> (h, o) = (h', o').
Proof.
  induction 1 as [|ls s1 a s2 _ [IH1 IH2] X]; [split; intros * D; inversion D|].
  assert (N : match a with HInv c _ _ => c = c_next s1 /\ c_next s2 = c_next s1 + 1 | _ => c_next s2 = c_next s1 end) by (destruct X; cbn; auto).
  split.
  - intros c h o D. apply in_csnoc in D as [D|<-]; [|lia]. apply IH1 in D. destruct a; lia.
  - intros c h o h' o' D D'. apply in_csnoc in D as [D|<-], D' as [D'|D'].
    + eauto.
    + subst a. apply IH1 in D. lia.
    + apply IH1 in D'. lia.
    + injection D' as <- <-. reflexivity.
Qed.

Theorem C19_linearizable ls s :
  start -> calls_ok ls -> cexecn E i (conc0 w0 x0) ls s ->
  exists lin sp, linearization ls lin /\ spec_run canon sp0 (map lin_event lin) = Some (sp, map snd lin).
Proof.
  intros St Ok X. pose proof (calls_ok_fit ls St Ok) as Fit. pose proof St as [HO Hr Hsp Hx Hq].
  destruct (Sim_exec E keyof i es0 w0 rs0 x0 HO Hr Hx Hq ls s X Fit) as (L & [(lin & es & rs & x & af & [A1 A2 A3 A4 A5 A6 A7 Ad A8 A9 Ac A10])
    |(lin & es & rs & x & af & c & h & wa & xa & pend & [A1 A2 A3 A4 A5 A6 A7 Aa Ad A8 A9 Ac Aj A10])]).
  all: pose proof (Hist_length _ _ _ _ A10) as HL.
  all: assert (R : room E (writes es0 + N.of_nat (length lin))) by (eapply room_mono; [|apply (proj2 Ok)]; lia).
  all: destruct (lin_spec lin es rs _ _ St A1 A2 A3 A4 A5 R) as (sp & Hs & _); exists lin, sp; (split; [eapply hist_lin, A10|exact Hs]).
Qed.

(** No call fails, and none panics, however the threads are scheduled. *)
Theorem C19_calls_succeed ls s c h o r :
  start -> calls_ok ls -> cexecn E i (conc0 w0 x0) ls s -> HInv c h o ∈ ls -> HRet c r ∈ ls ->
  match o with CGet _ _ => r = RErr KeyNotFound \/ r = RErr TypeMissMatch \/ exists v, r = ROk (Some v) | _ => r = ROk None end.
Proof.
  intros St Ok X Hi Hret. destruct (C19_linearizable ls s St Ok X) as (lin & sp & Hl & Hs).
  destruct (ln_returned _ _ Hl c r Hret) as (h' & o' & Hin).
  assert (HInv c h' o' ∈ ls) as Hi' by (eapply (ln_called _ _ Hl), Hin).
  destruct (inv_once ls s X) as [_ U]. injection (U _ _ _ _ _ Hi Hi') as <- <-.
  clear -Hin Hs. revert sp0 sp Hs. induction lin as [|y lin IH]; intros s0 sp; [inversion Hin|]. cbn [map spec_run].
  destruct (spec_step canon s0 _) as [[s1 r1]|] eqn:Est; [|discriminate]. destruct (spec_run canon s1 _) as [[s2 r2]|] eqn:Er; [|discriminate].
  intros [= -> -> ->]. apply elem_of_cons in Hin as [<-|Hin]; [|eapply IH; eassumption].
  destruct o as [key v|key t|key|]; cbn in Est; destruct (sp_handles s0 !! h); try discriminate Est; injection Est as _ <-; auto.
  cbn. unfold spec_get. destruct (_ !! key) as [v|]; [|auto]. destruct (decide _); eauto.
Qed.

(** ** C20: memory and file *)

Lemma quiescent ls s : start -> calls_ok ls -> cexecn E i (conc0 w0 x0) ls s -> c_calls s = ∅ ->
  exists lin es rs x, linearization ls lin /\ room E (writes es0 + N.of_nat (length lin)) /\ Closing E keyof i w0 x0 (c_front s) lin (c_loop s) es rs x.
Proof.
  intros St Ok X Hc. pose proof (calls_ok_fit ls St Ok) as Fit. pose proof St as [HO Hr Hsp Hx Hq].
  destruct (Sim_exec E keyof i es0 w0 rs0 x0 HO Hr Hx Hq ls s X Fit) as (L & [(lin & es & rs & x & af & S)|(lin & es & rs & x & af & c & h & wa & xa & pend & S)]).
  2: { exfalso. destruct (sc_call _ _ _ _ _ _ _ _ _ _ _ _ _ _ _ _ _ S) as (p & Hp & _). rewrite Hc, lookup_empty in Hp. discriminate Hp. }
  exists lin, es, rs, x. pose proof (sm_hist _ _ _ _ _ _ _ _ _ _ _ _ S) as A10. split; [eapply hist_lin, A10|]. split.
  - pose proof (Hist_length _ _ _ _ A10). eapply room_mono; [|apply (proj2 Ok)]; lia.
  - eapply Closing_0; eassumption.
Qed.

Lemma Closing_facts f lin l es rs x : start -> room E (writes es0 + N.of_nat (length lin)) -> Closing E keyof i w0 x0 f lin l es rs x ->
  exists sp, spec_run canon sp0 (map lin_event lin) = Some (sp, map snd lin) /\
    ordinary E keyof (es0 ++ es) /\ spec_run canon spec0 (es0 ++ es) = Some (sp, rs0 ++ rs) /\
    run E world0 (es0 ++ es) = Some (set_inst (l_cb l) i (i_glue x f (map snd (l_buf l ++ l_queue l))), rs0 ++ rs) /\
    forall key t, get_ok t -> body f (CGet key t) = (f, NRet (spec_get (contents sp (i_dir x0)) key t)).
Proof.
  intros St R [B1 B2 B3 B4 B5 B6 Bd B7 B8 B9].
  destruct (lin_spec lin es rs _ _ St B1 B2 B3 B4 B5 R) as (sp & Hs & _ & O' & Hr' & Hs'). exists sp. split_and!; auto.
  intros key t Ht.
  destruct (reach E keyof (es0 ++ es) O' _ _ Hr') as (sp' & Hsp' & W). rewrite Hs' in Hsp'. injection Hsp' as <-.
  destruct (wi_insts _ _ _ _ _ _ _ W i (i_glue x f (map snd (l_buf l ++ l_queue l)))) as (_ & I & _); [apply lookup_insert|].
  pose proof (io_poison _ _ _ _ _ _ _ I) as Ip. pose proof (io_valid _ _ _ _ _ _ _ I) as Iv. cbn in Ip, Iv.
  destruct (io_state _ _ _ _ _ _ _ I) as (q & rs' & c & _ & _ & _ & _ & _ & Rl & _). cbn in Rl. rewrite Bd in Rl.
  unfold body. rewrite Ip, Iv. do 2 f_equal. apply (get_refines E); assumption.
Qed.

(** Between calls, what a get would answer is the map given by the
    linearization of everything that has happened. *)
Theorem C20_memory_is_the_map ls s :
  start -> calls_ok ls -> cexecn E i (conc0 w0 x0) ls s -> c_calls s = ∅ ->
  exists lin sp, linearization ls lin /\ spec_run canon sp0 (map lin_event lin) = Some (sp, map snd lin) /\
    forall key t, get_ok t -> body (c_front s) (CGet key t) = (c_front s, NRet (spec_get (contents sp (i_dir x0)) key t)).
Proof.
  intros St Ok X Hc. destruct (quiescent ls s St Ok X Hc) as (lin & es & rs & x & Hl & R & C).
  destruct (Closing_facts _ _ _ _ _ _ St R C) as (sp & Hs & _ & _ & _ & G). exists lin, sp. auto.
Qed.

(** When the store is closed after the calls, closing succeeds and opening
    the file gives exactly the map that was in memory. *)
Theorem C20_file_is_memory ls s ls' l ok :
  start -> calls_ok ls -> cexecn E i (conc0 w0 x0) ls s -> c_calls s = ∅ ->
  lexec (cexec E i) (c_loop s) ls' l -> (forall c j, LCall c j ∉ ls') -> l_k l = KClosed ok ->
  ok = true /\ exists f st, file_at (l_cb l) (i_dir x0) = Some f /\
    open_file (e_plat E) (dir_codec E keyof (l_cb l) (i_dir x0)) 0 f = Some (st, f_map (c_front s)).
Proof.
  intros St Ok X Hc Xl Hn Hk. destruct (quiescent ls s St Ok X Hc) as (lin & es & rs & x & Hl & R & C).
  destruct (Closing_exec E keyof i es0 w0 rs0 x0 (st_ordinary St) (st_run St) _ _ _ _ _ _ _ _ C R Xl Hn) as (es1 & rs1 & x1 & C1).
  pose proof C1 as [B1 B2 B3 B4 B5 B6 Bd B7 B8 B9]. pose proof (s_join _ B8 ok Hk) as J. destruct ok; [|contradiction].
  split; [reflexivity|]. destruct (s_done _ B8 J) as [_ Q]. pose proof (s_buf _ B8) as SB. rewrite J in SB.
  destruct (Closing_facts _ _ _ _ _ _ St R C1) as (sp & Hs & O' & Hs' & Hr' & G). rewrite SB, Q in Hr'. cbn [app map] in Hr'.
  destruct (reach_inst E keyof _ _ _ i (i_glue x1 (c_front s) []) O' Hr') as (_ & Hcod & Hf & q & rr & c & Q1 & _ & HW & _ & Hm); [apply lookup_insert|].
  cbn in Q1. destruct q; [|discriminate Q1]. cbn in Hm. cbn [i_glue i_dir] in Hcod, Hf. rewrite Bd in Hcod, Hf.
  pose proof HW as (I & _).
  destruct (open_inv _ _ _ _ (po_64 _ (eo_plat _ (or_env _ _ _ O'))) (feature_law _ _ _ (eo_feat _ (or_env _ _ _ O'))) (po_max _ (eo_plat _ (or_env _ _ _ O'))) _ _ 0 I) as (s' & Ho & _).
  exists (s_file (i_st (set_inst (l_cb l) i (i_glue x1 (c_front s) [])) (i_glue x1 (c_front s) []))), s'.
  split; [exact Hf|]. rewrite Hm.
  change (dir_codec E keyof (l_cb l) (i_dir x0)) with (dir_codec E keyof (set_inst (l_cb l) i (i_glue x1 (c_front s) [])) (i_dir x0)).
  rewrite <- Hcod. exact Ho.
Qed.

(** The store after the concurrent phase, background work done: memory, file
    and handles together again. *)
Definition rejoin (s : conc) : option world :=
  match w_insts (l_cb (c_loop s)) !! i with
  | Some x => Some (set_inst (l_cb (c_loop s)) i (i_glue x (c_front s) []))
  | None => None
  end.

(** Whatever is done afterwards (more calls, closing, reopening) is answered
    as the specification says for the linearized calls. *)
Theorem C20_then_as_before ls s :
  start -> calls_ok ls -> cexecn E i (conc0 w0 x0) ls s -> c_calls s = ∅ -> l_buf (c_loop s) = [] -> l_queue (c_loop s) = [] ->
  exists lin sp w, linearization ls lin /\ spec_run canon sp0 (map lin_event lin) = Some (sp, map snd lin) /\ rejoin s = Some w /\
    forall es', ordinary E keyof (es0 ++ map lin_event lin ++ es') ->
      option_map snd (run E w es') = option_map snd (spec_run canon sp es').
Proof.
  intros St Ok X Hc Hb Hq. destruct (quiescent ls s St Ok X Hc) as (lin & es & rs & x & Hl & R & C).
  pose proof C as [B1 B2 B3 B4 B5 B6 Bd B7 B8 B9].
  destruct (Closing_facts _ _ _ _ _ _ St R C) as (sp & Hs & O' & Hs' & Hr' & G). exists lin, sp, (set_inst (l_cb (c_loop s)) i (i_glue x (c_front s) [])).
  split; [exact Hl|]. split; [exact Hs|]. split; [unfold rejoin; rewrite B6; reflexivity|]. intros es' O2.
  rewrite Hb, Hq in Hr', B1. cbn [app map] in Hr', B1.
  assert (writes es <= writes (map lin_event lin) /\ paths es = paths (map lin_event lin)) as [Hw Hp].
  { rewrite <- linev_event, <- B2. pose proof (run_length' E es _ _ _ B1) as Len. clear -Len. revert rs Len.
    induction es as [|e es IH]; intros [|r rs] Len; cbn in Len; try discriminate; [split; [|reflexivity]; cbn; lia|].
    injection Len as Len. destruct (IH rs Len) as [IH1 IH2].
    destruct e; cbn [answered map fst]; rewrite ?writes_cons; unfold wcount; cbn [is_write]; split;
      try (cbn [paths flat_map]; fold (paths es); fold (paths (map fst (answered es rs))); rewrite ?IH2; reflexivity); try lia. }
  assert (O3 : ordinary E keyof (es0 ++ es ++ es')).
  { destruct O2 as [a1 a2 a3 a4]. split.
    - exact a1.
    - apply Forall_app in a2 as [a2 a2']. apply Forall_app in a2' as [_ a2']. apply Forall_app. split; [exact a2|]. apply Forall_app. auto.
    - unfold one_spelling in *. rewrite !paths_app in *. rewrite Hp. exact a3.
    - eapply room_mono; [|exact a4]. rewrite !writes_app. lia. }
  pose proof (answers_ok E keyof _ O3) as An. rewrite app_assoc in An. rewrite run_app, Hr', spec_run_app, Hs' in An.
  destruct (run E _ es') as [[w1 r1]|], (spec_run canon sp es') as [[s1 r2]|]; cbn in An |- *; try discriminate An; [|reflexivity].
  injection An as An. apply app_inv_head in An. congruence.
Qed.

End Main.

(** ** A concrete schedule *)

Inductive cchoice := KCall (h : N) (o : cop) | KStep (c : N) | KBg.

Section Sched.
Context (E : env) (i : N).

Definition cdo (k : cchoice) (s : conc) : option (clabel * conc) :=
  match k with
  | KCall h o => Some (HInv (c_next s) h o,
      Conc (c_front s) (c_readers s) (c_writer s) (c_loop s) (<[c_next s := (AWant, (h, o))]> (c_calls s)) (c_next s + 1))
  | KBg => match xdo (cexec E i) (c_loop s) with Some (_, l) => Some (HTau, set_loop s l) | None => None end
  | KStep c =>
      match c_calls s !! c with
      | Some (AWant, (h, o)) =>
          match c_writer s with
          | Some _ => None
          | None => if exclusive o then
                      if bool_decide (c_readers s = ∅) then Some (HTau, set_call (set_rw s (c_readers s) (Some c)) c AHeld (h, o)) else None
                    else Some (HTau, set_call (set_rw s ({[c]} ∪ c_readers s) (c_writer s)) c AHeld (h, o))
          end
      | Some (AHeld, (h, o)) =>
          match body (c_front s) o with
          | (f, NRet r) => Some (HTau, set_call (set_front s f) c (ARet r) (h, o))
          | (f, NPost j) => Some (HTau, set_call (set_front s f) c (APost j) (h, o))
          | (f, NOpen) => Some (HTau, set_call (set_front s f) c AOpen (h, o))
          end
      | Some (APost j, (h, o)) =>
          match do_choice (cexec E i) (ChCall j) (c_loop s) with
          | Some (_, l) => Some (HTau, set_call (set_loop s l) c (AWait (l_next (c_loop s))) (h, o))
          | None => None
          end
      | Some (AWait lc, (h, o)) =>
          match pdo lc (c_loop s) with
          | Some (LTau, l) => Some (HTau, set_loop s l)
          | Some (LRet _ ok, l) => Some (HTau, set_call (set_loop s l) c
              (if ok then match o with CClear => AQuit | _ => ARet (ROk None) end else ARet (RErr IOError)) (h, o))
          | _ => None
          end
      | Some (AQuit, (h, o)) =>
          match l_k (c_loop s) with
          | KOpen => if bool_decide (l_posts (c_loop s) = ∅) then
                       if alive (l_x (c_loop s)) then
                         Some (HTau, set_call (set_loop s (set_chan (set_k (c_loop s) false KJoin) (l_chan (c_loop s) ++ [SQuit]))) c AJoin (h, o))
                       else None
                     else None
          | _ => None
          end
      | Some (AJoin, (h, o)) =>
          match l_k (c_loop s), l_x (c_loop s) with
          | KJoin, XDone => Some (HTau, set_call (set_loop s (set_k (c_loop s) (l_sender (c_loop s)) (KClosed true))) c AOpen (h, o))
          | _, _ => None
          end
      | Some (AOpen, (h, o)) =>
          match w_handles (l_cb (c_loop s)) !! h, l_k (c_loop s) with
          | Some hd, KClosed _ =>
              match open_impl E (l_cb (c_loop s)) (h_path hd) (h_key hd) with
              | (w, Some y) => Some (HTau, set_call (set_loop (set_front s (Front (i_map y) (i_valid y) (i_poison y))) (loop0 (set_inst w i y))) c (ARet (ROk None)) (h, o))
              | _ => None
              end
          | _, _ => None
          end
      | Some (ARet r, (h, o)) =>
          Some (HTau, set_call (set_rw s (c_readers s ∖ {[c]}) (if decide (c_writer s = Some c) then None else c_writer s)) c (ADone r) (h, o))
      | Some (ADone r, (h, o)) =>
          Some (HRet c r, Conc (c_front s) (c_readers s) (c_writer s) (c_loop s) (delete c (c_calls s)) (c_next s))
      | None => None
      end
  end.

Lemma cdo_ok k s a s' : cdo k s = Some (a, s') -> cstep E i s a s'.
Proof.
  destruct k as [h o|c|]; cbn.
  - intros [= <- <-]. constructor.
  - destruct (c_calls s !! c) as [[p [h o]]|] eqn:Hc; [|discriminate]. destruct p as [| |j|lc| | | |r|r].
    + destruct (c_writer s) eqn:Hw; [discriminate|]. destruct (exclusive o) eqn:He.
      * case_bool_decide; [|discriminate]. intros [= <- <-]. eapply c_write; eauto.
      * intros [= <- <-]. rewrite <- Hw. eapply c_read; eauto.
    + destruct (body (c_front s) o) as [f [r|j|]] eqn:Hb; intros [= <- <-]; [eapply c_body_ret|eapply c_body_job|eapply c_body_open]; eauto.
    + destruct (l_k (c_loop s)) eqn:K; try discriminate. intros [= <- <-]. eapply c_post; [exact Hc|]. apply p_call, K.
    + unfold pdo. destruct (l_posts (c_loop s) !! lc) as [[[] j]|] eqn:Hp; try discriminate.
      * destruct (l_lock (c_loop s)) eqn:Hl; [discriminate|]. intros [= <- <-]. apply c_posting. apply p_lock; assumption.
      * intros [= <- <-]. apply c_posting. apply p_push; assumption.
      * intros [= <- <-]. apply c_posting. eapply p_unlock; eassumption.
      * destruct (l_sender (c_loop s)) eqn:Hs, (alive (l_x (c_loop s))) eqn:Ha; intros [= <- <-].
        1: apply (c_posted E i s c h o lc true); [exact Hc|eapply p_send; eauto].
        all: apply (c_posted E i s c h o lc false); [exact Hc|eapply p_fail; eauto].
    + destruct (l_k (c_loop s)) eqn:K; try discriminate. case_bool_decide; [|discriminate]. destruct (alive (l_x (c_loop s))) eqn:Ha; [|discriminate].
      intros [= <- <-]. eapply c_quit; [exact Hc|apply k_quit; assumption|reflexivity].
    + destruct (l_k (c_loop s)) eqn:K; try discriminate. destruct (l_x (c_loop s)) eqn:Hx; try discriminate. intros [= <- <-].
      apply (c_join E i s c h o true); [exact Hc|apply k_join_ok; assumption].
    + destruct (w_handles _ !! h) as [hd|] eqn:Hh; [|discriminate]. destruct (l_k (c_loop s)) eqn:K; try discriminate.
      destruct (open_impl E _ _ _) as [w [y|]] eqn:Ho; [|discriminate]. intros [= <- <-]. eapply c_reopen; eauto.
    + intros [= <- <-]. eapply c_release, Hc.
    + intros [= <- <-]. eapply c_return, Hc.
  - destruct (xdo (cexec E i) (c_loop s)) as [[x l]|] eqn:Hx; [|discriminate]. intros [= <- <-]. eapply c_background.
    eapply xdo_ok, Hx.
Qed.

Fixpoint csched (ks : list cchoice) (s : conc) : option (list clabel * conc) :=
  match ks with
  | [] => Some ([], s)
  | k :: r => match cdo k s with
              | Some (a, s1) => match csched r s1 with Some (ls, s2) => Some (a :: ls, s2) | None => None end
              | None => None
              end
  end.

Lemma cexecn_cons s a s1 ls s2 : cstep E i s a s1 -> cexecn E i s1 ls s2 -> cexecn E i s (a :: ls) s2.
Proof.
  intros A. induction 1 as [|ls t1 b t2 _ IH X].
  - apply (ce_snoc E i s [] s a s1); [constructor|exact A].
  - change (a :: ls ++ [b]) with ((a :: ls) ++ [b]). econstructor; [exact IH|exact X].
Qed.

Lemma csched_ok ks : forall s ls s', csched ks s = Some (ls, s') -> cexecn E i s ls s'.
Proof.
  induction ks as [|k ks IH]; intros s ls s'; cbn; [intros [= <- <-]; constructor|].
  destruct (cdo k s) as [[a s1]|] eqn:Ed; [|discriminate]. destruct (csched ks s1) as [[ls1 s2]|] eqn:Es; [|discriminate].
  intros [= <- <-]. eapply cexecn_cons; [eapply cdo_ok, Ed|apply IH, Es].
Qed.

End Sched.

(** A store holding k1 = 5, with two handles. *)
Definition ex_start : list event := [ENew 0 dir_d ex_key; EPut 0 k1 (VI32 5); EIo 0; ENew 1 dir_d ex_key].

(** Three overlapping calls: a put (0), a get (1) that sees the old value
    although it began later, and a delete of another key (2); then the
    background thread works. *)
Definition ex_csched : list cchoice :=
  [KCall 0 (CPut k1 (VI32 7)); KCall 1 (CGet k1 TI32); KStep 1; KCall 1 (CDel k2); KStep 1; KStep 1; KStep 0; KStep 0; KStep 0; KStep 0; KStep 0;
   KStep 1; KStep 0; KStep 0; KStep 0; KStep 2; KStep 2; KBg; KStep 2; KStep 2; KStep 0; KBg; KBg; KBg; KBg; KBg].

Definition ex_labels : list clabel :=
  [HInv 0 0 (CPut k1 (VI32 7)); HInv 1 1 (CGet k1 TI32); HTau; HInv 2 1 (CDel k2); HTau; HTau; HTau; HTau; HTau; HTau; HTau;
   HRet 1 (ROk (Some (VI32 5))); HTau; HTau; HTau; HTau; HTau; HTau; HTau; HRet 2 (ROk None); HRet 0 (ROk None); HTau; HTau; HTau; HTau; HTau].

Definition ex_close : list (choice job) := [ChDrop; ChX; ChX; ChX; ChX; ChX; ChX; ChJoin].

Definition is_nil {A} (l : list A) : bool := match l with [] => true | _ => false end.
Lemma is_nil_ok {A} (l : list A) : is_nil l = true -> l = [].
Proof. destruct l; [reflexivity|discriminate]. Qed.

Example C19_example : exists w0 rs0 sp0 x0 s,
  start (ex_env FPlain) ex_keyof ex_start w0 rs0 sp0 0 x0 /\ calls_ok (ex_env FPlain) ex_keyof ex_start sp0 x0 ex_labels /\
  cexecn (ex_env FPlain) 0 (conc0 w0 x0) ex_labels s /\ c_calls s = ∅ /\ l_buf (c_loop s) = [] /\ l_queue (c_loop s) = [].
Proof.
  assert (T : match run (ex_env FPlain) world0 ex_start, spec_run (e_canon (ex_env FPlain)) spec0 ex_start with
              | Some (w, rs), Some (sp, rs') => rs' = rs /\
                match w_insts w !! 0 with
                | Some x => is_nil (i_queue x) = true /\ sp_handles sp !! 0 = Some (i_dir x) /\ sp_handles sp !! 1 = Some (i_dir x) /\
                  match csched (ex_env FPlain) 0 ex_csched (conc0 w x) with
                  | Some (ls, s) => ls = ex_labels /\ is_nil (map_to_list (c_calls s)) = true /\ is_nil (l_buf (c_loop s)) = true /\ is_nil (l_queue (c_loop s)) = true
                  | None => False end
                | None => False end
              | _, _ => False end) by (vm_compute; repeat split).
  destruct (run (ex_env FPlain) world0 ex_start) as [[w0 rs0]|] eqn:Hr; [|contradiction].
  destruct (spec_run (e_canon (ex_env FPlain)) spec0 ex_start) as [[sp0 rs1]|] eqn:Hs; [|contradiction]. destruct T as [-> T].
  destruct (w_insts w0 !! 0) as [x0|] eqn:Hx; [|contradiction]. destruct T as (T1 & T2 & T3 & T).
  destruct (csched (ex_env FPlain) 0 ex_csched (conc0 w0 x0)) as [[ls s]|] eqn:Hc; [|contradiction]. destruct T as (-> & T4 & T5 & T6).
  exists w0, rs0, sp0, x0, s. split_and!.
  - split; auto; [apply ordinaryb_ok; [apply ex_env_ok; exact Logic.I|vm_compute; reflexivity]|apply is_nil_ok, T1].
  - split.
    + intros c h o X. repeat (apply elem_of_cons in X as [X|X]); try discriminate X; [..|inversion X]; injection X as -> -> ->;
        (split; [|assumption]).
      * apply put_okb_ok. vm_compute. reflexivity.
      * eexists. reflexivity.
      * exact Logic.I.
    + apply roomb_ok. vm_compute. reflexivity.
  - apply csched_ok in Hc. exact Hc.
  - apply map_to_list_empty_iff, is_nil_ok, T4.
  - apply is_nil_ok, T5.
  - apply is_nil_ok, T6.
Qed.

(** The same, closed while the put is still pending. *)
Example C20_example : exists w0 rs0 sp0 x0 s,
  start (ex_env FPlain) ex_keyof ex_start w0 rs0 sp0 0 x0 /\ calls_ok (ex_env FPlain) ex_keyof ex_start sp0 x0 (take 21 ex_labels) /\
  cexecn (ex_env FPlain) 0 (conc0 w0 x0) (take 21 ex_labels) s /\ c_calls s = ∅ /\ l_queue (c_loop s) <> [] /\
  exists ls' l, lexec (cexec (ex_env FPlain) 0) (c_loop s) ls' l /\ (forall c j, LCall c j ∉ ls') /\ l_k l = KClosed true.
Proof.
  assert (T : match run (ex_env FPlain) world0 ex_start, spec_run (e_canon (ex_env FPlain)) spec0 ex_start with
              | Some (w, rs), Some (sp, rs') => rs' = rs /\
                match w_insts w !! 0 with
                | Some x => is_nil (i_queue x) = true /\ sp_handles sp !! 0 = Some (i_dir x) /\ sp_handles sp !! 1 = Some (i_dir x) /\
                  match csched (ex_env FPlain) 0 (take 21 ex_csched) (conc0 w x) with
                  | Some (ls, s) => ls = (take 21 ex_labels) /\ is_nil (map_to_list (c_calls s)) = true /\ is_nil (l_queue (c_loop s)) = false /\
                     match sched (cexec (ex_env FPlain) 0) ex_close (c_loop s) with
                     | Some (ls', l) => ls' = [LClose; LTau; LTau; LTau; LRun 0 true; LTau; LTau; LJoin true] /\ l_k l = KClosed true
                     | None => False end
                  | None => False end
                | None => False end
              | _, _ => False end) by (vm_compute; repeat split).
  destruct (run (ex_env FPlain) world0 ex_start) as [[w0 rs0]|] eqn:Hr; [|contradiction].
  destruct (spec_run (e_canon (ex_env FPlain)) spec0 ex_start) as [[sp0 rs1]|] eqn:Hs; [|contradiction]. destruct T as [-> T].
  destruct (w_insts w0 !! 0) as [x0|] eqn:Hx; [|contradiction]. destruct T as (T1 & T2 & T3 & T).
  destruct (csched (ex_env FPlain) 0 (take 21 ex_csched) (conc0 w0 x0)) as [[ls s]|] eqn:Hc; [|contradiction]. destruct T as (-> & T4 & T5 & T).
  destruct (sched (cexec (ex_env FPlain) 0) ex_close (c_loop s)) as [[ls' l]|] eqn:Hl; [|contradiction]. destruct T as (-> & T7).
  exists w0, rs0, sp0, x0, s. split_and!.
  - split; auto; [apply ordinaryb_ok; [apply ex_env_ok; exact Logic.I|vm_compute; reflexivity]|apply is_nil_ok, T1].
  - split.
    + intros c h o X. repeat (apply elem_of_cons in X as [X|X]); try discriminate X; [..|inversion X]; injection X as -> -> ->;
        (split; [|assumption]).
      * apply put_okb_ok. vm_compute. reflexivity.
      * eexists. reflexivity.
      * exact Logic.I.
    + apply roomb_ok. vm_compute. reflexivity.
  - apply csched_ok in Hc. exact Hc.
  - apply map_to_list_empty_iff, is_nil_ok, T4.
  - intros Q. rewrite Q in T5. discriminate T5.
  - eexists _, l. split; [eapply sched_ok, Hl|]. split; [|exact T7]. intros c j X. apply elem_of_list_In in X. cbn in X. intuition discriminate.
Qed.

(** A clear_data (1) that overlaps a put (0) and a get (2): the put is still
    queued when the clear takes the lock, the get waits until the files are
    open again and finds nothing. *)
Definition ex_clear_sched : list cchoice :=
  [KCall 0 (CPut k2 (VI32 7)); KCall 1 CClear] ++ replicate 7 (KStep 0) ++
  [KCall 0 (CGet k2 TI32); KStep 0; KStep 1; KStep 1; KStep 1; KBg; KStep 1; KStep 1; KStep 1; KStep 0; KStep 1; KBg; KBg; KStep 1] ++
  replicate 10 KBg ++ [KStep 1; KStep 1; KStep 1; KStep 2; KStep 2; KStep 2; KStep 1; KStep 2].

Definition ex_clear_labels : list clabel :=
  [HInv 0 0 (CPut k2 (VI32 7)); HInv 1 1 CClear] ++ replicate 7 HTau ++ [HInv 2 0 (CGet k2 TI32)] ++ replicate 8 HTau ++ [HRet 0 (ROk None)] ++
  replicate 20 HTau ++ [HRet 1 (ROk None); HRet 2 (RErr KeyNotFound)].

Example C19_clear_example : exists w0 rs0 sp0 x0 s,
  start (ex_env FPlain) ex_keyof ex_start w0 rs0 sp0 0 x0 /\ calls_ok (ex_env FPlain) ex_keyof ex_start sp0 x0 ex_clear_labels /\
  cexecn (ex_env FPlain) 0 (conc0 w0 x0) ex_clear_labels s /\ c_calls s = ∅ /\ l_buf (c_loop s) = [] /\ l_queue (c_loop s) = [].
Proof.
  assert (T : match run (ex_env FPlain) world0 ex_start, spec_run (e_canon (ex_env FPlain)) spec0 ex_start with
              | Some (w, rs), Some (sp, rs') => rs' = rs /\
                match w_insts w !! 0 with
                | Some x => is_nil (i_queue x) = true /\ sp_handles sp !! 0 = Some (i_dir x) /\ sp_handles sp !! 1 = Some (i_dir x) /\
                  match csched (ex_env FPlain) 0 ex_clear_sched (conc0 w x) with
                  | Some (ls, s) => ls = ex_clear_labels /\ is_nil (map_to_list (c_calls s)) = true /\ is_nil (l_buf (c_loop s)) = true /\ is_nil (l_queue (c_loop s)) = true
                  | None => False end
                | None => False end
              | _, _ => False end) by (vm_compute; repeat split).
  destruct (run (ex_env FPlain) world0 ex_start) as [[w0 rs0]|] eqn:Hr; [|contradiction].
  destruct (spec_run (e_canon (ex_env FPlain)) spec0 ex_start) as [[sp0 rs1]|] eqn:Hs; [|contradiction]. destruct T as [-> T].
  destruct (w_insts w0 !! 0) as [x0|] eqn:Hx; [|contradiction]. destruct T as (T1 & T2 & T3 & T).
  destruct (csched (ex_env FPlain) 0 ex_clear_sched (conc0 w0 x0)) as [[ls s]|] eqn:Hc; [|contradiction]. destruct T as (-> & T4 & T5 & T6).
  exists w0, rs0, sp0, x0, s. split_and!.
  - split; auto; [apply ordinaryb_ok; [apply ex_env_ok; exact Logic.I|vm_compute; reflexivity]|apply is_nil_ok, T1].
  - split.
    + intros c h o X. apply elem_of_list_In in X. cbn in X.
      repeat (destruct X as [X|X]; [try discriminate X; injection X as <- <- <-; (split; [|assumption])|]); [..|contradiction].
      * apply put_okb_ok. vm_compute. reflexivity.
      * exact Logic.I.
      * eexists. reflexivity.
    + apply roomb_ok. vm_compute. reflexivity.
  - apply csched_ok in Hc. exact Hc.
  - apply map_to_list_empty_iff, is_nil_ok, T4.
  - apply is_nil_ok, T5.
  - apply is_nil_ok, T6.
Qed.
