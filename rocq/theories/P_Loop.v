(** C17 and C18: the background executor runs every acknowledged job exactly
    once and in order, is never stuck, and closing waits for everything. *)
From Verif Require Import Bytes Looper.
From Coq Require Import ZifyBool ZifyNat ZifyN.
Local Open Scope N_scope.

Global Instance kpc_eq_dec : EqDecision kpc.
Proof. solve_decision. Defined.

Global Instance xpc_eq_dec : EqDecision xpc.
Proof. solve_decision. Defined.
Global Instance signal_eq_dec : EqDecision signal.
Proof. solve_decision. Defined.

Section Loop.
Context {J T : Type} (exec : J -> T -> T * bool).
Notation loop := (loop J T).
Notation lstep := (lstep exec).
Notation xstep := (xstep exec).
Notation lexec := (lexec exec).

Definition holding (pc : ppc) : bool := match pc with PHold | PRel => true | _ => false end.
Definition pushed (pc : ppc) : bool := match pc with PRel | PSend => true | _ => false end.
Definition xholding (x : xpc) : bool := match x with XHold | XRel => true | _ => false end.

(** *** Invariants of states *)

Record SInv (l : loop) : Prop := {
  s_lockp : forall c, l_lock l = Some (OPost c) -> exists pc j, l_posts l !! c = Some (pc, j) /\ holding pc = true;
  s_lockx : l_lock l = Some OExec -> xholding (l_x l) = true;
  s_post : forall c pc j, l_posts l !! c = Some (pc, j) -> holding pc = true -> l_lock l = Some (OPost c);
  s_x : xholding (l_x l) = true -> l_lock l = Some OExec;
  s_buf : match l_x l with XRel | XRun | XDead => True | _ => l_buf l = [] end;
  s_next : forall c x, l_posts l !! c = Some x -> c < l_next l;
  s_open : l_k l = KOpen -> l_sender l = true /\ SQuit ∉ l_chan l;
  s_closed : l_k l <> KOpen -> l_posts l = ∅ /\ l_sender l = false;
  s_last : forall a b, l_chan l = a ++ SQuit :: b -> b = [];
  s_wake : alive (l_x l) = true -> l_queue l <> [] ->
    (exists c pc j, l_posts l !! c = Some (pc, j) /\ pushed pc = true) \/ SNext ∈ l_chan l \/ l_x l = XLock \/ l_x l = XHold;
  s_done : l_x l = XDone -> l_k l <> KOpen /\ l_queue l = [];
  s_join : forall ok, l_k l = KClosed ok -> l_x l = if ok then XDone else XDead
}.

Lemma SInv_0 cb : SInv (loop0 cb).
Proof.
  split; cbn; try discriminate; try congruence; auto.
  - intros _. split; [reflexivity|]. intros X. inversion X.
  - intros a b X. destruct a; discriminate X.
Qed.

Lemma quit_last ch a b : SQuit ∉ ch -> ch ++ [SQuit] = a ++ SQuit :: b -> b = [].
Proof.
  revert ch. induction a as [|s a IH]; intros [|s' ch] N X; cbn in X.
  - injection X as <-. reflexivity.
  - injection X as -> _. exfalso. apply N. left.
  - injection X as _ X. destruct a; discriminate X.
  - injection X as _ X. apply (IH ch); [|exact X]. intros D. apply N. right. exact D.
Qed.

Lemma last_cons_inv (s : signal) ch : (forall a b, s :: ch = a ++ SQuit :: b -> b = []) -> forall a b, ch = a ++ SQuit :: b -> b = [].
Proof. intros H a b ->. apply (H (s :: a) b). reflexivity. Qed.

Lemma SInv_x l a l' : SInv l -> xstep l a l' -> SInv l'.
Proof.
  intros S X. destruct S as [A1 A2 A3 A4 A5 A6 A7 A8 A9 A10 A11 A12].
  assert (NC : l_k l = KOpen \/ l_k l <> KOpen) by (destruct (l_k l); [left|right..]; congruence).
  destruct X as [l ch Hx Hc|l ch Hx Hc|l Hx Hc Hs|l Hx Hl|l Hx|l Hx|l c j b t Hx Hb He|l c j b t Hx Hb He|l Hx Hb]; cbn;
    rewrite Hx in *; cbn in *.
  - split; cbn; rewrite ?Hx; auto; try discriminate.
    + intros K. destruct (A7 K) as [B C]. split; [exact B|]. rewrite Hc in C. intros D. apply C. right. exact D.
    + rewrite Hc in A9. apply (last_cons_inv _ _ A9).
    + intros ok K. specialize (A12 ok K). destruct ok; discriminate A12.
  - rewrite Hc in A9. specialize (A9 [] ch eq_refl) as ->. 
    assert (K : l_k l <> KOpen). { intros K. destruct (A7 K) as [_ C]. rewrite Hc in C. apply C. left. }
    split; cbn; rewrite ?Hx; auto; try discriminate.
    + intros a b X. destruct a; discriminate X.
    + intros _. split; [exact K|]. destruct (l_queue l) eqn:Eq; [reflexivity|exfalso].
      destruct A10 as [(c & pc & j & Hp & _)|[D|[D|D]]]; try congruence; try discriminate.
      * destruct (A8 K) as [P _]. rewrite P, lookup_empty in Hp. discriminate Hp.
      * rewrite Hc in D. apply elem_of_cons in D as [D|D]; [discriminate D|inversion D].
    + intros ok K'. specialize (A12 ok K'). destruct ok; discriminate A12.
  - assert (K : l_k l <> KOpen). { intros K. destruct (A7 K) as [C _]. congruence. }
    split; cbn; rewrite ?Hx; auto; try discriminate.
    + intros _. split; [exact K|]. destruct (l_queue l) eqn:Eq; [reflexivity|exfalso].
      destruct A10 as [(c & pc & j & Hp & _)|[D|[D|D]]]; try congruence; try discriminate.
      * destruct (A8 K) as [P _]. rewrite P, lookup_empty in Hp. discriminate Hp.
      * rewrite Hc in D. inversion D.
    + intros ok K'. specialize (A12 ok K'). destruct ok; discriminate A12.
  - split; cbn; rewrite ?Hx; auto; try discriminate.
    + intros c pc j Hp Hh. specialize (A3 c pc j Hp Hh). congruence.
    + intros ok K. specialize (A12 ok K). destruct ok; discriminate A12.
  - split; cbn; rewrite ?Hx, ?A5; auto; try discriminate; try congruence.
    intros ok K. specialize (A12 ok K). destruct ok; discriminate A12.
  - rewrite A4 in * by reflexivity. split; cbn; rewrite ?Hx; auto; try discriminate; try congruence.
    + intros c pc j Hp Hh. specialize (A3 c pc j Hp Hh). congruence.
    + intros _ Q. destruct A10 as [D|[D|[D|D]]]; auto; discriminate.
    + intros ok K. specialize (A12 ok K). destruct ok; discriminate A12.
  - split; cbn; rewrite ?Hx; auto; try discriminate; try congruence.
  - split; cbn; rewrite ?Hx; auto; try discriminate; try congruence.
    intros ok K. specialize (A12 ok K). destruct ok; discriminate A12.
  - split; cbn; rewrite ?Hx; auto; try discriminate; try congruence.
    + intros _ Q. destruct A10 as [D|[D|[D|D]]]; auto; discriminate.
    + intros ok K. specialize (A12 ok K). destruct ok; discriminate A12.
Qed.

Lemma SInv_p l a l' : SInv l -> pstep l a l' -> SInv l'.
Proof.
  intros S X. destruct S as [A1 A2 A3 A4 A5 A6 A7 A8 A9 A10 A11 A12].
  assert (NC : forall c x, l_posts l !! c = Some x -> l_k l = KOpen).
  { intros c x Hp. destruct (l_k l) eqn:K; [reflexivity|exfalso..]; destruct A8 as [P _]; try discriminate; rewrite P, lookup_empty in Hp; discriminate Hp. }
  destruct X as [l j K|l c j Hp Hl|l c j Hp|l c j Hp|l c j Hp Hs Ha|l c j Hp Hs].
  - split; cbn; auto; try congruence.
    + intros c L. destruct (A1 c L) as (pc & j' & Hp & Hh). exists pc, j'. split; [|exact Hh].
      rewrite lookup_insert_ne; [exact Hp|]. apply A6 in Hp. lia.
    + intros c pc j' Hp Hh. destruct (decide (c = l_next l)) as [->|Hne].
      * rewrite lookup_insert in Hp. injection Hp as <- _. discriminate Hh.
      * rewrite lookup_insert_ne in Hp by congruence. eauto.
    + intros c x Hp. destruct (decide (c = l_next l)) as [->|Hne]; [lia|].
      rewrite lookup_insert_ne in Hp by congruence. apply A6 in Hp. lia.
    + intros Ha Q. destruct (A10 Ha Q) as [(c & pc & j' & Hp & Hh)|D]; [|auto]. left. exists c, pc, j'. split; [|exact Hh].
      rewrite lookup_insert_ne; [exact Hp|]. apply A6 in Hp. lia.
  - pose proof (NC _ _ Hp) as K. split; cbn; auto; try congruence.
    + intros c' [= <-]. exists PHold, j. rewrite lookup_insert. auto.
    + intros c' pc j' Hp' Hh. destruct (decide (c' = c)) as [->|Hne]; [reflexivity|].
      rewrite lookup_insert_ne in Hp' by congruence. specialize (A3 c' pc j' Hp' Hh). congruence.
    + intros Hx. apply A4 in Hx. congruence.
    + intros c' x Hp'. destruct (decide (c' = c)) as [->|Hne]; [apply (A6 _ _ Hp)|]. rewrite lookup_insert_ne in Hp' by congruence. eauto.
    + intros Ha Q. destruct (A10 Ha Q) as [(c' & pc & j' & Hp' & Hh)|D]; [|auto]. left. exists c', pc, j'. split; [|exact Hh].
      rewrite lookup_insert_ne; [exact Hp'|]. intros ->. rewrite Hp in Hp'. injection Hp' as <- _. discriminate Hh.
  - pose proof (NC _ _ Hp) as K. split; cbn; auto; try congruence.
    + intros c' L. destruct (decide (c' = c)) as [->|Hne]; [exists PRel, j; rewrite lookup_insert; auto|].
      rewrite lookup_insert_ne by congruence. auto.
    + intros c' pc j' Hp' Hh. destruct (decide (c' = c)) as [->|Hne].
      * rewrite lookup_insert in Hp'. apply (A3 c PHold j Hp eq_refl).
      * rewrite lookup_insert_ne in Hp' by congruence. eauto.
    + intros c' x Hp'. destruct (decide (c' = c)) as [->|Hne]; [apply (A6 _ _ Hp)|]. rewrite lookup_insert_ne in Hp' by congruence. eauto.
    + intros Ha Q. left. exists c, PRel, j. rewrite lookup_insert. auto.
    + intros Hd. destruct (A11 Hd). contradiction.
  - pose proof (NC _ _ Hp) as K. pose proof (A3 c PRel j Hp eq_refl) as L. split; cbn; auto; try congruence.
    + intros c' pc j' Hp' Hh. destruct (decide (c' = c)) as [->|Hne].
      * rewrite lookup_insert in Hp'. injection Hp' as <- _. discriminate Hh.
      * rewrite lookup_insert_ne in Hp' by congruence. specialize (A3 c' pc j' Hp' Hh). congruence.
    + intros Hx. apply A4 in Hx. congruence.
    + intros c' x Hp'. destruct (decide (c' = c)) as [->|Hne]; [apply (A6 _ _ Hp)|]. rewrite lookup_insert_ne in Hp' by congruence. eauto.
    + intros Ha Q. left. exists c, PSend, j. rewrite lookup_insert. auto.
  - pose proof (NC _ _ Hp) as K. split; cbn; auto; try congruence.
    + intros c' L. destruct (A1 c' L) as (pc & j' & Hp' & Hh). exists pc, j'. split; [|exact Hh].
      rewrite lookup_delete_ne; [exact Hp'|]. intros ->. rewrite Hp in Hp'. injection Hp' as <- _. discriminate Hh.
    + intros c' pc j' Hp' Hh. apply lookup_delete_Some in Hp' as [_ Hp']. eauto.
    + intros c' x Hp'. apply lookup_delete_Some in Hp' as [_ Hp']. eauto.
    + intros _. destruct (A7 K) as [B C]. split; [exact B|]. rewrite elem_of_app. intros [D|D]; [auto|].
      apply elem_of_list_singleton in D. discriminate D.
    + destruct (A7 K) as [_ C]. intros a b X. exfalso. apply (f_equal (fun s => SQuit ∈ s)) in X.
      assert (Y : SQuit ∈ l_chan l ++ [SNext]) by (rewrite X; apply elem_of_app; right; left).
      apply elem_of_app in Y as [Y|Y]; [auto|]. apply elem_of_list_singleton in Y. discriminate Y.
    + intros _ _. right. left. apply elem_of_app. right. left.
  - pose proof (NC _ _ Hp) as K. split; cbn; auto; try congruence.
    + intros c' L. destruct (A1 c' L) as (pc & j' & Hp' & Hh). exists pc, j'. split; [|exact Hh].
      rewrite lookup_delete_ne; [exact Hp'|]. intros ->. rewrite Hp in Hp'. injection Hp' as <- _. discriminate Hh.
    + intros c' pc j' Hp' Hh. apply lookup_delete_Some in Hp' as [_ Hp']. eauto.
    + intros c' x Hp'. apply lookup_delete_Some in Hp' as [_ Hp']. eauto.
    + intros Ha Q. destruct (A7 K) as [B _]. destruct Hs as [Hs|Hs]; congruence.
Qed.

Lemma SInv_k l a l' : SInv l -> kstep l a l' -> SInv l'.
Proof.
  intros S X. destruct S as [A1 A2 A3 A4 A5 A6 A7 A8 A9 A10 A11 A12].
  destruct X as [l K P Ha|l K P Ha|l K P|l K Hx|l K Hx].
  - destruct (A7 K) as [B C]. split; cbn; auto; try congruence.
    + intros a b X. apply (quit_last _ _ _ C X).
    + intros _ Q. destruct (A10 Ha Q) as [D|[D|D]]; auto. right. left. apply elem_of_app. auto.
    + intros Hd. destruct (A11 Hd). contradiction.
  - split; cbn; auto; try congruence. intros Hd. destruct (A11 Hd). contradiction.
  - split; cbn; auto; try congruence. intros Hd. destruct (A11 Hd). contradiction.
  - destruct A8 as [P Q]; [congruence|]. split; cbn; auto; try congruence.
    + intros Hd. destruct (A11 Hd). split; [congruence|assumption].
    + intros ok [= <-]. exact Hx.
  - destruct A8 as [P Q]; [congruence|]. split; cbn; auto; try congruence.
    intros ok [= <-]. exact Hx.
Qed.

Lemma SInv_step l a l' : SInv l -> lstep l a l' -> SInv l'.
Proof. intros S [X|[X|X]]; [eapply SInv_x|eapply SInv_p|eapply SInv_k]; eauto. Qed.

Lemma SInv_exec cb ls l : lexec (loop0 cb) ls l -> SInv l.
Proof. induction 1; [apply SInv_0|eapply SInv_step; eauto]. Qed.

(** *** Invariants of histories *)

(** [o]: the jobs in the order in which they were pushed. *)
Record HInv (cb : T) (ls : list (label J)) (l : loop) (o : list (N * J)) : Prop := {
  h_nodup : NoDup o.*1;
  h_called : forall c j, (c, j) ∈ o -> LCall c j ∈ ls;
  h_bound : forall c j, LCall c j ∈ ls -> c < l_next l;
  h_posts : forall c pc j, l_posts l !! c = Some (pc, j) -> LCall c j ∈ ls /\ (pushed pc = true <-> c ∈ o.*1);
  h_ret : forall c ok, LRet c ok ∈ ls -> c ∈ o.*1 /\ l_posts l !! c = None;
  h_seen : forall c j, LCall c j ∈ ls -> is_Some (l_posts l !! c) \/ exists ok, LRet c ok ∈ ls;
  h_rt : forall c ok d j, earlier ls (LRet c ok) (LCall d j) -> d ∈ o.*1 -> earlier o.*1 c d;
  h_run : exists done rest, o = done ++ rest /\ runs ls = done.*1 /\ l_cb l = exec_all exec done.*2 cb /\
            (l_x l <> XDead -> rest = l_buf l ++ l_queue l);
  h_dead : l_x l = XDead <-> exists c, LRun c false ∈ ls
}.

Lemma earlier_snoc {A} (l : list A) (x a b : A) : earlier (l ++ [x]) a b -> earlier l a b \/ (b = x /\ a ∈ l).
Proof.
  intros (l1 & l2 & E & Ha & Hb). destruct l2 as [|y l2 _] using rev_ind; [inversion Hb|].
  rewrite app_assoc in E. apply app_inj_tail in E as [-> ->]. apply elem_of_app in Hb as [Hb|Hb].
  - left. exists l1, l2. auto.
  - right. apply elem_of_list_singleton in Hb. split; [exact Hb|]. apply elem_of_app. auto.
Qed.

Lemma earlier_app {A} (l l' : list A) (a b : A) : earlier l a b -> earlier (l ++ l') a b.
Proof. intros (l1 & l2 & -> & Ha & Hb). exists l1, (l2 ++ l'). rewrite app_assoc. split_and!; auto. apply elem_of_app. auto. Qed.

Lemma runs_snoc (ls : list (label J)) a : runs (ls ++ [a]) = runs ls ++ match a with LRun c _ => [c] | _ => [] end.
Proof. unfold runs. rewrite flat_map_app. cbn. rewrite app_nil_r. reflexivity. Qed.

Lemma HInv_0 cb : HInv cb [] (loop0 cb) [].
Proof.
  split; cbn.
  - constructor.
  - intros c j X. inversion X.
  - intros c j X. inversion X.
  - intros c pc j X. rewrite lookup_empty in X. discriminate X.
  - intros c ok X. inversion X.
  - intros c j X. inversion X.
  - intros c ok d j _ X. inversion X.
  - exists [], []. auto.
  - split; [discriminate|]. intros [c X]. inversion X.
Qed.

Lemma in_snoc (ls : list (label J)) a b : a ∈ ls ++ [b] <-> a ∈ ls \/ a = b.
Proof. rewrite elem_of_app, elem_of_list_singleton. reflexivity. Qed.

(** Steps that push nothing and neither call nor return. *)
Lemma HInv_quiet cb ls l o a l' : HInv cb ls l o ->
  (forall c j, a <> LCall c j) -> (forall c ok, a <> LRet c ok) -> l_next l' = l_next l ->
  (forall c pc j, l_posts l' !! c = Some (pc, j) -> exists pc', l_posts l !! c = Some (pc', j) /\ pushed pc' = pushed pc) ->
  (forall c, l_posts l !! c = None <-> l_posts l' !! c = None) ->
  (exists done rest, o = done ++ rest /\ runs (ls ++ [a]) = done.*1 /\ l_cb l' = exec_all exec done.*2 cb /\
            (l_x l' <> XDead -> rest = l_buf l' ++ l_queue l')) ->
  (l_x l' = XDead <-> exists c, LRun c false ∈ ls ++ [a]) ->
  HInv cb (ls ++ [a]) l' o.
Proof.
  intros [A1 A2 A3 A4 A5 A6 A7 A8 A9] NC NR En Ep Ed Hr Hd. split; auto.
  - intros c j X. apply in_snoc. eauto.
  - intros c j X. apply in_snoc in X as [X|X]; [rewrite En; eauto|]. destruct (NC c j). auto.
  - intros c pc j X. destruct (Ep c pc j X) as (pc' & Hp & <-). destruct (A4 c pc' j Hp) as [B C]. split; [apply in_snoc; auto|exact C].
  - intros c ok X. apply in_snoc in X as [X|X]; [|destruct (NR c ok); auto]. destruct (A5 c ok X) as [B C]. split; [exact B|]. apply Ed, C.
  - intros c j X. apply in_snoc in X as [X|X]; [|destruct (NC c j); auto]. destruct (A6 c j X) as [B|[ok B]].
    + left. destruct (l_posts l' !! c) eqn:E; [eauto|]. apply Ed in E. rewrite E in B. destruct B. discriminate.
    + right. exists ok. apply in_snoc. auto.
  - intros c ok d j X Y. apply earlier_snoc in X as [X|[X _]]; [eauto|]. destruct (NC d j). auto.
Qed.

Lemma exec_all_snoc js j t : exec_all exec (js ++ [j]) t = (exec j (exec_all exec js t)).1.
Proof. unfold exec_all. rewrite fold_left_app. reflexivity. Qed.

Lemma HInv_step cb ls l o a l' : SInv l -> HInv cb ls l o -> lstep l a l' -> exists o', HInv cb (ls ++ [a]) l' o'.
Proof.
  intros S H X.
  assert (Keep : a = LTau \/ a = LClose \/ a = LQuitFailed \/ (exists ok, a = LJoin ok) ->
     l_next l' = l_next l -> l_posts l' = l_posts l -> l_cb l' = l_cb l -> (l_x l' = XDead <-> l_x l = XDead) ->
     (l_x l <> XDead -> l_buf l' ++ l_queue l' = l_buf l ++ l_queue l) -> exists o', HInv cb (ls ++ [a]) l' o').
  { intros Ea En Ep Ec Ex Eb. exists o. apply (HInv_quiet cb ls l o a l' H); auto.
    - intros c j ->. destruct Ea as [?|[?|[?|[? ?]]]]; discriminate.
    - intros c j ->. destruct Ea as [?|[?|[?|[? ?]]]]; discriminate.
    - rewrite Ep. eauto.
    - rewrite Ep. reflexivity.
    - destruct (h_run _ _ _ _ H) as (done & rest & B1 & B2 & B3 & B4). exists done, rest. split_and!; auto.
      + rewrite runs_snoc, B2. destruct Ea as [->|[->|[->|[? ->]]]]; apply app_nil_r.
      + congruence.
      + intros D. rewrite Eb, <- B4; auto; intros D'; apply D; apply Ex; exact D'.
    - rewrite Ex, (h_dead _ _ _ _ H). split; intros [c D]; exists c; [apply in_snoc; auto|].
      apply in_snoc in D as [D|D]; [exact D|]. subst a. destruct Ea as [?|[?|[?|[? ?]]]]; discriminate. }
  destruct X as [X|[X|X]].
  - destruct X as [l ch Hx Hc|l ch Hx Hc|l Hx Hc Hs|l Hx Hl|l Hx|l Hx|l c j b t Hx Hb He|l c j b t Hx Hb He|l Hx Hb].
    + apply Keep; cbn; auto. rewrite Hx. split; discriminate.
    + apply Keep; cbn; auto. rewrite Hx. split; discriminate.
    + apply Keep; cbn; auto. rewrite Hx. split; discriminate.
    + apply Keep; cbn; auto. rewrite Hx. split; discriminate.
    + apply Keep; cbn; auto; [rewrite Hx; split; discriminate|]. intros _. pose proof (s_buf _ S) as B. rewrite Hx in B. rewrite B. apply app_nil_r.
    + apply Keep; cbn; auto. rewrite Hx. split; discriminate.
    + exists o. apply (HInv_quiet cb ls l o _ _ H); cbn; try discriminate; auto.
      * eauto.
      * destruct (h_run _ _ _ _ H) as (done & rest & B1 & B2 & B3 & B4).
        rewrite Hx, Hb in B4. specialize (B4 ltac:(discriminate)). exists (done ++ [(c, j)]), (b ++ l_queue l).
        rewrite !fmap_app, runs_snoc, B2. cbn [fmap list_fmap fst snd]. split_and!.
        -- rewrite B1, B4, <- app_assoc. reflexivity.
        -- reflexivity.
        -- rewrite exec_all_snoc, <- B3, He. reflexivity.
        -- reflexivity.
      * rewrite (h_dead _ _ _ _ H). split; intros [d D]; exists d; [apply in_snoc; auto|]. apply in_snoc in D as [D|D]; [exact D|discriminate D].
    + exists o. apply (HInv_quiet cb ls l o _ _ H); cbn; try discriminate; auto.
      * eauto.
      * destruct (h_run _ _ _ _ H) as (done & rest & B1 & B2 & B3 & B4).
        rewrite Hx, Hb in B4. specialize (B4 ltac:(discriminate)). exists (done ++ [(c, j)]), (b ++ l_queue l).
        rewrite !fmap_app, runs_snoc, B2. cbn [fmap list_fmap fst snd]. split_and!.
        -- rewrite B1, B4, <- app_assoc. reflexivity.
        -- reflexivity.
        -- rewrite exec_all_snoc, <- B3, He. reflexivity.
        -- congruence.
      * split; [|reflexivity]. intros _. exists c. apply in_snoc. auto.
    + apply Keep; cbn; auto. rewrite Hx. split; discriminate.
  - destruct X as [l j K|l c j Hp Hl|l c j Hp|l c j Hp|l c j Hp Hs Ha|l c j Hp Hs].
    + (* call *)
      destruct H as [A1 A2 A3 A4 A5 A6 A7 A8 A9]. exists o. split; cbn; auto.
      * intros c j' X. apply in_snoc. eauto.
      * intros c j' X. apply in_snoc in X as [X|X]; [apply A3 in X; lia|]. injection X as -> _. lia.
      * intros c pc j' X. destruct (decide (c = l_next l)) as [->|Hne].
        -- rewrite lookup_insert in X. injection X as <- <-. split; [apply in_snoc; auto|]. cbn. split; [discriminate|].
           intros X. exfalso. apply elem_of_list_fmap in X as ([c j'] & Ec & X). cbn in Ec. apply A2, A3 in X. lia.
        -- rewrite lookup_insert_ne in X by congruence. destruct (A4 c pc j' X) as [B C]. split; [apply in_snoc; auto|exact C].
      * intros c ok X. apply in_snoc in X as [X|X]; [|discriminate X]. destruct (A5 c ok X) as [B C]. split; [exact B|].
        rewrite lookup_insert_ne; [exact C|]. intros En. apply elem_of_list_fmap in B as ([c' j'] & Ec & B). cbn in Ec. apply A2, A3 in B. lia.
      * intros c j' X. apply in_snoc in X as [X|X].
        -- destruct (A6 c j' X) as [B|[ok B]]; [|right; exists ok; apply in_snoc; auto]. left.
           destruct (decide (c = l_next l)) as [->|Hne]; [rewrite lookup_insert; eauto|rewrite lookup_insert_ne by congruence; exact B].
        -- injection X as -> ->. left. rewrite lookup_insert. eauto.
      * intros c ok d j' X Y. apply earlier_snoc in X as [X|[X _]]; [eauto|]. exfalso. injection X as -> _.
        apply elem_of_list_fmap in Y as ([c' j''] & Ec & Y). cbn in Ec. subst c'. apply A2, A3 in Y. lia.
      * destruct A8 as (done & rest & B1 & B2 & B3 & B4). exists done, rest. split_and!; auto. rewrite runs_snoc, B2. apply app_nil_r.
      * rewrite A9. split; intros [d D]; exists d; [apply in_snoc; auto|]. apply in_snoc in D as [D|D]; [exact D|discriminate D].
    + exists o. apply (HInv_quiet cb ls l o _ _ H); cbn; try discriminate; auto.
      * intros c' pc j' X. destruct (decide (c' = c)) as [->|Hne].
        -- rewrite lookup_insert in X. injection X as <- <-. exists PLock. auto.
        -- rewrite lookup_insert_ne in X by congruence. eauto.
      * intros c'. destruct (decide (c' = c)) as [->|Hne]; [rewrite lookup_insert, Hp; split; discriminate|].
        rewrite lookup_insert_ne by congruence. reflexivity.
      * destruct (h_run _ _ _ _ H) as (done & rest & B1 & B2 & B3 & B4). exists done, rest. split_and!; auto. rewrite runs_snoc, B2. apply app_nil_r.
      * rewrite (h_dead _ _ _ _ H). split; intros [d D]; exists d; [apply in_snoc; auto|]. apply in_snoc in D as [D|D]; [exact D|discriminate D].
    + (* push *)
      destruct H as [A1 A2 A3 A4 A5 A6 A7 A8 A9]. destruct (A4 c PHold j Hp) as [Hc Hn].
      assert (No : c ∉ o.*1) by (intros D; apply Hn in D; discriminate D).
      exists (o ++ [(c, j)]). split; cbn; rewrite ?fmap_app; cbn [fmap list_fmap fst].
      * apply NoDup_app. split_and!; auto; [|apply NoDup_singleton]. intros d D D'. apply elem_of_list_singleton in D'. congruence.
      * intros d j' X. apply in_snoc. apply elem_of_app in X as [X|X]; [auto|]. apply elem_of_list_singleton in X. injection X as -> ->. auto.
      * intros d j' X. apply in_snoc in X as [X|X]; [eauto|discriminate X].
      * intros d pc j' X. destruct (decide (d = c)) as [->|Hne].
        -- rewrite lookup_insert in X. injection X as <- <-. split; [apply in_snoc; auto|]. split; [|reflexivity]. intros _. apply elem_of_app. right. left.
        -- rewrite lookup_insert_ne in X by congruence. destruct (A4 d pc j' X) as [B C]. split; [apply in_snoc; auto|].
           rewrite C, elem_of_app, elem_of_list_singleton. tauto.
      * intros d ok X. apply in_snoc in X as [X|X]; [|discriminate X]. destruct (A5 d ok X) as [B C]. split; [apply elem_of_app; auto|].
        rewrite lookup_insert_ne; [exact C|]. intros <-. contradiction.
      * intros d j' X. apply in_snoc in X as [X|X]; [|discriminate X]. destruct (A6 d j' X) as [B|[ok B]]; [|right; exists ok; apply in_snoc; auto]. left.
        destruct (decide (d = c)) as [->|Hne]; [rewrite lookup_insert; eauto|rewrite lookup_insert_ne by congruence; exact B].
      * intros d ok e j' X Y. apply earlier_snoc in X as [X|[X _]]; [|discriminate X]. apply elem_of_app in Y as [Y|Y].
        -- apply earlier_app. eauto.
        -- exists o.*1, [c]. split_and!; auto. destruct X as (l1 & l2 & -> & Hd & _). apply (A5 d ok). apply elem_of_app. auto.
      * destruct A8 as (done & rest & B1 & B2 & B3 & B4). exists done, (rest ++ [(c, j)]). split_and!; auto.
        -- rewrite B1, app_assoc. reflexivity.
        -- rewrite runs_snoc, B2. apply app_nil_r.
        -- intros D. rewrite (B4 D), app_assoc. reflexivity.
      * rewrite A9. split; intros [d D]; exists d; [apply in_snoc; auto|]. apply in_snoc in D as [D|D]; [exact D|discriminate D].
    + exists o. apply (HInv_quiet cb ls l o _ _ H); cbn; try discriminate; auto.
      * intros c' pc j' X. destruct (decide (c' = c)) as [->|Hne].
        -- rewrite lookup_insert in X. injection X as <- <-. exists PRel. auto.
        -- rewrite lookup_insert_ne in X by congruence. eauto.
      * intros c'. destruct (decide (c' = c)) as [->|Hne]; [rewrite lookup_insert, Hp; split; discriminate|].
        rewrite lookup_insert_ne by congruence. reflexivity.
      * destruct (h_run _ _ _ _ H) as (done & rest & B1 & B2 & B3 & B4). exists done, rest. split_and!; auto. rewrite runs_snoc, B2. apply app_nil_r.
      * rewrite (h_dead _ _ _ _ H). split; intros [d D]; exists d; [apply in_snoc; auto|]. apply in_snoc in D as [D|D]; [exact D|discriminate D].
    + exists o. assert (G : HInv cb (ls ++ [LRet c true]) (set_posts (set_chan l (l_chan l ++ [SNext])) (delete c (l_posts l))) o); [|exact G].
      destruct H as [A1 A2 A3 A4 A5 A6 A7 A8 A9]. destruct (A4 c PSend j Hp) as [Hc Hn]. split; cbn; auto.
      * intros d j' X. apply in_snoc. eauto.
      * intros d j' X. apply in_snoc in X as [X|X]; [eauto|discriminate X].
      * intros d pc j' X. apply lookup_delete_Some in X as [_ X]. destruct (A4 d pc j' X) as [B C]. split; [apply in_snoc; auto|exact C].
      * intros d ok X. apply in_snoc in X as [X|X].
        -- destruct (A5 d ok X) as [B C]. split; [exact B|]. destruct (decide (d = c)) as [->|Hne]; [apply lookup_delete|rewrite lookup_delete_ne by congruence; exact C].
        -- injection X as -> ->. split; [apply Hn; reflexivity|apply lookup_delete].
      * intros d j' X. apply in_snoc in X as [X|X]; [|discriminate X]. destruct (A6 d j' X) as [B|[ok B]]; [|right; exists ok; apply in_snoc; auto].
        destruct (decide (d = c)) as [->|Hne]; [right; exists true; apply in_snoc; auto|left; rewrite lookup_delete_ne by congruence; exact B].
      * intros d ok e j' X Y. apply earlier_snoc in X as [X|[X _]]; [eauto|discriminate X].
      * destruct A8 as (done & rest & B1 & B2 & B3 & B4). exists done, rest. split_and!; auto. rewrite runs_snoc, B2. apply app_nil_r.
      * rewrite A9. split; intros [d D]; exists d; [apply in_snoc; auto|]. apply in_snoc in D as [D|D]; [exact D|discriminate D].
    + exists o. destruct H as [A1 A2 A3 A4 A5 A6 A7 A8 A9]. destruct (A4 c PSend j Hp) as [Hc Hn]. split; cbn; auto.
      * intros d j' X. apply in_snoc. eauto.
      * intros d j' X. apply in_snoc in X as [X|X]; [eauto|discriminate X].
      * intros d pc j' X. apply lookup_delete_Some in X as [_ X]. destruct (A4 d pc j' X) as [B C]. split; [apply in_snoc; auto|exact C].
      * intros d ok X. apply in_snoc in X as [X|X].
        -- destruct (A5 d ok X) as [B C]. split; [exact B|]. destruct (decide (d = c)) as [->|Hne]; [apply lookup_delete|rewrite lookup_delete_ne by congruence; exact C].
        -- injection X as -> ->. split; [apply Hn; reflexivity|apply lookup_delete].
      * intros d j' X. apply in_snoc in X as [X|X]; [|discriminate X]. destruct (A6 d j' X) as [B|[ok B]]; [|right; exists ok; apply in_snoc; auto].
        destruct (decide (d = c)) as [->|Hne]; [right; exists false; apply in_snoc; auto|left; rewrite lookup_delete_ne by congruence; exact B].
      * intros d ok e j' X Y. apply earlier_snoc in X as [X|[X _]]; [eauto|discriminate X].
      * destruct A8 as (done & rest & B1 & B2 & B3 & B4). exists done, rest. split_and!; auto. rewrite runs_snoc, B2. apply app_nil_r.
      * rewrite A9. split; intros [d D]; exists d; [apply in_snoc; auto|]. apply in_snoc in D as [D|D]; [exact D|discriminate D].
  - destruct X as [l K P Ha|l K P Ha|l K P|l K Hx|l K Hx]; apply Keep; cbn; eauto 6; reflexivity.
Qed.

Lemma HInv_exec cb ls l : lexec (loop0 cb) ls l -> exists o, HInv cb ls l o.
Proof.
  induction 1 as [|ls l1 a l2 X [o IH] S]; [exists []; apply HInv_0|].
  eapply HInv_step; [eapply SInv_exec; exact X|exact IH|exact S].
Qed.

(** *** Progress and termination *)

Definition weight (x : xpc) : nat :=
  match x with XLock => 5 | XHold => 4 | XRel => 3 | XRun => 2 | XRecv => 1 | XDone | XDead => 0 end.

(** How many steps the executor can still take on its own. *)
Definition work (l : loop) : nat := 5 * length (l_chan l) + length (l_buf l) + length (l_queue l) + weight (l_x l).

Lemma xstep_work l a l' : xstep l a l' -> (work l' < work l)%nat.
Proof.
  unfold work. destruct 1 as [l ch Hx Hc|l ch Hx Hc|l Hx Hc Hs|l Hx Hl|l Hx|l Hx|l c j b t Hx Hb He|l c j b t Hx Hb He|l Hx Hb]; cbn;
    rewrite ?Hx, ?Hc, ?Hb; cbn; lia.
Qed.

Lemma xstep_k l a l' : xstep l a l' -> l_k l' = l_k l /\ l_posts l' = l_posts l.
Proof. destruct 1; auto. Qed.

(** The executor can step unless it has ended, waits for a signal, or waits
    for a call of post to release the mutex. *)
Lemma x_progress l : SInv l -> alive (l_x l) = true -> (l_chan l <> [] \/ l_sender l = false \/ l_x l <> XRecv) ->
  (exists a l', xstep l a l') \/ exists c pc j, l_lock l = Some (OPost c) /\ l_posts l !! c = Some (pc, j) /\ holding pc = true.
Proof.
  intros S Ha Hc. destruct (l_x l) eqn:Hx; try discriminate Ha.
  - destruct (l_chan l) as [|[] ch] eqn:Ec.
    + left. destruct Hc as [?|[?|?]]; try congruence. eexists _, _. apply x_gone; assumption.
    + left. eexists _, _. eapply x_next; eassumption.
    + left. eexists _, _. eapply x_quit; eassumption.
  - destruct (l_lock l) as [[c|]|] eqn:El.
    + right. destruct (s_lockp _ S c El) as (pc & j & Hp & Hh). exists c, pc, j. auto.
    + apply (s_lockx _ S) in El. rewrite Hx in El. discriminate El.
    + left. eexists _, _. apply x_lock; assumption.
  - left. eexists _, _. apply x_swap; assumption.
  - left. eexists _, _. apply x_unlock; assumption.
  - left. destruct (l_buf l) as [|[c j] b] eqn:Eb; [eexists _, _; apply x_idle; assumption|].
    destruct (exec j (l_cb l)) as [t []] eqn:Ex; eexists _, _; [eapply x_run|eapply x_panic]; eassumption.
Qed.

(** A call of post that holds the mutex can step. *)
Lemma p_progress (l : loop) c pc j : l_posts l !! c = Some (pc, j) -> holding pc = true -> exists a l', pstep l a l' /\ a = LTau.
Proof.
  intros Hp Hh. destruct pc; try discriminate Hh; eexists _, _; (split; [|reflexivity]); [eapply p_push|eapply p_unlock]; exact Hp.
Qed.

Lemma lexec_app l ls1 l1 ls2 l2 : lexec l ls1 l1 -> lexec l1 ls2 l2 -> lexec l (ls1 ++ ls2) l2.
Proof.
  intros A B. induction B as [|ls2 l1' a l2 B IH S]; [rewrite app_nil_r; exact A|]. rewrite app_assoc. econstructor; eassumption.
Qed.

Lemma join_steps l a l' : SInv l -> l_k l <> KOpen -> lstep l a l' ->
  l_k l' <> KOpen /\ (work l' + (if decide (l_k l' = KJoin) then 1 else 0) < work l + (if decide (l_k l = KJoin) then 1 else 0))%nat.
Proof.
  intros S K [X|[X|X]].
  - destruct (xstep_k l a l' X) as [-> _]. apply xstep_work in X. split; [exact K|]. lia.
  - destruct (s_closed _ S K) as [P _]. exfalso. destruct X; rewrite ?P, ?lookup_empty in *; congruence.
  - destruct X as [l K' P Ha|l K' P Ha|l K' P|l K' Hx|l K' Hx]; try contradiction; (split; [discriminate|]);
      rewrite (decide_True _ _ K'), decide_False by discriminate; unfold work; cbn; lia.
Qed.

End Loop.

(** ** C17 *)

Section C17.
Context {J T : Type} (exec : J -> T -> T * bool) (cb : T).

Lemma order_ok ls l o : HInv exec cb ls l o -> submission_order ls o.*1.
Proof.
  intros H. split.
  - apply H.
  - intros c X. apply elem_of_list_fmap in X as ([c' j] & -> & X). exists j. apply (h_called _ _ _ _ _ H), X.
  - intros c X. apply (h_ret _ _ _ _ _ H c true X).
  - intros c ok d j X Y _. apply (h_rt _ _ _ _ _ H c ok d j X Y).
Qed.

(** At every moment of every execution: the jobs that have run are the first
    ones of an order of submission, in that order, each once; and the
    callback state is what running exactly these gives. *)
Theorem C17_runs_in_submission_order ls l :
  lexec exec (loop0 cb) ls l ->
  exists order, submission_order ls order /\ runs ls `prefix_of` order /\
    exists js, Forall2 (fun c j => LCall c j ∈ ls) (runs ls) js /\ l_cb l = exec_all exec js cb.
Proof.
  intros X. destruct (HInv_exec exec cb ls l X) as [o H]. exists o.*1. split; [eapply order_ok, H|].
  destruct (h_run _ _ _ _ _ H) as (done & rest & E1 & E2 & E3 & _). split.
  - exists rest.*1. rewrite E1, fmap_app, E2. reflexivity.
  - exists done.*2. split; [|exact E3]. rewrite E2. assert (Sub : forall c j, (c, j) ∈ done -> LCall c j ∈ ls).
    { intros c j D. apply (h_called _ _ _ _ _ H). rewrite E1. apply elem_of_app. auto. }
    clear -Sub. induction done as [|[c j] done IH]; cbn; constructor; [apply Sub; left|apply IH]. intros c' j' D. apply Sub. right. exact D.
Qed.

(** No job runs twice. *)
Theorem C17_at_most_once ls l : lexec exec (loop0 cb) ls l -> NoDup (runs ls).
Proof.
  intros X. destruct (C17_runs_in_submission_order ls l X) as (o & S & [rest E] & _).
  pose proof (so_nodup _ _ S) as N. rewrite E in N. apply NoDup_app in N. apply N.
Qed.

(** When the executor has nothing left to do (it waits for a signal, has
    ended, or cannot step at all), no call is in progress and no job has
    panicked, every acknowledged job has run, exactly once. *)
Theorem C17_all_acknowledged_jobs_run ls l :
  lexec exec (loop0 cb) ls l -> l_posts l = ∅ -> (forall a l', ~ xstep exec l a l') -> (forall c, LRun c false ∉ ls) ->
  exists order, submission_order ls order /\ runs ls = order.
Proof.
  intros X HP HX HN. pose proof (SInv_exec exec cb ls l X) as S. destruct (HInv_exec exec cb ls l X) as [o H].
  exists o.*1. split; [eapply order_ok, H|].
  assert (D : l_x l <> XDead). { intros D. apply (h_dead _ _ _ _ _ H) in D as [c D]. apply (HN c D). }
  destruct (h_run _ _ _ _ _ H) as (done & rest & E1 & E2 & _ & E4). specialize (E4 D). rewrite E2, E1, E4.
  assert (Z : l_buf l = [] /\ l_queue l = []); [|destruct Z as [-> ->]; rewrite app_nil_r; reflexivity].
  destruct (alive (l_x l)) eqn:Ha.
  - destruct (decide (l_x l = XRecv /\ l_chan l = [])) as [[Hx Hc]|No].
    + pose proof (s_buf _ S) as B. rewrite Hx in B. split; [exact B|]. destruct (l_queue l) eqn:Eq; [reflexivity|exfalso].
      destruct (s_wake _ S Ha) as [(c & pc & j & Hp & _)|[W|[W|W]]]; try congruence.
      * rewrite HP, lookup_empty in Hp. discriminate Hp.
      * rewrite Hc in W. inversion W.
    + exfalso. destruct (x_progress exec l S Ha) as [(a & l' & W)|(c & pc & j & _ & Hp & _)].
      * destruct (l_chan l); [|left; discriminate]. right. right. intros Hx. apply No. auto.
      * apply (HX a l' W).
      * rewrite HP, lookup_empty in Hp. discriminate Hp.
  - destruct (l_x l) eqn:Hx; try discriminate Ha; [|congruence]. pose proof (s_buf _ S) as B. rewrite Hx in B. split; [exact B|]. apply (s_done _ S Hx).
Qed.

End C17.

(** ** C18 *)

Section C18.
Context {J T : Type} (exec : J -> T -> T * bool) (cb : T).

(** Closing returns Ok only after every submitted job has run. *)
Lemma join_label ls l ok : lexec exec (loop0 cb) ls l -> LJoin ok ∈ ls -> l_k l = KClosed ok.
Proof.
  intros X. revert ok. induction X as [|ls l1 a l2 X IH S]; intros ok D; [inversion D|].
  pose proof (SInv_exec exec cb ls l1 X) as SI.
  apply elem_of_app in D as [D|D].
  - specialize (IH ok D). destruct S as [S|[S|S]].
    + destruct (xstep_k exec _ _ _ S) as [-> _]. exact IH.
    + destruct (s_closed _ SI ltac:(congruence)) as [P _]. destruct S; rewrite ?P, ?lookup_empty in *; congruence.
    + destruct S; congruence.
  - apply elem_of_list_singleton in D. subst a. destruct S as [S|[S|S]]; inversion S; reflexivity.
Qed.

Theorem C18_close_waits_for_everything ls l :
  lexec exec (loop0 cb) ls l -> LJoin true ∈ ls ->
  exists order, submission_order ls order /\ runs ls = order.
Proof.
  intros X D. pose proof (join_label ls l true X D) as K. pose proof (SInv_exec exec cb ls l X) as S.
  pose proof (s_join _ S true K) as Hx. cbn in Hx. destruct (HInv_exec exec cb ls l X) as [o H].
  exists o.*1. split; [eapply order_ok, H|].
  destruct (h_run _ _ _ _ _ H) as (done & rest & E1 & E2 & _ & E4). rewrite Hx in E4. specialize (E4 ltac:(discriminate)). rewrite E2, E1, E4.
  pose proof (s_buf _ S) as B. rewrite Hx in B. destruct (s_done _ S Hx) as [_ Q]. rewrite B, Q. rewrite app_nil_r. reflexivity.
Qed.

(** Closing reports a failure only if a job panicked. *)
Theorem C18_close_fails_only_after_a_panic ls l :
  lexec exec (loop0 cb) ls l -> LJoin false ∈ ls \/ LQuitFailed ∈ ls -> exists c, LRun c false ∈ ls.
Proof.
  intros X [D|D].
  - pose proof (join_label ls l false X D) as K. pose proof (SInv_exec exec cb ls l X) as S.
    pose proof (s_join _ S false K) as Hx. cbn in Hx. destruct (HInv_exec exec cb ls l X) as [o H]. apply (h_dead _ _ _ _ _ H), Hx.
  - induction X as [|ls l1 a l2 X IH S]; [inversion D|].
    apply elem_of_app in D as [D|D]; [destruct (IH D) as [c Dc]; exists c; apply elem_of_app; auto|].
    apply elem_of_list_singleton in D. subst a. destruct S as [S|[S|S]]; [inversion S|inversion S|inversion S as [|? K P Ha| | |]; subst].
    pose proof (SInv_exec exec cb ls l1 X) as SI. destruct (HInv_exec exec cb ls l1 X) as [o H].
    destruct (l_x l1) eqn:Hx; try discriminate Ha; [destruct (s_done _ SI Hx); contradiction|].
    apply (h_dead _ _ _ _ _ H) in Hx as [c Hc]. exists c. apply elem_of_app. auto.
Qed.

(** Every submission that is not raced by a panic is acknowledged: post fails
    only if a job panicked. *)
Theorem C18_post_fails_only_after_a_panic ls l c :
  lexec exec (loop0 cb) ls l -> LRet c false ∈ ls -> exists d, LRun d false ∈ ls.
Proof.
  intros X D. induction X as [|ls l1 a l2 X IH S]; [inversion D|].
  apply elem_of_app in D as [D|D]; [destruct (IH D) as [d Dd]; exists d; apply elem_of_app; auto|].
  apply elem_of_list_singleton in D. subst a. destruct S as [S|[S|S]]; [inversion S|inversion S as [| | | | |? ? ? Hp Hs]; subst|inversion S].
  pose proof (SInv_exec exec cb ls l1 X) as SI. destruct (HInv_exec exec cb ls l1 X) as [o H].
  assert (K : l_k l1 = KOpen).
  { destruct (decide (l_k l1 = KOpen)) as [K|K]; [exact K|]. destruct (s_closed _ SI K) as [P _]. rewrite P, lookup_empty in Hp. discriminate Hp. }
  destruct (s_open _ SI K) as [Hsn _]. destruct Hs as [Hs|Ha]; [congruence|].
  destruct (l_x l1) eqn:Hx; try discriminate Ha; [destruct (s_done _ SI Hx); contradiction|].
  apply (h_dead _ _ _ _ _ H) in Hx as [d Hd]. exists d. apply elem_of_app. auto.
Qed.

(** Once closing has begun, every schedule ends after a bounded number of
    steps, and it cannot end before the close has returned. *)
Theorem C18_close_terminates ls l :
  lexec exec (loop0 cb) ls l -> l_k l = KJoin ->
  exists n, forall ls' l', lexec exec l ls' l' ->
    (length ls' <= n)%nat /\ ((forall a l'', ~ lstep exec l' a l'') -> exists ok, l_k l' = KClosed ok).
Proof.
  intros X K. pose (m := fun l : loop J T => (work l + (if decide (l_k l = KJoin) then 1 else 0))%nat). exists (m l). intros ls' l' Y.
  assert (G : (length ls' + m l' <= m l)%nat /\ l_k l' <> KOpen /\ SInv l' /\ l_k l' <> KFailed).
  { induction Y as [|ls' l1 a l2 Y IH S].
    - split_and!; [cbn; lia|congruence|eapply SInv_exec; exact X|congruence].
    - destruct IH as (A & B & C & D). destruct (join_steps exec l1 a l2 C B S) as [B' L]. split_and!; auto.
      + rewrite app_length. cbn [length]. unfold m in *. lia.
      + eapply SInv_step; eassumption.
      + destruct S as [S|[S|S]].
        * destruct (xstep_k exec _ _ _ S) as [-> _]. exact D.
        * destruct (s_closed _ C B) as [P _]. destruct S; rewrite ?P, ?lookup_empty in *; congruence.
        * destruct S; cbn; congruence. }
  destruct G as (A & B & C & D). split; [lia|]. intros No. destruct (l_k l') as [| |ok|] eqn:K'; try congruence; [|eauto]. exfalso.
  destruct (s_closed _ C) as [P Q]; [congruence|].
  destruct (alive (l_x l')) eqn:Ha.
  - destruct (x_progress exec l' C Ha) as [(a & l'' & W)|(c & pc & j & _ & Hp & _)]; [auto| |].
    + apply (No a l''). left. exact W.
    + rewrite P, lookup_empty in Hp. discriminate Hp.
  - destruct (l_x l') eqn:Hx; try discriminate Ha.
    + apply (No (LJoin true) (set_k l' (l_sender l') (KClosed true))). right. right. apply k_join_ok; assumption.
    + apply (No (LJoin false) (set_k l' (l_sender l') (KClosed false))). right. right. apply k_join_err; assumption.
Qed.

(** Without closing: as long as there is unfinished work somebody can make
    progress, namely the executor or a call of post that is under way ... *)
Theorem C18_never_stuck_with_work ls l :
  lexec exec (loop0 cb) ls l -> l_buf l ++ l_queue l <> [] -> (forall c, LRun c false ∉ ls) ->
  exists a l', (xstep exec l a l' \/ pstep l a l') /\ forall c j, a <> LCall c j.
Proof.
  intros X W HN. pose proof (SInv_exec exec cb ls l X) as S. destruct (HInv_exec exec cb ls l X) as [o H].
  assert (D : l_x l <> XDead). { intros D. apply (h_dead _ _ _ _ _ H) in D as [c D]. apply (HN c D). }
  assert (XN : forall a l', xstep exec l a l' -> forall c j, a <> LCall c j) by (destruct 1; discriminate).
  assert (Ha : alive (l_x l) = true).
  { destruct (l_x l) eqn:Hx; auto; try congruence. pose proof (s_buf _ S) as B. rewrite Hx in B. destruct (s_done _ S Hx) as [_ Q]. rewrite B, Q in W. contradiction. }
  assert (Go : l_chan l <> [] \/ l_sender l = false \/ l_x l <> XRecv -> exists a l', (xstep exec l a l' \/ pstep l a l') /\ forall c j, a <> LCall c j).
  { intros G. destruct (x_progress exec l S Ha G) as [(a & l' & Y)|(c & pc & j & _ & Hp & Hh)].
    - exists a, l'. eauto.
    - destruct (p_progress l c pc j Hp Hh) as (a & l' & Y & ->). exists LTau, l'. split; [auto|discriminate]. }
  destruct (decide (l_x l = XRecv)) as [Hx|Hx]; [|auto]. destruct (l_chan l) as [|s ch] eqn:Ec; [|apply Go; left; discriminate].
  pose proof (s_buf _ S) as B. rewrite Hx in B. rewrite B in W. cbn in W.
  destruct (s_wake _ S Ha W) as [(c & pc & j & Hp & Hh)|[Y|[Y|Y]]]; try congruence; [|rewrite Ec in Y; inversion Y].
  destruct pc; try discriminate Hh.
  - eexists _, _. split; [right; eapply p_unlock; exact Hp|discriminate].
  - assert (K : l_k l = KOpen).
    { destruct (decide (l_k l = KOpen)) as [K|K]; [exact K|]. destruct (s_closed _ S K) as [P _]. rewrite P, lookup_empty in Hp. discriminate Hp. }
    destruct (s_open _ S K) as [Hsn _]. eexists _, _. split; [right; eapply p_send; eassumption|discriminate].
Qed.

(** ... and the executor, left alone, comes to an end after a bounded number
    of steps (with C17_all_acknowledged_jobs_run: having run everything). *)
Inductive xexec (l : loop J T) : nat -> loop J T -> Prop :=
| xe_nil : xexec l 0 l
| xe_snoc n l1 a l2 : xexec l n l1 -> xstep exec l1 a l2 -> xexec l (S n) l2.

Theorem C18_executor_catches_up l : exists n, forall m l', xexec l m l' -> (m <= n)%nat.
Proof.
  exists (work l). intros m l' Y. enough (m + work l' <= work l)%nat by lia.
  induction Y as [|m l1 a l2 Y IH S]; [lia|]. apply xstep_work in S. lia.
Qed.

End C18.

(** ** Concrete schedules *)

Inductive choice (J : Type) := ChX | ChCall (j : J) | ChPost (c : N) | ChQuit | ChDrop | ChJoin.
Arguments ChX {J}. Arguments ChCall {J} j. Arguments ChPost {J} c. Arguments ChQuit {J}. Arguments ChDrop {J}. Arguments ChJoin {J}.

Section Sched.
Context {J T : Type} (exec : J -> T -> T * bool).

Definition xdo (l : loop J T) : option (label J * loop J T) :=
  match l_x l with
  | XRecv => match l_chan l with
             | SNext :: ch => Some (LTau, set_x (set_chan l ch) XLock)
             | SQuit :: ch => Some (LTau, set_x (set_chan l ch) XDone)
             | [] => if l_sender l then None else Some (LTau, set_x l XDone)
             end
  | XLock => match l_lock l with None => Some (LTau, set_x (set_lock l (Some OExec)) XHold) | Some _ => None end
  | XHold => Some (LTau, set_x (set_buf (set_queue l (l_buf l)) (l_queue l)) XRel)
  | XRel => Some (LTau, set_x (set_lock l None) XRun)
  | XRun => match l_buf l with
            | (c, j) :: b => let '(t, ok) := exec j (l_cb l) in
                if ok then Some (LRun c true, set_cb (set_buf l b) t) else Some (LRun c false, set_x (set_cb (set_buf l b) t) XDead)
            | [] => Some (LTau, set_x l XRecv)
            end
  | _ => None
  end.

Definition pdo (c : N) (l : loop J T) : option (label J * loop J T) :=
  match l_posts l !! c with
  | Some (PLock, j) => match l_lock l with None => Some (LTau, set_posts (set_lock l (Some (OPost c))) (<[c := (PHold, j)]> (l_posts l))) | Some _ => None end
  | Some (PHold, j) => Some (LTau, set_posts (set_queue l (l_queue l ++ [(c, j)])) (<[c := (PRel, j)]> (l_posts l)))
  | Some (PRel, j) => Some (LTau, set_posts (set_lock l None) (<[c := (PSend, j)]> (l_posts l)))
  | Some (PSend, j) =>
      if l_sender l && alive (l_x l) then Some (LRet c true, set_posts (set_chan l (l_chan l ++ [SNext])) (delete c (l_posts l)))
      else Some (LRet c false, set_posts l (delete c (l_posts l)))
  | None => None
  end.

Definition do_choice (h : choice J) (l : loop J T) : option (label J * loop J T) :=
  match h with
  | ChX => xdo l
  | ChCall j => match l_k l with
                | KOpen => Some (LCall (l_next l) j, set_next (set_posts l (<[l_next l := (PLock, j)]> (l_posts l))) (l_next l + 1))
                | _ => None end
  | ChPost c => pdo c l
  | ChQuit => match l_k l with
              | KOpen => if bool_decide (l_posts l = ∅) then
                  if alive (l_x l) then Some (LClose, set_chan (set_k l false KJoin) (l_chan l ++ [SQuit])) else Some (LQuitFailed, set_k l false KFailed)
                  else None
              | _ => None end
  | ChDrop => match l_k l with
              | KOpen => if bool_decide (l_posts l = ∅) then Some (LClose, set_k l false KJoin) else None
              | _ => None end
  | ChJoin => match l_k l, l_x l with
              | KJoin, XDone => Some (LJoin true, set_k l (l_sender l) (KClosed true))
              | KJoin, XDead => Some (LJoin false, set_k l (l_sender l) (KClosed false))
              | _, _ => None end
  end.

Fixpoint sched (hs : list (choice J)) (l : loop J T) : option (list (label J) * loop J T) :=
  match hs with
  | [] => Some ([], l)
  | h :: r => match do_choice h l with
              | Some (a, l1) => match sched r l1 with Some (ls, l2) => Some (a :: ls, l2) | None => None end
              | None => None
              end
  end.

Lemma xdo_ok l a l' : xdo l = Some (a, l') -> xstep exec l a l'.
Proof.
  unfold xdo. destruct (l_x l) eqn:Hx; try discriminate.
  - destruct (l_chan l) as [|[] ch] eqn:Hc; [destruct (l_sender l) eqn:Hs; [discriminate|]| |]; intros [= <- <-].
    + apply x_gone; assumption.
    + eapply x_next; eassumption.
    + eapply x_quit; eassumption.
  - destruct (l_lock l) eqn:Hl; [discriminate|]. intros [= <- <-]. apply x_lock; assumption.
  - intros [= <- <-]. apply x_swap; assumption.
  - intros [= <- <-]. apply x_unlock; assumption.
  - destruct (l_buf l) as [|[c j] b] eqn:Hb; [intros [= <- <-]; apply x_idle; assumption|].
    destruct (exec j (l_cb l)) as [t []] eqn:He; intros [= <- <-]; [eapply x_run|eapply x_panic]; eassumption.
Qed.

Lemma do_choice_ok h l a l' : do_choice h l = Some (a, l') -> lstep exec l a l'.
Proof.
  destruct h; cbn.
  - intros X. left. apply xdo_ok, X.
  - destruct (l_k l) eqn:K; try discriminate. intros [= <- <-]. right. left. apply p_call, K.
  - intros X. right. left. revert X. unfold pdo. destruct (l_posts l !! c) as [[[] j]|] eqn:Hp; try discriminate.
    + destruct (l_lock l) eqn:Hl; [discriminate|]. intros [= <- <-]. apply p_lock; assumption.
    + intros [= <- <-]. apply p_push; assumption.
    + intros [= <- <-]. eapply p_unlock; eassumption.
    + destruct (l_sender l) eqn:Hs, (alive (l_x l)) eqn:Ha; intros [= <- <-]; [eapply p_send|eapply p_fail..]; eauto.
  - destruct (l_k l) eqn:K; try discriminate. case_bool_decide as P; [|discriminate].
    destruct (alive (l_x l)) eqn:Ha; intros [= <- <-]; right; right; [apply k_quit|apply k_quit_failed]; assumption.
  - destruct (l_k l) eqn:K; try discriminate. case_bool_decide as P; [|discriminate]. intros [= <- <-]. right. right. apply k_drop; assumption.
  - destruct (l_k l) eqn:K; try discriminate. destruct (l_x l) eqn:Hx; try discriminate; intros [= <- <-]; right; right; [apply k_join_ok|apply k_join_err]; assumption.
Qed.

Lemma lexec_cons l a l1 ls l2 : lstep exec l a l1 -> lexec exec l1 ls l2 -> lexec exec l (a :: ls) l2.
Proof. intros A B. apply (lexec_app exec l [a] l1 ls l2); [|exact B]. apply (le_snoc exec l [] l a l1); [constructor|exact A]. Qed.

Lemma sched_ok hs : forall l ls l', sched hs l = Some (ls, l') -> lexec exec l ls l'.
Proof.
  induction hs as [|h hs IH]; intros l ls l'; cbn; [intros [= <- <-]; constructor|].
  destruct (do_choice h l) as [[a l1]|] eqn:Ed; [|discriminate]. destruct (sched hs l1) as [[ls1 l2]|] eqn:Es; [|discriminate].
  intros [= <- <-]. eapply lexec_cons; [eapply do_choice_ok, Ed|apply IH, Es].
Qed.
End Sched.

(** Jobs append a number to the state; the number 13 panics. *)
Definition ex_exec (j : N) (t : list N) : list N * bool := (t ++ [j], negb (j =? 13)).

(** Two calls overlap; the second pushes first; the job pushed second is run
    on the first signal, so the second signal finds nothing; then quit. *)
Definition ex_sched : list (choice N) :=
  [ChCall 7; ChCall 8; ChPost 1; ChPost 1; ChPost 1; ChPost 0; ChPost 0; ChPost 0; ChPost 1; ChX; ChX; ChX; ChX; ChX; ChPost 0; ChX; ChX;
   ChQuit; ChX; ChX; ChX; ChX; ChX; ChX; ChJoin].

Example C17_example :
  exists ls l, lexec ex_exec (loop0 []) ls l /\ LRet 0 true ∈ ls /\ LRet 1 true ∈ ls /\ LJoin true ∈ ls /\ runs ls = [1; 0] /\ l_cb l = [8; 7].
Proof.
  assert (T : match sched ex_exec ex_sched (loop0 []) with
              | Some (ls, l) => ls = [LCall 0 7; LCall 1 8; LTau; LTau; LTau; LTau; LTau; LTau; LRet 1 true; LTau; LTau; LTau; LTau; LRun 1 true; LRet 0 true;
                                      LRun 0 true; LTau; LClose; LTau; LTau; LTau; LTau; LTau; LTau; LJoin true] /\ l_cb l = [8; 7]
              | None => False
              end) by (vm_compute; split; reflexivity).
  destruct (sched ex_exec ex_sched (loop0 [])) as [[ls l]|] eqn:Es; [|contradiction]. destruct T as [-> T].
  eexists _, l. split; [eapply sched_ok, Es|]. split_and!; [..|reflexivity|exact T]; apply elem_of_list_In; cbn; tauto.
Qed.

(** Acknowledged jobs after a panicking one are lost: the hypothesis on
    panics in the theorems above is needed. *)
Theorem C17_lost_after_a_panic :
  exists ls l, lexec ex_exec (loop0 []) ls l /\ LRet 0 true ∈ ls /\ LRet 1 true ∈ ls /\ LJoin false ∈ ls /\ runs ls = [0].
Proof.
  pose (hs := [ChCall 13; ChPost 0; ChPost 0; ChPost 0; ChPost 0; ChCall 8; ChPost 1; ChPost 1; ChPost 1; ChPost 1; ChX; ChX; ChX; ChX; ChX; ChDrop; ChJoin] : list (choice N)).
  assert (T : match sched ex_exec hs (loop0 []) with
              | Some (ls, l) => ls = [LCall 0 13; LTau; LTau; LTau; LRet 0 true; LCall 1 8; LTau; LTau; LTau; LRet 1 true; LTau; LTau; LTau; LTau; LRun 0 false; LClose; LJoin false]
              | None => False
              end) by (vm_compute; reflexivity).
  destruct (sched ex_exec hs (loop0 [])) as [[ls l]|] eqn:Es; [|contradiction]. subst ls.
  eexists _, l. split; [eapply sched_ok, Es|]. split_and!; [..|reflexivity]; apply elem_of_list_In; cbn; tauto.
Qed.

Example C18_example :
  exists ls l, lexec ex_exec (loop0 []) ls l /\ l_k l = KJoin /\ LRet 0 true ∈ ls /\ LRet 1 true ∈ ls /\ runs ls = [].
Proof.
  pose (hs := [ChCall 7; ChPost 0; ChPost 0; ChPost 0; ChPost 0; ChCall 8; ChPost 1; ChPost 1; ChPost 1; ChPost 1; ChX; ChX; ChDrop] : list (choice N)).
  assert (T : match sched ex_exec hs (loop0 []) with
              | Some (ls, l) => ls = [LCall 0 7; LTau; LTau; LTau; LRet 0 true; LCall 1 8; LTau; LTau; LTau; LRet 1 true; LTau; LTau; LClose] /\ l_k l = KJoin
              | None => False
              end) by (vm_compute; split; reflexivity).
  destruct (sched ex_exec hs (loop0 [])) as [[ls l]|] eqn:Es; [|contradiction]. destruct T as [-> T].
  eexists _, l. split; [eapply sched_ok, Es|]. split_and!; [exact T|..|reflexivity]; apply elem_of_list_In; cbn; tauto.
Qed.
