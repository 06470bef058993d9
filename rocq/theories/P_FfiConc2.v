(** C67: the C interface called from several threads, the theorems. *)
From Verif Require Import Bytes Utf8 Proto ProtoFacts Value Codec Store StoreFacts Encrypt World Spec Hyps Refine WorldInv WorldStep Main Frames Reach Examples P_Map P_Store P_Fail P_Alias Looper P_Loop Conc P_Conc P_Live Reg P_Reg P_Reg2 P_Reg3 Full P_Full P_Full2 P_Full3 P_Full4 Logging Ffi P_Ffi FfiConc P_FfiConc.
From Coq Require Import ZArith ZifyBool ZifyNat ZifyN.
Local Open Scope N_scope.

Section Threads.
Context (pick : heap -> ptr) (text : err -> bytes) (PO : allocator_ok pick) (E : env).

Notation ops s := (r_ops (u_reg (x_full s))).

(** The handles and the calls under way. *)
Record TU (s : xstate) (o : held) (fl : gmap N ccall) : Prop := {
  u_hh : HH (x_full s);
  u_obj : forall p, o !! p = Some HHandle -> exists h, x_obj s !! p = Some h /\ usable (u_reg (x_full s)) h;
  u_inj : forall p q h, x_obj s !! p = Some h -> x_obj s !! q = Some h -> p = q;
  u_old : forall p h, x_obj s !! p = Some h -> fl !! h = None /\ h < r_next (u_reg (x_full s));
  u_live : forall p h, x_obj s !! p = Some h -> o !! p = Some HHandle \/ exists id, fl !! id = Some (CClose p);
  u_all : forall id p op, ops s !! id = Some (p, op) -> is_Some (fl !! id);
  u_call : forall id c p h op, fl !! id = Some c -> ops s !! id = Some (p, OCall h op) -> exists q, through c = Some q /\ closing c = false /\ x_obj s !! q = Some h;
  u_excl : forall id p id' c', fl !! id = Some (CClose p) -> fl !! id' = Some c' -> through c' = Some p -> id' = id;
  u_new : forall id d, fl !! id = Some (CNew d) -> exists p, ops s !! id = Some (p, OOpen (cstr d) [])
}.

Lemma TU_0 : TU xstate0 ∅ ∅.
Proof. split; cbn; try apply HH_0; intros *; rewrite ?lookup_empty; discriminate. Qed.

Lemma xop_call obj c h op : xop obj c = Some (OCall h op) -> exists q, through c = Some q /\ closing c = false /\ obj !! q = Some h.
Proof.
  destruct c; cbn; try discriminate; destruct (obj !! p) eqn:Q; cbn; try discriminate; intros [= <- _]; eauto.
Qed.

Lemma xop_close obj c h : xop obj c = Some (OClose h) -> exists q, c = CClose q /\ obj !! q = Some h.
Proof.
  destruct c; cbn; try discriminate; destruct (obj !! p) eqn:Q; cbn; try discriminate; intros [= <-]; eauto.
Qed.

Lemma TU_step s o fl a s' : TI text s o fl -> TU s o fl -> permitted o fl a -> xstep pick text E s a (Done s') ->
  TU s' (held_after o fl a) (flight_after fl a).
Proof.
  intros T U Pm S. pose proof T as [Tc (o' & M & P) Ti Tf]. pose proof U as [U1 U2 U3 U4 U5 U6 U7 U8 U9].
  inversion S as [s1 id c op f Hl Hr Ht Ho F|s1 id c Ht|s1 id c p Ht Hn|s1 id c d c' Hd Cf|s1 f F|s1 id c r f h obj x Hc F Fn|s1 id c x r f Hc F Fn|s1 id c x r f Hc F Fn|s1 p|s1 z]; subst; clear S.
  - (* a call *)
    destruct (FI_step E _ _ _ Tf F) as [Tf' O]. destruct (HH_step E _ _ _ Tf U1 F) as (HH' & K1 & _).
    destruct (os_inv _ _ _ O _ _ eq_refl) as (-> & Hn & p1 & Hop). destruct Pm as [Pa Pb]. 
    set (id := r_next (u_reg (x_full s))) in *.
    assert (Fr : x_calls s !! id = None).
    { destruct (x_calls s !! id) as [c0|] eqn:Q; [|reflexivity]. destruct (Ti _ _ Q) as [L _]. unfold id in L. lia. }
    assert (Usub : forall p, held_after o (x_calls s) (XInv id c) !! p = Some HHandle -> o !! p = Some HHandle).
    { intros p Hp. destruct c; cbn in Hp; auto. apply lookup_delete_Some in Hp as [_ Hp]. exact Hp. }
    split; cbn [x_full x_obj x_calls flight_after]; auto.
    + intros p Hp. destruct (U2 p (Usub _ Hp)) as (h & Q1 & Q2). exists h. split; [exact Q1|]. apply K1; [exact Q2|].
      intros c' [= <- ->]. destruct (xop_close _ _ _ Ho) as (q & -> & Q). rewrite (U3 _ _ _ Q Q1) in Hp. cbn in Hp. rewrite lookup_delete in Hp. discriminate.
    + intros p h Hp. destruct (U4 _ _ Hp) as [Q1 Q2]. split; [|unfold id in *; lia]. rewrite lookup_insert_ne; [exact Q1|]. unfold id. lia.
    + intros p h Hp. destruct (U5 _ _ Hp) as [Q|[i Q]].
      * assert (Dc : c = CClose p \/ c <> CClose p) by (destruct c as [| | | | |q| | |]; try (right; congruence); destruct (decide (q = p)) as [->|]; [left; reflexivity|right; congruence]).
        destruct Dc as [->|Hne]; [right; exists id; apply lookup_insert|]. left. destruct c; cbn; auto. rewrite lookup_delete_ne; [exact Q|congruence].
      * right. exists i. rewrite lookup_insert_ne; [exact Q|]. congruence.
    + intros i p op' Hi. destruct (os_back _ _ _ O _ _ _ Hi) as [[p' Q]|[= -> _]]; [|rewrite lookup_insert; eauto].
      destruct (decide (i = id)) as [->|]; [rewrite lookup_insert; eauto|]. rewrite lookup_insert_ne by congruence. eapply U6, Q.
    + intros i c' p h op' Hi Hq. apply lookup_insert_Some in Hi as [[<- <-]|[Hne Hi]].
      * rewrite Hop in Hq. injection Hq as -> ->. eapply xop_call, Ho.
      * destruct (os_back _ _ _ O _ _ _ Hq) as [[p' Q]|[= -> _]]; [|congruence]. eapply U7; eassumption.
    + intros i p i' c' Hi Hi' Hth. apply lookup_insert_Some in Hi as [[<- ->]|[Hne Hi]]; apply lookup_insert_Some in Hi' as [[<- <-]|[Hne' Hi']]; auto.
      * exfalso. exact (Pb p eq_refl _ _ Hi' Hth).
      * exfalso. destruct (pn_close _ _ _ P _ _ Hi) as [_ Q]. assert (Z : o !! p = Some HHandle); [|congruence].
        destruct c; cbn in Hth, Pa; try discriminate; injection Hth as <-; try exact Pa; apply Pa.
      * eapply U8; eassumption.
    + intros i d Hi. apply lookup_insert_Some in Hi as [[<- ->]|[Hne Hi]].
      * cbn in Ho. injection Ho as <-. eauto.
      * destruct (U9 _ _ Hi) as [p Q]. destruct (os_keep _ _ _ O _ _ _ Q) as [|[r W]]; [assumption|discriminate W].
  - (* a step inside *)
    destruct (FI_step E _ _ _ Tf F) as [Tf' O]. destruct (HH_step E _ _ _ Tf U1 F) as (HH' & K1 & _). pose proof (os_next _ _ _ O).
    split; cbn [x_full x_obj x_calls flight_after held_after]; auto.
    + intros p Hp. destruct (U2 p Hp) as (h & Q1 & Q2). exists h. split; [exact Q1|]. apply K1; [exact Q2|discriminate].
    + intros p h Hp. destruct (U4 _ _ Hp) as [Q1 Q2]. split; [exact Q1|lia].
    + intros i p op' Hi. destruct (os_back _ _ _ O _ _ _ Hi) as [[p' Q]|Q]; [|discriminate Q]. eapply U6, Q.
    + intros i c' p h op' Hi Hq. destruct (os_back _ _ _ O _ _ _ Hq) as [[p' Q]|Q]; [|discriminate Q]. eapply U7; eassumption.
    + intros i d Hi. destruct (U9 _ _ Hi) as [p Q]. destruct (os_keep _ _ _ O _ _ _ Q) as [|[r W]]; [assumption|discriminate W].
  - (* a return *)
    destruct (FI_step E _ _ _ Tf F) as [Tf' O]. destruct (HH_step E _ _ _ Tf U1 F) as (HH' & K1 & K2). pose proof (os_next _ _ _ O).
    destruct (Ti _ _ Hc) as (L & p0 & op0 & Q1 & Sh). destruct (os_ret _ _ _ O _ _ eq_refl) as (p1 & op1 & Q2 & An & Q3).
    rewrite Q1 in Q2. injection Q2 as <- <-.
    destruct (xfinish_cases pick text PO id c r (x_heap s) (x_obj s) o' op0 M Sh An) as [Q|(h' & obj' & x' & Q & M' & Np & Ob & Er & Kc)].
    { intros p ->. apply (pn_close _ _ _ P _ _ Hc). }
    { congruence. }
    rewrite Fn in Q. injection Q as <- <- <-.
    assert (Dl : forall i c', delete id (x_calls s) !! i = Some c' -> i <> id /\ x_calls s !! i = Some c') by (intros i c' Q; apply lookup_delete_Some in Q as [A B]; auto).
    assert (No : forall p h, x_obj s !! p = Some h -> o' !! p = Some HHandle).
    { intros p h0 Q. destruct (U5 _ _ Q) as [Z|[i Z]]; [apply (pn_sub _ _ _ P), Z|apply (pn_close _ _ _ P _ _ Z)]. }
    cbn [x_full x_obj x_calls flight_after held_after]. rewrite Hc.
    assert (Common : HH f /\ (forall i p op', r_ops (u_reg f) !! i = Some (p, op') -> is_Some (delete id (x_calls s) !! i)) /\
      (forall i p i' c', delete id (x_calls s) !! i = Some (CClose p) -> delete id (x_calls s) !! i' = Some c' -> through c' = Some p -> i' = i) /\
      (forall i d, delete id (x_calls s) !! i = Some (CNew d) -> exists p, r_ops (u_reg f) !! i = Some (p, OOpen (cstr d) []))).
    { split_and!; auto.
      - intros i p op' Hi. destruct (os_back _ _ _ O _ _ _ Hi) as [[p' Q]|Q]; [|discriminate Q]. rewrite lookup_delete_ne; [eapply U6, Q|]. intros <-. congruence.
      - intros i p i' c' Hi Hi' Hth. apply Dl in Hi as [_ Hi], Hi' as [_ Hi']. eapply U8; eassumption.
      - intros i d Hi. apply Dl in Hi as [Hne Hi]. destruct (U9 _ _ Hi) as [p Q]. destruct (os_keep _ _ _ O _ _ _ Q) as [|[r' W]]; [assumption|congruence]. }
    destruct Common as (C1 & C2 & C3 & C4).
    destruct x as [|p|p r'].
    + destruct (decide (closing c = true)) as [Hcl|Hcl].
      * destruct c; try discriminate Hcl. cbn in Ob. subst obj. destruct (pn_close _ _ _ P _ _ Hc) as [R1 R2].
        split; cbn [x_full x_obj]; auto.
        -- intros q Hq. destruct (U2 q Hq) as (h0 & Z1 & Z2). exists h0. rewrite lookup_delete_ne by congruence. split; [exact Z1|]. apply K1; [exact Z2|discriminate].
        -- intros q q' h0 Hq Hq'. apply lookup_delete_Some in Hq as [_ Hq], Hq' as [_ Hq']. eapply U3; eassumption.
        -- intros q h0 Hq. apply lookup_delete_Some in Hq as [_ Hq]. destruct (U4 _ _ Hq) as [Z1 Z2]. split; [apply lookup_delete_None; auto|lia].
        -- intros q h0 Hq. apply lookup_delete_Some in Hq as [Hne Hq]. destruct (U5 _ _ Hq) as [Z|[i Z]]; [auto|right]. exists i. rewrite lookup_delete_ne; [exact Z|]. intros <-. congruence.
        -- intros i c' q h0 op' Hi Hq. apply Dl in Hi as [Hne Hi]. destruct (os_back _ _ _ O _ _ _ Hq) as [[p' Q]|Q]; [|discriminate Q].
           destruct (U7 _ _ _ _ _ Hi Q) as (q' & Z1 & Z2 & Z3). exists q'. split_and!; auto. rewrite lookup_delete_ne; [exact Z3|]. intros <-. apply Hne. eapply U8; eassumption.
      * assert (obj = x_obj s) as -> by (destruct c; try exact Ob; destruct Hcl; reflexivity).
        split; cbn [x_full x_obj]; auto.
        -- intros q Hq. destruct (U2 q Hq) as (h0 & Z1 & Z2). exists h0. split; [exact Z1|]. apply K1; [exact Z2|discriminate].
        -- intros q h0 Hq. destruct (U4 _ _ Hq) as [Z1 Z2]. split; [apply lookup_delete_None; auto|lia].
        -- intros q h0 Hq. destruct (U5 _ _ Hq) as [Z|[i Z]]; [auto|right]. exists i. rewrite lookup_delete_ne; [exact Z|]. intros <-. rewrite Hc in Z. injection Z as ->. destruct Hcl. reflexivity.
        -- intros i c' q h0 op' Hi Hq. apply Dl in Hi as [Hne Hi]. destruct (os_back _ _ _ O _ _ _ Hq) as [[p' Q]|Q]; [|discriminate Q]. eapply U7; eassumption.
    + subst obj. assert (Nx : x_obj s !! p = None) by (destruct (x_obj s !! p) as [h0|] eqn:Q; [apply No in Q; congruence|reflexivity]).
      assert (Nid : forall q, x_obj s !! q <> Some id) by (intros q Q; destruct (U4 _ _ Q); congruence).
      split; cbn [x_full x_obj]; auto.
      * intros q Hq. apply lookup_insert_Some in Hq as [[<- _]|[Hne Hq]].
        -- exists id. rewrite lookup_insert. split; [reflexivity|].
           destruct c; cbn in Fn; try discriminate Fn;
             try (destruct (finish pick text _ r (x_heap s)) as [[? ?]| |]; discriminate Fn); try (destruct r; discriminate Fn).
           ++ destruct r as [v|e|]; try discriminate Fn. destruct (U9 _ _ Hc) as [p2 Z]. eapply K2; [reflexivity|exact Z].
           ++ discriminate Kc.
        -- destruct (U2 q Hq) as (h0 & Z1 & Z2). exists h0. rewrite lookup_insert_ne by congruence. split; [exact Z1|]. apply K1; [exact Z2|discriminate].
      * intros q q' h0 Hq Hq'. apply lookup_insert_Some in Hq as [[<- <-]|[Hne Hq]]; apply lookup_insert_Some in Hq' as [[<- ?]|[Hne' Hq']]; subst; auto.
        -- destruct (Nid _ Hq').
        -- destruct (Nid _ Hq).
        -- eapply U3; eassumption.
      * intros q h0 Hq. apply lookup_insert_Some in Hq as [[<- <-]|[Hne Hq]]; [split; [apply lookup_delete|lia]|].
        destruct (U4 _ _ Hq) as [Z1 Z2]. split; [apply lookup_delete_None; auto|lia].
      * intros q h0 Hq. apply lookup_insert_Some in Hq as [[<- <-]|[Hne Hq]]; [left; apply lookup_insert|].
        rewrite lookup_insert_ne by congruence. destruct (U5 _ _ Hq) as [Z|[i Z]]; [auto|right]. exists i. rewrite lookup_delete_ne; [exact Z|]. intros <-. rewrite Hc in Z. injection Z as ->. discriminate Kc.
      * intros i c' q h0 op' Hi Hq. apply Dl in Hi as [Hne Hi]. destruct (os_back _ _ _ O _ _ _ Hq) as [[p' Q]|Q]; [|discriminate Q].
        destruct (U7 _ _ _ _ _ Hi Q) as (q' & Z1 & Z2 & Z3). exists q'. split_and!; auto. rewrite lookup_insert_ne; [exact Z3|]. congruence.
    + assert (obj = x_obj s) as -> by (destruct c; try exact Ob; discriminate Kc).
      split; cbn [x_full x_obj]; auto.
      * intros q Hq. apply lookup_insert_Some in Hq as [[_ Hq]|[Hne Hq]]; [discriminate Hq|]. destruct (U2 q Hq) as (h0 & Z1 & Z2). exists h0. split; [exact Z1|]. apply K1; [exact Z2|discriminate].
      * intros q h0 Hq. destruct (U4 _ _ Hq) as [Z1 Z2]. split; [apply lookup_delete_None; auto|lia].
      * intros q h0 Hq. destruct (U5 _ _ Hq) as [Z|[i Z]].
        -- left. rewrite lookup_insert_ne; [exact Z|]. intros <-. apply (pn_sub _ _ _ P) in Z. congruence.
        -- right. exists i. rewrite lookup_delete_ne; [exact Z|]. intros <-. rewrite Hc in Z. injection Z as ->. discriminate Kc.
      * intros i c' q h0 op' Hi Hq. apply Dl in Hi as [Hne Hi]. destruct (os_back _ _ _ O _ _ _ Hq) as [[p' Q]|Q]; [|discriminate Q]. eapply U7; eassumption.
  - (* free *)
    destruct (free_buffer p (x_heap s)) as [h| |] eqn:Fb; cbn in H1; try discriminate H1. injection H1 as <-. destruct Pm as (t & r & Hp).
    cbn [held_after flight_after]. split; cbn [x_full x_obj]; auto.
    + intros q Hq. apply lookup_delete_Some in Hq as [_ Hq]. auto.
    + intros q h0 Hq. destruct (U5 _ _ Hq) as [Z|Z]; [left|auto]. rewrite lookup_delete_ne by congruence. exact Z.
  - destruct (of_code z); [|discriminate]. injection H1 as <-. exact U.
Qed.

End Threads.
