(** C72: the page size, whichever threads ask first. *)
From Verif Require Import Bytes Page.
From Coq Require Import ZifyBool ZifyNat ZifyN.
Local Open Scope N_scope.

Section Page.
Context (sys : N).

(** Everything stored after the initial 0 is the page size, and every view
    points into the order. *)
Record PI (s : pages) : Prop := {
  pi_order : exists l, g_order s = 0 :: l /\ Forall (fun v => v = sys) l;
  pi_seen : forall t k, g_seen s !! t = Some k -> (k < length (g_order s))%nat;
  pi_calls : forall t v, g_calls s !! t = Some (GStore v) \/ g_calls s !! t = Some (GRet v) -> v = sys
}.

Lemma PI_0 : PI pages0.
Proof.
  split; cbn.
  - exists []. split; [reflexivity|constructor].
  - intros t k H. rewrite lookup_empty in H. discriminate H.
  - intros t v [H|H]; rewrite lookup_empty in H; discriminate H.
Qed.

Lemma stored s k v : PI s -> g_order s !! k = Some v -> v = 0 \/ v = sys.
Proof.
  intros [(l & -> & F) _ _] H. destruct k as [|k]; [injection H; auto|]. right. cbn in H. rewrite Forall_forall in F. apply F. eapply elem_of_list_lookup_2, H.
Qed.

Lemma PI_step s a s' : PI s -> gstep sys s a s' -> PI s'.
Proof.
  intros I X. pose proof I as [(l & Hl & F) Hs Hc]. destruct X as [s t Ht|s t k v Ht Hk Hv|s t Ht|s t v j Ht Hj Hle|s t v Ht]; split; cbn; eauto.
  - intros u v Hu. destruct (decide (u = t)) as [->|Hne]; [rewrite lookup_insert in Hu; destruct Hu as [Hu|Hu]; discriminate Hu|]. rewrite lookup_insert_ne in Hu by congruence. eauto.
  - intros u k' Hu. destruct (decide (u = t)) as [->|Hne]; [rewrite lookup_insert in Hu; injection Hu as <-; eapply lookup_lt_Some, Hv|]. rewrite lookup_insert_ne in Hu by congruence. eauto.
  - intros u v' Hu. destruct (decide (u = t)) as [->|Hne]; [|rewrite lookup_insert_ne in Hu by congruence; eauto].
    rewrite lookup_insert in Hu. destruct (v =? 0) eqn:Z; [destruct Hu as [Hu|Hu]; discriminate Hu|]. destruct Hu as [Hu|Hu]; [discriminate Hu|]. injection Hu as <-.
    destruct (stored s k v I Hv); [lia|assumption].
  - intros u v Hu. destruct (decide (u = t)) as [->|Hne]; [rewrite lookup_insert in Hu; destruct Hu as [Hu|Hu]; [injection Hu as <-; reflexivity|discriminate Hu]|]. rewrite lookup_insert_ne in Hu by congruence. eauto.
  - assert (v = sys) as -> by eauto. destruct j as [|j]; [lia|]. rewrite Hl. cbn. eexists. split; [reflexivity|].
    apply Forall_app. split; [apply Forall_take, F|]. constructor; [reflexivity|apply Forall_drop, F].
  - intros u k Hu. assert (length (take j (g_order s) ++ v :: drop j (g_order s)) = S (length (g_order s))) as ->.
    { rewrite app_length. cbn. rewrite take_length, drop_length. lia. }
    destruct (decide (u = t)) as [->|Hne]; [rewrite lookup_insert in Hu; injection Hu as <-; lia|]. rewrite lookup_insert_ne, lookup_fmap in Hu by congruence.
    destruct (g_seen s !! u) as [k0|] eqn:K; [|discriminate Hu]. cbn in Hu. injection Hu as <-. apply Hs in K. destruct (j <=? k0)%nat; lia.
  - intros u v' Hu. destruct (decide (u = t)) as [->|Hne]; [|rewrite lookup_insert_ne in Hu by congruence; eauto].
    rewrite lookup_insert in Hu. destruct Hu as [Hu|Hu]; [discriminate Hu|]. injection Hu as <-. eauto.
  - intros u v' Hu. destruct (decide (u = t)) as [->|Hne]; [rewrite lookup_delete in Hu; destruct Hu as [Hu|Hu]; discriminate Hu|]. rewrite lookup_delete_ne in Hu by congruence. eauto.
Qed.

Lemma PI_exec ls s : gexec sys ls s -> PI s.
Proof. induction 1; [apply PI_0|eapply PI_step; eassumption]. Qed.

(** In every schedule every call returns the system's page size, never the 0
    of the beginning and never anything else. *)
Theorem C72_every_call_returns_the_page_size ls s t v : gexec sys ls s -> GDone t v ∈ ls -> v = sys.
Proof.
  induction 1 as [|ls s a s' X IH S]; intros H; [inversion H|]. apply elem_of_app in H as [H|H]; [auto|].
  apply elem_of_list_singleton in H. subst a. inversion S; subst. eapply (pi_calls _ (PI_exec _ _ X)). right. eassumption.
Qed.

(** And no call ever waits: alone, its thread needs at most four steps. *)
Theorem C72_no_call_waits ls s t p : gexec sys ls s -> g_calls s !! t = Some p ->
  exists n s' , (n <= 4)%nat /\ galone sys t s n s' /\ g_calls s' !! t = None.
Proof.
  intros X. apply PI_exec in X. clear ls.
  assert (K : forall s a s1 n, gstep sys s a s1 -> (forall u, u <> t -> g_calls s1 !! u = g_calls s !! u) ->
            (exists m s', (m <= n)%nat /\ galone sys t s1 m s' /\ g_calls s' !! t = None) -> exists m s', (m <= S n)%nat /\ galone sys t s m s' /\ g_calls s' !! t = None).
  { clear. intros s a s1 n S O (m & s' & Hm & Y & Hs). exists (Datatypes.S m), s'. split; [lia|]. split; [|exact Hs]. clear Hm Hs.
    induction Y as [|m s2 b s3 Y IH S2 O2]; [eapply ga_snoc; [apply ga_nil|exact S|exact O]|]. eapply ga_snoc; eassumption. }
  assert (S4 : forall s v, g_calls s !! t = Some (GRet v) -> exists m s', (m <= 1)%nat /\ galone sys t s m s' /\ g_calls s' !! t = None).
  { intros s1 v Hc. eapply K; [apply (g_ret _ _ _ _ Hc)| |exists 0%nat; eexists; split; [lia|]; split; [apply ga_nil|cbn; apply lookup_delete]].
    intros u Hu. cbn. apply lookup_delete_ne. congruence. }
  assert (S3 : forall s v, PI s -> g_calls s !! t = Some (GStore v) -> exists m s', (m <= 2)%nat /\ galone sys t s m s' /\ g_calls s' !! t = None).
  { intros s1 v I Hc. eapply K; [apply (g_store _ _ _ _ (length (g_order s1)) Hc); [|lia]| |eapply S4; cbn; apply lookup_insert].
    - unfold seen_by. destruct (g_seen s1 !! t) as [k|] eqn:Hk; cbn; [eapply (pi_seen _ I), Hk|]. destruct (pi_order _ I) as (l & -> & _). cbn. lia.
    - intros u Hu. cbn. apply lookup_insert_ne. congruence. }
  assert (S2 : forall s, PI s -> g_calls s !! t = Some GSys -> exists m s', (m <= 3)%nat /\ galone sys t s m s' /\ g_calls s' !! t = None).
  { intros s1 I Hc. pose proof (g_sys sys _ _ Hc) as X1. eapply K; [exact X1| |eapply S3; [eapply PI_step; eassumption|cbn; apply lookup_insert]].
    intros u Hu. cbn. apply lookup_insert_ne. congruence. }
  intros Hc. destruct p as [| |v|v].
  - assert (Hk : exists v, g_order s !! seen_by s t = Some v).
    { apply lookup_lt_is_Some_2. unfold seen_by. destruct (g_seen s !! t) as [k|] eqn:Hk; cbn; [eapply (pi_seen _ X), Hk|]. destruct (pi_order _ X) as (l & -> & _). cbn. lia. }
    destruct Hk as [v Hv]. pose proof (g_load sys _ _ _ _ Hc (Nat.le_refl _) Hv) as X1. pose proof (PI_step _ _ _ X X1) as I1.
    eapply K; [exact X1| |].
    + intros u Hu. cbn. apply lookup_insert_ne. congruence.
    + destruct (v =? 0); [eapply S2; [exact I1|cbn; apply lookup_insert]|].
      destruct (S4 (Pages (g_order s) (<[t:=seen_by s t]> (g_seen s)) (<[t:=GRet v]> (g_calls s))) v) as (m & s' & Hm & Y); [cbn; apply lookup_insert|]. exists m, s'. split; [lia|exact Y].
  - destruct (S2 s X Hc) as (m & s' & Hm & Y). exists m, s'. split; [lia|exact Y].
  - destruct (S3 s v X Hc) as (m & s' & Hm & Y). exists m, s'. split; [lia|exact Y].
  - destruct (S4 s v Hc) as (m & s' & Hm & Y). exists m, s'. split; [lia|exact Y].
Qed.

(** A thread asks the system at most once. *)
Definition asks (t : N) (ls : list plabel) : nat :=
  length (List.filter (fun a => match a with GAsk u => u =? t | _ => false end) ls).

Lemma asks_snoc t ls a : asks t (ls ++ [a]) = (asks t ls + match a with GAsk u => if (u =? t)%N then 1 else 0 | _ => 0 end)%nat.
Proof. unfold asks. rewrite List.filter_app, app_length. f_equal. destruct a; cbn; try reflexivity. destruct (_ =? _); reflexivity. Qed.

Definition once (t : N) (ls : list plabel) (s : pages) : Prop :=
  asks t ls = 0%nat \/
  asks t ls = 1%nat /\ ((exists v, g_calls s !! t = Some (GStore v)) \/ ((0 < seen_by s t)%nat /\ g_calls s !! t <> Some GSys)).

Lemma once_exec t ls s : sys <> 0 -> gexec sys ls s -> once t ls s.
Proof.
  intros Hz. induction 1 as [|ls s a s' X IH S]; [left; reflexivity|]. pose proof (PI_exec _ _ X) as I. unfold once in *. rewrite asks_snoc.
  destruct S as [s u Hu|s u k v Hu Hk Hv|s u Hu|s u v j Hu Hj Hle|s u v Hu]; rewrite ?Nat.add_0_r; cbn [g_calls g_seen].
  - destruct IH as [IH|[IH [[v Hc]|[Hs Hc]]]]; [auto| |].
    + right. split; [exact IH|]. left. exists v. destruct (decide (u = t)) as [->|Hne]; [congruence|]. rewrite lookup_insert_ne by exact Hne. exact Hc.
    + right. split; [exact IH|]. right. split; [exact Hs|]. destruct (decide (u = t)) as [->|Hne]; [rewrite lookup_insert; discriminate|]. rewrite lookup_insert_ne by exact Hne. exact Hc.
  - destruct IH as [IH|[IH Hr]]; [auto|]. right. split; [exact IH|]. unfold seen_by in *. cbn [g_seen]. destruct (decide (u = t)) as [->|Hne].
    + rewrite !lookup_insert. right. destruct Hr as [[v' Hc]|[Hs _]]; [congruence|]. split; [cbn; lia|].
      assert (v = sys) as ->. { destruct k as [|k]; [lia|]. destruct (pi_order _ I) as (l & Hl & F). rewrite Hl in Hv. cbn in Hv. rewrite Forall_forall in F. apply F. eapply elem_of_list_lookup_2, Hv. }
      replace (sys =? 0) with false by lia. discriminate.
    + rewrite !lookup_insert_ne by exact Hne. exact Hr.
  - destruct (N.eqb_spec u t) as [->|Hne].
    + destruct IH as [IH|[IH [[v Hc]|[_ Hc]]]]; [|congruence..]. right. split; [lia|]. left. exists sys. apply lookup_insert.
    + rewrite Nat.add_0_r. unfold seen_by. cbn. rewrite lookup_insert_ne by exact Hne. exact IH.
  - destruct IH as [IH|[IH Hr]]; [auto|]. right. split; [exact IH|]. unfold seen_by in *. cbn [g_seen]. destruct (decide (u = t)) as [->|Hne].
    + rewrite !lookup_insert. right. cbn. split; [lia|discriminate].
    + rewrite !lookup_insert_ne by exact Hne. destruct Hr as [Hr|[Hs Hc]]; [left; exact Hr|right]. split; [|exact Hc]. rewrite lookup_fmap.
      destruct (g_seen s !! t) as [k|]; cbn in *; [|exact Hs]. destruct (j <=? k)%nat; lia.
  - destruct IH as [IH|[IH Hr]]; [auto|]. right. split; [exact IH|]. unfold seen_by in *. cbn [g_seen]. destruct (decide (u = t)) as [->|Hne].
    + destruct Hr as [[v' Hc]|[Hs _]]; [congruence|]. right. split; [exact Hs|]. rewrite lookup_delete. discriminate.
    + rewrite lookup_delete_ne by exact Hne. exact Hr.
Qed.

Theorem C72_the_system_is_asked_once_per_thread ls s t : sys <> 0 -> gexec sys ls s -> (asks t ls <= 1)%nat.
Proof. intros Hz X. destruct (once_exec t ls s Hz X) as [H|[H _]]; lia. Qed.
End Page.

(** * Example *)

(** The state after a history, as far as threads 1 and 2 see it. *)
Definition at_ (ls : list plabel) (o : list N) (s1 s2 : option nat) (c1 c2 : option gpc) : Prop :=
  exists s, gexec 4096 ls s /\ g_order s = o /\ (g_seen s !! 1 = s1 /\ g_seen s !! 2 = s2) /\ g_calls s !! 1 = c1 /\ g_calls s !! 2 = c2.

(** Two threads call at the same time and both find 0; the second store is
    placed before the first; then the first thread asks again and reads its
    own store. *)
Example C72_example :
  at_ [GCall 1; GCall 2; GTau; GTau; GAsk 1; GAsk 2; GTau; GTau; GDone 1 4096; GDone 2 4096; GCall 1; GTau; GDone 1 4096]
    [0; 4096; 4096] (Some 2%nat) (Some 1%nat) None None.
Proof.
  Ltac fin := cbn [g_order g_seen g_calls]; repeat split;
    repeat first [rewrite lookup_insert | rewrite lookup_insert_ne by lia | rewrite lookup_delete | rewrite lookup_delete_ne by lia | rewrite lookup_fmap];
    repeat match goal with H : _ = _ |- _ => rewrite H end; reflexivity.
  Ltac go c := match goal with H : at_ ?l _ _ _ _ _ |- _ => destruct H as (s & X & Ho & (Hs1 & Hs2) & Hc1 & Hc2);
    eexists; split; [eapply ge_snoc; [exact X|c]|fin] end.
  assert (A0 : at_ [] [0] None None None None) by (exists pages0; split; [apply ge_nil|fin]).
  assert (A1 : at_ ([] ++ [GCall 1]) [0] None None (Some GLoad) None) by (go ltac:(apply (g_call _ _ 1); exact Hc1)). clear A0.
  assert (A2 : at_ (([] ++ [GCall 1]) ++ [GCall 2]) [0] None None (Some GLoad) (Some GLoad)) by (go ltac:(apply (g_call _ _ 2); exact Hc2)). clear A1. cbn [app] in A2.
  assert (A3 : at_ ([GCall 1; GCall 2] ++ [GTau]) [0] (Some 0%nat) None (Some GSys) (Some GLoad))
    by (go ltac:(apply (g_load _ _ 1 0 0); [exact Hc1|unfold seen_by; rewrite Hs1; cbn; lia|rewrite Ho; reflexivity])). clear A2. cbn [app] in A3.
  assert (A4 : at_ ([GCall 1; GCall 2; GTau] ++ [GTau]) [0] (Some 0%nat) (Some 0%nat) (Some GSys) (Some GSys))
    by (go ltac:(apply (g_load _ _ 2 0 0); [exact Hc2|unfold seen_by; rewrite Hs2; cbn; lia|rewrite Ho; reflexivity])). clear A3. cbn [app] in A4.
  assert (A5 : at_ ([GCall 1; GCall 2; GTau; GTau] ++ [GAsk 1]) [0] (Some 0%nat) (Some 0%nat) (Some (GStore 4096)) (Some GSys))
    by (go ltac:(apply (g_sys _ _ 1); exact Hc1)). clear A4. cbn [app] in A5.
  assert (A6 : at_ ([GCall 1; GCall 2; GTau; GTau; GAsk 1] ++ [GAsk 2]) [0] (Some 0%nat) (Some 0%nat) (Some (GStore 4096)) (Some (GStore 4096)))
    by (go ltac:(apply (g_sys _ _ 2); exact Hc2)). clear A5. cbn [app] in A6.
  assert (A7 : at_ ([GCall 1; GCall 2; GTau; GTau; GAsk 1; GAsk 2] ++ [GTau]) [0; 4096] (Some 1%nat) (Some 0%nat) (Some (GRet 4096)) (Some (GStore 4096)))
    by (go ltac:(apply (g_store _ _ 1 4096 1); [exact Hc1|unfold seen_by; rewrite Hs1; cbn; lia|rewrite Ho; cbn; lia])). clear A6. cbn [app] in A7.
  assert (A8 : at_ ([GCall 1; GCall 2; GTau; GTau; GAsk 1; GAsk 2; GTau] ++ [GTau]) [0; 4096; 4096] (Some 2%nat) (Some 1%nat) (Some (GRet 4096)) (Some (GRet 4096)))
    by (go ltac:(apply (g_store _ _ 2 4096 1); [exact Hc2|unfold seen_by; rewrite Hs2; cbn; lia|rewrite Ho; cbn; lia])). clear A7. cbn [app] in A8.
  assert (A9 : at_ ([GCall 1; GCall 2; GTau; GTau; GAsk 1; GAsk 2; GTau; GTau] ++ [GDone 1 4096]) [0; 4096; 4096] (Some 2%nat) (Some 1%nat) None (Some (GRet 4096)))
    by (go ltac:(apply (g_ret _ _ 1); exact Hc1)). clear A8. cbn [app] in A9.
  assert (A10 : at_ ([GCall 1; GCall 2; GTau; GTau; GAsk 1; GAsk 2; GTau; GTau; GDone 1 4096] ++ [GDone 2 4096]) [0; 4096; 4096] (Some 2%nat) (Some 1%nat) None None)
    by (go ltac:(apply (g_ret _ _ 2); exact Hc2)). clear A9. cbn [app] in A10.
  assert (A11 : at_ ([GCall 1; GCall 2; GTau; GTau; GAsk 1; GAsk 2; GTau; GTau; GDone 1 4096; GDone 2 4096] ++ [GCall 1]) [0; 4096; 4096] (Some 2%nat) (Some 1%nat) (Some GLoad) None)
    by (go ltac:(apply (g_call _ _ 1); exact Hc1)). clear A10. cbn [app] in A11.
  assert (A12 : at_ ([GCall 1; GCall 2; GTau; GTau; GAsk 1; GAsk 2; GTau; GTau; GDone 1 4096; GDone 2 4096; GCall 1] ++ [GTau]) [0; 4096; 4096] (Some 2%nat) (Some 1%nat) (Some (GRet 4096)) None)
    by (go ltac:(apply (g_load _ _ 1 2 4096); [exact Hc1|unfold seen_by; rewrite Hs1; cbn; lia|rewrite Ho; reflexivity])). clear A11. cbn [app] in A12.
  change (at_ ([GCall 1; GCall 2; GTau; GTau; GAsk 1; GAsk 2; GTau; GTau; GDone 1 4096; GDone 2 4096; GCall 1; GTau] ++ [GDone 1 4096]) [0; 4096; 4096] (Some 2%nat) (Some 1%nat) None None).
  go ltac:(apply (g_ret _ _ 1); exact Hc1).
Qed.
