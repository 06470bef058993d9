(** Several processes: the invariant of the whole machine (C65). *)
From Verif Require Import Bytes Utf8 Proto ProtoFacts Crc8 Value Codec Store StoreFacts Encrypt World Spec Hyps Refine WorldInv WorldStep Main Frames Reach Examples P_Map P_Store Slots Damaged Crash P_Kill P_Kill2 P_Corrupt P_Enc P_Enc2 P_Damaged P_Wrong P_Fail Procs P_Procs.
From Coq Require Import ZifyBool ZifyNat ZifyN.
Local Open Scope N_scope.

Section Machine.
Context (E : env) {Rp : rep E} {RL : rep_law E Rp} (HE : env_ok E) (keyof : bytes -> bytes) (U : bytes -> Prop) (guest : N -> bool).
Context (HU_dir : forall p, U p -> e_dir_ok E p = true).
Context (HU_key : forall p, U p -> feature_key (e_feat E) (keyof (e_canon E p)) <> None).
Context (HU_inj : forall p p', U p -> U p' -> e_canon E p = e_canon E p' -> p = p').

Notation canon := (e_canon E).
Notation WInv := (WInv E keyof U).
Notation VInv := (VInv E keyof U).

Lemma may_step w s n p e w' r : VInv w s n -> call_ok E keyof e -> in_U U e -> room E (n + wcount e) -> may guest w s p e -> step E w e = Some (w', r) ->
  exists s', vstep canon guest s p e r s' /\ VInv w' s' (n + wcount e) /\ v_handles s' = handles_after E p e (v_handles s).
Proof.
  intros V Hc HU Hroom Hm Hs. assert (Hroom' : room E n) by (eapply room_mono; [|exact Hroom]; lia).
  destruct e as [h path key|h key v|h key|h key t|h key t|h key|h|h|h|h|i|]; cbn [call_ok may in_U] in *; try contradiction;
    unfold wcount in *; cbn [is_write] in *; rewrite ?N.add_0_r in *.
  - destruct Hc as (_ & -> & _), Hm as [Hg Hh]. destruct (VInv_new E HE keyof U HU_dir HU_key HU_inj w s n p h path _ w' r V Hh HU eq_refl Hs) as [-> V'].
    eexists. split; [apply v_open; assumption|]. split; [exact V'|reflexivity].
  - destruct Hm as [d Hh]. destruct (VInv_put E HE keyof U HU_dir HU_key HU_inj w s n p h d key v w' r V Hh Hc Hs) as [-> V'].
    eexists. split; [eapply v_put; eassumption|]. split; [exact V'|reflexivity].
  - destruct Hm as [d Hh]. destruct (VInv_get E keyof U w s n p h d key t w' r V Hh Hc Hs) as [-> ->].
    eexists. split; [eapply v_get; eassumption|]. split; [exact V|reflexivity].
  - destruct Hm as [d Hh]. destruct (VInv_delete E keyof U HU_dir HU_key HU_inj w s n p h d key w' r V Hh Hs) as [-> [[A V']|[A V']]].
    + eexists. split; [eapply v_delete; eassumption|]. split; [exact V'|reflexivity].
    + eexists. split; [eapply v_delete_absent; eassumption|]. split; [exact V'|reflexivity].
  - destruct Hm as [d Hh]. destruct (VInv_clear E HE keyof U HU_dir HU_key HU_inj w s n p h d w' r V Hh Hroom' Hs) as [-> V'].
    eexists. split; [eapply v_clear; eassumption|]. split; [exact V'|reflexivity].
  - destruct Hm as (d & Hh & Ho). destruct (VInv_drop E HE keyof U HU_dir HU_key HU_inj w s n p h d w' r V Hh Ho Hroom' Hs) as [-> [[A V']|[A V']]].
    + eexists. split; [eapply v_drop; [eassumption|reflexivity|exact A]|]. split; [exact V'|reflexivity].
    + eexists. split; [eapply v_drop_one; [eassumption|reflexivity|exact A]|]. split; [exact V'|reflexivity].
  - injection Hs as <- <-. destruct (w_insts w !! i) as [x|] eqn:Hx.
    + destruct (VInv_io E HE keyof U HU_dir HU_key HU_inj w s n i x V Hroom' Hx) as [(l & S & A & B & V')| ->].
      * eexists. split; [eapply v_write; [apply Hm; reflexivity|exact A|exact B]|]. split; [exact V'|reflexivity].
      * eexists. split; [apply v_idle|]. split; [exact V|reflexivity].
    + assert (run_job E w i = w) as -> by (unfold run_job; rewrite Hx; reflexivity). eexists. split; [apply v_idle|]. split; [exact V|reflexivity].
Qed.

(** What a guest has in memory. *)
Definition guest_inst (x : inst) (S : smap) : Prop := i_valid x = true /\ i_poison x = false /\ i_io x = IoRun /\ i_queue x = [] /\ rel E (i_map x) S.

Record guests_ok (s : vspec) (p : N) (g : mem) : Prop := {
  go_handles : forall h hd, p_handles g !! h = Some hd -> h_unreg hd = false /\ U (h_path hd) /\ p_reg g !! h_path hd = Some (h_inst hd) /\
    exists S x, v_handles s !! h = Some (VH p (canon (h_path hd)) (Some S)) /\ p_insts g !! h_inst hd = Some x /\ guest_inst x S /\ i_dir x = canon (h_path hd);
  go_reg : forall a i, p_reg g !! a = Some i -> exists h hd, p_handles g !! h = Some hd /\ h_path hd = a /\ h_inst hd = i;
  go_insts : forall i x, p_insts g !! i = Some x -> i_queue x = [];
  go_back : forall h d S, v_handles s !! h = Some (VH p d (Some S)) -> is_Some (p_handles g !! h)
}.

Lemma guests_same s s' p g : (forall h d S, v_handles s' !! h = Some (VH p d (Some S)) <-> v_handles s !! h = Some (VH p d (Some S))) ->
  guests_ok s p g -> guests_ok s' p g.
Proof.
  intros G [A B C D]. split; auto.
  - intros h hd Hh. destruct (A h hd Hh) as (X & Y & Z & S & x & Q1 & Q2). split_and!; auto. exists S, x. split; [apply G, Q1|exact Q2].
  - intros h d S Hh. apply (D h d S), G, Hh.
Qed.

Record MInv (m : machine) (w : world) (own : N -> N) (gs : N -> mem) (s : vspec) (hs : gmap N (N * bytes)) (n : N) : Prop := {
  mi_view : forall p, join (m_disk m) (proc m p) = ext (gs p) (core own p w);
  mi_compat : forall p, compat (gs p) (core own p w);
  mi_V : VInv w s n;
  mi_own : forall h hd q d, w_handles w !! h = Some hd -> v_handles s !! h = Some (VH q d None) -> own (h_inst hd) = q;
  mi_guest : forall p, guests_ok s p (gs p);
  mi_hs : forall h q d, hs !! h = Some (q, d) <-> exists o, v_handles s !! h = Some (VH q d o);
  mi_kind : forall h q d o, v_handles s !! h = Some (VH q d o) -> guest h = match o with None => false | Some _ => true end
}.

Lemma proc_set m k p x q : proc (Machine k (<[p := x]> (m_procs m))) q = if decide (p = q) then x else proc m q.
Proof. unfold proc. cbn. destruct (decide (p = q)) as [<-|Hne]; [rewrite lookup_insert|rewrite lookup_insert_ne by exact Hne]; reflexivity. Qed.

Lemma join_of w : join (disk_of w) (mem_of w) = w.
Proof. destruct w; reflexivity. Qed.

Lemma view_frame k x g own own' q w w' : join k x = ext g (core own q w) -> mem_of (core own' q w') = mem_of (core own q w) ->
  join (disk_of w') x = ext g (core own' q w').
Proof.
  intros Hj Hm. destruct x as [a1 a2 a3 a4]. unfold join, ext in *. cbn [p_insts p_handles p_reg p_poison] in *.
  injection Hj as _ _ _ -> _ -> -> -> _ _. unfold mem_of in Hm. injection Hm as H1 H2 H3 H4. rewrite <- H1, <- H2, <- H3, <- H4. reflexivity.
Qed.

Lemma compat_frame g own own' q w w' : compat g (core own q w) -> mem_of (core own' q w') = mem_of (core own q w) -> w_next_inst w <= w_next_inst w' ->
  compat g (core own' q w').
Proof.
  intros [A B C D G] Hm Hn.
  assert (H1 : w_insts (core own' q w') = w_insts (core own q w)) by exact (f_equal p_insts Hm).
  assert (H2 : w_handles (core own' q w') = w_handles (core own q w)) by exact (f_equal p_handles Hm).
  assert (H3 : w_reg (core own' q w') = w_reg (core own q w)) by exact (f_equal p_reg Hm).
  change (w_next_inst (core own q w)) with (w_next_inst w) in *.
  split; change (w_next_inst (core own' q w')) with (w_next_inst w').
  - intros i x Hx. rewrite H1. destruct (A i x Hx). split; [assumption|lia].
  - intros h hd Hh. rewrite H1, H2. destruct (B h hd Hh) as (X & Y & Z). split_and!; auto; lia.
  - intros a i Ha. rewrite H1, H3. destruct (C a i Ha) as (X & Y & Z). split_and!; auto; lia.
  - intros h hd. rewrite H2. apply D.
  - intros a i. rewrite H3. apply G.
Qed.

Lemma own_handle m w own gs s hs n h hd : MInv m w own gs s hs n -> w_handles w !! h = Some hd ->
  v_handles s !! h = Some (VH (own (h_inst hd)) (canon (h_path hd)) None).
Proof.
  intros M Hh. destruct (mi_V _ _ _ _ _ _ _ M) as [W _]. destruct (handle_cases E keyof U w _ _ n h hd W Hh) as (F & _).
  apply spec_of_handle in F as (q & F). rewrite (mi_own _ _ _ _ _ _ _ M h hd q _ Hh F). exact F.
Qed.

Lemma one_writer m w own gs s hs n q q' d h h' : MInv m w own gs s hs n ->
  v_handles s !! h = Some (VH q d None) -> v_handles s !! h' = Some (VH q' d None) -> q' = q.
Proof.
  intros M Hh Hh'. pose proof (mi_V _ _ _ _ _ _ _ M) as V.
  destruct (VInv_handle E keyof U w s n h q d V Hh) as (hd & A & B). destruct (VInv_handle E keyof U w s n h' q' d V Hh') as (hd' & A' & B').
  rewrite <- (mi_own _ _ _ _ _ _ _ M h hd q d A Hh), <- (mi_own _ _ _ _ _ _ _ M h' hd' q' d A' Hh'). f_equal. apply (same_inst E keyof U HU_inj w s n h h' hd hd' V A A'). congruence.
Qed.

Lemma writer_case m w own gs s hs n p e m' r : MInv m w own gs s hs n -> call_ok E keyof e -> in_U U e -> room E (n + wcount e) ->
  apart_from (rest own p w) e -> apart_from (gs p) e -> may guest w s p e -> mstep E m p e = Some (m', r) ->
  exists w' own' s', vstep canon guest s p e r s' /\ MInv m' w' own' gs s' (opened canon hs p e) (n + wcount e).
Proof.
  intros M Hc HU Hroom HA HG Hm Hs. pose proof (mi_V _ _ _ _ _ _ _ M) as V. pose proof (proj1 V) as W.
  unfold mstep in Hs. rewrite (mi_view _ _ _ _ _ _ _ M p), (ext_step E _ _ e (mi_compat _ _ _ _ _ _ _ M p) HG) in Hs.
  destruct (step E (core own p w) e) as [[w1 r1]|] eqn:E1; [|discriminate]. injection Hs as <- ->.
  destruct (part_step E own p w e w1 r (WInv_sound E keyof U w _ _ n W) HA E1) as (Es & Ec & Eq).
  set (w' := ext (rest own p w) w1) in *. set (own' := own_after own w p) in *.
  destruct (may_step w s n p e w' r V Hc HU Hroom Hm Es) as (s' & Vs & V' & Hh'). exists w', own', s'. split; [exact Vs|].
  assert (G : grows e (core own p w) w1) by (eapply step_grows; [exact E1|]; destruct e; auto).
  assert (Hp : w_poison w1 = w_poison w). { rewrite (wi_poison _ _ _ _ _ _ _ W). exact (wi_poison _ _ _ _ _ _ _ (proj1 V')). }
  assert (Hmem : forall q, q <> p -> mem_of (core own' q w') = mem_of (core own q w)) by (intros q Hq; rewrite (Eq q Hq), Hp; reflexivity).
  assert (Hg' : forall h q d S, v_handles s' !! h = Some (VH q d (Some S)) <-> v_handles s !! h = Some (VH q d (Some S))).
  { intros h q d S. rewrite Hh'. destruct e; cbn [handles_after may] in *; try reflexivity; try contradiction.
    - destruct Hm as [_ Hm]. destruct (decide (h0 = h)) as [<-|Hne]; [rewrite lookup_insert, Hm; split; discriminate|rewrite lookup_insert_ne by exact Hne; reflexivity].
    - destruct Hm as (d' & Hm & _). destruct (decide (h0 = h)) as [<-|Hne]; [rewrite lookup_delete, Hm; split; discriminate|rewrite lookup_delete_ne by exact Hne; reflexivity]. }
  split.
  - intros q. cbn [m_disk]. rewrite proc_set. destruct (decide (p = q)) as [<-|Hne].
    + rewrite Ec. apply join_of.
    + change (disk_of (ext (gs p) w1)) with (disk_of w'). eapply view_frame; [apply (mi_view _ _ _ _ _ _ _ M q)|apply Hmem; congruence].
  - intros q. destruct (decide (q = p)) as [->|Hne].
    + rewrite Ec. eapply compat_step; [apply (mi_compat _ _ _ _ _ _ _ M p)|exact HG|exact E1].
    + eapply compat_frame; [apply (mi_compat _ _ _ _ _ _ _ M q)|apply Hmem, Hne|exact (g_next _ _ _ G)].
  - exact V'.
  - intros h hd q d Hh Hv. destruct (w_handles w1 !! h) as [hd1|] eqn:X1.
    + assert (hd1 = hd) as ->. { unfold w' in Hh. cbn [ext w_handles] in Hh. rewrite lookup_union_Some_raw in Hh. destruct Hh as [Hh|[Hh _]]; congruence. }
      assert (X2 : w_handles (core own' p w') !! h = Some hd) by (rewrite Ec; exact X1). apply core_handles in X2 as [_ ->].
      destruct (g_handles _ _ _ G h hd X1) as [(hd0 & Y & Yi & _)|(Y & _)].
      * apply core_handles in Y as [Y Yo]. pose proof (own_handle _ _ _ _ _ _ _ h hd0 M Y) as F. rewrite Yo in F. rewrite Hh' in Hv.
        destruct e; cbn [handles_after may] in *; try contradiction; try congruence.
        -- destruct Hm as [_ Hm]. rewrite lookup_insert_ne in Hv by congruence. congruence.
        -- apply lookup_delete_Some in Hv as [_ Hv]. congruence.
      * rewrite Hh' in Hv. destruct e; cbn [new_path handles_after] in *; try contradiction. destruct Y as [<- _]. rewrite lookup_insert in Hv. congruence.
    + assert (X2 : p_handles (rest own p w) !! h = Some hd). { unfold w' in Hh. cbn [ext w_handles] in Hh. rewrite lookup_union_Some_raw in Hh. destruct Hh as [Hh|[_ Hh]]; congruence. }
      assert (X3 : v_handles s !! h = Some (VH q d None)).
      { rewrite Hh' in Hv. destruct e; cbn [handles_after may apart_from] in *; try contradiction; try exact Hv.
        - destruct HA as [HA _]. rewrite lookup_insert_ne in Hv by congruence. exact Hv.
        - apply lookup_delete_Some in Hv as [_ Hv]. exact Hv. }
      apply rest_handles in X2 as [X2 X4]. rewrite <- (mi_own _ _ _ _ _ _ _ M h hd q d X2 X3). unfold own', own_after.
      destruct (so_handles _ (WInv_sound E keyof U w _ _ n W) h hd X2) as [L _]. rewrite (proj2 (N.ltb_lt _ _) L). reflexivity.
  - intros q. eapply guests_same; [|apply (mi_guest _ _ _ _ _ _ _ M q)]. intros h d S. apply Hg'.
  - intros h q d. rewrite Hh'. pose proof (mi_hs _ _ _ _ _ _ _ M h q d) as F. destruct e; cbn [handles_after opened may] in *; try contradiction; try exact F.
    + destruct (decide (h0 = h)) as [<-|Hne]; [rewrite !lookup_insert|rewrite !lookup_insert_ne by exact Hne; exact F].
      split; [intros [= -> ->]; eauto|intros (o & [= -> -> _]); reflexivity].
    + destruct (decide (h0 = h)) as [<-|Hne]; [rewrite !lookup_delete|rewrite !lookup_delete_ne by exact Hne; exact F].
      split; [discriminate|intros (o & [=])].
  - intros h q d o. rewrite Hh'. pose proof (mi_kind _ _ _ _ _ _ _ M h q d o) as F. destruct e; cbn [handles_after may] in *; try contradiction; try exact F.
    + destruct (decide (h0 = h)) as [<-|Hne]; [rewrite !lookup_insert|rewrite !lookup_insert_ne by exact Hne; exact F].
      intros [= _ _ <-]. apply Hm.
    + intros Hd. apply lookup_delete_Some in Hd as [_ Hd]. apply F, Hd.
Qed.

(** ** Guests *)

Lemma VInv_same w s s' n : spec_of s' = spec_of s -> v_vers s' = v_vers s -> VInv w s n -> VInv w s' n.
Proof.
  intros Hs Hv [W Co]. assert (G : forall d, versions s' d = versions s d) by (intros d; unfold versions; rewrite Hv; reflexivity). split.
  - rewrite Hs. eapply (WInv_mono E); [reflexivity| |exact W]. intros d k S. unfold past. rewrite G. auto.
  - intros d k Hj. rewrite G. apply Co, Hj.
Qed.

Definition set_guest (gs : N -> mem) (p : N) (g : mem) (q : N) : mem := if decide (q = p) then g else gs q.

Lemma guest_case m w own gs s hs n p w' v g s' hs' : MInv m w own gs s hs n ->
  w_insts w' = w_insts w -> w_handles w' = w_handles w -> w_reg w' = w_reg w -> w_poison w' = w_poison w -> w_next_inst w <= w_next_inst w' ->
  VInv w' s' n -> v = ext g (core own p w') -> compat g (core own p w') -> guests_ok s' p g ->
  (forall h q d S, q <> p -> v_handles s' !! h = Some (VH q d (Some S)) <-> v_handles s !! h = Some (VH q d (Some S))) ->
  (forall h q d, v_handles s' !! h = Some (VH q d None) -> v_handles s !! h = Some (VH q d None)) ->
  (forall h q d, hs' !! h = Some (q, d) <-> exists o, v_handles s' !! h = Some (VH q d o)) ->
  (forall h q d o, v_handles s' !! h = Some (VH q d o) -> guest h = match o with None => false | Some _ => true end) ->
  MInv (Machine (disk_of v) (<[p := mem_of v]> (m_procs m))) w' own (set_guest gs p g) s' hs' n.
Proof.
  intros M E1 E2 E3 E4 E5 V' Hv Hc Hg Hq Hw Hhs Hk.
  assert (Hmem : forall q, mem_of (core own q w') = mem_of (core own q w)) by (intros q; unfold mem_of, core; cbn; rewrite E1, E2, E3, E4; reflexivity).
  split; auto.
  - intros q. cbn [m_disk]. rewrite proc_set. unfold set_guest. destruct (decide (p = q)) as [<-|Hne].
    + destruct (decide (p = p)); [|congruence]. rewrite <- Hv. apply join_of.
    + destruct (decide (q = p)); [congruence|]. rewrite Hv. change (disk_of (ext g (core own p w'))) with (disk_of w').
      eapply view_frame; [apply (mi_view _ _ _ _ _ _ _ M q)|apply Hmem].
  - intros q. unfold set_guest. destruct (decide (q = p)) as [->|Hne]; [exact Hc|].
    eapply compat_frame; [apply (mi_compat _ _ _ _ _ _ _ M q)|apply Hmem|exact E5].
  - intros h hd q d. rewrite E2. intros A B. apply (mi_own _ _ _ _ _ _ _ M h hd q d A), Hw, B.
  - intros q. unfold set_guest. destruct (decide (q = p)) as [->|Hne]; [exact Hg|]. eapply guests_same; [|apply (mi_guest _ _ _ _ _ _ _ M q)].
    intros h d S. apply Hq, Hne.
Qed.

(** Nothing happens. *)
Lemma still m w own gs s hs n p v : MInv m w own gs s hs n -> v = join (m_disk m) (proc m p) ->
  MInv (Machine (disk_of v) (<[p := mem_of v]> (m_procs m))) w own (set_guest gs p (gs p)) s hs n.
Proof.
  intros M Hv. eapply guest_case; try apply M; try reflexivity; auto.
  rewrite Hv. apply (mi_view _ _ _ _ _ _ _ M).
Qed.

Lemma core_free m w own gs s hs n p h path : MInv m w own gs s hs n -> U path ->
  (forall h' q, hs !! h' = Some (q, canon path) -> (q = p /\ guest h' = guest h) \/ (q <> p /\ (guest h = true \/ guest h' = true))) ->
  guest h = true -> w_reg (core own p w) !! path = None.
Proof.
  intros M Up Ht Hg. apply none_by. intros i Hi. apply core_reg in Hi as [Hi Ho]. pose proof (proj1 (mi_V _ _ _ _ _ _ _ M)) as W.
  destruct (wi_reg _ _ _ _ _ _ _ W path i Hi) as (_ & x & Hx & Dx). destruct (wi_insts _ _ _ _ _ _ _ W i x Hx) as (_ & _ & _ & h' & hd' & Hh & Hin).
  pose proof (own_handle _ _ _ _ _ _ _ h' hd' M Hh) as F.
  destruct (handle_cases E keyof U w _ _ n h' hd' W Hh) as (_ & _ & _ & _ & _ & z & Hz & Dz & _). rewrite Hin, Hx in Hz. injection Hz as <-.
  rewrite Hin, Ho, <- Dz, Dx in F.
  destruct (Ht h' p) as [[_ G]|[G _]]; [apply (mi_hs _ _ _ _ _ _ _ M); eauto| |congruence].
  rewrite (mi_kind _ _ _ _ _ _ _ M _ _ _ _ F) in G. congruence.
Qed.

Lemma insert_r {K} `{Countable K} {A} (m1 m2 : gmap K A) i x : m1 !! i = None -> <[i := x]> (m1 ∪ m2) = m1 ∪ <[i := x]> m2.
Proof. intros G. apply insert_union_r, G. Qed.

Lemma delete_r {K} `{Countable K} {A} (m1 m2 : gmap K A) i : m1 !! i = None -> delete i (m1 ∪ m2) = m1 ∪ delete i m2.
Proof. intros G. rewrite delete_union, (delete_notin m1) by exact G. reflexivity. Qed.

Lemma look_r {K} `{Countable K} {A} (m f : gmap K A) i : m !! i = None -> (m ∪ f) !! i = f !! i.
Proof. intros Hf. rewrite lookup_union, Hf. destruct (f !! i); reflexivity. Qed.

Lemma spec_of_guest s h p d S : v_handles s !! h = None -> spec_of (put_handle s h (VH p d (Some S))) = spec_of s.
Proof.
  intros Hh. unfold spec_of, put_handle. cbn. f_equal. apply map_eq. intros h'. rewrite !lookup_omap. destruct (decide (h = h')) as [<-|Hne].
  - rewrite lookup_insert, Hh. reflexivity.
  - rewrite !lookup_insert_ne by exact Hne. reflexivity.
Qed.

Lemma visit_case m w own gs s hs n p h path key m' r : MInv m w own gs s hs n -> U path -> key = keyof (canon path) -> guest h = true ->
  turn canon guest hs p (ENew h path key) -> mstep E m p (ENew h path key) = Some (m', r) ->
  exists w' gs' s', vstep canon guest s p (ENew h path key) r s' /\ MInv m' w' own gs' s' (opened canon hs p (ENew h path key)) n.
Proof.
  intros M Up -> Hg [Hhs Ht] Hs. pose proof (mi_V _ _ _ _ _ _ _ M) as V. pose proof (proj1 V) as W.
  pose proof (core_free m w own gs s hs n p h path M Up Ht Hg) as Hcr.
  pose proof (mi_guest _ _ _ _ _ _ _ M p) as [G1 G2 G3 G4]. pose proof (mi_compat _ _ _ _ _ _ _ M p) as C. pose proof (WInv_sound E keyof U w _ _ n W) as So.
  assert (Hvh : v_handles s !! h = None).
  { apply none_by. intros [q d o] Ho. assert (hs !! h = Some (q, d)) by (apply (mi_hs _ _ _ _ _ _ _ M); eauto). congruence. }
  assert (Hch : w_handles (core own p w) !! h = None).
  { apply none_by. intros hd Hd. apply core_handles in Hd as [Hd _]. pose proof (own_handle _ _ _ _ _ _ _ h hd M Hd). congruence. }
  assert (Hgh : p_handles (gs p) !! h = None).
  { apply none_by. intros hd Hd. destruct (G1 h hd Hd) as (_ & _ & _ & S & x & F & _). congruence. }
  assert (Hopen : forall h' q d, <[h := (p, canon path)]> hs !! h' = Some (q, d) <-> exists o, <[h := VH p (canon path) (Some (oldest s (canon path)))]> (v_handles s) !! h' = Some (VH q d o)).
  { intros h' q d. destruct (decide (h = h')) as [<-|Hne]; [rewrite !lookup_insert|rewrite !lookup_insert_ne by exact Hne; apply (mi_hs _ _ _ _ _ _ _ M)].
    split; [intros [= -> ->]; eauto|intros (o & [= -> -> _]); reflexivity]. }
  assert (Gen : forall S h' q d o, v_handles (put_handle s h (VH p (canon path) (Some S))) !! h' = Some (VH q d o) ->
    (h' = h /\ q = p /\ d = canon path /\ o = Some S) \/ (h' <> h /\ v_handles s !! h' = Some (VH q d o))).
  { intros S h' q d o. unfold put_handle. cbn. destruct (decide (h = h')) as [<-|Hne]; [rewrite lookup_insert; intros [= -> -> ->]; auto|].
    rewrite lookup_insert_ne by exact Hne. auto. }
  assert (Gen' : forall S h' x, h' <> h -> v_handles (put_handle s h (VH p (canon path) (Some S))) !! h' = Some x <-> v_handles s !! h' = Some x).
  { intros S h' x Hne. unfold put_handle. cbn. rewrite lookup_insert_ne by congruence. reflexivity. }
  unfold mstep in Hs. rewrite (mi_view _ _ _ _ _ _ _ M p) in Hs. set (c := core own p w) in *. cbn [step] in Hs.
  assert (X1 : w_handles (ext (gs p) c) !! h = None) by (cbn [ext w_handles]; rewrite look_r by exact Hch; exact Hgh). rewrite X1 in Hs.
  unfold do_new in Hs. change (w_poison (ext (gs p) c)) with (w_poison w) in Hs. rewrite (wi_poison _ _ _ _ _ _ _ W) in Hs.
  destruct (p_reg (gs p) !! path) as [i|] eqn:Hr.
  - (* the process has it open already *)
    destruct (G2 path i Hr) as (h2 & hd2 & F1 & F2 & F3). destruct (G1 h2 hd2 F1) as (_ & _ & _ & S & x & F5 & F6 & F7 & F8). rewrite F3 in F6. rewrite F2 in *.
    assert (Hci : w_insts c !! i = None) by apply (c_reg _ _ C path i Hr).
    assert (L : lookup_reg (ext (gs p) c) path = Some i).
    { unfold lookup_reg. cbn [ext w_reg w_insts]. rewrite (look_r (w_reg c)) by exact Hcr. rewrite Hr. rewrite (look_r (w_insts c)) by exact Hci. rewrite F6, bool_decide_eq_true_2 by eauto. reflexivity. }
    rewrite L in Hs. injection Hs as <- <-.
    set (g := Mem (p_insts (gs p)) (<[h := Handle path (keyof (canon path)) i false]> (p_handles (gs p))) (p_reg (gs p)) (p_poison (gs p))).
    exists w, (set_guest gs p g), (put_handle s h (VH p (canon path) (Some S))). split.
    + apply v_visit; [exact Hvh|exact Hg|]. left. eauto.
    + eapply (guest_case m w own gs s hs n p w _ g); try reflexivity; auto.
      * eapply VInv_same; [apply spec_of_guest, Hvh|reflexivity|exact V].
      * unfold set_handles, ext, g. cbn. rewrite insert_r by exact Hch. reflexivity.
      * destruct C as [C1 C2 C3 C4 C5]. split; unfold g; cbn [p_insts p_handles p_reg]; auto.
        -- intros h' hd' Hh. destruct (decide (h = h')) as [<-|Hne]; [rewrite lookup_insert in Hh; injection Hh as <-|rewrite lookup_insert_ne in Hh by exact Hne; apply (C2 h' hd' Hh)].
           split_and!; [exact Hch|exact Hci|]. apply (C3 path i Hr).
        -- intros h' hd' Hh. destruct (C4 h' hd' Hh) as (Y1 & Y2 & Y3). split_and!; auto. intros h3 hd3 Hh3.
           destruct (decide (h = h3)) as [<-|Hne]; [rewrite lookup_insert in Hh3; injection Hh3 as <-|rewrite lookup_insert_ne in Hh3 by exact Hne; apply (Y2 h3 hd3 Hh3)].
           cbn [h_inst]. rewrite <- F3. apply (Y2 h2 hd2 F1).
      * split; unfold g; cbn [p_insts p_handles p_reg]; auto.
        -- intros h' hd' Hh. destruct (decide (h = h')) as [<-|Hne].
           ++ rewrite lookup_insert in Hh. injection Hh as <-. cbn [h_unreg h_path h_inst]. split_and!; auto. exists S, x. split_and!; auto. cbn. apply lookup_insert.
           ++ rewrite lookup_insert_ne in Hh by exact Hne. destruct (G1 h' hd' Hh) as (Y1 & Y2 & Y3 & S' & x' & Y4 & Y5). split_and!; auto. exists S', x'. split; [|exact Y5]. apply Gen'; congruence.
        -- intros a j Ha. destruct (G2 a j Ha) as (h3 & hd3 & Y1 & Y2). exists h3, hd3. split; [|exact Y2]. rewrite lookup_insert_ne; [exact Y1|congruence].
        -- intros h' d S' Hh. destruct (Gen _ _ _ _ _ Hh) as [(-> & _)|[Hne Hh']]; [rewrite lookup_insert; eauto|rewrite lookup_insert_ne by congruence; eapply G4; exact Hh'].
      * intros h' q d S' Hq. split; [intros Hh; destruct (Gen _ _ _ _ _ Hh) as [(_ & -> & _)|[_ Hh']]; [congruence|exact Hh']|]. intros Hh. apply Gen'; [congruence|exact Hh].
      * intros h' q d Hh. destruct (Gen _ _ _ _ _ Hh) as [(_ & _ & _ & [=])|[_ Hh']]. exact Hh'.
      * intros h' q d. rewrite Hopen. unfold put_handle. cbn. destruct (decide (h = h')) as [<-|Hne]; [rewrite !lookup_insert|rewrite !lookup_insert_ne by exact Hne; reflexivity].
        split; intros (o & [= -> -> _]); eauto.
      * intros h' q d o Hh. destruct (Gen _ _ _ _ _ Hh) as [(-> & _ & _ & ->)|[_ Hh']]; [exact Hg|]. apply (mi_kind _ _ _ _ _ _ _ M _ _ _ _ Hh').
  - (* it is opened *)
    assert (L : lookup_reg (ext (gs p) c) path = None).
    { unfold lookup_reg. cbn [ext w_reg w_insts]. rewrite (look_r (w_reg c)) by exact Hcr. rewrite Hr. reflexivity. }
    rewrite L in Hs. rewrite ext_open in Hs.
    destruct (VInv_visit E HE keyof U HU_dir HU_key HU_inj w s n path V Up) as (w1 & y & Eo & V1 & Qy & Dy & Vy & Py & Iy & Ry & T1 & T2 & T3 & T4 & T5).
    pose proof (core_rest own p w) as CR. fold c in CR. rewrite <- CR, ext_open in Eo.
    destruct (open_impl E c path (keyof (canon path))) as [c1 o] eqn:Ec. cbn [fst snd] in *. injection Eo as Hw1 ->.
    pose proof (open_impl_sub _ _ _ _ _ _ Ec) as (A1 & A2 & A3 & A4 & A5 & _).
    change (w_next_inst (ext (gs p) c1)) with (w_next_inst c1) in Hs. rewrite A4 in Hs. change (w_next_inst c) with (w_next_inst w) in Hs. injection Hs as <- <-.
    set (i := w_next_inst w) in *.
    set (g := Mem (<[i := y]> (p_insts (gs p))) (<[h := Handle path (keyof (canon path)) i false]> (p_handles (gs p))) (<[path := i]> (p_reg (gs p))) (p_poison (gs p))).
    exists (bump w1), (set_guest gs p g), (put_handle s h (VH p (canon path) (Some (oldest s (canon path))))).
    assert (Hci : w_insts c !! i = None). { apply none_by. intros z Hz. apply core_insts in Hz as [Hz _]. pose proof (so_insts _ So i z Hz). unfold i in *. lia. }
    assert (Hcore : core own p (bump w1) = World (w_dirs c1) (w_inodes c1) (w_next_ino c1) (w_insts c) (i + 1) (w_handles c) (w_reg c) (w_poison c1) (w_rng c1) (w_seed c1)).
    { unfold core, bump. cbn [w_dirs w_inodes w_next_ino w_insts w_next_inst w_handles w_reg w_poison w_rng w_seed]. rewrite T1, T2, T3, T4, T5.
      rewrite A5. unfold c, i. rewrite <- Hw1. reflexivity. }
    split.
    + apply v_visit; [exact Hvh|exact Hg|]. right. split; [|reflexivity]. intros h' S' Hh. destruct (G4 h' _ _ Hh) as [hd Hd].
      destruct (G1 h' hd Hd) as (_ & Ud & Y1 & S & x & Y2 & _). rewrite Hh in Y2. injection Y2 as Hcn _. apply HU_inj in Hcn; [|assumption..]. congruence.
    + eapply (guest_case m w own gs s hs n p (bump w1) _ g); cbn [bump w_insts w_handles w_reg w_poison w_next_inst]; auto.
      * lia.
      * eapply VInv_same; [apply spec_of_guest, Hvh|reflexivity|exact V1].
      * rewrite Hcore. unfold ext, g. cbn. rewrite A1, A2, A3.
        rewrite (insert_r (w_insts c)), (insert_r (w_handles c)), (insert_r (w_reg c)) by assumption. reflexivity.
      * rewrite Hcore. destruct C as [C1 C2 C3 C4 C5]. change (w_next_inst c) with i in *. split; unfold g; cbn [p_insts p_handles p_reg w_insts w_handles w_reg w_next_inst].
        -- intros j z Hz. destruct (decide (i = j)) as [<-|Hne]; [split; [exact Hci|lia]|]. rewrite lookup_insert_ne in Hz by exact Hne. destruct (C1 j z Hz). split; [assumption|lia].
        -- intros h' hd' Hh. destruct (decide (h = h')) as [<-|Hne].
           ++ rewrite lookup_insert in Hh. injection Hh as <-. cbn [h_inst]. split_and!; [exact Hch|exact Hci|lia].
           ++ rewrite lookup_insert_ne in Hh by exact Hne. destruct (C2 h' hd' Hh) as (Z1 & Z2 & Z3). split_and!; auto; lia.
        -- intros a j Ha. destruct (decide (path = a)) as [<-|Hne].
           ++ rewrite lookup_insert in Ha. injection Ha as <-. split_and!; [exact Hcr|exact Hci|lia].
           ++ rewrite lookup_insert_ne in Ha by exact Hne. destruct (C3 a j Ha) as (Z1 & Z2 & Z3). split_and!; auto; lia.
        -- intros h' hd' Hh. destruct (C4 h' hd' Hh) as (Z1 & Z2 & Z3). pose proof Hh as Hh0. apply core_handles in Hh0 as [Hh0 Ho]. destruct (so_handles _ So h' hd' Hh0) as [L1 L2]. fold i in L1. split_and!.
           ++ rewrite lookup_insert_ne by lia. exact Z1.
           ++ intros h3 hd3 Hh3. destruct (decide (h = h3)) as [<-|Hne]; [rewrite lookup_insert in Hh3; injection Hh3 as <-; cbn; lia|]. rewrite lookup_insert_ne in Hh3 by exact Hne. apply (Z2 h3 hd3 Hh3).
           ++ rewrite lookup_insert_ne; [exact Z3|]. intros ->. assert (w_reg c !! h_path hd' = Some (h_inst hd')) by (apply core_reg; auto). congruence.
        -- intros a j Ha. pose proof (C5 a j Ha) as Z. apply core_reg in Ha as [Ha _]. pose proof (so_reg _ So a j Ha) as L1. fold i in L1. rewrite lookup_insert_ne by lia. exact Z.
      * split; unfold g; cbn [p_insts p_handles p_reg].
        -- intros h' hd' Hh. destruct (decide (h = h')) as [<-|Hne].
           ++ rewrite lookup_insert in Hh. injection Hh as <-. cbn [h_unreg h_path h_inst]. split_and!; [reflexivity|exact Up|apply lookup_insert|].
              exists (oldest s (canon path)), y. split_and!; [cbn; apply lookup_insert|apply lookup_insert|split_and!; auto|exact Dy].
           ++ rewrite lookup_insert_ne in Hh by exact Hne. destruct (G1 h' hd' Hh) as (Y1 & Y2 & Y3 & S' & x' & Y4 & Y5 & Y6). split_and!; auto.
              ** rewrite lookup_insert_ne by congruence. exact Y3.
              ** exists S', x'. split_and!; [apply Gen'; congruence| |apply Y6|apply Y6]. rewrite lookup_insert_ne; [exact Y5|]. destruct (c_insts _ _ C _ _ Y5) as [_ L1]. change (w_next_inst c) with i in L1. lia.
        -- intros a j Ha. destruct (decide (path = a)) as [<-|Hne].
           ++ rewrite lookup_insert in Ha. injection Ha as <-. exists h. eexists. rewrite lookup_insert. split_and!; reflexivity.
           ++ rewrite lookup_insert_ne in Ha by exact Hne. destruct (G2 a j Ha) as (h3 & hd3 & Y1 & Y2). exists h3, hd3. split; [|exact Y2]. rewrite lookup_insert_ne; [exact Y1|congruence].
        -- intros j z Hz. destruct (decide (i = j)) as [<-|Hne]; [rewrite lookup_insert in Hz; congruence|]. rewrite lookup_insert_ne in Hz by exact Hne. apply (G3 j z Hz).
        -- intros h' d S' Hh. destruct (Gen _ _ _ _ _ Hh) as [(-> & _)|[Hne Hh']]; [rewrite lookup_insert; eauto|rewrite lookup_insert_ne by congruence; eapply G4; exact Hh'].
      * intros h' q d S' Hq. split; [intros Hh; destruct (Gen _ _ _ _ _ Hh) as [(_ & -> & _)|[_ Hh']]; [congruence|exact Hh']|]. intros Hh. apply Gen'; [congruence|exact Hh].
      * intros h' q d Hh. destruct (Gen _ _ _ _ _ Hh) as [(_ & _ & _ & [=])|[_ Hh']]. exact Hh'.
      * intros h' q d o Hh. destruct (Gen _ _ _ _ _ Hh) as [(-> & _ & _ & ->)|[_ Hh']]; [exact Hg|]. apply (mi_kind _ _ _ _ _ _ _ M _ _ _ _ Hh').
Qed.

Lemma read_case m w own gs s hs n p h hd key t m' r : MInv m w own gs s hs n -> get_ok t -> p_handles (gs p) !! h = Some hd ->
  mstep E m p (EGet h key t) = Some (m', r) ->
  exists gs', vstep canon guest s p (EGet h key t) r s /\ MInv m' w own gs' s (opened canon hs p (EGet h key t)) n.
Proof.
  intros M Ht Hh Hs. pose proof (mi_guest _ _ _ _ _ _ _ M p) as [G1 G2 G3 G4]. pose proof (mi_compat _ _ _ _ _ _ _ M p) as C.
  destruct (G1 h hd Hh) as (Y1 & Y2 & Y3 & S & x & Y4 & Y5 & (Q1 & Q2 & Q3 & Q4 & Q5) & _).
  unfold mstep in Hs. pose proof (mi_view _ _ _ _ _ _ _ M p) as Hv. rewrite Hv in Hs. cbn [step] in Hs. unfold with_handle in Hs.
  destruct (c_handles _ _ C h hd Hh) as (K1 & K2 & K3).
  assert (X1 : w_handles (ext (gs p) (core own p w)) !! h = Some hd) by (cbn [ext w_handles]; rewrite look_r by exact K1; exact Hh). rewrite X1, Y1 in Hs.
  assert (X2 : w_insts (ext (gs p) (core own p w)) !! h_inst hd = Some x) by (cbn [ext w_insts]; rewrite look_r by exact K2; exact Y5).
  unfold on_inst in Hs. rewrite X2 in Hs. rewrite set_inst_same in Hs by exact X2. injection Hs as <- <-.
  exists (set_guest gs p (gs p)). split.
  - unfold inst_get. rewrite Q1, Q2. rewrite (get_refines E _ S key t Q5 Ht). eapply v_read. exact Y4.
  - cbn [opened]. eapply still; [exact M|]. rewrite Hv. reflexivity.
Qed.

Lemma idle_case m w own gs s hs n p i m' r : MInv m w own gs s hs n -> w_insts (core own p w) !! i = None ->
  mstep E m p (EIo i) = Some (m', r) ->
  exists gs', vstep canon guest s p (EIo i) r s /\ MInv m' w own gs' s (opened canon hs p (EIo i)) n.
Proof.
  intros M Hi Hs. pose proof (mi_guest _ _ _ _ _ _ _ M p) as [G1 G2 G3 G4].
  unfold mstep in Hs. pose proof (mi_view _ _ _ _ _ _ _ M p) as Hv. rewrite Hv in Hs. cbn [step] in Hs.
  assert (X : run_job E (ext (gs p) (core own p w)) i = ext (gs p) (core own p w)).
  { unfold run_job. cbn [ext w_insts]. rewrite look_r by exact Hi. destruct (p_insts (gs p) !! i) as [x|] eqn:Hx; [|reflexivity]. rewrite (G3 i x Hx). destruct (i_io x); reflexivity. }
  rewrite X in Hs. injection Hs as <- <-. exists (set_guest gs p (gs p)). split; [apply v_idle|]. cbn [opened]. eapply still; [exact M|]. rewrite Hv. reflexivity.
Qed.

Lemma strong_relabel w w0 h hd hd' : w_handles w !! h = Some hd -> h_inst hd' = h_inst hd -> w_handles w0 = <[h := hd']> (w_handles w) ->
  strong w0 (h_inst hd) = strong w (h_inst hd).
Proof.
  intros Hh Hi Hw. unfold strong. rewrite Hw.
  assert (Pm : Permutation (map_to_list (w_handles w)) ((h, hd) :: map_to_list (delete h (w_handles w)))).
  { rewrite <- map_to_list_insert by apply lookup_delete. rewrite insert_delete by exact Hh. reflexivity. }
  rewrite Pm. rewrite <- insert_delete_insert, map_to_list_insert by apply lookup_delete. rewrite !filter_cons_True by assumption || reflexivity. reflexivity.
Qed.

Lemma spec_of_leave s h p d S : v_handles s !! h = Some (VH p d (Some S)) -> spec_of (VSpec (v_vers s) (delete h (v_handles s))) = spec_of s.
Proof.
  intros Hh. unfold spec_of. cbn. f_equal. apply map_eq. intros h'. rewrite !lookup_omap. destruct (decide (h = h')) as [<-|Hne].
  - rewrite lookup_delete, Hh. reflexivity.
  - rewrite !lookup_delete_ne by exact Hne. reflexivity.
Qed.

Lemma leave_case m w own gs s hs n p h hd m' r : MInv m w own gs s hs n -> p_handles (gs p) !! h = Some hd ->
  mstep E m p (EDrop h) = Some (m', r) ->
  exists gs' s', vstep canon guest s p (EDrop h) r s' /\ MInv m' w own gs' s' (opened canon hs p (EDrop h)) n.
Proof.
  intros M Hh Hs. pose proof (mi_guest _ _ _ _ _ _ _ M p) as [G1 G2 G3 G4]. pose proof (mi_compat _ _ _ _ _ _ _ M p) as C. pose proof (mi_V _ _ _ _ _ _ _ M) as V. pose proof (proj1 V) as W.
  destruct (G1 h hd Hh) as (Y1 & Y2 & Y3 & S & x & Y4 & Y5 & (Q1 & Q2 & Q3 & Q4 & Q5) & Y6).
  unfold mstep in Hs. rewrite (mi_view _ _ _ _ _ _ _ M p) in Hs. set (c := core own p w) in *. cbn [step] in Hs. unfold with_handle in Hs.
  destruct (c_handles _ _ C h hd Hh) as (K1 & K2 & K3).
  assert (X1 : w_handles (ext (gs p) c) !! h = Some hd) by (cbn [ext w_handles]; rewrite look_r by exact K1; exact Hh). rewrite X1, Y1 in Hs.
  unfold do_drop_reg in Hs. change (w_poison (ext (gs p) c)) with (w_poison w) in Hs. rewrite (wi_poison _ _ _ _ _ _ _ W) in Hs.
  set (hd' := Handle (h_path hd) (h_key hd) (h_inst hd) true) in *.
  set (s' := VSpec (v_vers s) (delete h (v_handles s))).
  assert (Hcp : w_reg c !! h_path hd = None) by apply (c_reg _ _ C _ _ Y3).
  assert (Same : forall h2 hd2, w_handles (ext (gs p) c) !! h2 = Some hd2 -> h_inst hd2 = h_inst hd -> p_handles (gs p) !! h2 = Some hd2).
  { intros h2 hd2 H2 Hi. cbn [ext w_handles] in H2. rewrite lookup_union_Some_raw in H2. destruct H2 as [H2|[_ H2]]; [|exact H2].
    destruct (c_own_h _ _ C h2 hd2 H2) as (_ & F & _). destruct (F h hd Hh). congruence. }
  assert (Hsub : forall (g : mem), (forall i z, p_insts g !! i = Some z -> p_insts (gs p) !! i = Some z) ->
    (forall h2 z, p_handles g !! h2 = Some z -> p_handles (gs p) !! h2 = Some z) -> (forall a z, p_reg g !! a = Some z -> p_reg (gs p) !! a = Some z) -> compat g c).
  { intros g I1 I2 I3. destruct C as [C1 C2 C3 C4 C5]. split; auto.
    - intros i z Hz. eapply C1, I1, Hz.
    - intros h2 hd2 F. destruct (C4 h2 hd2 F) as (Z1 & Z2 & Z3). split_and!.
      + apply none_by. intros z Hz. apply I1 in Hz. congruence.
      + intros h3 hd3 H3. apply (Z2 h3 hd3), I2, H3.
      + apply none_by. intros z Hz. apply I3 in Hz. congruence.
    - intros a i Ha. apply none_by. intros z Hz. apply I1 in Hz. rewrite (C5 a i Ha) in Hz. discriminate. }
  assert (Fin : forall g v, v = ext g c -> compat g c -> guests_ok s' p g ->
    exists gs' s', vstep canon guest s p (EDrop h) (ROk None) s' /\ MInv (Machine (disk_of v) (<[p := mem_of v]> (m_procs m))) w own gs' s' (opened canon hs p (EDrop h)) n).
  { intros g v Hv Hcg Hgo. exists (set_guest gs p g), s'. split; [eapply v_leave; exact Y4|].
    eapply (guest_case m w own gs s hs n p w v g s'); auto; try reflexivity.
    - eapply VInv_same; [eapply spec_of_leave; exact Y4|reflexivity|exact V].
    - intros h2 q d S2 Hq. cbn. destruct (decide (h = h2)) as [<-|Hne]; [rewrite lookup_delete, Y4; split; [discriminate|congruence]|]. rewrite lookup_delete_ne by exact Hne. reflexivity.
    - intros h2 q d Hd. cbn in Hd. apply lookup_delete_Some in Hd as [_ Hd]. exact Hd.
    - intros h2 q d. cbn [opened s' v_handles]. destruct (decide (h = h2)) as [<-|Hne]; [rewrite !lookup_delete; split; [discriminate|intros (o & [=])]|].
      rewrite !lookup_delete_ne by exact Hne. apply (mi_hs _ _ _ _ _ _ _ M).
    - intros h2 q d o Hd. cbn in Hd. apply lookup_delete_Some in Hd as [_ Hd]. apply (mi_kind _ _ _ _ _ _ _ M _ _ _ _ Hd). }
  assert (Gd : forall h2 hd2, delete h (p_handles (gs p)) !! h2 = Some hd2 -> h2 <> h /\ p_handles (gs p) !! h2 = Some hd2).
  { intros h2 hd2 F. apply lookup_delete_Some in F as [F1 F2]. split; congruence. }
  assert (Gv : forall h2 z, h2 <> h -> v_handles s !! h2 = Some z -> v_handles s' !! h2 = Some z).
  { intros h2 z Hne F. cbn. rewrite lookup_delete_ne by congruence. exact F. }
  destruct (Nat.eqb (strong (ext (gs p) c) (h_inst hd)) 1) eqn:Est.
  - (* the last handle *)
    match type of Hs with context[do_drop_arc E ?w0 h hd] => set (w1 := w0) in * end.
    assert (S1 : strong w1 (h_inst hd) = strong (ext (gs p) c) (h_inst hd)) by (apply (strong_relabel _ w1 h hd hd' X1); reflexivity).
    assert (X2 : w_insts w1 !! h_inst hd = Some x) by (change (w_insts w1) with (w_insts c ∪ p_insts (gs p)); rewrite look_r by exact K2; exact Y5).
    assert (D1 : drain E w1 (h_inst hd) = w1) by (unfold drain; rewrite X2, Q4; reflexivity).
    unfold do_drop_arc in Hs. rewrite S1, Est, D1, X2, Q3 in Hs.
    assert (Hr : r = ROk None) by (destruct (i_join x); injection Hs as _ <-; reflexivity). subst r.
    set (g := Mem (delete (h_inst hd) (p_insts (gs p))) (delete h (p_handles (gs p))) (delete (h_path hd) (p_reg (gs p))) (p_poison (gs p))).
    pose proof (proj1 (Nat.eqb_eq _ _) Est) as Est'. pose proof (proj1 (strong_1 _ h hd X1) Est') as Uniq.
    injection Hs as <-. apply (Fin g).
    + unfold w1, set_handles, set_reg, set_insts, ext, g. cbn. rewrite delete_insert_delete. rewrite !delete_r by assumption. reflexivity.
    + apply Hsub; unfold g; cbn [p_insts p_handles p_reg]; intros a z F; apply lookup_delete_Some in F as [_ F]; exact F.
    + split; unfold g; cbn [p_insts p_handles p_reg].
      * intros h2 hd2 F. destruct (Gd h2 hd2 F) as [Hne F2]. destruct (G1 h2 hd2 F2) as (Z1 & Z2 & Z3 & S2 & x2 & Z4 & Z5 & Z6).
        assert (Hi : h_inst hd2 <> h_inst hd). { intros Hi. apply Hne, (Uniq h2 hd2); [|exact Hi]. cbn [ext w_handles]. rewrite look_r; [exact F2|]. apply (c_handles _ _ C h2 hd2 F2). }
        split_and!; auto.
        -- rewrite lookup_delete_ne; [exact Z3|]. intros Hp. rewrite <- Hp, Y3 in Z3. congruence.
        -- exists S2, x2. split; [apply (Gv h2 _ Hne Z4)|]. rewrite lookup_delete_ne by congruence. split; [exact Z5|exact Z6].
      * intros a j F. apply lookup_delete_Some in F as [F1 F2]. destruct (G2 a j F2) as (h2 & hd2 & Z1 & Z2 & Z3). exists h2, hd2. split_and!; auto.
        rewrite lookup_delete_ne; [exact Z1|]. intros <-. congruence.
      * intros j z F. apply lookup_delete_Some in F as [_ F]. apply (G3 j z F).
      * intros h2 d S2 F. cbn in F. apply lookup_delete_Some in F as [Hne F]. rewrite lookup_delete_ne by exact Hne. eapply G4, F.
  - match type of Hs with context[do_drop_arc E ?w0 h hd] => set (w1 := w0) in * end.
    assert (S1 : strong w1 (h_inst hd) = strong (ext (gs p) c) (h_inst hd)) by (apply (strong_relabel _ w1 h hd hd' X1); reflexivity).
    unfold do_drop_arc in Hs. rewrite S1, Est in Hs. injection Hs as <- <-.
    set (g := Mem (p_insts (gs p)) (delete h (p_handles (gs p))) (p_reg (gs p)) (p_poison (gs p))). apply (Fin g).
    + unfold w1, set_handles, ext, g. cbn. rewrite delete_insert_delete. rewrite !delete_r by assumption. reflexivity.
    + apply Hsub; unfold g; cbn [p_insts p_handles p_reg]; auto. intros a z F; apply lookup_delete_Some in F as [_ F]; exact F.
    + assert (Other : exists h3 hd3, p_handles (gs p) !! h3 = Some hd3 /\ h3 <> h /\ h_inst hd3 = h_inst hd /\ h_path hd3 = h_path hd).
      { destruct (decide (Exists (fun z : N * handle => h_inst z.2 = h_inst hd /\ z.1 <> h) (map_to_list (w_handles (ext (gs p) c))))) as [F|F].
        - apply Exists_exists in F as ([h3 hd3] & A & B & D). apply elem_of_map_to_list in A. cbn [fst snd] in *. pose proof (Same h3 hd3 A B) as A'. exists h3, hd3. split_and!; auto.
          destruct (G1 h3 hd3 A') as (_ & Z2 & _ & S3 & x3 & _ & Z5 & _ & Z6). rewrite B, Y5 in Z5. injection Z5 as <-. apply HU_inj; [assumption..|congruence].
        - apply Nat.eqb_neq in Est. destruct Est. apply (strong_1 _ h hd X1). intros h3 hd3 A B. destruct (decide (h3 = h)) as [|D]; [assumption|].
          destruct F. apply Exists_exists. exists (h3, hd3). split; [apply elem_of_map_to_list, A|]. split; assumption. }
      destruct Other as (h3 & hd3 & O1 & O2 & O3 & O4).
      split; unfold g; cbn [p_insts p_handles p_reg].
      * intros h2 hd2 F. destruct (Gd h2 hd2 F) as [Hne F2]. destruct (G1 h2 hd2 F2) as (Z1 & Z2 & Z3 & S2 & x2 & Z4 & Z5). split_and!; auto. exists S2, x2. split; [apply (Gv h2 _ Hne Z4)|exact Z5].
      * intros a j F. destruct (G2 a j F) as (h2 & hd2 & Z1 & Z2 & Z3). destruct (decide (h2 = h)) as [->|Hne].
        -- exists h3, hd3. split_and!; [rewrite lookup_delete_ne by congruence; exact O1|congruence|congruence].
        -- exists h2, hd2. split_and!; auto. rewrite lookup_delete_ne by congruence. exact Z1.
      * exact G3.
      * intros h2 d S2 F. cbn in F. apply lookup_delete_Some in F as [Hne F]. rewrite lookup_delete_ne by exact Hne. eapply G4, F.
Qed.

(** ** The death of a process *)

Lemma kill_case m w own gs s hs n p m' r : MInv m w own gs s hs n -> mstep E m p EKill = Some (m', r) ->
  exists w' gs' s', vstep canon guest s p EKill r s' /\ MInv m' w' own gs' s' (opened canon hs p EKill) n.
Proof.
  intros M Hs. pose proof (mi_V _ _ _ _ _ _ _ M) as V. pose proof (proj1 V) as W.
  unfold mstep in Hs. rewrite (mi_view _ _ _ _ _ _ _ M p) in Hs. cbn [step] in Hs. injection Hs as <- <-.
  set (w' := join (disk_of w) (rest own p w)). exists w', (set_guest gs p mem0), (kill_vspec s p).
  pose proof (VInv_kill E keyof U HU_dir HU_key HU_inj own p w s n V (mi_own _ _ _ _ _ _ _ M)) as V'. fold w' in V'.
  split.
  { apply v_kill.
    - intros h. apply kill_handles.
    - intros d Hd. rewrite kill_versions. apply writingb_ok in Hd. rewrite Hd. reflexivity.
    - intros d Hd. rewrite kill_versions. destruct (writingb s p d) eqn:X; [apply writingb_ok in X; contradiction|reflexivity]. }
  assert (Hq : forall q, q <> p -> mem_of (core own q w') = mem_of (core own q w)).
  { intros q Hq. unfold mem_of. f_equal; apply same_maps.
    - intros i x. rewrite !core_insts. cbn [w' join w_insts]. rewrite rest_insts. split; [intros [[A B] D]; auto|intros [A B]; split_and!; auto; congruence].
    - intros i x. rewrite !core_handles. cbn [w' join w_handles]. rewrite rest_handles. split; [intros [[A B] D]; auto|intros [A B]; split_and!; auto; congruence].
    - intros i x. rewrite !core_reg. cbn [w' join w_reg]. rewrite rest_reg. split; [intros [[A B] D]; auto|intros [A B]; split_and!; auto; congruence]. }
  assert (Hk : forall h q d o, v_handles (kill_vspec s p) !! h = Some (VH q d o) <-> v_handles s !! h = Some (VH q d o) /\ q <> p).
  { intros h q d o. rewrite kill_handles. destruct (v_handles s !! h) as [[q' d' o']|]; cbn [vh_proc]; [|split; [discriminate|intros [[=] _]]].
    destruct (decide (q' = p)); split.
    - discriminate.
    - intros [[= -> _ _] ?]. congruence.
    - intros [= -> -> ->]. auto.
    - intros [-> _]. reflexivity. }
  split; auto.
  - intros q. cbn [m_disk]. rewrite proc_set. unfold set_guest. destruct (decide (p = q)) as [<-|Hne].
    + destruct (decide (p = p)); [|congruence]. rewrite join_of.
      assert (Z : core own p w' = World (w_dirs w) (w_inodes w) (w_next_ino w) ∅ (w_next_inst w) ∅ ∅ (w_poison w) (w_rng w) (w_seed w)).
      { unfold core. cbn [w' join disk_of w_dirs w_inodes w_next_ino w_insts w_next_inst w_handles w_reg w_poison w_rng w_seed k_dirs k_inodes k_ino k_inst k_rng k_seed]. f_equal; apply same_maps.
        - intros i x. rewrite map_filter_lookup_Some, rest_insts, lookup_empty. cbn. split; [intros [[_ A] B]; contradiction|discriminate].
        - intros i x. rewrite map_filter_lookup_Some, rest_handles, lookup_empty. cbn. split; [intros [[_ A] B]; contradiction|discriminate].
        - intros i x. rewrite map_filter_lookup_Some, rest_reg, lookup_empty. cbn. split; [intros [[_ A] B]; contradiction|discriminate]. }
      rewrite Z, (wi_poison _ _ _ _ _ _ _ W). unfold ext. cbn [w_dirs w_inodes w_next_ino w_insts w_next_inst w_handles w_reg w_poison w_rng w_seed mem0 p_insts p_handles p_reg]. rewrite !(right_id_L ∅ (∪)). reflexivity.
    + destruct (decide (q = p)); [congruence|]. match goal with |- join ?k _ = _ => change k with (disk_of w') end.
      eapply view_frame; [apply (mi_view _ _ _ _ _ _ _ M q)|apply Hq; congruence].
  - intros q. unfold set_guest. destruct (decide (q = p)) as [->|Hne].
    + split; cbn [mem0 p_insts p_handles p_reg]; try (intros ? ?; rewrite lookup_empty; discriminate).
      * intros h hd _. rewrite !lookup_empty. split_and!; auto; intros h2 hd2; rewrite lookup_empty; discriminate.
      * intros a i _. apply lookup_empty.
    + eapply compat_frame; [apply (mi_compat _ _ _ _ _ _ _ M q)|apply Hq, Hne|reflexivity].
  - intros h hd q d A B. cbn [w' join w_handles] in A. apply rest_handles in A as [A _]. apply Hk in B as [B _]. apply (mi_own _ _ _ _ _ _ _ M h hd q d A B).
  - intros q. unfold set_guest. destruct (decide (q = p)) as [->|Hne].
    + split; cbn [mem0 p_insts p_handles p_reg]; try (intros ? ?; rewrite lookup_empty; discriminate).
      intros h d S A. apply Hk in A as [_ A]. congruence.
    + eapply guests_same; [|apply (mi_guest _ _ _ _ _ _ _ M q)]. intros h d S. rewrite Hk. split; [intros [A _]; exact A|auto].
  - intros h q d. cbn [opened]. rewrite map_filter_lookup_Some. cbn [fst snd]. rewrite (mi_hs _ _ _ _ _ _ _ M). split.
    + intros [(o & A) B]. exists o. apply Hk. auto.
    + intros (o & A). apply Hk in A as [A B]. eauto.
  - intros h q d o A. apply Hk in A as [A _]. apply (mi_kind _ _ _ _ _ _ _ M _ _ _ _ A).
Qed.


(** ** One step, the whole history *)

Lemma view_handle m w own gs s hs n p h hd : MInv m w own gs s hs n -> w_handles (join (m_disk m) (proc m p)) !! h = Some hd ->
  (w_handles w !! h = Some hd /\ own (h_inst hd) = p /\ p_handles (gs p) !! h = None /\ p_handles (rest own p w) !! h = None /\
     v_handles s !! h = Some (VH p (canon (h_path hd)) None)) \/
  p_handles (gs p) !! h = Some hd.
Proof.
  intros M Hh. rewrite (mi_view _ _ _ _ _ _ _ M p) in Hh. cbn [ext w_handles] in Hh. rewrite lookup_union_Some_raw in Hh. destruct Hh as [Hh|[_ Hh]]; [left|right; exact Hh].
  pose proof Hh as Hc. apply core_handles in Hh as [Hh Ho]. split_and!; auto.
  - apply none_by. intros z Hz. destruct (c_handles _ _ (mi_compat _ _ _ _ _ _ _ M p) h z Hz) as [K _]. congruence.
  - apply none_by. intros z Hz. apply rest_handles in Hz as [Hz K]. congruence.
  - rewrite <- Ho at 1. eapply own_handle; [exact M|exact Hh].
Qed.

Lemma guest_kind m w own gs s hs n p h hd : MInv m w own gs s hs n -> p_handles (gs p) !! h = Some hd -> guest h = true.
Proof.
  intros M Hh. destruct (go_handles _ _ _ (mi_guest _ _ _ _ _ _ _ M p) h hd Hh) as (_ & _ & _ & S & x & F & _). apply (mi_kind _ _ _ _ _ _ _ M _ _ _ _ F).
Qed.

Lemma no_handle m w own gs s hs n h : MInv m w own gs s hs n -> hs !! h = None -> v_handles s !! h = None.
Proof.
  intros M Hh. apply none_by. intros [q d o] Hv. assert (K : hs !! h = Some (q, d)) by (apply (mi_hs _ _ _ _ _ _ _ M); eauto). congruence.
Qed.

Lemma with_handle_inv w h f w' r : with_handle w h f = Some (w', r) -> exists hd, w_handles w !! h = Some hd.
Proof. unfold with_handle. destruct (w_handles w !! h); [eauto|discriminate]. Qed.

Lemma mstep_ok m w own gs s hs n p e m' r : MInv m w own gs s hs n -> e = EKill \/ call_ok E keyof e -> in_U U e -> room E (n + wcount e) ->
  turn canon guest hs p e -> mstep E m p e = Some (m', r) ->
  exists w' own' gs' s', vstep canon guest s p e r s' /\ MInv m' w' own' gs' s' (opened canon hs p e) (n + wcount e).
Proof.
  intros M Hc HU Hroom Ht Hs. destruct Hc as [->|Hc].
  { destruct (kill_case m w own gs s hs n p m' r M Hs) as (w' & gs' & s' & A & B). exists w', own, gs', s'. unfold wcount. cbn [is_write]. rewrite N.add_0_r. auto. }
  assert (WC : apart_from (rest own p w) e -> apart_from (gs p) e -> may guest w s p e ->
    exists w' own' gs' s', vstep canon guest s p e r s' /\ MInv m' w' own' gs' s' (opened canon hs p e) (n + wcount e)).
  { intros A B C. destruct (writer_case m w own gs s hs n p e m' r M Hc HU Hroom A B C Hs) as (w' & own' & s' & D). exists w', own', gs, s'. exact D. }
  assert (VH' : forall h, (exists f, step E (join (m_disk m) (proc m p)) e = with_handle (join (m_disk m) (proc m p)) h f) ->
    exists hd, w_handles (join (m_disk m) (proc m p)) !! h = Some hd).
  { intros h [f F]. unfold mstep in Hs. rewrite F in Hs. destruct (with_handle _ h f) as [[w1 r1]|] eqn:X; [|discriminate]. eapply with_handle_inv, X. }
  pose proof (mi_V _ _ _ _ _ _ _ M) as V. pose proof (proj1 V) as W. pose proof (mi_compat _ _ _ _ _ _ _ M p) as C.
  destruct e as [h path key|h key v|h key|h key t|h key t|h key|h|h|h|h|i|]; cbn [call_ok in_U] in *; try contradiction.
  - (* open *)
    destruct (guest h) eqn:Hg.
    + destruct Hc as (_ & -> & _). destruct (visit_case m w own gs s hs n p h path _ m' r M HU eq_refl Hg Ht Hs) as (w' & gs' & s' & A & B).
      exists w', own, gs', s'. unfold wcount. cbn [is_write]. rewrite N.add_0_r. auto.
    + cbn [turn] in Ht. destruct Ht as [Hh Ht]. pose proof (no_handle _ _ _ _ _ _ _ h M Hh) as Hv. apply WC; cbn [apart_from may]; auto.
      * split; apply none_by.
        -- intros z Hz. apply rest_handles in Hz as [Hz _]. rewrite (own_handle _ _ _ _ _ _ _ h z M Hz) in Hv. discriminate.
        -- intros i Hi. apply rest_reg in Hi as [Hi Ho]. destruct (wi_reg _ _ _ _ _ _ _ W path i Hi) as (_ & x & Hx & Dx).
           destruct (wi_insts _ _ _ _ _ _ _ W i x Hx) as (_ & _ & _ & h' & hd' & Hh' & Hin). pose proof (own_handle _ _ _ _ _ _ _ h' hd' M Hh') as F.
           destruct (handle_cases E keyof U w _ _ n h' hd' W Hh') as (_ & _ & _ & _ & _ & z & Hz & Dz & _). rewrite Hin, Hx in Hz. injection Hz as <-.
           rewrite Hin, <- Dz, Dx in F. pose proof (mi_kind _ _ _ _ _ _ _ M _ _ _ _ F) as K.
           destruct (Ht h' (own i)) as [[G _]|[_ [G|G]]]; [apply (mi_hs _ _ _ _ _ _ _ M); eauto|congruence..].
      * destruct (mi_guest _ _ _ _ _ _ _ M p) as [G1 G2 G3 G4]. split; apply none_by.
        -- intros z Hz. destruct (G1 h z Hz) as (_ & _ & _ & S & x & F & _). congruence.
        -- intros i Hi. destruct (G2 path i Hi) as (h' & hd' & F1 & F2 & F3). destruct (G1 h' hd' F1) as (_ & _ & _ & S & x & F & _).
           pose proof (mi_kind _ _ _ _ _ _ _ M _ _ _ _ F) as K. rewrite F2 in F.
           destruct (Ht h' p) as [[_ G]|[G _]]; [apply (mi_hs _ _ _ _ _ _ _ M); eauto|congruence..].
  - cbn [turn] in Ht. destruct (VH' h) as [hd Hh]; [eexists; reflexivity|]. destruct (view_handle _ _ _ _ _ _ _ p h hd M Hh) as [(A1 & A2 & A3 & A4 & A5)|A].
    + apply WC; cbn [apart_from may]; eauto.
    + rewrite (guest_kind _ _ _ _ _ _ _ p h hd M A) in Ht. discriminate.
  - destruct (VH' h) as [hd Hh]; [eexists; reflexivity|]. destruct (view_handle _ _ _ _ _ _ _ p h hd M Hh) as [(A1 & A2 & A3 & A4 & A5)|A].
    + apply WC; cbn [apart_from may]; eauto.
    + destruct (read_case m w own gs s hs n p h hd key t m' r M Hc A Hs) as (gs' & B1 & B2). exists w, own, gs', s. unfold wcount. cbn [is_write]. rewrite N.add_0_r. auto.
  - cbn [turn] in Ht. destruct (VH' h) as [hd Hh]; [eexists; reflexivity|]. destruct (view_handle _ _ _ _ _ _ _ p h hd M Hh) as [(A1 & A2 & A3 & A4 & A5)|A].
    + apply WC; cbn [apart_from may]; eauto.
    + rewrite (guest_kind _ _ _ _ _ _ _ p h hd M A) in Ht. discriminate.
  - cbn [turn] in Ht. destruct (VH' h) as [hd Hh]; [eexists; reflexivity|]. destruct (view_handle _ _ _ _ _ _ _ p h hd M Hh) as [(A1 & A2 & A3 & A4 & A5)|A].
    + apply WC; cbn [apart_from may]; eauto.
    + rewrite (guest_kind _ _ _ _ _ _ _ p h hd M A) in Ht. discriminate.
  - destruct (VH' h) as [hd Hh]; [eexists; reflexivity|]. destruct (view_handle _ _ _ _ _ _ _ p h hd M Hh) as [(A1 & A2 & A3 & A4 & A5)|A].
    + apply WC; cbn [apart_from may]; eauto. eexists. split; [exact A5|]. intros h' q Hq. eapply one_writer; [exact M|exact A5|exact Hq].
    + destruct (leave_case m w own gs s hs n p h hd m' r M A Hs) as (gs' & s' & B1 & B2). exists w, own, gs', s'. unfold wcount. cbn [is_write]. rewrite N.add_0_r. auto.
  - destruct (w_insts (core own p w) !! i) as [x|] eqn:Hi.
    + pose proof Hi as Hci. apply core_insts in Hi as [Hi Ho]. apply WC; cbn [apart_from may].
      * apply none_by. intros z Hz. apply rest_insts in Hz as [_ Hz]. congruence.
      * apply none_by. intros z Hz. destruct (c_insts _ _ C i z Hz) as [K _]. congruence.
      * intros x' Hx'. rewrite Hi in Hx'. injection Hx' as <-. destruct (wi_insts _ _ _ _ _ _ _ W i x Hi) as (_ & _ & _ & h' & hd' & Hh' & Hin).
        pose proof (own_handle _ _ _ _ _ _ _ h' hd' M Hh') as F. destruct (handle_cases E keyof U w _ _ n h' hd' W Hh') as (_ & _ & _ & _ & _ & z & Hz & Dz & _).
        rewrite Hin, Hi in Hz. injection Hz as <-. rewrite Hin, Ho, <- Dz in F. exists h'. exact F.
    + destruct (idle_case m w own gs s hs n p i m' r M Hi Hs) as (gs' & A & B). exists w, own, gs', s. unfold wcount. cbn [is_write]. rewrite N.add_0_r. auto.
Qed.

Lemma MInv_init : MInv machine0 world0 (fun _ => 0) (fun _ => mem0) vspec0 ∅ 0.
Proof.
  assert (Z : forall p, core (fun _ => 0) p world0 = world0).
  { intros p. unfold core, world0. cbn [w_dirs w_inodes w_next_ino w_insts w_next_inst w_handles w_reg w_poison w_rng w_seed]. f_equal; apply map_filter_empty. }
  split.
  - intros p. rewrite Z. unfold proc. cbn [machine0 m_procs m_disk]. rewrite lookup_empty. cbn [default]. unfold ext. cbn [world0 w_dirs w_inodes w_next_ino w_insts w_next_inst w_handles w_reg w_poison w_rng w_seed mem0 p_insts p_handles p_reg]. rewrite !(right_id_L ∅ (∪)). reflexivity.
  - intros p. rewrite Z. split; cbn [mem0 p_insts p_handles p_reg world0 w_insts w_handles w_reg]; try (intros ? ?; rewrite lookup_empty; discriminate).
  - split.
    + apply (WInv_spec_ext E keyof U world0 spec0).
      * unfold spec_of. cbn. apply omap_empty.
      * intros d. rewrite spec_of_contents. reflexivity.
      * eapply (WInv_mono E); [reflexivity| |apply (WInv_init E keyof)]. intros d k S [-> ->]. reflexivity.
    + intros d k Hj. destruct Hj as [(i & x & Hx & _)|[_ ->]]; [cbn in Hx; rewrite lookup_empty in Hx; discriminate|reflexivity].
  - intros h hd q d. cbn. rewrite lookup_empty. discriminate.
  - intros p. split; cbn; try (intros ? ?; rewrite lookup_empty; discriminate).
  - intros h q d. cbn. rewrite !lookup_empty. split; [discriminate|]. intros (o & Ho). discriminate.
  - intros h q d o. cbn. rewrite lookup_empty. discriminate.
Qed.

Lemma mrun_ok es : forall m w own gs s hs n m' rs, MInv m w own gs s hs n -> Forall (fun e => e = EKill \/ call_ok E keyof e) (map snd es) ->
  Forall (in_U U) (map snd es) -> room E (n + writes (map snd es)) -> turns canon guest hs es -> mrun E m es = Some (m', rs) ->
  exists w' own' gs' s' hs', vrun canon guest s es rs s' /\ MInv m' w' own' gs' s' hs' (n + writes (map snd es)).
Proof.
  induction es as [|[p e] es IH]; intros m w own gs s hs n m' rs M Hc HU Hroom Ht Hrun; cbn [mrun map snd turns] in *.
  - injection Hrun as <- <-. exists w, own, gs, s, hs. split; [constructor|]. unfold writes. cbn. rewrite N.add_0_r. exact M.
  - rewrite writes_cons in *. apply Forall_cons in Hc as [Hc Hcs]. apply Forall_cons in HU as [HU HUs]. destruct Ht as [Ht Hts].
    destruct (mstep E m p e) as [[m1 r]|] eqn:Es; [|discriminate]. destruct (mrun E m1 es) as [[m2 rs2]|] eqn:Er; [|discriminate]. injection Hrun as <- <-.
    assert (Hroom1 : room E (n + wcount e)) by (eapply room_mono; [|exact Hroom]; lia).
    destruct (mstep_ok m w own gs s hs n p e m1 r M Hc HU Hroom1 Ht Es) as (w1 & own1 & gs1 & s1 & A & M1).
    rewrite N.add_assoc in *. destruct (IH m1 w1 own1 gs1 s1 _ _ m2 rs2 M1 Hcs HUs Hroom Hts Er) as (w2 & own2 & gs2 & s2 & hs2 & B & M2).
    exists w2, own2, gs2, s2, hs2. split; [econstructor; eassumption|exact M2].
Qed.

End Machine.
