(** C62: the process dies while threads are calling.  At every moment of every
    concurrent execution (Conc.v), what is on disk is what a linearization of
    the calls made so far leaves there, cut after the calls whose background
    jobs have been run. *)
From Verif Require Import Bytes Utf8 Proto ProtoFacts Value Codec Store StoreFacts Encrypt World Spec Hyps Refine WorldInv WorldStep Main Frames Reach Examples P_Map P_Store Damaged Crash P_Kill P_Kill2 P_Corrupt P_Enc P_Enc2 P_Damaged P_Fail Looper P_Loop Conc P_Conc.
From Coq Require Import ZifyBool ZifyNat ZifyN.
Local Open Scope N_scope.

(** * What the theorems speak about *)

(** The background jobs that have been queued and not run. *)
Definition unfinished (s : conc) : nat := length (l_buf (c_loop s) ++ l_queue (c_loop s)).

(** [s'] is what is found after a kill: in directory [d], where the calls of
    [lin] were made after [sp0], the state after all but the last [k] writing
    calls; elsewhere what the kill leaves of the earlier calls [es0]. *)
Record cut_back (canon : bytes -> bytes) (es0 : list event) (w0 : world) (sp0 : spec) (d : bytes)
    (lin : list (N * (N * cop) * result)) (k : nat) (s' : spec) : Prop := {
  cb_closed : sp_handles s' = ∅;
  cb_here : exists lin1 lin2 sp1, lin = lin1 ++ lin2 /\ spec_run canon sp0 (map lin_event lin1) = Some (sp1, map snd lin1) /\
    contents s' d = contents sp1 d /\ mutations canon sp1 d (map lin_event lin2) = k;
  cb_elsewhere : forall d', d' <> d -> exists es1 es2 s1 rs1, es0 = es1 ++ es2 /\ spec_run canon spec0 es1 = Some (s1, rs1) /\
    contents s' d' = contents s1 d' /\ jobs_left w0 d' (mutations canon s1 d' es2)
}.

(** * Proof *)

Section ConcKill.
Context (E : env) (keyof : bytes -> bytes) (es0 : list event) (w0 : world) (rs0 : list result) (sp0 : spec) (i : N) (x0 : inst).
Notation canon := (e_canon E).
Notation d0 := (i_dir x0).
Notation start := (start E keyof es0 w0 rs0 sp0 i x0).
Notation calls_ok := (calls_ok E keyof es0 sp0 x0).

(** Instances other than [i] are not touched. *)
Lemma run_job_others w j : j <> i -> w_insts (run_job E w i) !! j = w_insts w !! j.
Proof.
  intros Hj. unfold run_job. destruct (w_insts w !! i) as [x|]; [|reflexivity]. destruct (i_io x); [|reflexivity].
  destruct (i_queue x) as [|[m dup|] q]; [reflexivity| |].
  - destruct (write _ _ _ m dup) as [s b]. cbn. rewrite lookup_insert_ne by congruence. reflexivity.
  - cbn. rewrite lookup_insert_ne by congruence. reflexivity.
Qed.

Lemma run_job_dir w z : w_insts w !! i = Some z -> exists z', w_insts (run_job E w i) !! i = Some z' /\ i_dir z' = i_dir z.
Proof.
  intros Hz. unfold run_job. rewrite Hz. destruct (i_io z); [|eauto]. destruct (i_queue z) as [|[m dup|] q]; [eauto| |].
  - destruct (write _ _ _ m dup) as [st b]. cbn. rewrite lookup_insert. eauto.
  - cbn. rewrite lookup_insert. eauto.
Qed.

Lemma open_impl_insts w p k : w_insts (open_impl E w p k).1 = w_insts w.
Proof.
  unfold open_impl. destruct (e_dir_ok E p); [|reflexivity]. unfold open_config. destruct (d_data _); cbn [fst].
  all: destruct (feature_key _ k) as [kk|]; [|reflexivity]; unfold open_nonce.
  all: destruct (is_encrypted _); [destruct (init_nonce _ _)|]; destruct (open_file _ _ _ _) as [[s m]|]; reflexivity.
Qed.

Lemma others ls s : cexecn E i (conc0 w0 x0) ls s -> forall j, j <> i -> w_insts (l_cb (c_loop s)) !! j = w_insts w0 !! j.
Proof.
  induction 1 as [|ls s1 a s2 _ IH X]; intros j Hj; [reflexivity|]. specialize (IH j Hj). rewrite <- IH. clear IH.
  destruct X as [s h o|s c h o Hc He Hw|s c h o Hc He Hw Hr|s c h o f r Hc Hb|s c h o f j' Hc Hb|s c h o f Hc Hb|s c h o j' l Hc Hp|s l Hp|s c h o lc ok l Hc Hp
    |s c h o l Hc Hk Hch|s c h o l Hc Hk|s c h o ok l Hc Hk|s c h o hd w y Hc Hh Ho Hk|s c h o hd w y Hc Hh Ho Hk Ha|s c h o hd w Hc Hh Ho|s a l Hx|s c h o r Hc|s c h o r Hc]; try reflexivity.
  - inversion Hp; subst; reflexivity.
  - inversion Hp; subst; reflexivity.
  - inversion Hp; subst; reflexivity.
  - inversion Hk; subst; reflexivity.
  - inversion Hk; subst; reflexivity.
  - inversion Hk; subst; reflexivity.
  - cbn. rewrite lookup_insert_ne by congruence. change w with (w, Some y).1. rewrite <- Ho, open_impl_insts. reflexivity.
  - cbn. rewrite lookup_insert_ne by congruence. change w with (w, Some y).1. rewrite <- Ho, open_impl_insts. reflexivity.
  - cbn. change w with (w, @None inst).1. rewrite <- Ho, open_impl_insts. reflexivity.
  - assert (G : forall j0 t t' b, cexec E i j0 t = (t', b) -> w_insts t' !! j = w_insts t !! j).
    { intros j0 t t' b. unfold cexec. destruct (w_insts t !! i) as [x|]; [|intros [= <- <-]; reflexivity].
      intros [= <- <-]. rewrite run_job_others by exact Hj. cbn. rewrite lookup_insert_ne by congruence. reflexivity. }
    inversion Hx as [| | | | | |? c j0 b t _ _ Hj0|? c j0 b t _ _ Hj0|]; subst; try reflexivity; cbn; eapply G, Hj0.
Qed.

(** Background events neither change the specification nor count. *)
Lemma mutations_answered es : forall sp rs sp' d, spec_run canon sp es = Some (sp', rs) ->
  mutations canon sp d (map fst (answered es rs)) = mutations canon sp d es.
Proof.
  induction es as [|e es IH]; intros sp rs sp' d; cbn [spec_run]; [intros [= <- <-]; reflexivity|].
  destruct (spec_step canon sp e) as [[s1 r]|] eqn:Es; [|discriminate]. destruct (spec_run canon s1 es) as [[s2 rs2]|] eqn:Er; [|discriminate].
  intros [= <- <-]. specialize (IH _ _ _ d Er).
  destruct e; cbn [answered map fst mutations]; rewrite ?Es, ?IH; try reflexivity.
  cbn in Es. injection Es as <- _. exact IH.
Qed.

Lemma spec_run_length es : forall sp sp' rs, spec_run canon sp es = Some (sp', rs) -> length es = length rs.
Proof.
  induction es as [|e es IH]; intros sp sp' rs; cbn [spec_run]; [intros [= <- <-]; reflexivity|].
  destruct (spec_step canon sp e) as [[s1 r]|]; [|discriminate]. destruct (spec_run canon s1 es) as [[s2 rs2]|] eqn:Er; [|discriminate].
  intros [= <- <-]. cbn. f_equal. eapply IH, Er.
Qed.

Lemma map_app_inv {A B} (f : A -> B) l : forall l1 l2, map f l = l1 ++ l2 -> exists a b, l = a ++ b /\ map f a = l1 /\ map f b = l2.
Proof. intros l1 l2 H. apply map_eq_app in H. exact H. Qed.

(** A prefix of the events is a prefix of the linearization. *)
Lemma cut_lin es1 es2 rs lin sp : spec_run canon sp0 (es1 ++ es2) = Some (sp, rs) -> answered (es1 ++ es2) rs = map linev lin ->
  exists lin1 lin2 s1 rs1, lin = lin1 ++ lin2 /\ spec_run canon sp0 es1 = Some (s1, rs1) /\
    spec_run canon sp0 (map lin_event lin1) = Some (s1, map snd lin1) /\
    forall d, mutations canon s1 d (map lin_event lin2) = mutations canon s1 d es2.
Proof.
  intros Hs Ha. rewrite spec_run_app in Hs. destruct (spec_run canon sp0 es1) as [[s1 rs1]|] eqn:E1; [|discriminate].
  destruct (spec_run canon s1 es2) as [[s2 rs2]|] eqn:E2; [|discriminate]. injection Hs as <- <-.
  rewrite answered_app in Ha by (eapply spec_run_length, E1). symmetry in Ha. apply map_app_inv in Ha as (l1 & l2 & -> & A1 & A2).
  exists l1, l2, s1, rs1. split_and!; auto.
  - apply spec_answered in E1. rewrite <- A1, map_map, map_map in E1. exact E1.
  - intros d. apply (mutations_answered _ _ _ _ d) in E2. rewrite <- A2, map_map in E2. exact E2.
Qed.

(** The invariant where the history of [d0] begins at [sp0]. *)
Definition hist1 (d : bytes) (k : nat) (S : smap) : Prop :=
  if decide (d = d0) then k = 0%nat /\ S = contents sp0 d else hist E spec0 (hist0 spec0) es0 d k S.

Lemma WInv_hist1 : start -> WInv E keyof (PU es0) w0 sp0 hist1 (writes es0).
Proof.
  intros [HO Hr Hsp Hx Hq]. destruct (reach E keyof es0 HO w0 rs0 Hr) as (sp & Hsp' & W). rewrite Hsp in Hsp'. injection Hsp' as <-.
  destruct W as [A1 A2 A3 A4 A5 A6 A7 A8] eqn:EW. split; auto.
  - intros d. unfold hist1. destruct (decide _); auto.
  - intros j x Hj. destruct (A5 j x Hj) as (B1 & B2 & B3). split; [exact B1|]. split; [|exact B3].
    unfold hist1. destruct (decide (i_dir x = d0)) as [Hd|Hd]; [|exact B2].
    assert (j = i) as -> by (eapply (inst_unique E keyof (PU es0) (PU_inj E keyof es0 HO)); [exact W|exact Hj|exact Hx|exact Hd]).
    rewrite Hx in Hj. injection Hj as <-.
    destruct B2 as [C1 C2 C3 C4 C5 C6 C7 C8 (q & rs & c & D1 & D2 & D3 & D4 & D5 & D6 & D7)]. split; auto.
    rewrite Hq in D1. symmetry in D1. apply map_eq_nil in D1 as ->.
    exists [], rs, c. split_and!; auto. intros k Hk. exists (contents sp0 d0). split; [split; [cbn in *; lia|reflexivity]|].
    assert (k = 0%nat) as -> by (cbn in Hk; lia). cbn in *. rewrite <- D5. exact D6.
Qed.

(** Calls of the linearization go to [d0]. *)
Definition here (lin : list (N * (N * cop) * result)) : Prop := forall y, y ∈ lin -> sp_handles sp0 !! y.1.2.1 = Some d0.

Lemma here_step h o sp sp' r : sp_handles sp !! h = Some d0 -> spec_step canon sp (event_of h o) = Some (sp', r) ->
  sp_handles sp' = sp_handles sp /\ forall d, d <> d0 -> contents sp' d = contents sp d /\ mutates sp d (event_of h o) = false.
Proof.
  intros Hh Hs. destruct o; cbn in Hs; rewrite Hh in Hs; injection Hs as <- _; (split; [reflexivity|]); intros d Hd; cbn.
  all: split; [unfold contents, set_contents; cbn; rewrite ?lookup_insert_ne by congruence; reflexivity|].
  all: try reflexivity; apply bool_decide_eq_false_2; rewrite Hh; intros Q; first [congruence|destruct Q; congruence].
Qed.

Lemma here_quiet lin : forall sp sp' rs d, (forall y, y ∈ lin -> sp_handles sp !! y.1.2.1 = Some d0) ->
  spec_run canon sp (map lin_event lin) = Some (sp', rs) -> d <> d0 ->
  sp_handles sp' = sp_handles sp /\ contents sp' d = contents sp d /\ mutations canon sp d (map lin_event lin) = 0%nat.
Proof.
  induction lin as [|[[c [h o]] r] lin IH]; intros sp sp' rs d Hh; cbn [map spec_run mutations]; [intros [= <- <-]; auto|].
  destruct (spec_step canon sp _) as [[s1 r1]|] eqn:Es; [|discriminate]. destruct (spec_run canon s1 _) as [[s2 rs2]|] eqn:Er; [|discriminate].
  intros [= <- <-] Hd. pose proof (Hh _ (elem_of_list_here _ _)) as H1. cbn in H1.
  destruct (here_step h o sp s1 r1 H1 Es) as [Hs Hc]. destruct (Hc d Hd) as [Hc1 Hm]. change (lin_event (c, (h, o), r)) with (event_of h o). rewrite Hm.
  destruct (IH s1 s2 rs2 d) as (K1 & K2 & K3); auto.
  - intros y Hy. rewrite Hs. apply Hh. right. exact Hy.
  - rewrite K1, K2, K3. auto.
Qed.

(** A kill between background jobs after a run that corresponds to [lin]. *)
Lemma kill_run lin es rs w n q : start -> run E w0 es = Some (w, rs) -> answered es rs = map linev lin -> here lin ->
  Forall (call_ok E keyof) es -> paths es = [] -> writes es <= n -> room E (writes es0 + n) ->
  (forall j, j <> i -> w_insts w !! j = w_insts w0 !! j) -> (exists y, w_insts w !! i = Some y /\ i_dir y = d0 /\ length (i_queue y) = q) ->
  exists s', cut_back canon es0 w0 sp0 d0 lin q s' /\ goes_on E keyof (writes es0 + n) (killed w) s' /\
    inodes_ok w /\ forall d, dir_ok E keyof (killed w) (contents s' d) (writes es0 + n) d.
Proof.
  intros St Hrun Hans Hhere Hok Hp Hw Hroom Hoth (y & Hy & Dy & Ly). pose proof St as [HO Hr Hsp Hx Hq].
  pose proof (WInv_hist1 St) as W0.
  assert (HU : Forall (in_U (PU es0)) es).
  { apply List.Forall_forall. intros e He. destruct e; cbn; auto. exfalso. assert (X : In path (paths es)); [|rewrite Hp in X; exact X].
    apply in_flat_map. eexists. split; [exact He|]. left. reflexivity. }
  assert (Hroom' : room E (writes es0 + writes es)) by (eapply room_mono; [|exact Hroom]; lia).
  pose proof (run_ok E (or_env _ _ _ HO) keyof _ (PU_dir E keyof _ HO) (PU_key E keyof _ HO) (PU_inj E keyof _ HO) es w0 sp0 hist1 _ W0 Hok HU Hroom') as G.
  rewrite Hrun in G. destruct (spec_run canon sp0 es) as [[sp rs']|] eqn:Hs; [|contradiction]. destruct G as [<- W].
  destruct (kill_ok E keyof _ (PU_inj E keyof _ HO) w sp _ _ W) as (s' & Hh' & W' & Hd). exists s'. split.
  - split; [exact Hh'| |].
    + destruct (Hd d0) as (k & Hk & HH).
      assert (k = q) as ->.
      { destruct Hk as [(j & z & Hj & Dz & ->)|[Hn _]]; [|destruct (Hn i y Hy Dy)].
        assert (j = i) as -> by (eapply (inst_unique E keyof _ (PU_inj E keyof es0 HO)); [exact W|exact Hj|exact Hy|congruence]).
        rewrite Hy in Hj. injection Hj as <-. exact Ly. }
      assert (G : exists es1 es2 s rs1, es = es1 ++ es2 /\ spec_run canon sp0 es1 = Some (s, rs1) /\ contents s d0 = contents s' d0 /\ mutations canon s d0 es2 = q).
      { destruct (hist_sound E keyof _ (PU_dir E keyof _ HO) (PU_key E keyof _ HO) (PU_inj E keyof _ HO) es sp0 hist1 d0 q _ sp rs Hs HH) as [(k' & Hk' & Ek)|G]; [|exact G].
        unfold hist1 in Hk'. destruct (decide (d0 = d0)) as [_|Hne]; [|contradiction]. destruct Hk' as [-> HS].
        exists [], es, sp0, []. split_and!; auto. }
      destruct G as (es1 & es2 & s & rs1 & -> & G1 & G2 & G3).
      destruct (cut_lin es1 es2 rs lin sp Hs Hans) as (l1 & l2 & s1 & rs2 & -> & K1 & K2 & K3). rewrite G1 in K1. injection K1 as <- <-.
      exists l1, l2, s. split_and!; auto. rewrite K3. exact G3.
    + intros d' Hd'. destruct (Hd d') as (k & Hk & HH).
      assert (Hk0 : jobs_left w0 d' k).
      { destruct Hk as [(j & z & Hj & Dz & ->)|[Hn ->]].
        - left. exists j, z. rewrite <- Hoth; auto. intros ->. rewrite Hy in Hj. injection Hj as <-. congruence.
        - right. split; [|reflexivity]. intros j z Hj. destruct (decide (j = i)) as [->|Hne].
          + rewrite Hx in Hj. injection Hj as <-. congruence.
          + apply (Hn j). rewrite Hoth; auto. }
      assert (Hmut : forall l1 l2 s1 r1, lin = l1 ++ l2 -> spec_run canon sp0 (map lin_event l1) = Some (s1, r1) ->
        contents s1 d' = contents sp0 d' /\ forall s2 r2, spec_run canon s1 (map lin_event l2) = Some (s2, r2) -> mutations canon s1 d' (map lin_event l2) = 0%nat).
      { intros l1 l2 s1 r1 -> H1. destruct (here_quiet l1 sp0 s1 r1 d') as (A & B & _); auto.
        - intros z Hz. apply Hhere, elem_of_app. auto.
        - split; [exact B|]. intros s2 r2 H2. eapply (here_quiet l2 s1 s2 r2 d'); auto. intros z Hz. rewrite A. apply Hhere, elem_of_app. auto. }
      pose proof (spec_answered _ _ _ _ _ Hs) as Hsl. rewrite Hans, linev_event, linev_res in Hsl.
      destruct (hist_sound E keyof _ (PU_dir E keyof _ HO) (PU_key E keyof _ HO) (PU_inj E keyof _ HO) es sp0 hist1 d' k _ sp rs Hs HH)
        as [(k' & Hk' & Ek)|(es1 & es2 & s & rs1 & -> & G1 & G2 & G3)].
      * unfold hist1 in Hk'. destruct (decide (d' = d0)) as [?|_]; [contradiction|].
        assert (M0 : mutations canon sp0 d' es = 0%nat).
        { rewrite <- (mutations_answered _ _ _ _ d' Hs), Hans, linev_event.
          destruct (Hmut [] lin sp0 [] eq_refl eq_refl) as [_ H2]. eapply H2, Hsl. }
        rewrite M0, Nat.add_0_r in Ek. subst k'.
        destruct (hist0_sound E keyof _ (PU_dir E keyof _ HO) (PU_key E keyof _ HO) (PU_inj E keyof _ HO) spec0 es0 d' k _ sp0 rs0 Hsp Hk')
          as (e1 & e2 & s1 & r1 & A & B & C & D).
        exists e1, e2, s1, r1. split_and!; auto. rewrite D. exact Hk0.
      * destruct (cut_lin es1 es2 rs lin sp Hs Hans) as (l1 & l2 & s1 & rs2 & El & K1 & K2 & K3). rewrite G1 in K1. injection K1 as <- <-.
        destruct (Hmut l1 l2 s _ El K2) as [C1 C2].
        rewrite El, map_app, spec_run_app, K2 in Hsl. destruct (spec_run canon s (map lin_event l2)) as [[s3 r3]|] eqn:E3; [|discriminate].
        specialize (C2 _ _ eq_refl). rewrite K3, G3 in C2. subst k.
        exists es0, [], sp0, rs0. split_and!; auto; [rewrite app_nil_r; reflexivity|congruence|]. cbn. rewrite C2 in Hk0. exact Hk0.
  - assert (HD : forall d, dir_ok E keyof (killed w) (contents s' d) (writes es0 + n) d).
    { intros d. eapply (dir_ok_frame E keyof (killed w) (killed w)); [reflexivity|intros; reflexivity| |apply (wi_dirs _ _ _ _ _ _ _ W' d)]; [lia|].
      intros j z Hz. unfold killed in Hz. cbn in Hz. rewrite lookup_empty in Hz. discriminate Hz. }
    assert (Hi : inodes_ok w) by (split; [apply (wi_fresh _ _ _ _ _ _ _ W)|apply (wi_ino _ _ _ _ _ _ _ W)]).
    split_and!; auto. apply (quiet_goes_on E (damaged E) (damaged_law E)); [apply quiet_killed|exact Hh'|exact Hi|].
    intros d. apply (dir_ok_damaged E keyof _ _ _ _ (or_env _ _ _ HO)), HD.
Qed.

(** clear_data in its late phase may be put at the end of the linearization. *)
Lemma lin_clear ls st n lin c h o r : HistInv ls st n lin -> st c = Some ((h, o), None) -> linearization ls (lin ++ [(c, (h, o), r)]).
Proof.
  intros H Hc. pose proof (Hist_lin ls st (fun d => if decide (d = c) then Some ((h, o), Some r) else st d) n lin c h o r H Hc (fun d => eq_refl)) as H2.
  apply hist_lin in H2. destruct H2 as [A1 A2 A3 A4]. split; auto.
  - intros d h' o' r' X. apply A2 in X. apply in_csnoc in X as [X|X]; [exact X|discriminate X].
  - intros d r' X. apply A3. apply in_csnoc. auto.
  - intros d r' d' h' o' X. apply (A4 d r' d' h' o'). apply earlier_app, X.
Qed.

Lemma hist_here ls st n lin : calls_ok ls -> HistInv ls st n lin -> here lin.
Proof. intros [Ok _] H [[c [h o]] r] Hy. cbn. eapply Ok, (hi_called _ _ _ _ H), Hy. Qed.

(** Every moment of a concurrent execution has a sequential run with the same
    files; late in a clear_data the run ends before it. *)
Inductive twin_kind (ls : list clabel) (s : conc) (lin : list (N * (N * cop) * result)) (w : world) (x y : inst) : Prop :=
| tw_calls : linearization ls lin -> killed w = killed (l_cb (c_loop s)) -> (exists f, y = i_glue x f (map snd (l_buf (c_loop s) ++ l_queue (c_loop s)))) ->
    (forall c h o, c_calls s !! c <> Some (AOpen, (h, o))) -> twin_kind ls s lin w x y
| tw_clearing c h : linearization ls (lin ++ [(c, (h, CClear), ROk None)]) -> sp_handles sp0 !! h = Some d0 -> killed w = killed (l_cb (c_loop s)) ->
    (exists f, clearing y = i_glue x f (map snd (l_buf (c_loop s) ++ l_queue (c_loop s)))) ->
    (forall c h o, c_calls s !! c <> Some (AOpen, (h, o))) -> twin_kind ls s lin w x y
| tw_removed c h meta : linearization ls (lin ++ [(c, (h, CClear), ROk None)]) -> sp_handles sp0 !! h = Some d0 -> i_queue y = [] ->
    l_buf (c_loop s) ++ l_queue (c_loop s) = [] -> killed (l_cb (c_loop s)) = emptied E w d0 None meta (w_rng w) ->
    (forall c1 h1 o1, c_calls s !! c1 = Some (AOpen, (h1, o1)) -> c1 = c /\ h1 = h) -> twin_kind ls s lin w x y.

Lemma twin ls s : start -> calls_ok ls -> cexecn E i (conc0 w0 x0) ls s ->
  exists lin es rs w x y, linearization ls lin /\ here lin /\ run E w0 es = Some (w, rs) /\ answered es rs = map linev lin /\
    Forall (call_ok E keyof) es /\ paths es = [] /\ writes es <= N.of_nat (length (inv_ids ls)) /\
    (forall j, j <> i -> w_insts w !! j = w_insts w0 !! j) /\ w_insts w !! i = Some y /\ i_dir y = d0 /\
    w_insts (l_cb (c_loop s)) !! i = Some x /\ twin_kind ls s lin w x y.
Proof.
  intros St Ok X. pose proof (calls_ok_fit E keyof es0 w0 rs0 sp0 i x0 ls St Ok) as Fit. pose proof St as [HO Hr Hsp Hx Hq].
  pose proof (others ls s X) as Oth.
  destruct (Sim_exec E keyof i es0 w0 rs0 x0 HO Hr Hx Hq ls s X Fit) as (L & [(lin & es & rs & x & af & [A1 A2 A3 A4 A5 A6 A7 Ad A8 A9 Ac A10])
    |(lin & es & rs & x & af & c & h & wa & xa & pend & [A1 A2 A3 A4 A5 A6 A7 Aa Ad A8 A9 Ac Aj A10])]).
  - pose proof (Hist_length _ _ _ _ A10) as HL.
    exists lin, es, rs, (set_inst (l_cb (c_loop s)) i (i_glue x af (map snd (l_buf (c_loop s) ++ l_queue (c_loop s))))), x,
      (i_glue x af (map snd (l_buf (c_loop s) ++ l_queue (c_loop s)))). split_and!; auto.
    + eapply hist_lin, A10.
    + eapply hist_here; eassumption.
    + lia.
    + intros j Hj. cbn. rewrite lookup_insert_ne by congruence. apply Oth, Hj.
    + apply lookup_insert.
    + apply tw_calls; [eapply hist_lin, A10|reflexivity|eauto|]. intros c h o Hc. destruct Ac as [_ Ac]. apply (Ac _ _ _ _ Hc).
  - pose proof (Hist_length _ _ _ _ A10) as HL.
    set (g := i_glue xa af pend) in *. set (wb := set_inst wa i g) in *.
    assert (R : room E (writes es0 + N.of_nat (length lin))) by (eapply room_mono; [|apply (proj2 Ok)]; lia).
    destruct (lin_spec E keyof es0 w0 rs0 sp0 i x0 lin es rs wb _ St A1 A2 A3 A4 A5 R) as (sp & Hs & _ & O' & Hr' & Hs').
    assert (Hg : w_insts wb !! i = Some g) by apply lookup_insert.
    destruct A9 as (p & Hc & Hp).
    assert (Hst : status s c = Some ((h, CClear), None)).
    { unfold status. rewrite Hc. cbn [snd]. destruct p; try contradiction; reflexivity. }
    destruct (hi_before _ _ _ _ A10 c h CClear Hst) as [Hin _]. pose proof (proj2 (proj1 Ok c h CClear Hin)) as Hh.
    pose proof (lin_clear ls _ _ lin c h CClear (ROk None) A10 Hst) as Hl.
    assert (Hopen : forall c1 h1 o1, c_calls s !! c1 = Some (AOpen, (h1, o1)) -> c1 = c /\ h1 = h).
    { intros c' h' o' Hc'.
      assert (S' : SimC E keyof i w0 x0 ls s lin es rs x af c h wa xa pend) by (split; auto; exists p; auto).
      destruct (SimC_others E keyof i es0 w0 rs0 x0 HO Hr Hx Hq ls s lin es rs x af c h wa xa pend c' AOpen h' o' L S' Hc') as [_ N].
      destruct (decide (c' = c)) as [->|Hne]; [|discriminate (N Hne)]. rewrite Hc in Hc'. injection Hc' as _ -> _. auto. }
    destruct Aj as (k & Hk & Hit).
    change (i_glue xa (cleared af) (pend ++ [JRemove])) with (clearing g) in Hit.
    assert (Hit' : work_on E i k (set_inst wb i (clearing g)) =
      set_inst (l_cb (c_loop s)) i (i_glue x (cleared af) (map snd (l_buf (c_loop s) ++ l_queue (c_loop s))))).
    { unfold wb. rewrite set_inst_twice. exact Hit. }
    assert (Hans : forall m, answered (es ++ replicate m (EIo i)) (rs ++ replicate m (ROk None)) = map linev lin).
    { intros m. rewrite answered_app by (eapply (run_length' E), A1). rewrite A2.
      assert (N : answered (replicate m (EIo i)) (replicate m (ROk None)) = []) by (clear; induction m as [|m IH]; [reflexivity|exact IH]).
      rewrite N, app_nil_r. reflexivity. }
    assert (Hio : forall m, Forall (call_ok E keyof) (es ++ replicate m (EIo i)) /\ paths (es ++ replicate m (EIo i)) = [] /\ writes (es ++ replicate m (EIo i)) = writes es).
    { intros m. split_and!.
      - apply Forall_app. split; [exact A3|]. apply Forall_replicate. exact Logic.I.
      - rewrite paths_app, A4. clear. induction m as [|m IH]; [reflexivity|exact IH].
      - rewrite writes_app. assert (N : writes (replicate m (EIo i)) = 0) by (clear; induction m as [|m IH]; [reflexivity|]; cbn [replicate]; rewrite writes_cons, IH; reflexivity).
        lia. }
    assert (Hrun : forall m, run E w0 (es ++ replicate m (EIo i)) = Some (work_on E i m wb, rs ++ replicate m (ROk None))).
    { intros m. rewrite run_app, A1, work_on_run. reflexivity. }
    assert (Hd : i_dir g = d0).
    { destruct (reach E keyof _ O' _ _ Hr') as (sp' & Hsp' & W).
      change (i_dir g) with (i_dir xa). revert Hit. clear -Ad Hq. generalize (l_buf (c_loop s) ++ l_queue (c_loop s)). intros l Hit.
      assert (G : forall n w z, w_insts w !! i = Some z -> exists z', w_insts (Nat.iter n (fun w => run_job E w i) w) !! i = Some z' /\ i_dir z' = i_dir z).
      { induction n as [|n IH]; intros w z Hz; [eauto|]. rewrite Nat.iter_succ. destruct (IH w z Hz) as (z1 & Z1 & Z2).
        destruct (run_job_dir _ _ Z1) as (z2 & Z3 & Z4). exists z2. split; [exact Z3|congruence]. }
      destruct (G k (set_inst wa i (clearing g)) (clearing g) (lookup_insert _ _ _)) as (z' & Z1 & Z2). rewrite Hit in Z1. cbn in Z1. rewrite lookup_insert in Z1.
      injection Z1 as <-. cbn in Z2. congruence. }
    destruct (decide (k <= length pend)%nat) as [Hkp|Hkp].
    + destruct (work_on_clearing E keyof (es0 ++ es) wb _ i g O' Hr' Hg k Hkp) as (y & Hy & Hly & Hyio & Hdy & Hw).
      rewrite Hw in Hit'. destruct (Hio k) as (I1 & I2 & I3).
      exists lin, (es ++ replicate k (EIo i)), (rs ++ replicate k (ROk None)), (work_on E i k wb), x, y. split_and!; auto.
      * eapply hist_lin, A10.
      * eapply hist_here; eassumption.
      * lia.
      * intros j Hj. rewrite <- (Oth j Hj). apply (f_equal (fun w => w_insts w !! j)) in Hit'. cbn in Hit'. rewrite !lookup_insert_ne in Hit' by congruence. exact Hit'.
      * congruence.
      * apply (tw_clearing ls s lin _ x y c h); auto.
        -- apply (f_equal killed) in Hit'. exact Hit'.
        -- exists (cleared af). apply (f_equal (fun w => w_insts w !! i)) in Hit'. cbn in Hit'. rewrite !lookup_insert in Hit'. congruence.
        -- intros c' h' o' Hc'.
           destruct (Hopen c' h' o' Hc') as [-> ->]. rewrite Hc in Hc'. injection Hc' as -> _. cbn in Hp.
           pose proof (k_loop _ L) as SI. pose proof (s_join _ SI true Hp) as J. destruct (s_done _ SI J) as [_ Q]. pose proof (s_buf _ SI) as SB. rewrite J in SB.
           rewrite SB, Q in Hk. cbn in Hk. lia.
    + assert (k = S (length pend)) as -> by lia.
      assert (Hnil : l_buf (c_loop s) ++ l_queue (c_loop s) = []) by (apply nil_length_inv; lia).
      destruct (work_on_clearing E keyof (es0 ++ es) wb _ i g O' Hr' Hg (length pend) (le_n _)) as (y & Hy & Hly & Hyio & Hdy & Hw).
      change (length (i_queue g)) with (length pend) in Hly. rewrite Nat.sub_diag in Hly. apply nil_length_inv in Hly.
      change (work_on E i (S (length pend)) (set_inst wb i (clearing g))) with (run_job E (work_on E i (length pend) (set_inst wb i (clearing g))) i) in Hit'.
      rewrite Hw in Hit'. set (w1 := work_on E i (length pend) wb) in *.
      set (dd := Dir None (if is_encrypted (e_feat E) then None else d_meta (dir_of w1 d0))).
      assert (Hdy' : i_dir y = d0) by congruence.
      assert (Hrj : run_job E (set_inst w1 i (clearing y)) i = set_inst (set_dir w1 d0 dd) i (i_with_queue (clearing y) [])).
      { unfold run_job. cbn [set_inst set_insts w_insts]. rewrite lookup_insert. cbn [clearing i_with_queue i_io i_invalid i_queue i_dir]. rewrite Hyio, Hly, Hdy'. cbn [app].
        unfold set_inst, set_insts, set_dir. cbn. rewrite insert_insert. reflexivity. }
      rewrite Hrj in Hit'. destruct (Hio (length pend)) as (I1 & I2 & I3).
      exists lin, (es ++ replicate (length pend) (EIo i)), (rs ++ replicate (length pend) (ROk None)), w1, x, y. split_and!; auto.
      * eapply hist_lin, A10.
      * eapply hist_here; eassumption.
      * apply Hrun.
      * lia.
      * intros j Hj. rewrite <- (Oth j Hj). apply (f_equal (fun w => w_insts w !! j)) in Hit'. cbn in Hit'. rewrite !lookup_insert_ne in Hit' by congruence. exact Hit'.
      * apply (tw_removed ls s lin w1 x y c h (d_meta dd)); auto.
        apply (f_equal killed) in Hit'. unfold killed in Hit' at 2. unfold killed at 1. cbn in Hit'. rewrite <- Hit'. reflexivity.
Qed.

Lemma mutations_app a : forall b s s1 r1 d, spec_run canon s a = Some (s1, r1) ->
  mutations canon s d (a ++ b) = (mutations canon s d a + mutations canon s1 d b)%nat.
Proof.
  induction a as [|e a IH]; intros b s s1 r1 d; cbn [spec_run app mutations]; [intros [= <- <-]; reflexivity|].
  destruct (spec_step canon s e) as [[s2 r]|]; [|discriminate]. destruct (spec_run canon s2 a) as [[s3 r3]|] eqn:Er; [|discriminate].
  intros [= <- <-]. rewrite (IH _ _ _ _ d Er). lia.
Qed.

Lemma cut_spec lin1 lin2 sp sp1 : spec_run canon sp0 (map lin_event (lin1 ++ lin2)) = Some (sp, map snd (lin1 ++ lin2)) ->
  spec_run canon sp0 (map lin_event lin1) = Some (sp1, map snd lin1) -> spec_run canon sp1 (map lin_event lin2) = Some (sp, map snd lin2).
Proof.
  rewrite !map_app, spec_run_app. intros H H1. rewrite H1 in H. destruct (spec_run canon sp1 _) as [[s r]|]; [|discriminate]. injection H as -> H.
  apply app_inv_head in H. congruence.
Qed.

Lemma lin_handles lin sp : here lin -> spec_run canon sp0 (map lin_event lin) = Some (sp, map snd lin) -> sp_handles sp = sp_handles sp0.
Proof.
  intros Hh Hs. destruct (here_quiet lin sp0 sp _ (x00 :: d0) Hh Hs) as [A _]; [|exact A]. intros Q. apply (f_equal length) in Q. cbn in Q. lia.
Qed.

Lemma clear_spec lin c h sp : here lin -> sp_handles sp0 !! h = Some d0 -> spec_run canon sp0 (map lin_event lin) = Some (sp, map snd lin) ->
  spec_run canon sp0 (map lin_event (lin ++ [(c, (h, CClear), ROk None)])) = Some (set_contents sp d0 ∅, map snd (lin ++ [(c, (h, CClear), ROk None)])).
Proof.
  intros Hh H0 Hs. rewrite !map_app, spec_run_app, Hs. cbn. rewrite (lin_handles _ _ Hh Hs), H0. reflexivity.
Qed.

(** * C62 *)

Theorem C62_kill_among_concurrent_calls ls s :
  start -> calls_ok ls -> cexecn E i (conc0 w0 x0) ls s ->
  exists lin sp s', linearization ls lin /\ spec_run canon sp0 (map lin_event lin) = Some (sp, map snd lin) /\
    cut_back canon es0 w0 sp0 d0 lin (unfinished s) s' /\
    goes_on E keyof (writes es0 + N.of_nat (length (inv_ids ls))) (killed (l_cb (c_loop s))) s'.
Proof.
  intros St Ok X. pose proof St as [HO Hr Hsp Hx Hq].
  destruct (twin ls s St Ok X) as (lin & es & rs & w & x & y & Hlin & Hhere & Hrun & Hans & Hok & Hp & Hw & Hoth & Hy & Dy & Hxx & K).
  destruct (lin_spec E keyof es0 w0 rs0 sp0 i x0 lin es rs w _ St Hrun Hans Hok Hp Hw (proj2 Ok)) as (sp & Hs & _).
  destruct (kill_run lin es rs w _ (length (i_queue y)) St Hrun Hans Hhere Hok Hp Hw (proj2 Ok) Hoth) as (s' & Hcut & Hgo & Hi & HD); [eauto|].
  destruct K as [Hl Hk [f Ey] _|c h Hl Hh Hk [f Ey] _|c h meta Hl Hh Hqy Hnil Hk _].
  - exists lin, sp, s'. rewrite <- Hk. split_and!; auto. assert (Q : length (i_queue y) = unfinished s); [|rewrite <- Q; exact Hcut].
    rewrite Ey. cbn. apply map_length.
  - exists (lin ++ [(c, (h, CClear), ROk None)]), (set_contents sp d0 ∅), s'. rewrite <- Hk. split_and!; auto; [apply clear_spec; auto|].
    assert (Q : S (length (i_queue y)) = unfinished s).
    { apply (f_equal (fun y => length (i_queue y))) in Ey. cbn in Ey. rewrite app_length, map_length in Ey. unfold unfinished. cbn in Ey. lia. }
    destruct Hcut as [C1 (l1 & l2 & sp1 & El & C2 & C3 & C4) C5]. split; auto.
    exists l1, (l2 ++ [(c, (h, CClear), ROk None)]), sp1. split_and!; auto; [rewrite El, app_assoc; reflexivity|].
    rewrite map_app. rewrite El in Hs. rewrite (mutations_app _ _ _ _ _ d0 (cut_spec l1 l2 sp sp1 Hs C2)), C4. cbn.
    rewrite <- El in Hs. rewrite (lin_handles lin sp Hhere Hs). rewrite bool_decide_eq_true_2 by exact Hh. rewrite Hh. lia.
  - exists (lin ++ [(c, (h, CClear), ROk None)]), (set_contents sp d0 ∅), (set_contents s' d0 ∅). pose proof (clear_spec lin c h sp Hhere Hh Hs) as Hs2.
    split_and!; auto.
    + destruct Hcut as [C1 _ C5]. split; [exact C1| |].
      * exists (lin ++ [(c, (h, CClear), ROk None)]), [], (set_contents sp d0 ∅). split_and!; auto; [rewrite app_nil_r; reflexivity| |].
        -- unfold contents, set_contents. cbn. rewrite !lookup_insert. reflexivity.
        -- unfold unfinished. rewrite Hnil. reflexivity.
      * intros d' Hd'. destruct (C5 d' Hd') as (e1 & e2 & s1 & r1 & B1 & B2 & B3 & B4). exists e1, e2, s1, r1. split_and!; auto.
        rewrite <- B3. unfold contents, set_contents. cbn. rewrite lookup_insert_ne by congruence. reflexivity.
    + rewrite Hk. apply emptied_goes_on; auto; [apply (or_env _ _ _ HO)|apply Hcut].
Qed.

Lemma mutations_none lin d : forall sp sp' rs, spec_run canon sp (map lin_event lin) = Some (sp', rs) ->
  mutations canon sp d (map lin_event lin) = 0%nat -> contents sp' d = contents sp d.
Proof.
  induction lin as [|[[c [h o]] r] lin IH]; intros sp sp' rs; cbn [map spec_run mutations]; [intros [= <- <-]; reflexivity|].
  destruct (spec_step canon sp _) as [[s1 r1]|] eqn:Es; [|discriminate]. destruct (spec_run canon s1 _) as [[s2 rs2]|] eqn:Er; [|discriminate].
  intros [= <- <-] Hm. rewrite (IH _ _ _ Er) by lia. change (lin_event (c, (h, o), r)) with (event_of h o) in *.
  destruct (mutates sp d (event_of h o)) eqn:Em; [lia|]. clear Hm IH Er.
  destruct o as [key v|key t|key|]; cbn in Es, Em; destruct (sp_handles sp !! h) as [e|] eqn:Eh; try discriminate; injection Es as <- _; try reflexivity;
    apply bool_decide_eq_false in Em; (destruct (decide (e = d)) as [->|Hne]; [|unfold contents, set_contents; cbn; rewrite lookup_insert_ne by exact Hne; reflexivity]).
  - congruence.
  - unfold contents at 1. unfold set_contents. cbn. rewrite lookup_insert. cbn. apply delete_notin.
    destruct (contents sp d !! key) eqn:Ek; [|exact Ek]. destruct Em. split; [reflexivity|eauto].
  - congruence.
Qed.

(** Nothing is lost once the background thread has nothing left to do: the
    state found is that after every call made so far (a call still waiting for
    the lock, or not yet past it, has done nothing). *)
Theorem C62_idle_loses_nothing ls s :
  start -> calls_ok ls -> cexecn E i (conc0 w0 x0) ls s -> l_buf (c_loop s) = [] -> l_queue (c_loop s) = [] ->
  exists lin sp s', linearization ls lin /\ spec_run canon sp0 (map lin_event lin) = Some (sp, map snd lin) /\
    sp_handles s' = ∅ /\ contents s' d0 = contents sp d0 /\
    goes_on E keyof (writes es0 + N.of_nat (length (inv_ids ls))) (killed (l_cb (c_loop s))) s'.
Proof.
  intros St Ok X Hb Hq. destruct (C62_kill_among_concurrent_calls ls s St Ok X) as (lin & sp & s' & A & B & [C1 (l1 & l2 & sp1 & -> & C2 & C3 & C4) _] & D).
  exists (l1 ++ l2), sp, s'. split_and!; auto. rewrite C3. symmetry. eapply mutations_none; [eapply cut_spec; eassumption|].
  rewrite C4. unfold unfinished. rewrite Hb, Hq. reflexivity.
Qed.

Lemma emptied_again w w' d m r data meta rng : killed w' = emptied E w d None m r -> emptied E w' d data meta rng = emptied E w d data meta rng.
Proof.
  intros H. unfold killed, emptied in H. injection H as H1 H2 H3 H4 H5 H6. unfold emptied, half_created. destruct data; rewrite H1, H2, H3, H4, H6, insert_insert; reflexivity.
Qed.

(** clear_data is one step when it opens the files again.  Whatever it has
    made of the new files when the process dies, the store is found empty, as
    after the clear. *)
Theorem C62_kill_while_clear_reopens ls s c h data meta rng :
  start -> calls_ok ls -> cexecn E i (conc0 w0 x0) ls s -> c_calls s !! c = Some (AOpen, (h, CClear)) ->
  (data = None \/ data = Some [] \/ data = Some (zeros (page (e_plat E)))) ->
  exists lin sp s', linearization ls lin /\ spec_run canon sp0 (map lin_event lin) = Some (sp, map snd lin) /\
    (c, (h, CClear), ROk None) ∈ lin /\ contents s' d0 = ∅ /\ cut_back canon es0 w0 sp0 d0 lin 0 s' /\
    goes_on E keyof (writes es0 + N.of_nat (length (inv_ids ls))) (emptied E (l_cb (c_loop s)) d0 data meta rng) s'.
Proof.
  intros St Ok X Hc Hdata. pose proof St as [HO Hr Hsp Hx Hq].
  destruct (twin ls s St Ok X) as (lin & es & rs & w & x & y & Hlin & Hhere & Hrun & Hans & Hok & Hp & Hw & Hoth & Hy & Dy & Hxx & K).
  destruct K as [_ _ _ N|? ? _ _ _ _ N|c' h' m Hl Hh Hqy Hnil Hk N]; [destruct (N _ _ _ Hc)..|]. destruct (N _ _ _ Hc) as [-> ->]. clear N. rename c' into c, h' into h.
  destruct (lin_spec E keyof es0 w0 rs0 sp0 i x0 lin es rs w _ St Hrun Hans Hok Hp Hw (proj2 Ok)) as (sp & Hs & _).
  destruct (kill_run lin es rs w _ (length (i_queue y)) St Hrun Hans Hhere Hok Hp Hw (proj2 Ok) Hoth) as (s' & Hcut & Hgo & Hi & HD); [eauto|].
  exists (lin ++ [(c, (h, CClear), ROk None)]), (set_contents sp d0 ∅), (set_contents s' d0 ∅). pose proof (clear_spec lin c h sp Hhere Hh Hs) as Hs2.
  assert (Hc0 : contents (set_contents s' d0 ∅) d0 = ∅) by (unfold contents, set_contents; cbn; rewrite lookup_insert; reflexivity).
  split_and!; auto.
  - apply elem_of_app. right. apply elem_of_list_here.
  - destruct Hcut as [C1 _ C5]. split; [exact C1| |].
    + exists (lin ++ [(c, (h, CClear), ROk None)]), [], (set_contents sp d0 ∅). split_and!; auto; [rewrite app_nil_r; reflexivity|].
      rewrite Hc0. unfold contents, set_contents. cbn. rewrite lookup_insert. reflexivity.
    + intros d' Hd'. destruct (C5 d' Hd') as (e1 & e2 & s1 & r1 & B1 & B2 & B3 & B4). exists e1, e2, s1, r1. split_and!; auto.
      rewrite <- B3. unfold contents, set_contents. cbn. rewrite lookup_insert_ne by congruence. reflexivity.
  - rewrite (emptied_again w _ d0 _ _ data meta rng Hk). apply emptied_goes_on; auto; [apply (or_env _ _ _ HO)|apply Hcut].
Qed.

(** Inside a background job: the process dies while a record is being
    written.  There is a sequential history, made of a linearization of the
    calls, in which the same job is running on the same file: everything
    proved about kills inside a job of a sequential history (C22, C23, C24)
    holds here. *)
Theorem C62_kill_inside_a_job ls s x c m dup b :
  start -> calls_ok ls -> cexecn E i (conc0 w0 x0) ls s ->
  w_insts (l_cb (c_loop s)) !! i = Some x -> l_buf (c_loop s) = (c, JWrite m dup) :: b ->
  exists lin es rs w y q, (forall ev, ev ∈ es -> (exists j, ev = EIo j) \/ exists c h o r, (c, (h, o), r) ∈ lin /\ ev = event_of h o) /\
    linearization ls lin /\
    ordinary E keyof (es0 ++ es) /\ run E world0 (es0 ++ es) = Some (w, rs) /\
    w_insts w !! i = Some y /\ i_dir y = d0 /\ i_queue y = JWrite m dup :: q /\
    inode w (i_ino y) = inode (l_cb (c_loop s)) (i_ino x) /\
    job_effects E w i = job_effects E (set_inst (l_cb (c_loop s)) i (i_with_queue x [JWrite m dup])) i /\
    forall f, crashed w i f = crashed (l_cb (c_loop s)) i f.
Proof.
  intros St Ok X Hx' Hbuf. pose proof St as [HO Hr Hsp Hx Hq].
  destruct (twin ls s St Ok X) as (lin & es & rs & w & x' & y & Hlin & Hhere & Hrun & Hans & Hok & Hp & Hw & Hoth & Hy & Dy & Hxx & K).
  rewrite Hx' in Hxx. injection Hxx as <-.
  destruct (lin_spec E keyof es0 w0 rs0 sp0 i x0 lin es rs w _ St Hrun Hans Hok Hp Hw (proj2 Ok)) as (sp & Hs & _ & O' & Hr' & _).
  assert (Y : exists q, i_queue y = JWrite m dup :: q /\ killed w = killed (l_cb (c_loop s)) /\ i_codec E y = i_codec E x /\ i_ino y = i_ino x /\ i_ml y = i_ml x /\ i_pos y = i_pos x /\ i_trim y = i_trim x).
  { destruct K as [_ Hk [f Ey] _|c' h _ _ Hk [f Ey] _|c' h meta _ _ _ Hnil _ _].
    - exists (map snd (b ++ l_queue (c_loop s))). rewrite Ey, Hbuf. split_and!; auto.
    - assert (Z : i_queue y ++ [JRemove] = JWrite m dup :: map snd (b ++ l_queue (c_loop s))).
      { apply (f_equal i_queue) in Ey. rewrite Hbuf in Ey. exact Ey. }
      destruct (i_queue y) as [|j0 q]; [discriminate Z|]. injection Z as -> _. exists q. split_and!; auto.
      + apply (f_equal (i_codec E)) in Ey. exact Ey.
      + apply (f_equal i_ino) in Ey. exact Ey.
      + apply (f_equal i_ml) in Ey. exact Ey.
      + apply (f_equal i_pos) in Ey. exact Ey.
      + apply (f_equal i_trim) in Ey. exact Ey.
    - rewrite Hbuf in Hnil. discriminate Hnil. }
  destruct Y as (q & Y1 & Y2 & Y3 & Y4 & Y5 & Y6 & Y7).
  assert (Hin : forall j, inode w j = inode (l_cb (c_loop s)) j).
  { intros j. apply (f_equal (fun w => inode w j)) in Y2. exact Y2. }
  exists lin, es, (rs0 ++ rs), w, y, q. split_and!; auto.
  - intros ev Hev. assert (Hl : length es = length rs) by (eapply (run_length' E), Hrun).
    assert (G : (exists j, ev = EIo j) \/ ev ∈ map fst (answered es rs)).
    { clear -Hev Hl. revert rs Hl. induction es as [|e es IH]; intros [|r rs] Hl; try discriminate Hl; [inversion Hev|]. injection Hl as Hl.
      apply elem_of_cons in Hev as [->|Hev].
      - destruct e; cbn; eauto; right; apply elem_of_list_here.
      - destruct (IH Hev rs Hl) as [?|G]; [auto|]. right. destruct e; cbn; try (right; exact G). exact G. }
    destruct G as [G|G]; [auto|]. right. rewrite Hans, linev_event in G. apply elem_of_list_In, in_map_iff in G as ([[c' [h o]] r] & <- & G).
    exists c', h, o, r. split; [apply elem_of_list_In, G|reflexivity].
  - rewrite Y4. apply Hin.
  - unfold job_effects. rewrite Hy, Y1. cbn [set_inst set_insts w_insts]. rewrite lookup_insert. cbn [i_with_queue i_queue].
    match goal with |- s_eff (fst (write ?p ?c1 ?s1 m dup)) = s_eff (fst (write ?p ?c2 ?s2 m dup)) => assert (c1 = c2) as ->; [exact Y3|assert (s1 = s2) as ->; [|reflexivity]] end.
    unfold i_st. cbn. rewrite Y4, Y5, Y6, Y7. f_equal; [apply Hin|]. apply (f_equal w_seed) in Y2. exact Y2.
  - intros f. unfold crashed. rewrite Hy, Hx', Y4. unfold killed in *. injection Y2 as Z1 Z2 Z3 Z4 Z5 Z6. unfold set_inode. cbn. rewrite Z1, Z2, Z3, Z4, Z5, Z6. reflexivity.
Qed.

End ConcKill.

(** * Cases that meet the hypotheses *)

(** Kill after a schedule, open again and read both keys. *)
Definition ex_kill_at (F : feature) (ks : list cchoice) : option (nat * list result) :=
  match run (ex_env F) world0 ex_start with
  | Some (w, _) =>
      match w_insts w !! 0 with
      | Some x =>
          match csched (ex_env F) 0 ks (conc0 w x) with
          | Some (_, s) =>
              match run (ex_env F) (killed (l_cb (c_loop s))) [ENew 9 dir_d ex_key; EGet 9 k1 TI32; EGet 9 k2 TI32] with
              | Some (_, rs) => Some (unfinished s, rs)
              | None => None
              end
          | None => None
          end
      | None => None
      end
  | None => None
  end.

(** Every moment of the schedule [ex_clear_sched] (a put, a clear_data and a
    get overlapping) meets the hypotheses. *)
Lemma ex_clear_meets n : (n <= 41)%nat ->
  match run (ex_env FPlain) world0 ex_start, spec_run (e_canon (ex_env FPlain)) spec0 ex_start with
  | Some (w, rs), Some (sp, rs') => rs' = rs /\
    match w_insts w !! 0 with
    | Some x => is_nil (i_queue x) = true /\ sp_handles sp !! 0 = Some (i_dir x) /\ sp_handles sp !! 1 = Some (i_dir x) /\
      match csched (ex_env FPlain) 0 (take n ex_clear_sched) (conc0 w x) with
      | Some (ls, s) => ls = take n ex_clear_labels
      | None => False end
    | None => False end
  | _, _ => False end ->
  exists w0 rs0 sp0 x0 s, run (ex_env FPlain) world0 ex_start = Some (w0, rs0) /\ w_insts w0 !! 0 = Some x0 /\
    csched (ex_env FPlain) 0 (take n ex_clear_sched) (conc0 w0 x0) = Some (take n ex_clear_labels, s) /\
    start (ex_env FPlain) ex_keyof ex_start w0 rs0 sp0 0 x0 /\ calls_ok (ex_env FPlain) ex_keyof ex_start sp0 x0 (take n ex_clear_labels) /\
    cexecn (ex_env FPlain) 0 (conc0 w0 x0) (take n ex_clear_labels) s.
Proof.
  intros Hn T.
  destruct (run (ex_env FPlain) world0 ex_start) as [[w0 rs0]|] eqn:Hr; [|contradiction].
  destruct (spec_run (e_canon (ex_env FPlain)) spec0 ex_start) as [[sp0 rs1]|] eqn:Hs; [|contradiction]. destruct T as [-> T].
  destruct (w_insts w0 !! 0) as [x0|] eqn:Hx; [|contradiction]. destruct T as (T1 & T2 & T3 & T).
  destruct (csched (ex_env FPlain) 0 (take n ex_clear_sched) (conc0 w0 x0)) as [[ls s]|] eqn:Hc; [|contradiction]. subst ls.
  exists w0, rs0, sp0, x0, s. split_and!; auto.
  - split; auto; [apply ordinaryb_ok; [apply ex_env_ok; exact Logic.I|vm_compute; reflexivity]|apply is_nil_ok, T1].
  - split.
    + intros c h o X. apply elem_of_take in X as (k & X & _). apply elem_of_list_lookup_2, elem_of_list_In in X. cbn in X.
      repeat (destruct X as [X|X]; [try discriminate X; injection X as <- <- <-; (split; [|assumption])|]); [..|contradiction].
      * apply put_okb_ok. vm_compute. reflexivity.
      * exact Logic.I.
      * eexists. reflexivity.
    + eapply room_mono; [|apply (roomb_ok (ex_env FPlain) (writes ex_start + N.of_nat (length (inv_ids ex_clear_labels)))); vm_compute; reflexivity].
      unfold inv_ids. rewrite <- (take_drop n ex_clear_labels) at 2. rewrite flat_map_app, app_length. lia.
  - apply csched_ok in Hc. exact Hc.
Qed.

Definition ex_clear_at (n : nat) : Prop :=
  match run (ex_env FPlain) world0 ex_start, spec_run (e_canon (ex_env FPlain)) spec0 ex_start with
  | Some (w, rs), Some (sp, rs') => rs' = rs /\
    match w_insts w !! 0 with
    | Some x => is_nil (i_queue x) = true /\ sp_handles sp !! 0 = Some (i_dir x) /\ sp_handles sp !! 1 = Some (i_dir x) /\
      match csched (ex_env FPlain) 0 (take n ex_clear_sched) (conc0 w x) with
      | Some (ls, s) => ls = take n ex_clear_labels
      | None => False end
    | None => False end
  | _, _ => False end.

Lemma ex_meets n : (n <= 41)%nat /\ ex_clear_at n -> exists w0 rs0 sp0 x0 s,
  start (ex_env FPlain) ex_keyof ex_start w0 rs0 sp0 0 x0 /\ calls_ok (ex_env FPlain) ex_keyof ex_start sp0 x0 (take n ex_clear_labels) /\
  cexecn (ex_env FPlain) 0 (conc0 w0 x0) (take n ex_clear_labels) s.
Proof.
  intros [Hn T]. destruct (ex_clear_meets n Hn T) as (w0 & rs0 & sp0 & x0 & s & _ & _ & _ & A & B & C). exists w0, rs0, sp0, x0, s. auto.
Qed.

(** Killed before the put's job has run: the old contents, although the put
    has returned; after it and before the removal: with the put; after the
    removal (the clear has not returned): nothing. *)
Example C62_example :
  (forall n, In n [22; 25; 26; 34]%nat -> exists w0 rs0 sp0 x0 s,
    start (ex_env FPlain) ex_keyof ex_start w0 rs0 sp0 0 x0 /\ calls_ok (ex_env FPlain) ex_keyof ex_start sp0 x0 (take n ex_clear_labels) /\
    cexecn (ex_env FPlain) 0 (conc0 w0 x0) (take n ex_clear_labels) s) /\
  nth_error (take 22 ex_clear_labels) 18 = Some (HRet 0 (ROk None)) /\
  ex_kill_at FPlain (take 22 ex_clear_sched) = Some (2%nat, [ROk None; ROk (Some (VI32 5)); RErr KeyNotFound]) /\
  ex_kill_at FPlain (take 25 ex_clear_sched) = Some (1%nat, [ROk None; ROk (Some (VI32 5)); ROk (Some (VI32 7))]) /\
  ex_kill_at FPlain (take 26 ex_clear_sched) = Some (0%nat, [ROk None; RErr KeyNotFound; RErr KeyNotFound]) /\
  ex_kill_at (FEncrypted toy_aead) (take 22 ex_clear_sched) = Some (2%nat, [ROk None; ROk (Some (VI32 5)); RErr KeyNotFound]) /\
  ex_kill_at (FEncrypted toy_aead) (take 25 ex_clear_sched) = Some (1%nat, [ROk None; ROk (Some (VI32 5)); ROk (Some (VI32 7))]) /\
  ex_kill_at (FEncrypted toy_aead) (take 26 ex_clear_sched) = Some (0%nat, [ROk None; RErr KeyNotFound; RErr KeyNotFound]).
Proof.
  split; [|split_and!; vm_compute; reflexivity].
  intros n Hn. apply ex_meets. cbn [In] in Hn. destruct Hn as [<-|[<-|[<-|[<-|[]]]]]; (split; [lia|vm_compute; repeat split]).
Qed.

(** The state of C62_kill_while_clear_reopens. *)
Example C62_reopen_example : exists w0 rs0 sp0 x0 s,
  start (ex_env FPlain) ex_keyof ex_start w0 rs0 sp0 0 x0 /\ calls_ok (ex_env FPlain) ex_keyof ex_start sp0 x0 (take 34 ex_clear_labels) /\
  cexecn (ex_env FPlain) 0 (conc0 w0 x0) (take 34 ex_clear_labels) s /\ c_calls s !! 1 = Some (AOpen, (1, CClear)).
Proof.
  destruct (ex_clear_meets 34) as (w0 & rs0 & sp0 & x0 & s & R & I & Sc & A & B & C); [lia|vm_compute; repeat split|].
  exists w0, rs0, sp0, x0, s. split_and!; auto.
  assert (T : match run (ex_env FPlain) world0 ex_start with
    | Some (w, _) => match w_insts w !! 0 with
       | Some x => match csched (ex_env FPlain) 0 (take 34 ex_clear_sched) (conc0 w x) with Some (_, s) => c_calls s !! 1 = Some (AOpen, (1, CClear)) | None => False end
       | None => False end
    | None => False end) by (vm_compute; reflexivity).
  rewrite R, I, Sc in T. exact T.
Qed.

(** The state of C62_kill_inside_a_job. *)
Example C62_job_example : exists w0 rs0 sp0 x0 s x m dup,
  start (ex_env FPlain) ex_keyof ex_start w0 rs0 sp0 0 x0 /\ calls_ok (ex_env FPlain) ex_keyof ex_start sp0 x0 (take 24 ex_clear_labels) /\
  cexecn (ex_env FPlain) 0 (conc0 w0 x0) (take 24 ex_clear_labels) s /\ w_insts (l_cb (c_loop s)) !! 0 = Some x /\
  map snd (l_buf (c_loop s)) = [JWrite m dup; JRemove] /\ l_x (c_loop s) = XRun.
Proof.
  destruct (ex_clear_meets 24) as (w0 & rs0 & sp0 & x0 & s & R & I & Sc & A & B & C); [lia|vm_compute; repeat split|].
  assert (T : match run (ex_env FPlain) world0 ex_start with
    | Some (w, _) => match w_insts w !! 0 with
       | Some x => match csched (ex_env FPlain) 0 (take 24 ex_clear_sched) (conc0 w x) with
           | Some (_, s) => match w_insts (l_cb (c_loop s)) !! 0 with Some _ => true | None => false end = true /\ l_x (c_loop s) = XRun /\
               match map snd (l_buf (c_loop s)) with [JWrite m dup; JRemove] => true | _ => false end = true
           | None => False end
       | None => False end
    | None => False end) by (vm_compute; repeat split).
  rewrite R, I, Sc in T. destruct T as (T1 & T2 & T3). destruct (w_insts (l_cb (c_loop s)) !! 0) as [x|] eqn:Hx; [|discriminate].
  destruct (map snd (l_buf (c_loop s))) as [|[m dup|] [|[|] [|]]] eqn:Hm; try discriminate T3.
  exists w0, rs0, sp0, x0, s, x, m, dup. split_and!; auto.
Qed.
