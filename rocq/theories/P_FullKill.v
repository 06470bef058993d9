(** C62 for the whole concurrent model of Full.v: the process dies at any
    moment while threads are opening, using and closing any number of
    stores. *)
From Verif Require Import Bytes Utf8 Proto ProtoFacts Value Codec Store StoreFacts Encrypt World Spec Hyps Refine WorldInv WorldStep Main Frames Reach Examples P_Map P_Store Damaged Crash P_Kill P_Kill2 P_Corrupt P_Enc P_Enc2 P_Damaged P_Fail P_Alias Looper P_Loop Conc P_Conc P_ConcKill P_Live Reg P_Reg P_Reg3 Full P_Full P_Full2 P_Full3.
From Coq Require Import ZifyBool ZifyNat ZifyN.
Local Open Scope N_scope.

(** * What the theorems speak about *)

(** [k] background jobs for directory [d] have been queued and not run. *)
Definition outstanding (f : full) (d : bytes) (k : nat) : Prop :=
  (exists i x st, w_insts (r_world (u_reg f)) !! i = Some x /\ i_dir x = d /\ u_stores f !! i = Some st /\ k = unfinished st) \/
  ((forall i x, w_insts (r_world (u_reg f)) !! i = Some x -> i_dir x <> d) /\ k = 0%nat).

(** [s'] is what is found after a kill: nothing is open, and each directory
    is as it was after a part of the calls [lin], up to the last [k] of those
    that write to it, where [k] is the number of its outstanding jobs. *)
Definition falls_back (canon : bytes -> bytes) (lin : list (N * rop * result)) (left : bytes -> nat -> Prop) (s' : spec) : Prop :=
  sp_handles s' = ∅ /\
  forall d, exists lin1 lin2 sp1, lin = lin1 ++ lin2 /\
    spec_run canon spec0 (map (fun x => op_event x.1.1 x.1.2) lin1) = Some (sp1, map snd lin1) /\
    contents s' d = contents sp1 d /\ left d (mutations canon sp1 d (map (fun x => op_event x.1.1 x.1.2) lin2)).

(** * Proof *)

Notation lev := (fun x : N * rop * result => op_event x.1.1 x.1.2).

Section Kill.
Context (E : env) (keyof : bytes -> bytes).
Notation canon := (e_canon E).

(** ** From the run of World.v to the calls *)

Definition respell (rp : bytes -> bytes) (e : event) : event := match e with ENew h p k => ENew h (rp p) k | _ => e end.

Lemma norm_map rp es : norm rp es = map (respell rp) (tidy es).
Proof.
  rewrite norm_tidy. generalize (tidy es). intros l. induction l as [|e l IH]; [reflexivity|]. cbn [flat_map map]. rewrite IH. destruct e; reflexivity.
Qed.

Lemma respell_step rp s e : (forall p, canon (rp p) = canon p) -> spec_step canon s (respell rp e) = spec_step canon s e.
Proof. intros Hc. destruct e; cbn; rewrite ?Hc; reflexivity. Qed.

Lemma respell_run rp es : (forall p, canon (rp p) = canon p) -> forall s, spec_run canon s (map (respell rp) es) = spec_run canon s es.
Proof.
  intros Hc. induction es as [|e es IH]; intros s; [reflexivity|]. cbn [map spec_run]. rewrite respell_step by exact Hc.
  destruct (spec_step canon s e) as [[s1 r]|]; [|reflexivity]. rewrite IH. reflexivity.
Qed.

Lemma respell_mutations rp es d : (forall p, canon (rp p) = canon p) -> forall s, mutations canon s d (map (respell rp) es) = mutations canon s d es.
Proof.
  intros Hc. induction es as [|e es IH]; intros s; [reflexivity|]. cbn [map mutations]. rewrite respell_step by exact Hc.
  assert (mutates s d (respell rp e) = mutates s d e) as -> by (destruct e; reflexivity).
  destruct (spec_step canon s e) as [[s1 r]|]; [|reflexivity]. rewrite IH. reflexivity.
Qed.

Lemma respell_not_io rp e : (forall i, e <> EIo i) -> forall r, answered [respell rp e] [r] = [(respell rp e, r)].
Proof. intros H r. destruct e; try reflexivity. destruct (H i eq_refl). Qed.

Lemma matches_answered rp tr rs lin : matches tr rs lin ->
  length (norm rp tr) = length (strip tr rs) /\ answered (norm rp tr) (strip tr rs) = map (fun x => (respell rp (lev x), snd x)) lin.
Proof.
  induction 1 as [|tr rs lin i M [L IH]|tr rs lin h r M [L IH]|tr rs lin e c o r M [L IH] He]; [split; reflexivity|..].
  all: pose proof (proj1 (matches_spec E _ _ _ M)) as Len; rewrite strip_snoc by exact Len; rewrite norm_map, tidy_app, map_app, <- norm_map.
  - split; [rewrite !app_length, L; reflexivity|]. cbn [tidy flat_map map app respell]. rewrite answered_app by exact L. rewrite IH. cbn. apply app_nil_r.
  - cbn [tidy flat_map map app]. rewrite !app_nil_r. auto.
  - assert (match e with EDropReg _ => [] | _ => [r] end = [r]) as -> by (destruct e; (reflexivity || discriminate He)).
    rewrite He. split; [rewrite !app_length, L; reflexivity|]. cbn [map]. rewrite answered_app by exact L. rewrite IH, map_app. cbn [map fst snd].
    f_equal. apply respell_not_io. intros i. apply op_event_io.
Qed.

(** A prefix of the run is a prefix of the calls. *)
Lemma cut_calls rp tr rs lin sp es1 es2 : (forall p, canon (rp p) = canon p) -> matches tr rs lin ->
  spec_run canon spec0 (norm rp tr) = Some (sp, strip tr rs) -> norm rp tr = es1 ++ es2 ->
  forall s1 rs1, spec_run canon spec0 es1 = Some (s1, rs1) ->
  exists lin1 lin2, lin = lin1 ++ lin2 /\ spec_run canon spec0 (map lev lin1) = Some (s1, map snd lin1) /\
    forall d, mutations canon s1 d (map lev lin2) = mutations canon s1 d es2.
Proof.
  intros Hc M Hs Es s1 rs1 H1. destruct (matches_answered rp _ _ _ M) as [L Ha]. rewrite Es in *.
  rewrite spec_run_app, H1 in Hs. destruct (spec_run canon s1 es2) as [[s2 rs2]|] eqn:E2; [|discriminate]. injection Hs as -> Er. rewrite <- Er in Ha.
  rewrite answered_app in Ha by (eapply spec_run_length, H1). symmetry in Ha. apply map_eq_app in Ha as (l1 & l2 & -> & A1 & A2).
  exists l1, l2. split_and!; [reflexivity| |].
  - pose proof (spec_answered _ _ _ _ _ H1) as G. rewrite <- A1, !map_map in G. cbn [fst snd] in G.
    rewrite <- (map_map lev (respell rp)), respell_run in G by exact Hc. exact G.
  - intros d. pose proof (mutations_answered E _ _ _ _ d E2) as G. rewrite <- A2, map_map in G. cbn [fst] in G.
    rewrite <- (map_map lev (respell rp)), respell_mutations in G by exact Hc. exact G.
Qed.

(** ** The kill in Reg.v *)

Lemma lin_writes ls lin : linearizes ls lin -> writes (map lev lin) <= writes (begun ls).
Proof.
  intros Z. set (iv := flat_map (fun a => match a with RInv c o => [(c, o)] | _ => [] end) ls).
  assert (Eb : begun ls = map (fun x => op_event x.1 x.2) iv).
  { unfold begun, iv. clear. induction ls as [|a ls IH]; [reflexivity|]. cbn [flat_map]. rewrite map_app, IH. destruct a; reflexivity. }
  rewrite Eb. replace (map lev lin) with (map (fun x => op_event x.1 x.2) (map fst lin)) by (rewrite map_map; reflexivity).
  apply writes_sub. apply fmap_submseteq. apply NoDup_submseteq.
  - pose proof (lz_nodup _ _ Z) as N. eapply (NoDup_fmap_1 fst). change (fst <$> map fst lin) with (map fst (map fst lin)). rewrite map_map. exact N.
  - intros [c o] Hc. apply elem_of_list_In, in_map_iff in Hc as ([[c' o'] r] & Ec & Hc). cbn in Ec. injection Ec as -> ->.
    apply elem_of_list_In, in_flat_map. exists (RInv c o). split; [|left; reflexivity]. apply elem_of_list_In. eapply (lz_called _ _ Z), elem_of_list_In, Hc.
Qed.

Lemma norm_writes rp es : writes (norm rp es) = writes (tidy es).
Proof.
  rewrite norm_map. generalize (tidy es). intros l. induction l as [|e l IH]; [reflexivity|]. cbn [map]. rewrite !writes_cons, IH. destruct e; reflexivity.
Qed.

Lemma lin_calls ls lin : ordinary E keyof (begun ls) -> linearizes ls lin -> Forall (call_ok E keyof) (map lev lin).
Proof.
  intros [_ O2 _ _] Z. apply List.Forall_forall. intros e He. apply in_map_iff in He as ([[c o] r] & <- & Hx).
  rewrite List.Forall_forall in O2. apply O2, in_flat_map. exists (RInv c o). split; [|left; reflexivity].
  apply elem_of_list_In. eapply (lz_called _ _ Z), elem_of_list_In, Hx.
Qed.

(** The sequential run behind an execution of Reg.v, with one spelling for
    each directory. *)
Lemma reg_run la s : rexec E reg0 la s -> ordinary E keyof (begun la) -> apart canon la ->
  exists tr rs lin rp w' H R, HistR la (st_of s) (r_next s) lin /\ matches tr rs lin /\ any_spelling E keyof (tidy tr) /\ (forall p, canon (rp p) = canon p) /\
    ordinary E keyof (norm rp tr) /\ run E world0 (norm rp tr) = Some (w', strip tr rs) /\
    w' = frame H R (r_world s) /\ H = whole rp <$> w_handles (ahead s).
Proof.
  intros X O A. destruct (Sim_exec E keyof la s X O A) as (tr & rs & lin & [M1 M2 M3 M4 M5]).
  pose proof (HistR_linearizes _ _ _ _ M4) as Z. pose proof (lin_any E keyof la tr rs lin O Z M2) as HA.
  set (rp := first_spelling canon (paths tr)).
  pose proof (norm_ordinary E keyof tr HA) as HO. fold rp in HO.
  assert (Hc : forall p, canon (rp p) = canon p) by (intros p; apply first_canon).
  assert (Hd : forall p, In p (paths tr) -> e_dir_ok E p = true /\ e_dir_ok E (rp p) = true).
  { assert (Hd : forall p, In p (paths tr) -> e_dir_ok E p = true).
    { intros p Hp. rewrite <- paths_tidy in Hp. apply in_flat_map in Hp as (e & He & Hp). pose proof (as_calls _ _ _ HA) as B.
      rewrite List.Forall_forall in B. specialize (B e He). destruct e; cbn in Hp; try contradiction. destruct Hp as [<-|[]]. apply B. }
    intros p Hp. split; [apply Hd, Hp|apply Hd, first_in, Hp]. }
  destruct (gap_run E keyof (paths tr) rp Hc Hd tr (incl_refl _) HO M3 _ rs M1) as (w' & Hr' & G).
  exists tr, rs, lin, rp, w', (whole rp <$> w_handles (ahead s)), (w_reg w'). split_and!; auto.
  rewrite (g_w _ _ _ _ _ G) at 1. reflexivity.
Qed.

Lemma reg_kill la s : rexec E reg0 la s -> ordinary E keyof (begun la) -> apart canon la ->
  exists lin sp s', HistR la (st_of s) (r_next s) lin /\ spec_run canon spec0 (map lev lin) = Some (sp, map snd lin) /\
    falls_back canon lin (jobs_left (r_world s)) s' /\ inodes_ok (r_world s) /\
    (forall d, dir_ok E keyof (killed (r_world s)) (contents s' d) (writes (begun la)) d) /\
    (forall h hd, w_handles (ahead s) !! h = Some hd -> sp_handles sp !! h = Some (canon (h_path hd))).
Proof.
  intros X O A. destruct (reg_run la s X O A) as (tr & rs & lin & rp & w' & Hm & Rm & M4 & M2 & HA & Hc & HO & Hr' & Gw & GH).
  pose proof (HistR_linearizes _ _ _ _ M4) as Z.
  destruct (reach E keyof _ HO w' _ Hr') as (sp & Hsp & W).
  destruct (kill_ok E keyof _ (PU_inj E keyof _ HO) w' sp _ _ W) as (s' & Hh' & W' & Hk).
  exists lin, sp, s'.
  assert (Ki : killed w' = killed (r_world s)) by (rewrite Gw; reflexivity).
  assert (Ei : w_insts w' = w_insts (r_world s)) by (rewrite Gw; reflexivity).
  split; [exact M4|]. split.
  { apply (proj2 (matches_spec E _ _ _ M2)). rewrite <- (norm_spec canon rp tr Hc). exact Hsp. }
  split; [|split; [|split]].
  - split; [exact Hh'|]. intros d. destruct (Hk d) as (k & Hj & HH).
    destruct (hist0_sound E keyof _ (PU_dir E keyof _ HO) (PU_key E keyof _ HO) (PU_inj E keyof _ HO) spec0 _ d k _ sp _ Hsp HH) as (es1 & es2 & s1 & rs1 & B1 & B2 & B3 & B4).
    destruct (cut_calls rp tr rs lin sp es1 es2 Hc M2 Hsp B1 s1 rs1 B2) as (l1 & l2 & C1 & C2 & C3).
    exists l1, l2, s1. split_and!; auto. rewrite C3, B4. unfold jobs_left in *. rewrite <- Ei. exact Hj.
  - assert (Hi : inodes_ok w') by (split; [apply (wi_fresh _ _ _ _ _ _ _ W)|apply (wi_ino _ _ _ _ _ _ _ W)]). rewrite Gw in Hi. exact Hi.
  - intros d. rewrite <- Ki.
    eapply (dir_ok_frame E keyof (killed w') (killed w')); [reflexivity|intros; reflexivity| |apply (wi_dirs _ _ _ _ _ _ _ W' d)].
    + rewrite norm_writes. rewrite (proj2 (matches_calls E keyof _ _ _ M2 (lin_calls _ _ O Z))). apply lin_writes, Z.
    + intros j z Hz. unfold killed in Hz. cbn in Hz. rewrite lookup_empty in Hz. discriminate Hz.
  - intros h hd Hh. pose proof (wi_handles _ _ _ _ _ _ _ W h) as Q. unfold handle_ok in Q.
    rewrite Gw in Q. cbn in Q. rewrite GH, lookup_fmap, Hh in Q. cbn in Q. destruct (sp_handles sp !! h) as [d|]; [|contradiction].
    destruct Q as (_ & _ & -> & _). cbn. rewrite Hc. reflexivity.
Qed.

(** ** Clears under way *)

(** The calls [(c, h)], each a clear_data by handle [h] of directory [d]. *)
Definition clears (cl : list (N * N * bytes)) : list (N * rop * result) := map (fun x => (x.1.1, OCall x.1.2 CClear, ROk None)) cl.

Lemma clears_hist cl : forall ls st n lin, HistR ls st n lin -> NoDup (map (fun x => x.1.1) cl) ->
  (forall c h d, (c, h, d) ∈ cl -> st c = Some (OCall h CClear, None)) -> exists ls' st', vis ls' = vis ls /\ HistR ls' st' n (lin ++ clears cl).
Proof.
  induction cl as [|[[c h] d] cl IH]; intros ls st n lin H ND Hc.
  - exists ls, st. split; [reflexivity|]. cbn. rewrite app_nil_r. exact H.
  - cbn [map] in ND. apply NoDup_cons in ND as [Nc ND]. 
    pose proof (HistR_lin ls st (fun d => if decide (d = c) then Some (OCall h CClear, Some (ROk None)) else st d) n lin c (OCall h CClear) (ROk None) H
      (Hc c h d (elem_of_list_here _ _)) (fun d => eq_refl)) as H2.
    destruct (IH _ _ _ _ H2 ND) as (ls' & st' & V & H3).
    + intros c' h' d' X. rewrite decide_False; [eapply Hc; right; exact X|]. intros ->. apply Nc.
      apply elem_of_list_In, in_map_iff. exists (c, h', d'). split; [reflexivity|]. apply elem_of_list_In, X.
    + exists ls', st'. split; [rewrite V, vis_app; apply app_nil_r|]. rewrite <- app_assoc in H3. exact H3.
Qed.

Lemma clears_spec cl : forall sp, NoDup (map snd cl) -> (forall c h d, (c, h, d) ∈ cl -> sp_handles sp !! h = Some d) ->
  exists sp', spec_run canon sp (map lev (clears cl)) = Some (sp', map snd (clears cl)) /\
    (forall d, d ∈ map snd cl -> contents sp' d = ∅ /\ mutations canon sp d (map lev (clears cl)) = 1%nat) /\
    (forall d, d ∉ map snd cl -> contents sp' d = contents sp d /\ mutations canon sp d (map lev (clears cl)) = 0%nat).
Proof.
  induction cl as [|[[c h] e] cl IH]; intros sp ND Hh.
  - exists sp. split; [reflexivity|]. split; intros d Hd; [inversion Hd|auto].
  - cbn [map] in ND. apply NoDup_cons in ND as [Ne ND]. cbn [snd] in Ne.
    pose proof (Hh c h e (elem_of_list_here _ _)) as H0.
    destruct (IH (set_contents sp e ∅) ND) as (sp' & A & B & C).
    { intros c' h' d' X. cbn. eapply Hh. right. exact X. }
    exists sp'. cbn [clears map fst snd op_event spec_run spec_step mutations mutates event_of]. rewrite H0.
    unfold clears in A, B, C. rewrite A. split; [reflexivity|].
    assert (Ce : contents (set_contents sp e ∅) e = ∅) by (unfold contents, set_contents; cbn; rewrite lookup_insert; reflexivity).
    assert (Cd : forall d, d <> e -> contents (set_contents sp e ∅) d = contents sp d) by (intros d Hd; unfold contents, set_contents; cbn; rewrite lookup_insert_ne by congruence; reflexivity).
    split; intros d Hd.
    + destruct (decide (d = e)) as [->|Hne].
      * destruct (C e Ne) as [C1 C2]. rewrite C1, C2, Ce. split; [reflexivity|]. rewrite bool_decide_eq_true_2; reflexivity.
      * apply elem_of_cons in Hd as [Hd|Hd]; [contradiction|]. destruct (B d Hd) as [B1 B2]. rewrite B1, B2. split; [reflexivity|].
        rewrite bool_decide_eq_false_2; [reflexivity|congruence].
    + apply not_elem_of_cons in Hd as [Hne Hd]. cbn [snd] in Hne. destruct (C d Hd) as [C1 C2]. rewrite C1, C2, Cd by exact Hne. split; [reflexivity|].
      rewrite bool_decide_eq_false_2; [reflexivity|congruence].
Qed.

(** The stores of a moment: those in which clear_data is past the point of no
    return, and the others. *)
Lemma late_list f s rem : FR E f s rem -> fine E s -> forall l : list (N * conc), NoDup (map fst l) -> (forall i st, (i, st) ∈ l -> u_stores f !! i = Some st) ->
  exists cl : list (N * N * bytes), NoDup (map snd cl) /\ NoDup (map (fun x => x.1.1) cl) /\
    (forall c h d, (c, h, d) ∈ cl -> exists i st x, (i, st) ∈ l /\ w_insts (r_world (u_reg f)) !! i = Some x /\ i_dir x = d /\ status st c = Some ((h, CClear), None)) /\
    (forall i st, (i, st) ∈ l -> exists x y, w_insts (r_world (u_reg f)) !! i = Some x /\ w_insts (r_world s) !! i = Some y /\
       ((i_dir x ∉ rem /\ i_dir x ∉ map snd cl /\ length (i_queue y) = unfinished st) \/
        (i_dir x ∉ rem /\ i_dir x ∈ map snd cl /\ S (length (i_queue y)) = unfinished st) \/
        (i_dir x ∈ rem /\ i_dir x ∈ map snd cl /\ i_queue y = [] /\ unfinished st = 0%nat))).
Proof.
  intros R F. induction l as [|[i st] l IH]; intros ND Hl.
  - exists []. split_and!; [constructor..| |]; intros; match goal with H : _ ∈ [] |- _ => inversion H end.
  - cbn [map fst] in ND. apply NoDup_cons in ND as [Ni ND].
    destruct (IH ND) as (cl & N1 & N2 & A & B). { intros j t X. apply Hl. right. exact X. }
    pose proof (Hl i st (elem_of_list_here _ _)) as Hst. destruct (fr_store _ _ _ _ R _ _ Hst) as (x & y & Hx & Hy & L & Sr).
    assert (Other : forall j t z, (j, t) ∈ l -> w_insts (r_world (u_reg f)) !! j = Some z -> i_dir z <> i_dir x).
    { intros j t z Hj Hz Hd. assert (j = i) as -> by (eapply (FR_one E f s rem); eassumption). apply Ni.
      apply elem_of_list_In, in_map_iff. exists (i, t). split; [reflexivity|]. apply elem_of_list_In, Hj. }
    assert (Nd : i_dir x ∉ map snd cl).
    { intros X. apply elem_of_list_In, in_map_iff in X as ([[c h] d] & Ed & X). cbn in Ed. subst d. apply elem_of_list_In in X.
      destruct (A _ _ _ X) as (j & t & z & Hj & Hz & Dz & _). eapply Other; eassumption. }
    assert (Plain : i_dir x ∉ rem -> length (i_queue y) = unfinished st -> exists cl0 : list (N * N * bytes), NoDup (map snd cl0) /\ NoDup (map (fun x => x.1.1) cl0) /\
      (forall c h d, (c, h, d) ∈ cl0 -> exists j t z, (j, t) ∈ (i, st) :: l /\ w_insts (r_world (u_reg f)) !! j = Some z /\ i_dir z = d /\ status t c = Some ((h, CClear), None)) /\
      (forall j t, (j, t) ∈ (i, st) :: l -> exists x y, w_insts (r_world (u_reg f)) !! j = Some x /\ w_insts (r_world s) !! j = Some y /\
       ((i_dir x ∉ rem /\ i_dir x ∉ map snd cl0 /\ length (i_queue y) = unfinished t) \/
        (i_dir x ∉ rem /\ i_dir x ∈ map snd cl0 /\ S (length (i_queue y)) = unfinished t) \/
        (i_dir x ∈ rem /\ i_dir x ∈ map snd cl0 /\ i_queue y = [] /\ unfinished t = 0%nat)))).
    { intros Nr Hq. exists cl. split_and!; auto.
      - intros c h d X. destruct (A _ _ _ X) as (j & t & z & Hj & Hz & Dz & Sc). exists j, t, z. split_and!; auto. right. exact Hj.
      - intros j t Hj. apply elem_of_cons in Hj as [[= -> ->]|Hj]; [|apply B, Hj]. exists x, y. split_and!; auto. }
    destruct Sr as [af A1 A2 A3 A4 A5|c p h af pend A1 A2 A3 A4 A5 A6|A1 A2 A3 A4 A5].
    + apply Plain; [exact (proj1 (bool_decide_eq_false _) A1)|]. rewrite A5. cbn. unfold jobs_of. apply map_length.
    + clear Plain.
      assert (Sc : status st c = Some ((h, CClear), None)) by (unfold status; rewrite A1; cbn [snd]; destruct p; try contradiction; reflexivity).
      exists ((c, h, i_dir x) :: cl). split_and!.
      * cbn [map snd]. apply NoDup_cons. auto.
      * cbn [map fst]. apply NoDup_cons. split; [|exact N2]. intros X. apply elem_of_list_In, in_map_iff in X as ([[c' h'] d'] & Ec & X). cbn in Ec. subst c'.
        apply elem_of_list_In in X. destruct (A _ _ _ X) as (j & t & z & Hj & Hz & Dz & Sc').
        destruct (fr_calls _ _ _ _ R _ _ _ _ _ Hst Sc) as (G1 & hd & G2 & G3).
        destruct (fr_calls _ _ _ _ R _ _ _ _ _ (Hl _ _ (elem_of_list_further _ _ _ Hj)) Sc') as (G1' & hd' & G2' & G3').
        rewrite G1 in G1'. injection G1' as E1. cbn in E1, G2, G2'. rewrite <- E1, G2 in G2'. injection G2' as <-.
        eapply Other; [exact Hj|exact Hz|]. rewrite <- G3', G3 in Hz. congruence.
      * intros c' h' d' X. apply elem_of_cons in X as [[= -> -> ->]|X].
        -- exists i, st, x. split_and!; auto. left.
        -- destruct (A _ _ _ X) as (j & t & z & Hj & Hz & Dz & Sc'). exists j, t, z. split_and!; auto. right. exact Hj.
      * intros j t Hj. apply elem_of_cons in Hj as [[= -> ->]|Hj].
        -- exists x, y. split_and!; auto. right. destruct A6 as [[G1 G2]|(G1 & G2 & G3)].
           ++ left. split_and!; [exact (proj1 (bool_decide_eq_false _) G1)|left|]. rewrite A5. cbn [i_glue i_queue]. unfold unfinished.
              unfold jobs_of in G2. apply (f_equal length) in G2. rewrite map_length, (app_length pend) in G2. cbn [length] in G2. lia.
           ++ right. split_and!; [exact (proj1 (bool_decide_eq_true _) G1)|left| |].
              ** rewrite A5. exact G3.
              ** unfold unfinished. unfold jobs_of in G2. apply (f_equal length) in G2. rewrite map_length in G2. exact G2.
        -- destruct (B _ _ Hj) as (x' & y' & Hx' & Hy' & D). exists x', y'. split_and!; auto. cbn [map snd].
           pose proof (Other _ _ _ Hj Hx') as Nx. destruct D as [(D1 & D2 & D3)|[(D1 & D2 & D3)|(D1 & D2 & D3)]].
           ++ left. split_and!; auto. apply not_elem_of_cons. auto.
           ++ right. left. split_and!; auto. right. exact D2.
           ++ right. right. split_and!; try apply D3; auto. right. exact D2.
    + apply Plain; [exact (proj1 (bool_decide_eq_false _) A1)|]. rewrite A5. cbn. unfold jobs_of. apply map_length.
Qed.

(** ** The theorem *)

Lemma cut_tail lin lin1 lin2 sp sp1 : spec_run canon spec0 (map lev lin) = Some (sp, map snd lin) -> lin = lin1 ++ lin2 ->
  spec_run canon spec0 (map lev lin1) = Some (sp1, map snd lin1) -> spec_run canon sp1 (map lev lin2) = Some (sp, map snd lin2).
Proof.
  intros H -> H1. rewrite !map_app, spec_run_app, H1 in H. destruct (spec_run canon sp1 _) as [[s r]|]; [|discriminate]. injection H as -> H.
  apply app_inv_head in H. congruence.
Qed.

Lemma full_kill ls f :
  fexec E full0 ls f -> ordinary E keyof (begun ls) -> apart canon ls ->
  exists lin sp s', linearizes ls lin /\
    spec_run canon spec0 (map lev lin) = Some (sp, map snd lin) /\
    falls_back canon lin (outstanding f) s' /\ inodes_ok (r_world (u_reg f)) /\
    forall d, dir_ok E keyof (killed (r_world (u_reg f))) (contents s' d) (writes (begun ls)) d.
Proof.
  intros X O A. destruct (FR_exec E keyof ls f X O A) as (s & rem & (la & Y & V) & F & R).
  assert (O' : ordinary E keyof (begun la)) by (rewrite (begun_same _ _ V); exact O).
  assert (A' : apart canon la) by (eapply apart_same; eassumption).
  destruct (reg_kill la s Y O' A') as (lin & sp & s' & H & Hs & [Fh Fb] & Hi & HD & Hh).
  destruct (late_list f s rem R F (map_to_list (u_stores f))) as (cl & N1 & N2 & L1 & L2).
  { change (NoDup ((map_to_list (u_stores f)).*1)). apply NoDup_fst_map_to_list. }
  { intros i st X0. apply elem_of_map_to_list, X0. }
  assert (P : forall c h d, (c, h, d) ∈ cl -> st_of s c = Some (OCall h CClear, None) /\ sp_handles sp !! h = Some d).
  { intros c h d X0. destruct (L1 _ _ _ X0) as (i & st & x & Hst & Hx & Dx & Sc). apply elem_of_map_to_list in Hst.
    destruct (FR_pending E f s rem i st c h CClear R F Hst Sc) as (G1 & hd & y & G2 & G3 & G4 & G5 & G6).
    split; [unfold st_of; rewrite G1; reflexivity|]. subst d. rewrite <- (FR_dir E f s rem i x y R Hx G5), G6. apply Hh.
    unfold ahead, adj. cbn. rewrite aH_lookup; [exact G2|].
    intros Sb. unfold at_writer in Sb. destruct (r_writer s) as [d|]; [|exact Sb]. destruct (r_ops s !! d) as [[q od]|] eqn:Hd; [|exact Sb]. cbn in Sb.
    pose proof (fi_hn _ _ F) as HH. destruct q; try contradiction; destruct od; try contradiction; subst.
    - destruct (n_op _ HH _ _ _ Hd) as (Z & _). congruence.
    - eapply (n_excl _ HH); eassumption. }
  destruct (clears_hist cl la _ _ lin H N2 (fun c h d X0 => proj1 (P c h d X0))) as (la' & st' & V' & H').
  destruct (clears_spec cl sp N1 (fun c h d X0 => proj2 (P c h d X0))) as (sp' & S1 & S2 & S3).
  assert (Hs' : spec_run canon spec0 (map lev (lin ++ clears cl)) = Some (sp', map snd (lin ++ clears cl))).
  { rewrite !map_app, spec_run_app, Hs, S1. reflexivity. }
  set (s2 := Spec (filter (fun kv : bytes * smap => kv.1 ∉ rem) (sp_dirs s')) ∅).
  assert (C2 : forall d, contents s2 d = if decide (d ∈ rem) then ∅ else contents s' d).
  { intros d. unfold contents, s2. cbn [sp_dirs]. destruct (decide (d ∈ rem)) as [Hd|Hd].
    - assert (filter (fun kv : bytes * smap => kv.1 ∉ rem) (sp_dirs s') !! d = None) as ->; [|reflexivity].
      apply map_filter_lookup_None. right. intros v _ N. apply N, Hd.
    - destruct (sp_dirs s' !! d) as [v|] eqn:Ev.
      + rewrite (map_filter_lookup_Some_2 _ _ _ v Ev); [reflexivity|exact Hd].
      + rewrite (proj2 (map_filter_lookup_None _ _ _) (or_introl Ev)). reflexivity. }
  exists (lin ++ clears cl), sp', s2. split; [|split; [exact Hs'|split]].
  - eapply linearizes_same; [|eapply HistR_linearizes, H']. congruence.
  - split; [reflexivity|]. intros d. rewrite C2.
    destruct (Fb d) as (l1 & l2 & sp1 & B1 & B2 & B3 & B4).
    pose proof (cut_tail _ _ _ _ _ Hs B1 B2) as Ht.
    assert (Mu : forall k, mutations canon sp d (map lev (clears cl)) = k -> mutations canon sp1 d (map lev (l2 ++ clears cl)) = (mutations canon sp1 d (map lev l2) + k)%nat).
    { intros k <-. rewrite map_app. exact (mutations_app E keyof (map lev l2) (map lev (clears cl)) sp1 sp _ d Ht). }
    assert (Ex : (exists i st, u_stores f !! i = Some st /\ exists x, w_insts (r_world (u_reg f)) !! i = Some x /\ i_dir x = d) \/
                 (forall i x, w_insts (r_world (u_reg f)) !! i = Some x -> i_dir x <> d)).
    { destruct (decide (map_Exists (fun _ x => i_dir x = d) (w_insts (r_world (u_reg f))))) as [(i & x & Hx & Dx)|N].
      - left. destruct (u_stores f !! i) as [st|] eqn:Hst; [|destruct (fr_dom _ _ _ _ R _ Hst); congruence]. eauto 10.
      - right. intros i x Hx Dx. apply N. exists i, x. auto. }
    destruct Ex as [(i & st & Hst & x & Hx & Dx)|N].
    + destruct (L2 i st) as (x' & y & Hx' & Hy & D). { apply elem_of_map_to_list, Hst. }
      rewrite Hx in Hx'. injection Hx' as <-. pose proof (FR_dir E f s rem i x y R Hx Hy) as Dy.
      assert (Q : mutations canon sp1 d (map lev l2) = length (i_queue y)).
      { destruct B4 as [(j & z & Hz & Dz & ->)|[Nn _]]; [|exfalso; eapply (Nn i y Hy); congruence].
        assert (j = i) as -> by (eapply (fi_one _ _ F); [exact Hz|exact Hy|congruence]). congruence. }
      assert (Out : forall k, k = unfinished st -> outstanding f d k) by (intros k ->; left; exists i, x, st; auto).
      rewrite Dx in D. destruct D as [(D1 & D2 & D3)|[(D1 & D2 & D3)|(D1 & D2 & D3 & D4)]].
      * rewrite decide_False by exact D1. exists l1, (l2 ++ clears cl), sp1. split_and!; auto; [rewrite B1, app_assoc; reflexivity|].
        apply Out. rewrite (Mu 0%nat) by apply S3, D2. lia.
      * rewrite decide_False by exact D1. exists l1, (l2 ++ clears cl), sp1. split_and!; auto; [rewrite B1, app_assoc; reflexivity|].
        apply Out. rewrite (Mu 1%nat) by apply S2, D2. lia.
      * rewrite decide_True by exact D1. exists (lin ++ clears cl), [], sp'. split; [rewrite app_nil_r; reflexivity|split; [exact Hs'|split]].
        -- symmetry. apply S2, D2.
        -- apply Out. cbn. congruence.
    + assert (D1 : d ∉ rem) by (intros Hd; destruct (fr_rem _ _ _ _ R _ Hd) as (i & x & Hx & Dx); eapply N; eassumption).
      assert (D2 : d ∉ map snd cl).
      { intros Hd. apply elem_of_list_In, in_map_iff in Hd as ([[c h] e] & Ee & Hd). cbn in Ee. subst e. apply elem_of_list_In in Hd.
        destruct (L1 _ _ _ Hd) as (i & st & x & _ & Hx & Dx & _). eapply N; eassumption. }
      rewrite decide_False by exact D1. exists l1, (l2 ++ clears cl), sp1. split_and!; auto; [rewrite B1, app_assoc; reflexivity|].
      right. split; [exact N|]. rewrite (Mu 0%nat) by apply S3, D2.
      destruct B4 as [(j & y & Hy & Dy & _)|[_ ->]]; [|reflexivity]. exfalso.
      destruct (u_stores f !! j) as [st|] eqn:Hst; [|destruct (fr_dom _ _ _ _ R _ Hst); congruence].
      destruct (fr_store _ _ _ _ R _ _ Hst) as (x & y' & Hx & Hy' & _). eapply N; [exact Hx|]. rewrite <- (FR_dir E f s rem j x y R Hx Hy). exact Dy.
  - pose proof (fr_world _ _ _ _ R) as VV. pose proof (or_env _ _ _ O) as OE.
    assert (Dir : forall d, dir_of (r_world (u_reg f)) d = if decide (d ∈ rem) then wiped E (r_world s) d else dir_of (r_world s) d).
    { intros d. unfold dir_of at 1. rewrite (v_dirs _ _ _ _ VV). destruct (decide (d ∈ rem)); reflexivity. }
    split.
    + destruct Hi as [Hi1 Hi2]. assert (G : forall d i, d_data (dir_of (r_world (u_reg f)) d) = Some i -> d_data (dir_of (r_world s) d) = Some i).
      { intros d i. rewrite Dir. destruct (decide (d ∈ rem)); [discriminate|auto]. }
      split.
      * intros d i Hd. rewrite (v_ino _ _ _ _ VV). apply (Hi1 d), G, Hd.
      * intros d d' i Hd Hd'. apply (Hi2 d d' i); apply G; assumption.
    + intros d. rewrite C2. destruct (decide (d ∈ rem)) as [Hd|Hd].
      * unfold dir_ok. change (dir_of (killed (r_world (u_reg f))) d) with (dir_of (r_world (u_reg f)) d). rewrite Dir, decide_True by exact Hd. reflexivity.
      * rewrite <- (begun_same _ _ V).
        eapply (dir_ok_frame E keyof (killed (r_world s))); [| |apply N.le_refl|apply HD].
        -- change (dir_of (killed (r_world (u_reg f))) d) with (dir_of (r_world (u_reg f)) d). rewrite Dir, decide_False by exact Hd. reflexivity.
        -- intros i _. apply (wrel_inode_at E rem _ _ i VV).
Qed.

(** * C62 *)

(** The process dies at any moment while threads open, use and close stores:
    the files are those of some state [s'] from which everything goes on as
    specified.  [s'] comes from an order [lin] of the calls made so far,
    compatible with real time and with every answer given: each directory is
    as after a prefix of [lin], and what it lacks are exactly the writing
    calls whose background jobs had not been run. *)
Theorem C62_full_kill_anywhere ls f :
  fexec E full0 ls f -> ordinary E keyof (begun ls) -> apart canon ls ->
  exists lin sp s', linearizes ls lin /\
    spec_run canon spec0 (map (fun x => op_event x.1.1 x.1.2) lin) = Some (sp, map snd lin) /\
    falls_back canon lin (outstanding f) s' /\
    goes_on E keyof (writes (begun ls)) (killed (r_world (u_reg f))) s'.
Proof.
  intros X O A. destruct (full_kill ls f X O A) as (lin & sp & s' & H1 & H2 & H3 & H4 & H5). exists lin, sp, s'. split_and!; auto.
  apply (quiet_goes_on E (damaged E) (damaged_law E)); [apply quiet_killed|apply H3|exact H4|].
  intros d. apply (dir_ok_damaged E keyof _ _ _ _ (or_env _ _ _ O)), H5.
Qed.

Lemma lin_none lin d : forall sp sp' rs, spec_run canon sp (map lev lin) = Some (sp', rs) ->
  mutations canon sp d (map lev lin) = 0%nat -> contents sp' d = contents sp d.
Proof.
  induction lin as [|[[c o] r] lin IH]; intros sp sp' rs; cbn [map spec_run mutations]; [intros [= <- <-]; reflexivity|].
  destruct (spec_step canon sp _) as [[s1 r1]|] eqn:Es; [|discriminate]. destruct (spec_run canon s1 _) as [[s2 rs2]|] eqn:Er; [|discriminate].
  intros [= <- <-] Hm. rewrite (IH _ _ _ Er) by lia. cbn [fst snd] in *.
  destruct (mutates sp d (op_event c o)) eqn:Em; [lia|]. clear Hm IH Er.
  destruct o as [path key|h|h [key v|key t|key|]]; cbn in Es, Em.
  - destruct (sp_handles sp !! c); [discriminate|]. injection Es as <- _. reflexivity.
  - destruct (sp_handles sp !! h) as [e|] eqn:Eh; [|discriminate]. injection Es as <- _. reflexivity.
  - destruct (sp_handles sp !! h) as [e|] eqn:Eh; [|discriminate]. injection Es as <- _. apply bool_decide_eq_false in Em.
    unfold contents, set_contents; cbn; rewrite lookup_insert_ne by congruence; reflexivity.
  - destruct (sp_handles sp !! h) as [e|] eqn:Eh; [|discriminate]. injection Es as <- _. reflexivity.
  - destruct (sp_handles sp !! h) as [e|] eqn:Eh; [|discriminate]. injection Es as <- _. apply bool_decide_eq_false in Em.
    destruct (decide (e = d)) as [->|Hne]; [|unfold contents, set_contents; cbn; rewrite lookup_insert_ne by exact Hne; reflexivity].
    unfold contents at 1. unfold set_contents. cbn. rewrite lookup_insert. cbn. apply delete_notin.
    destruct (contents sp d !! key) eqn:Ek; [|exact Ek]. destruct Em. split; [reflexivity|eauto].
  - destruct (sp_handles sp !! h) as [e|] eqn:Eh; [|discriminate]. injection Es as <- _. apply bool_decide_eq_false in Em.
    unfold contents, set_contents; cbn; rewrite lookup_insert_ne by congruence; reflexivity.
Qed.

(** A directory without outstanding jobs, in particular one that is not open,
    loses nothing. *)
Theorem C62_full_idle_loses_nothing ls f :
  fexec E full0 ls f -> ordinary E keyof (begun ls) -> apart canon ls ->
  exists lin sp s', linearizes ls lin /\
    spec_run canon spec0 (map (fun x => op_event x.1.1 x.1.2) lin) = Some (sp, map snd lin) /\
    (forall d, (forall k, outstanding f d k -> k = 0%nat) -> contents s' d = contents sp d) /\
    goes_on E keyof (writes (begun ls)) (killed (r_world (u_reg f))) s'.
Proof.
  intros X O A. destruct (C62_full_kill_anywhere ls f X O A) as (lin & sp & s' & H1 & H2 & [H3 H4] & H5). exists lin, sp, s'. split_and!; auto.
  intros d Hd. destruct (H4 d) as (l1 & l2 & sp1 & B1 & B2 & B3 & B4). rewrite B3. symmetry.
  eapply lin_none; [exact (cut_tail _ _ _ _ _ H2 B1 B2)|]. apply Hd, B4.
Qed.

(** Opening a directory without a data file, and clear_data once it has
    removed it, create the files in one step of the model.  Whatever of them
    exists when the process dies, the directory is found empty, as if the step
    had not begun, and the others as in the theorem above. *)
Theorem C62_full_kill_while_files_are_made ls f d data meta rng :
  fexec E full0 ls f -> ordinary E keyof (begun ls) -> apart canon ls ->
  d_data (dir_of (r_world (u_reg f)) d) = None ->
  (data = None \/ data = Some [] \/ data = Some (zeros (page (e_plat E)))) ->
  exists lin sp s', linearizes ls lin /\
    spec_run canon spec0 (map (fun x => op_event x.1.1 x.1.2) lin) = Some (sp, map snd lin) /\
    falls_back canon lin (outstanding f) s' /\ contents s' d = ∅ /\
    goes_on E keyof (writes (begun ls)) (emptied E (r_world (u_reg f)) d data meta rng) s'.
Proof.
  intros X O A Hd Hdata. destruct (full_kill ls f X O A) as (lin & sp & s' & H1 & H2 & [H3 H3'] & H4 & H5).
  assert (C0 : contents s' d = ∅).
  { specialize (H5 d). unfold dir_ok in H5. change (dir_of (killed (r_world (u_reg f))) d) with (dir_of (r_world (u_reg f)) d) in H5. rewrite Hd in H5. exact H5. }
  assert (Cc : forall e, contents (set_contents s' d ∅) e = contents s' e).
  { intros e. destruct (decide (e = d)) as [->|Hne]; [rewrite C0|]; unfold contents, set_contents; cbn; [rewrite lookup_insert|rewrite lookup_insert_ne by congruence]; reflexivity. }
  exists lin, sp, (set_contents s' d ∅). split_and!; auto.
  - split; [exact H3|]. intros e. rewrite Cc. apply H3'.
  - rewrite Cc. exact C0.
  - apply emptied_goes_on; auto. apply (or_env _ _ _ O).
Qed.

Lemma matches_events tr rs lin rp : matches tr rs lin -> forall ev, ev ∈ norm rp tr ->
  (exists j, ev = EIo j) \/ exists c o r, (c, o, r) ∈ lin /\ ev = respell rp (op_event c o).
Proof.
  induction 1 as [|tr rs lin i M IH|tr rs lin h r M IH|tr rs lin e c o r M IH He]; intros ev; [intros X; inversion X|..].
  all: rewrite norm_map, tidy_app, map_app, <- norm_map; intros X; apply elem_of_app in X as [X|X].
  - auto.
  - left. cbn in X. apply elem_of_list_singleton in X. eauto.
  - auto.
  - inversion X.
  - destruct (IH ev X) as [Y|(c' & o' & r' & Y & Z)]; [auto|]. right. exists c', o', r'. split; [apply elem_of_app; auto|exact Z].
  - rewrite He in X. cbn [map] in X. apply elem_of_list_singleton in X. right. exists c, o, r. split; [apply elem_of_app; right; left|exact X].
Qed.

(** Inside a background job: there is a sequential history, made of the calls
    of a linearization, in which the same job is about to be run on the same
    file, so what is proved about kills inside a job of a sequential history
    (C22, C23) holds for this directory here.  The other directories are the
    same too, except that clear_data may have removed the files of some. *)
Theorem C62_full_kill_inside_a_job ls f i st x c m dup b :
  fexec E full0 ls f -> ordinary E keyof (begun ls) -> apart canon ls ->
  u_stores f !! i = Some st -> w_insts (r_world (u_reg f)) !! i = Some x -> l_buf (c_loop st) = (c, JWrite m dup) :: b ->
  exists lin rp es rs w y q, linearizes ls lin /\ (forall p, canon (rp p) = canon p) /\
    (forall ev, ev ∈ es -> (exists j, ev = EIo j) \/ exists c o r, (c, o, r) ∈ lin /\ ev = respell rp (op_event c o)) /\
    ordinary E keyof es /\ run E world0 es = Some (w, rs) /\
    w_insts w !! i = Some y /\ i_dir y = i_dir x /\ i_queue y = JWrite m dup :: q /\
    inode w (i_ino y) = inode (r_world (u_reg f)) (i_ino x) /\
    job_effects E w i = job_effects E (set_inst (r_world (u_reg f)) i (i_with_queue x [JWrite m dup])) i /\
    forall g, (forall n, inode (crashed (r_world (u_reg f)) i g) n = inode (crashed w i g) n) /\
      forall d, dir_of (crashed (r_world (u_reg f)) i g) d = dir_of (crashed w i g) d \/
        d <> i_dir x /\ d_data (dir_of (crashed (r_world (u_reg f)) i g) d) = None.
Proof.
  intros X O A Hst Hx Hb. destruct (FR_exec E keyof ls f X O A) as (s & rem & (la & Y & V) & F & R).
  assert (O' : ordinary E keyof (begun la)) by (rewrite (begun_same _ _ V); exact O).
  assert (A' : apart canon la) by (eapply apart_same; eassumption).
  destruct (reg_run la s Y O' A') as (tr & rs & lin & rp & w' & Hm & Rm & M4 & M2 & HA & Hc & HO & Hr' & Gw & _).
  destruct (fr_store _ _ _ _ R _ _ Hst) as (x' & y & Hx' & Hy & L & Sr). rewrite Hx in Hx'. injection Hx' as <-.
  assert (Jb : jobs_of st = JWrite m dup :: map snd (b ++ l_queue (c_loop st))) by (unfold jobs_of; rewrite Hb; reflexivity).
  assert (P : exists af q, y = i_glue x af (JWrite m dup :: q) /\ i_dir x ∉ rem).
  { destruct Sr as [af A1 A2 A3 A4 A5|c1 p h af pend A1 A2 A3 A4 A5 A6|A1 A2 A3 A4 A5].
    - exists af. eexists. rewrite A5, Jb. split; [reflexivity|]. exact (proj1 (bool_decide_eq_false _) A1).
    - destruct A6 as [[G1 G2]|(_ & G2 & _)]; [|congruence]. rewrite Jb in G2. destruct pend as [|j pend]; cbn in G2; [discriminate G2|]. injection G2 as <- _.
      exists af, pend. split; [exact A5|]. exact (proj1 (bool_decide_eq_false _) G1).
    - exists (c_front st). eexists. rewrite A5, Jb. split; [reflexivity|]. exact (proj1 (bool_decide_eq_false _) A1). }
  destruct P as (af & q & -> & Nr). pose proof (fr_world _ _ _ _ R) as VV.
  assert (Hy' : w_insts w' !! i = Some (i_glue x af (JWrite m dup :: q))) by (rewrite Gw; exact Hy).
  assert (In : forall n, inode w' n = inode (r_world (u_reg f)) n).
  { intros n. rewrite (wrel_inode_at E rem _ _ n VV), Gw. reflexivity. }
  assert (Dir : forall d, dir_of (r_world (u_reg f)) d = if decide (d ∈ rem) then wiped E (r_world s) d else dir_of w' d).
  { intros d. unfold dir_of at 1. rewrite (v_dirs _ _ _ _ VV), Gw. destruct (decide (d ∈ rem)); reflexivity. }
  exists lin, rp, (norm rp tr), (strip tr rs), w', (i_glue x af (JWrite m dup :: q)), q. split_and!; auto.
  - eapply linearizes_same; [exact V|]. eapply HistR_linearizes, M4.
  - apply (matches_events _ _ _ rp M2).
  - unfold job_effects. rewrite Hy'. cbn [set_inst set_insts w_insts]. rewrite lookup_insert. cbn [i_with_queue i_glue i_queue].
    match goal with |- s_eff (fst (write ?p ?c1 ?s1 m dup)) = s_eff (fst (write ?p ?c2 ?s2 m dup)) => assert (c1 = c2) as ->; [reflexivity|assert (s1 = s2) as ->; [|reflexivity]] end.
    unfold i_st. cbn. f_equal; [apply In|]. rewrite Gw. cbn. symmetry. apply (v_seed _ _ _ _ VV).
  - intros g. unfold crashed. rewrite Hx, Hy'. cbn [i_glue i_ino]. split.
    + intros n. unfold inode, killed, set_inode. cbn. destruct (decide (n = i_ino x)) as [->|Hne].
      * rewrite !lookup_insert. reflexivity.
      * rewrite !lookup_insert_ne by congruence. symmetry. apply In.
    + intros d. change (dir_of (killed ?a) d) with (dir_of a d). 
      match goal with |- dir_of ?a d = dir_of ?b d \/ _ => change (dir_of a d) with (dir_of (r_world (u_reg f)) d); change (dir_of b d) with (dir_of w' d) end.
      rewrite Dir. destruct (decide (d ∈ rem)) as [Hd|Hd]; [|auto]. right. split; [intros ->; contradiction|reflexivity].
Qed.

End Kill.

(** * Cases that meet the hypotheses *)

(** Kill after the first [n] steps of the execution of P_Full3.v, open both
    directories again and read. *)
Definition ex_fkill (n : nat) : option (list (N * nat) * list result) :=
  match fsched (ex_env FPlain) (firstn n ex_fsched) full0 with
  | Some (_, f) =>
      match run (ex_env FPlain) (killed (r_world (u_reg f))) [ENew 90 dir_d ex_key; EGet 90 k1 TI32; EGet 90 k2 TStr; ENew 91 dir_e ex_key; EGet 91 k2 TStr] with
      | Some (_, rs) => Some (map (fun x => (x.1, unfinished x.2)) (map_to_list (u_stores f)), rs)
      | None => None
      end
  | None => None
  end.

(** Both stores have work left, the second one the removal of its files by a
    clear_data; the first has finished; the second has written the record;
    it has removed the files; a second put on the first store is queued. *)
Example C62_full_example :
  map ex_fkill [61; 62; 70; 71; 94]%nat =
  [Some ([(0, 1%nat); (1, 2%nat)], [ROk None; RErr KeyNotFound; RErr KeyNotFound; ROk None; RErr KeyNotFound]);
   Some ([(0, 0%nat); (1, 2%nat)], [ROk None; ROk (Some (VI32 5)); RErr KeyNotFound; ROk None; RErr KeyNotFound]);
   Some ([(0, 0%nat); (1, 1%nat)], [ROk None; ROk (Some (VI32 5)); RErr KeyNotFound; ROk None; ROk (Some hello)]);
   Some ([(0, 0%nat); (1, 0%nat)], [ROk None; ROk (Some (VI32 5)); RErr KeyNotFound; ROk None; RErr KeyNotFound]);
   Some ([(0, 1%nat); (1, 0%nat)], [ROk None; ROk (Some (VI32 5)); RErr KeyNotFound; ROk None; RErr KeyNotFound])].
Proof. vm_compute. reflexivity. Qed.

(** The states meet the hypotheses, also that of the kill inside a job. *)
Example C62_full_hypotheses_example : exists ls f st x c m dup b,
  fexec (ex_env FPlain) full0 ls f /\ ordinary (ex_env FPlain) ex_keyof (begun ls) /\ apart (e_canon (ex_env FPlain)) ls /\
  u_stores f !! 0 = Some st /\ w_insts (r_world (u_reg f)) !! 0 = Some x /\ l_buf (c_loop st) = (c, JWrite m dup) :: b /\
  outstanding f dir_d 1 /\ outstanding f dir_e 2.
Proof.
  assert (T : match fsched (ex_env FPlain) (firstn 61 ex_fsched) full0 with
              | Some (ls, f) => ordinaryb (ex_env FPlain) ex_keyof (begun ls) = true /\ apartb (e_canon (ex_env FPlain)) ls = true /\
                match u_stores f !! 0, w_insts (r_world (u_reg f)) !! 0, u_stores f !! 1, w_insts (r_world (u_reg f)) !! 1 with
                | Some st, Some x, Some st1, Some x1 => match l_buf (c_loop st) with (c, JWrite m dup) :: b => True | _ => False end /\ i_dir x = dir_d /\ unfinished st = 1%nat /\ i_dir x1 = dir_e /\ unfinished st1 = 2%nat
                | _, _, _, _ => False
                end
              | None => False end) by (vm_compute; repeat split).
  destruct (fsched (ex_env FPlain) (firstn 61 ex_fsched) full0) as [[ls f]|] eqn:X; [|contradiction]. destruct T as (A & B & C).
  destruct (u_stores f !! 0) as [st|] eqn:S0; [|contradiction]. destruct (w_insts (r_world (u_reg f)) !! 0) as [x|] eqn:X0; [|contradiction].
  destruct (u_stores f !! 1) as [st1|] eqn:S1; [|contradiction]. destruct (w_insts (r_world (u_reg f)) !! 1) as [x1|] eqn:X1; [|contradiction].
  destruct C as (C & D1 & D2 & D3 & D4). destruct (l_buf (c_loop st)) as [|[c [m dup|]] b] eqn:Hb; try contradiction.
  exists ls, f, st, x, c, m, dup, b.
  split_and!; [eapply fsched_ok, X|apply ordinaryb_ok; [apply ex_env_ok; exact Logic.I|exact A]|apply apartb_ok, B|exact S0|exact X0|exact Hb| |].
  - left. exists 0, x, st. auto.
  - left. exists 1, x1, st1. auto.
Qed.
