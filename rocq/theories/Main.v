(** The refinement theorems: runs answer as the specification, also across
    kills between background jobs. *)
From Verif Require Import Bytes Utf8 Proto ProtoFacts Value Codec Store StoreFacts Encrypt World Spec Hyps Refine WorldInv WorldStep.
From Coq Require Import ZifyBool ZifyNat ZifyN.
Local Open Scope N_scope.

(** The same number as [writes], per event. *)
Definition wcount (e : event) : N := if is_write e then 1 else 0.

Lemma writes_cons e es : writes (e :: es) = wcount e + writes es.
Proof. unfold writes, wcount. cbn [List.filter]. destruct (is_write e); cbn [length]; lia. Qed.

Lemma writes_app a b : writes (a ++ b) = writes a + writes b.
Proof. induction a as [|e a IH]; [reflexivity|]. cbn [app]. rewrite !writes_cons, IH. lia. Qed.

Section Main.
Context (E : env) {Rp : rep E} {RL : rep_law E Rp} (HE : env_ok E) (keyof : bytes -> bytes) (U : bytes -> Prop).
Context (HU_dir : forall p, U p -> e_dir_ok E p = true).
Context (HU_key : forall p, U p -> feature_key (e_feat E) (keyof (e_canon E p)) <> None).
Context (HU_inj : forall p p', U p -> U p' -> e_canon E p = e_canon E p' -> p = p').

Notation canon := (e_canon E).
Notation WInv := (WInv E keyof U).

(** The paths of an event are among those of interest. *)
Definition in_U (e : event) : Prop := match e with ENew _ p _ => U p | _ => True end.

Lemma step_ok w sp H n e :
  WInv w sp H n -> call_ok E keyof e -> in_U e -> room E (n + wcount e) ->
  match step E w e, spec_step canon sp e with
  | Some (w', r), Some (sp', r') => r = r' /\ WInv w' sp' (upd H sp e sp') (n + wcount e)
  | None, None => True
  | _, _ => False
  end.
Proof.
  intros W Hc HUe Hroom.
  assert (Hsame : forall w' sp', (forall d, mutates sp d e = false) -> is_write e = false ->
            WInv w' sp' H n -> WInv w' sp' (upd H sp e sp') (n + wcount e)).
  { intros w' sp' Hm Hw W'. unfold wcount. rewrite Hw. eapply (WInv_mono E); [| |exact W']; [lia|].
    intros d k S. apply upd_false, Hm. }
  assert (Hroom' : room E n). { eapply room_mono; [|exact Hroom]. lia. }
  destruct e as [h path key|h key v|h key|h key t|h key t|h key|h|h|h|h|i|]; cbn [call_ok] in Hc; try contradiction;
    cbn [step spec_step]; unfold with_handle.
  - (* new *)
    destruct (w_handles w !! h) as [hd|] eqn:Hh.
    + destruct (handle_cases E keyof U w sp H n h hd W Hh) as (-> & _). exact Logic.I.
    + rewrite (handle_none E keyof U w sp H n h W Hh).
      destruct Hc as (_ & -> & _).
      destruct (new_step E HE keyof U HU_dir HU_key HU_inj w sp H n h path W Hh HUe) as (w' & -> & W').
      split; [reflexivity|]. apply Hsame; auto.
  - (* put *)
    destruct (w_handles w !! h) as [hd|] eqn:Hh; [|rewrite (handle_none E keyof U w sp H n h W Hh); exact Logic.I].
    destruct (handle_cases E keyof U w sp H n h hd W Hh) as (Hs & Hun & _). rewrite Hs, Hun.
    destruct (put_step E HE keyof U HU_dir HU_key HU_inj w sp H n h hd key v W Hh Hc) as (w' & -> & W').
    split; [reflexivity|exact W'].
  - (* get *)
    destruct (w_handles w !! h) as [hd|] eqn:Hh; [|rewrite (handle_none E keyof U w sp H n h W Hh); exact Logic.I].
    destruct (handle_cases E keyof U w sp H n h hd W Hh) as (Hs & Hun & _). rewrite Hs, Hun.
    rewrite (get_step E keyof U w sp H n h hd key t W Hh Hc).
    split; [reflexivity|]. apply Hsame; auto.
  - (* delete *)
    destruct (w_handles w !! h) as [hd|] eqn:Hh; [|rewrite (handle_none E keyof U w sp H n h W Hh); exact Logic.I].
    destruct (handle_cases E keyof U w sp H n h hd W Hh) as (Hs & Hun & _). rewrite Hs, Hun.
    destruct (delete_step E keyof U HU_dir HU_key HU_inj w sp H n h hd key W Hh) as (w' & -> & W').
    split; [reflexivity|exact W'].
  - (* clear *)
    destruct (w_handles w !! h) as [hd|] eqn:Hh; [|rewrite (handle_none E keyof U w sp H n h W Hh); exact Logic.I].
    destruct (handle_cases E keyof U w sp H n h hd W Hh) as (Hs & Hun & _). rewrite Hs, Hun.
    destruct (clear_step E HE keyof U HU_dir HU_key HU_inj w sp H n h hd W Hh Hroom') as (w' & -> & W' & _).
    split; [reflexivity|]. unfold wcount. cbn [is_write]. rewrite N.add_0_r. exact W'.
  - (* drop *)
    destruct (w_handles w !! h) as [hd|] eqn:Hh; [|rewrite (handle_none E keyof U w sp H n h W Hh); exact Logic.I].
    destruct (handle_cases E keyof U w sp H n h hd W Hh) as (Hs & Hun & _). rewrite Hs, Hun.
    destruct (drop_step E HE keyof U HU_dir HU_key HU_inj w sp H n h hd W Hh Hroom') as (w' & r1 & w1 & -> & -> & -> & W').
    split; [reflexivity|]. apply Hsame; auto.
  - (* background *)
    split; [reflexivity|]. apply Hsame; auto. apply (io_step E HE keyof U HU_dir HU_key HU_inj); assumption.
Qed.

(** ** Whole runs *)

(** The history predicate along a run of the specification. *)
Fixpoint hist (sp : spec) (H : bytes -> nat -> smap -> Prop) (es : list event) : bytes -> nat -> smap -> Prop :=
  match es with
  | [] => H
  | e :: r => match spec_step canon sp e with Some (sp1, _) => hist sp1 (upd H sp e sp1) r | None => H end
  end.

Lemma run_ok es : forall w sp H n,
  WInv w sp H n -> Forall (call_ok E keyof) es -> Forall in_U es -> room E (n + writes es) ->
  match run E w es, spec_run canon sp es with
  | Some (w', rs), Some (sp', rs') => rs = rs' /\ WInv w' sp' (hist sp H es) (n + writes es)
  | None, None => True
  | _, _ => False
  end.
Proof.
  induction es as [|e es IH]; intros w sp H n W HF HUs Hroom; cbn [run spec_run hist].
  - split; [reflexivity|]. unfold writes. cbn. rewrite N.add_0_r. exact W.
  - inversion HF as [|? ? Hc HF']; subst. inversion HUs as [|? ? HUe HUs']; subst.
    rewrite writes_cons in *.
    assert (Hr1 : room E (n + wcount e)) by (eapply room_mono; [|exact Hroom]; lia).
    pose proof (step_ok w sp H n e W Hc HUe Hr1) as G.
    destruct (step E w e) as [[w1 r]|], (spec_step canon sp e) as [[sp1 r']|]; try contradiction; [|exact Logic.I].
    destruct G as [-> W1]. specialize (IH w1 sp1 (upd H sp e sp1) (n + wcount e) W1 HF' HUs').
    rewrite <- N.add_assoc in IH. specialize (IH Hroom).
    destruct (run E w1 es) as [[w2 rs]|], (spec_run canon sp1 es) as [[sp2 rs']|]; try contradiction; [|exact Logic.I].
    destruct IH as [-> W2]. split; [reflexivity|exact W2].
Qed.

Definition hist0 (sp : spec) (d : bytes) (k : nat) (S : smap) : Prop := k = 0%nat /\ S = contents sp d.

Lemma WInv_init : WInv world0 spec0 (hist0 spec0) 0.
Proof.
  split; cbn.
  - reflexivity.
  - intros d. split; reflexivity.
  - intros h. unfold handle_ok. rewrite !lookup_empty. exact Logic.I.
  - intros p i. rewrite lookup_empty. discriminate.
  - intros i x. rewrite lookup_empty. discriminate.
  - intros d _. unfold dir_ok, dir_of. cbn. rewrite lookup_empty. reflexivity.
  - intros d i. unfold dir_of. cbn. rewrite lookup_empty. discriminate.
  - intros d d' i. unfold dir_of. cbn. rewrite lookup_empty. discriminate.
Qed.

Lemma hist_sound es : forall sp H d k S sp' rs,
  spec_run canon sp es = Some (sp', rs) -> hist sp H es d k S ->
  (exists k', H d k' S /\ k = (k' + mutations canon sp d es)%nat) \/
  (exists es1 es2 s rs1, es = es1 ++ es2 /\ spec_run canon sp es1 = Some (s, rs1) /\ contents s d = S /\
     mutations canon s d es2 = k).
Proof.
  induction es as [|e es IH]; intros sp H d k S sp' rs Hrun Hh; cbn [hist spec_run mutations] in *.
  - left. exists k. split; [exact Hh|lia].
  - destruct (spec_step canon sp e) as [[sp1 r]|] eqn:Es; [|discriminate].
    destruct (spec_run canon sp1 es) as [[sp2 rs2]|] eqn:Er; [|discriminate].
    destruct (IH sp1 _ d k S sp2 rs2 Er Hh) as [(k' & Hk & ->)|(es1 & es2 & s & rs1 & -> & R1 & C1 & M1)].
    + unfold upd in Hk. destruct (mutates sp d e) eqn:Em.
      * destruct Hk as [[-> ->]|(k2 & -> & Hk)].
        -- right. exists [e], es, sp1, [r]. cbn [app spec_run]. rewrite Es. split_and!; auto; lia.
        -- left. exists k2. split; [exact Hk|lia].
      * left. exists k'. split; [exact Hk|lia].
    + right. exists (e :: es1), es2, s, (r :: rs1). cbn [app spec_run]. rewrite Es, R1. auto.
Qed.

Lemma hist0_sound sp es d k S sp' rs :
  spec_run canon sp es = Some (sp', rs) -> hist sp (hist0 sp) es d k S ->
  exists es1 es2 s rs1, es = es1 ++ es2 /\ spec_run canon sp es1 = Some (s, rs1) /\ contents s d = S /\
     mutations canon s d es2 = k.
Proof.
  intros Hrun Hh. destruct (hist_sound es sp (hist0 sp) d k S sp' rs Hrun Hh) as [(k' & [-> ->] & ->)|G]; [|exact G].
  exists [], es, sp, []. split_and!; auto.
Qed.

(** ** Kills *)

(** [k] background jobs of directory [d] have not been run yet. *)
Definition jobs_left (w : world) (d : bytes) (k : nat) : Prop :=
  (exists i x, w_insts w !! i = Some x /\ i_dir x = d /\ k = length (i_queue x)) \/
  ((forall i x, w_insts w !! i = Some x -> i_dir x <> d) /\ k = 0%nat).

Definition killed (w : world) : world :=
  World (w_dirs w) (w_inodes w) (w_next_ino w) ∅ (w_next_inst w) ∅ ∅ false (w_rng w) (w_seed w).

(** Choosing a map for every directory of a list of instances. *)
Lemma choose_dirs (Q : inst -> smap -> Prop) (l : list inst) (D0 : gmap bytes smap) :
  (forall x, In x l -> exists S, Q x S) -> NoDup (map i_dir l) ->
  exists D : gmap bytes smap,
    (forall x, In x l -> Q x (default ∅ (D !! i_dir x))) /\
    (forall d, ~ In d (map i_dir l) -> D !! d = D0 !! d).
Proof.
  induction l as [|x l IH]; intros HQ Hnd.
  - exists D0. split; [intros x []|auto].
  - cbn [map] in Hnd. apply NoDup_cons in Hnd as [Hn Hnd]. rewrite elem_of_list_In in Hn.
    destruct IH as (D & A & B).
    { intros y Hy. apply HQ. right. exact Hy. }
    { exact Hnd. }
    destruct (HQ x (or_introl eq_refl)) as (S & HS). exists (<[i_dir x := S]> D). split.
    + intros y [<-|Hy].
      * rewrite lookup_insert. exact HS.
      * rewrite lookup_insert_ne; [apply A, Hy|]. intros Ed. apply Hn. rewrite Ed. apply in_map, Hy.
    + intros d Hd. cbn [map] in Hd. rewrite lookup_insert_ne; [apply B|]; intros G; apply Hd; cbn; auto.
Qed.

Lemma kill_ok w sp H n : WInv w sp H n ->
  exists sp', sp_handles sp' = ∅ /\ WInv (killed w) sp' (hist0 sp') n /\
    forall d, exists k, jobs_left w d k /\ H d k (contents sp' d).
Proof.
  intros W.
  set (Q := fun x S => exists rs, r_ok (i_codec E x) (i_st w x) rs n /\ rel E (replay rs) S /\ H (i_dir x) (length (i_queue x)) S).
  set (l := map snd (map_to_list (w_insts w))).
  assert (Hl : forall x, In x l <-> exists i, w_insts w !! i = Some x).
  { intros x. unfold l. rewrite in_map_iff. split.
    - intros ([i y] & <- & Hy). exists i. apply elem_of_list_In, elem_of_map_to_list in Hy. exact Hy.
    - intros (i & Hi). exists (i, x). split; [reflexivity|]. apply elem_of_list_In, elem_of_map_to_list, Hi. }
  destruct (choose_dirs Q l (sp_dirs sp)) as (D & A & B).
  { intros x Hx. apply Hl in Hx as (i & Hx). destruct (wi_insts _ _ _ _ _ _ _ W i x Hx) as (_ & I & _).
    destruct (io_state _ _ _ _ _ _ _ I) as (q & rs & c & B1 & B2 & B3 & B4 & B5 & B6 & B7).
    destruct (B7 0%nat ltac:(lia)) as (S & HS & RS). exists S, rs. split_and!.
    - eapply r_mono; [|exact B3]. lia.
    - exact RS.
    - rewrite B1, map_length. rewrite Nat.sub_0_r in HS. exact HS. }
  { unfold l. rewrite map_map. pose proof (NoDup_fst_map_to_list (w_insts w)) as Hnd.
    assert (G : forall i x j y, (i, x) ∈ map_to_list (w_insts w) -> (j, y) ∈ map_to_list (w_insts w) -> i_dir x = i_dir y -> i = j).
    { intros i x j y Hx Hy Hd. apply elem_of_map_to_list in Hx, Hy. eapply (inst_unique E keyof U HU_inj); eassumption. }
    revert Hnd G. generalize (map_to_list (w_insts w)). intros l0. induction l0 as [|[i x] l0 IH]; intros Hnd G; [constructor|].
    cbn [map fst snd] in *. apply NoDup_cons in Hnd as [Hn Hnd]. apply NoDup_cons. split.
    - intros Hin. apply elem_of_list_fmap in Hin as ([j y] & Hd & Hy). cbn in Hd. apply Hn.
      assert (i = j) as -> by (eapply G; [left|right; exact Hy|exact Hd]).
      apply elem_of_list_fmap. exists (j, y). auto.
    - apply IH; [exact Hnd|]. intros a b c d Ha Hb. apply G; right; assumption. }
  set (sp' := Spec D ∅). exists sp'. split; [reflexivity|].
  assert (Hno : forall d, (forall i x, w_insts w !! i = Some x -> i_dir x <> d) -> contents sp' d = contents sp d).
  { intros d Hd. unfold contents. cbn. rewrite B; [reflexivity|]. intros Hin. apply in_map_iff in Hin as (x & Dx & Hx).
    apply Hl in Hx as (i & Hx). apply (Hd i x Hx Dx). }
  assert (Hdec : forall d, (exists i x, w_insts w !! i = Some x /\ i_dir x = d) \/ (forall i x, w_insts w !! i = Some x -> i_dir x <> d)).
  { intros d. destruct (in_dec (fun a b => decide (a = b)) d (map i_dir l)) as [Hin|Hin].
    - left. apply in_map_iff in Hin as (x & Dx & Hx). apply Hl in Hx as (i & Hx). eauto.
    - right. intros i x Hx Dx. apply Hin. apply in_map_iff. exists x. split; [exact Dx|]. apply Hl. eauto. }
  split.
  - split; cbn [killed w_poison w_handles w_reg w_insts w_next_inst w_next_ino].
    + reflexivity.
    + intros d. split; reflexivity.
    + intros h. cbn [sp' sp_handles]. unfold handle_ok. rewrite !lookup_empty. exact Logic.I.
    + intros p i. rewrite lookup_empty. discriminate.
    + intros i x. rewrite lookup_empty. discriminate.
    + intros d _. destruct (Hdec d) as [(i & x & Hx & Dx)|Hd].
      * destruct (wi_insts _ _ _ _ _ _ _ W i x Hx) as (_ & I & _).
        destruct (A x ltac:(apply Hl; eauto)) as (rs & HW & HR & _). rewrite Dx in *.
        unfold dir_ok. change (dir_of (killed w) d) with (dir_of w d).
        pose proof (io_data _ _ _ _ _ _ _ I) as Hdata. rewrite Dx in Hdata.
        change (dir_of _ d) with (dir_of w d). rewrite Hdata. left. exists rs, (i_nonce x), (i_st w x). split_and!.
        -- pose proof (io_meta _ _ _ _ _ _ _ I) as Hm. rewrite Dx in Hm. exact Hm.
        -- reflexivity.
        -- unfold i_codec in HW. rewrite (io_key _ _ _ _ _ _ _ I), Dx in HW. exact HW.
        -- exact HR.
      * rewrite (Hno d Hd). eapply (dir_ok_frame E); [..|apply (wi_dirs _ _ _ _ _ _ _ W d Hd)]; try reflexivity; auto.
    + apply (wi_fresh _ _ _ _ _ _ _ W).
    + apply (wi_ino _ _ _ _ _ _ _ W).
  - intros d. destruct (Hdec d) as [(i & x & Hx & Dx)|Hd].
    + exists (length (i_queue x)). split; [left; eauto|].
      destruct (A x ltac:(apply Hl; eauto)) as (rs & _ & _ & HH). rewrite Dx in HH. exact HH.
    + exists 0%nat. split; [right; auto|]. rewrite (Hno d Hd). apply (wi_hist _ _ _ _ _ _ _ W).
Qed.

(** Traces with kills. *)
Definition ok_or_kill (e : event) : Prop := e = EKill \/ call_ok E keyof e.

Lemma split_kill es :
  Forall ok_or_kill es ->
  Forall (call_ok E keyof) es \/
  exists es1 es2, es = es1 ++ EKill :: es2 /\ Forall (call_ok E keyof) es1 /\ Forall ok_or_kill es2.
Proof.
  induction 1 as [|e es He Hes IH]; [left; constructor|].
  destruct He as [->|Hc].
  - right. exists [], es. split_and!; auto.
  - destruct IH as [IH|(es1 & es2 & -> & H1 & H2)].
    + left. constructor; assumption.
    + right. exists (e :: es1), es2. split_and!; auto.
Qed.

Lemma run_app a b : forall w,
  run E w (a ++ b) =
  match run E w a with
  | Some (w1, ra) => match run E w1 b with Some (w2, rb) => Some (w2, ra ++ rb) | None => None end
  | None => None
  end.
Proof.
  induction a as [|e a IH]; intros w; cbn [app run].
  - destruct (run E w b) as [[w2 rb]|]; reflexivity.
  - destruct (step E w e) as [[w1 x]|]; [|reflexivity]. rewrite IH.
    destruct (run E w1 a) as [[w2 ra]|]; [|reflexivity]. destruct (run E w2 b) as [[w3 rb]|]; reflexivity.
Qed.

Lemma sessions_ok_len (len : nat) : forall es, (length es <= len)%nat -> forall w sp n w' rs,
  WInv w sp (hist0 sp) n -> Forall ok_or_kill es -> Forall in_U es -> room E (n + writes es) ->
  run E w es = Some (w', rs) -> sessions canon sp es rs.
Proof.
  induction len as [|ln IH]; intros es Hlen w sp n w' rs W HF HUs Hroom Hrun.
  - destruct es; [|cbn in Hlen; lia]. cbn in Hrun. injection Hrun as _ <-. eapply sess_last. reflexivity.
  - destruct (split_kill es HF) as [HF'|(es1 & es2 & -> & HF1 & HF2)].
    + pose proof (run_ok es w sp (hist0 sp) n W HF' HUs Hroom) as G. rewrite Hrun in G.
      destruct (spec_run canon sp es) as [[sp' rs']|] eqn:Es; [|contradiction]. destruct G as [-> _].
      eapply sess_last. exact Es.
    + apply Forall_app in HUs as [HU1 HU2]. inversion HU2 as [|? ? _ HU2']; subst.
      rewrite writes_app, writes_cons in Hroom. cbn [wcount is_write] in Hroom.
      assert (Hr1 : room E (n + writes es1)) by (eapply room_mono; [|exact Hroom]; lia).
      pose proof (run_ok es1 w sp (hist0 sp) n W HF1 HU1 Hr1) as G.
      rewrite run_app in Hrun. destruct (run E w es1) as [[w1 r1]|] eqn:E1; [|discriminate].
      destruct (spec_run canon sp es1) as [[sp1 r1']|] eqn:Es; [|contradiction]. destruct G as [-> W1].
      cbn [run step] in Hrun. fold (killed w1) in Hrun.
      destruct (run E (killed w1) es2) as [[w2 r2]|] eqn:E2; [|discriminate]. injection Hrun as <- <-.
      destruct (kill_ok w1 sp1 _ _ W1) as (sp' & Hh & W' & Hd).
      eapply sess_kill; [exact Es| |].
      * split; [exact Hh|]. intros d. destruct (Hd d) as (k & _ & Hk).
        destruct (hist0_sound sp es1 d k _ sp1 r1' Es Hk) as (a & b & s & rs1 & X1 & X2 & X3 & _).
        exists a, b, s, rs1. auto.
      * eapply (IH es2); [|exact W'|exact HF2|exact HU2'| |exact E2].
        -- rewrite app_length in Hlen. cbn in Hlen. lia.
        -- eapply room_mono; [|exact Hroom]. lia.
Qed.

End Main.

(** ** The ordinary representation: the file is exactly the records written *)

Definition clean (E : env) : rep E := Rep E false (WOk E).

Lemma clean_law (E : env) : rep_law E (clean E).
Proof.
  split; cbn [clean r_ok].
  - intros C s rs c c' Hc. apply WOk_mono, Hc.
  - intros C s s' rs c. apply WOk_ext.
  - intros C s rs c. apply WOk_nonempty.
  - intros C s rs c m dup HE HC HW Hm Hr.
    destruct (write_WOk E HE C s rs c m dup HC HW Hm Hr) as (s' & rs' & A & B & D & _). eauto.
  - intros C HE. eexists (St _ _ _ false 0 []). split; [reflexivity|]. apply WOk_fresh, HE.
  - intros C s rs c seed HE HC (I & _). destruct (eo_plat _ HE) as [H64 Hpage Hmax Hhord].
    destruct (open_inv _ C _ _ H64 HC Hmax s rs seed I) as (s' & H1 & _ & H3 & H4 & H5 & _). eauto 6.
Qed.

Global Existing Instance clean.
Global Existing Instance clean_law.

(** The state in which a file would be opened. *)
Definition closed_st (f : bytes) (rs : list kv) : st := St f (len f) (N.of_nat (length rs) mod 2 ^ 32) false 0 [].

Lemma closed_WOk E C s rs c : WOk E C s rs c -> WOk E C (closed_st (s_file s) rs) rs c.
Proof.
  intros HW. pose proof HW as (I & _). eapply WOk_ext; [..|exact HW]; cbn [closed_st s_file s_ml s_pos].
  - reflexivity.
  - symmetry. apply (inv_ml _ _ _ _ _ I).
  - symmetry. apply (inv_pos _ _ _ _ _ I).
Qed.

Lemma dir_ok_clean E keyof w S n d : dir_ok E keyof w S n d ->
  match d_data (dir_of w d) with
  | None => S = ∅
  | Some ino => exists rs nonce, meta_ok E w d nonce /\
      WOk E (feature_codec (e_feat E) (kof E keyof d) nonce) (closed_st (inode w ino) rs) rs n /\ rel E (replay rs) S
  end.
Proof.
  unfold dir_ok. destruct (d_data (dir_of w d)) as [ino|]; [|auto].
  intros [(rs & nonce & s & A & B & C & D)|(G & _)]; [|discriminate].
  exists rs, nonce. split_and!; auto. rewrite <- B. apply closed_WOk, C.
Qed.
