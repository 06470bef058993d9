(** Every ordinary call and every background job preserves the invariant and
    answers as the specification. *)
From Verif Require Import Bytes Utf8 Proto ProtoFacts Value Codec Store StoreFacts Encrypt World Spec Hyps Refine WorldInv.
From Coq Require Import ZifyBool ZifyNat ZifyN.
Local Open Scope N_scope.

Section WorldStep.
Context (E : env) {Rp : rep E} {RL : rep_law E Rp} (HE : env_ok E) (keyof : bytes -> bytes) (U : bytes -> Prop).
Context (HU_dir : forall p, U p -> e_dir_ok E p = true).
Context (HU_key : forall p, U p -> feature_key (e_feat E) (keyof (e_canon E p)) <> None).
Context (HU_inj : forall p p', U p -> U p' -> e_canon E p = e_canon E p' -> p = p').

Notation P := (e_plat E).
Notation F := (e_feat E).
Notation canon := (e_canon E).
Notation WInv := (WInv E keyof U).
Notation inst_ok := (inst_ok E keyof).
Notation dir_ok := (dir_ok E keyof).

(** ** Handles *)

Lemma handle_cases w sp H n h hd : WInv w sp H n -> w_handles w !! h = Some hd ->
  sp_handles sp !! h = Some (canon (h_path hd)) /\ h_unreg hd = false /\ U (h_path hd) /\
  h_key hd = keyof (canon (h_path hd)) /\ w_reg w !! h_path hd = Some (h_inst hd) /\
  exists x, w_insts w !! h_inst hd = Some x /\ i_dir x = canon (h_path hd) /\
    inst_ok w (contents sp (i_dir x)) (H (i_dir x)) n x.
Proof.
  intros W Hh. pose proof (wi_handles _ _ _ _ _ _ _ W h) as G. rewrite Hh in G. unfold handle_ok in G.
  destruct (sp_handles sp !! h) as [d|]; [|contradiction]. destruct G as (A & B & -> & D & R).
  destruct (wi_reg _ _ _ _ _ _ _ W _ _ R) as (_ & x & Hx & Dx).
  destruct (wi_insts _ _ _ _ _ _ _ W _ _ Hx) as (_ & I & _).
  split_and!; auto. exists x. auto.
Qed.

Lemma handle_none w sp H n h : WInv w sp H n -> w_handles w !! h = None -> sp_handles sp !! h = None.
Proof.
  intros W Hh. pose proof (wi_handles _ _ _ _ _ _ _ W h) as G. rewrite Hh in G. unfold handle_ok in G.
  destruct (sp_handles sp !! h); [contradiction|reflexivity].
Qed.

(** [strong] is 1 exactly when there is no other handle. *)
Lemma strong_1 w h hd : w_handles w !! h = Some hd ->
  (strong w (h_inst hd) = 1%nat <->
   forall h' hd', w_handles w !! h' = Some hd' -> h_inst hd' = h_inst hd -> h' = h).
Proof.
  intros Hh. unfold strong.
  assert (Pm : Permutation (map_to_list (w_handles w)) ((h, hd) :: map_to_list (delete h (w_handles w)))).
  { rewrite <- map_to_list_insert by apply lookup_delete. rewrite insert_delete by exact Hh. reflexivity. }
  rewrite Pm. rewrite filter_cons_True by reflexivity. cbn [length].
  split.
  - intros L h' hd' Hh' Hi. destruct (decide (h' = h)) as [|Hne]; [assumption|exfalso].
    assert (In' : (h', hd') ∈ filter (fun kh : N * handle => h_inst kh.2 = h_inst hd) (map_to_list (delete h (w_handles w)))).
    { apply elem_of_list_filter. split; [exact Hi|]. apply elem_of_map_to_list.
      rewrite lookup_delete_ne by congruence. exact Hh'. }
    destruct (filter _ _); [inversion In'|cbn in L; lia].
  - intros G. destruct (filter _ _) as [|[h' hd'] l] eqn:Ef; [reflexivity|exfalso].
    assert (In' : (h', hd') ∈ filter (fun kh : N * handle => h_inst kh.2 = h_inst hd) (map_to_list (delete h (w_handles w)))).
    { rewrite Ef. left. }
    apply elem_of_list_filter in In' as [Hi In']. apply elem_of_map_to_list in In'.
    apply lookup_delete_Some in In' as [Hne In']. apply Hne. symmetry. apply (G h' hd' In' Hi).
Qed.

(** ** put, get, delete *)

Lemma put_step w sp H n h hd key v :
  WInv w sp H n -> w_handles w !! h = Some hd -> put_ok E key v ->
  let d := canon (h_path hd) in
  let sp' := set_contents sp d (<[key := v]> (contents sp d)) in
  exists w', on_inst w (h_inst hd) (fun x => inst_put x key v) = (w', ROk None) /\
    WInv w' sp' (upd H sp (EPut h key v) sp') (n + 1).
Proof.
  intros W Hh Hput d sp'. destruct (handle_cases w sp H n h hd W Hh) as (Hsp & Hun & Up & Hk & Hr & x & Hx & Dx & I).
  fold d in Hsp, Hk, Dx.
  destruct Hput as (Hu & Hv & m & Hb & Hs). pose proof (put_ok_good E HE key v m (conj Hu (conj Hv (ex_intro _ m (conj Hb Hs)))) Hb) as Hg.
  assert (Hmut : mutates sp d (EPut h key v) = true) by (cbn; apply bool_decide_eq_true; exact Hsp).
  eexists. unfold on_inst, inst_put. rewrite Hx, (io_poison _ _ _ _ _ _ _ I), Hb, (io_valid _ _ _ _ _ _ _ I).
  unfold post. cbn [i_with_map i_queue i_sender i_io].
  rewrite (io_sender _ _ _ _ _ _ _ I), (io_run _ _ _ _ _ _ _ I). split; [reflexivity|].
  rewrite <- (buffer_new_apply key v m (i_map x) Hb).
  match goal with |- WorldInv.WInv _ _ _ (set_inst _ _ ?y) _ _ _ => set (y0 := y) end.
  eapply (WInv_update E keyof U HU_dir HU_key HU_inj w _ sp sp' H _ n (n + 1) _ x y0 W Hx); try reflexivity; auto.
  - apply (wi_poison _ _ _ _ _ _ _ W).
  - rewrite Dx. intros d' Hne. apply contents_set_ne. congruence.
  - rewrite Dx. intros d' Hne k S. apply upd_false. cbn. apply bool_decide_eq_false. congruence.
  - rewrite Dx. apply upd_0, Hmut.
  - lia.
  - eapply (inst_ok_queue E); [exact I|exact Hg| | | | |]; try reflexivity; rewrite Dx.
    + unfold sp'. rewrite contents_set, (buffer_new_apply key v m _ Hb). apply rel_insert; auto.
      destruct (io_state _ _ _ _ _ _ _ I) as (q & rs & c & _ & _ & _ & _ & _ & R & _). rewrite <- Dx. exact R.
    + apply upd_0, Hmut.
    + intros k S. apply upd_S, Hmut.
Qed.

Lemma get_step w sp H n h hd key t :
  WInv w sp H n -> w_handles w !! h = Some hd -> get_ok t ->
  on_inst w (h_inst hd) (fun x => (x, inst_get x key t)) = (w, spec_get (contents sp (canon (h_path hd))) key t).
Proof.
  intros W Hh Ht. destruct (handle_cases w sp H n h hd W Hh) as (Hsp & Hun & Up & Hk & Hr & x & Hx & Dx & I).
  unfold on_inst. rewrite Hx. rewrite set_inst_same by exact Hx. f_equal.
  unfold inst_get. rewrite (io_poison _ _ _ _ _ _ _ I), (io_valid _ _ _ _ _ _ _ I).
  apply (get_refines E); [|exact Ht].
  destruct (io_state _ _ _ _ _ _ _ I) as (q & rs & c & _ & _ & _ & _ & _ & R & _). rewrite <- Dx. exact R.
Qed.

Lemma WInv_mono w sp (H H' : bytes -> nat -> smap -> Prop) n n' :
  n <= n' -> (forall d k S, H d k S -> H' d k S) -> WInv w sp H n -> WInv w sp H' n'.
Proof.
  intros Hn HH [A B C D G I J K]. split; auto.
  - intros i x Hx. destruct (G i x Hx) as (X & Y & Z). split; [exact X|]. split; [|exact Z].
    eapply (inst_ok_frame E); [..|exact Y]; auto.
  - intros d Hd. eapply (dir_ok_frame E); [..|apply I, Hd]; auto.
Qed.

Lemma contents_ext sp sp' : sp_dirs sp = sp_dirs sp' -> forall d, contents sp d = contents sp' d.
Proof. intros H d. unfold contents. rewrite H. reflexivity. Qed.

Lemma WInv_spec_ext w sp sp' H n :
  sp_handles sp' = sp_handles sp -> (forall d, contents sp' d = contents sp d) -> WInv w sp H n -> WInv w sp' H n.
Proof.
  intros Hh HC [A B C D G I J K]. split; auto.
  - intros d. rewrite HC. apply B.
  - intros h. rewrite Hh. apply C.
  - intros i x Hx. rewrite HC. apply G, Hx.
  - intros d Hd. rewrite HC. apply I, Hd.
Qed.

Lemma delete_step w sp H n h hd key :
  WInv w sp H n -> w_handles w !! h = Some hd ->
  let d := canon (h_path hd) in
  let sp' := set_contents sp d (delete key (contents sp d)) in
  exists w', on_inst w (h_inst hd) (fun x => inst_delete x key) = (w', ROk None) /\
    WInv w' sp' (upd H sp (EDelete h key) sp') (n + 1).
Proof.
  intros W Hh d sp'. destruct (handle_cases w sp H n h hd W Hh) as (Hsp & Hun & Up & Hk & Hr & x & Hx & Dx & I).
  fold d in Hsp, Hk, Dx.
  destruct (io_state _ _ _ _ _ _ _ I) as (q & rs & c & _ & _ & _ & _ & _ & R & _).
  unfold on_inst, inst_delete. rewrite Hx, (io_poison _ _ _ _ _ _ _ I), (io_valid _ _ _ _ _ _ _ I).
  pose proof (R key) as Rk. rewrite Dx in Rk.
  destruct (contents sp d !! key) as [v|] eqn:Ev.
  - destruct Rk as (m & Em & Hb & Hv & Hg). rewrite Em.
    assert (Hmut : mutates sp d (EDelete h key) = true).
    { cbn. apply bool_decide_eq_true. split; [exact Hsp|]. rewrite Ev. eauto. }
    pose proof (tombstone_good E key v m Hb Hv Hg) as Ht.
    eexists. unfold post. cbn [i_with_map i_queue i_sender i_io].
    rewrite (io_sender _ _ _ _ _ _ _ I), (io_run _ _ _ _ _ _ _ I). split; [reflexivity|].
    rewrite <- (deleted_apply key (i_map x)).
    match goal with |- WorldInv.WInv _ _ _ (set_inst _ _ ?y) _ _ _ => set (y0 := y) end.
  eapply (WInv_update E keyof U HU_dir HU_key HU_inj w _ sp sp' H _ n (n + 1) _ x y0 W Hx); try reflexivity; auto.
    + apply (wi_poison _ _ _ _ _ _ _ W).
    + rewrite Dx. intros d' Hne. apply contents_set_ne. congruence.
    + rewrite Dx. intros d' Hne k S. apply upd_false. cbn. apply bool_decide_eq_false. intros [X _]. congruence.
    + rewrite Dx. apply upd_0, Hmut.
    + lia.
    + eapply (inst_ok_queue E); [exact I|exact Ht| | | | |]; try reflexivity; rewrite Dx.
      * unfold sp'. rewrite contents_set, (deleted_apply key). apply rel_delete. rewrite <- Dx. exact R.
      * apply upd_0, Hmut.
      * intros k S. apply upd_S, Hmut.
  - rewrite Rk. exists w. rewrite set_inst_same by exact Hx. split; [reflexivity|].
    apply (WInv_spec_ext w sp sp'); [reflexivity| |eapply WInv_mono; [| |exact W]].
    + intros d'. destruct (decide (d = d')) as [<-|Hne].
      * unfold sp'. rewrite contents_set. apply delete_notin, Ev.
      * apply contents_set_ne, Hne.
    + lia.
    + intros d' k S. apply upd_false. cbn. apply bool_decide_eq_false. intros [X Y]. 
      assert (d' = d) as -> by congruence. rewrite Ev in Y. destruct Y. discriminate.
Qed.

(** ** The background thread *)

Lemma i_after_dir x q io s : i_dir (i_after x q io s) = i_dir x.
Proof. reflexivity. Qed.

Lemma io_step w sp H n i : WInv w sp H n -> room E n -> WInv (run_job E w i) sp H n.
Proof.
  intros W Hroom. unfold run_job. destruct (w_insts w !! i) as [x|] eqn:Hx; [|exact W].
  destruct (wi_insts _ _ _ _ _ _ _ W i x Hx) as (_ & I & _).
  destruct (io_state _ _ _ _ _ _ _ I) as (q & rs & c & B1 & B2 & B3 & B4 & B5 & B6 & B7).
  rewrite (io_run _ _ _ _ _ _ _ I), B1. destruct q as [|[m dup] q]; [exact W|]. cbn [map] in *.
  inversion B2 as [|? ? Hm B2']; subst. cbn [jw fst snd]. cbn [length] in *.
  destruct (r_write (i_codec E x) (i_st w x) rs c m dup HE (law_of E HE _ x eq_refl) B3 Hm) as (s & rs' & E1 & W1 & R1).
  { eapply room_mono; [|exact Hroom]. lia. }
  rewrite E1.
  set (y := i_after x (map jw q) IoRun s).
  eapply (WInv_update E keyof U HU_dir HU_key HU_inj w _ sp sp H H n n i x y W Hx); try reflexivity; auto.
  - apply (wi_poison _ _ _ _ _ _ _ W).
  - intros j _ Hj. unfold inode, set_seed, set_inode. cbn. rewrite lookup_insert_ne by congruence. reflexivity.
  - apply (wi_hist _ _ _ _ _ _ _ W).
  - destruct I as [A1 A2 A3 A4 A5 A6 A7 A8 _]. split; auto.
    exists q, rs', (c + 1). split_and!; auto.
    + eapply r_ext; [..|exact W1]; cbn; try reflexivity. unfold inode. cbn. rewrite lookup_insert. reflexivity.
    + lia.
    + cbn [i_after i_map y]. rewrite B5. cbn [fold_left]. rewrite R1. reflexivity.
    + intros j Hj. destruct (B7 (Datatypes.S j) ltac:(lia)) as (S' & HS & RS). exists S'.
      split; [exact HS|]. rewrite R1. exact RS.
Qed.

(** ** Opening and closing *)

Lemma lookup_reg_inv w sp H n p : WInv w sp H n -> lookup_reg w p = w_reg w !! p.
Proof.
  intros W. unfold lookup_reg. destruct (w_reg w !! p) as [i|] eqn:R; [|reflexivity].
  destruct (wi_reg _ _ _ _ _ _ _ W p i R) as (_ & x & Hx & _). rewrite bool_decide_eq_true_2; [reflexivity|eauto].
Qed.

Lemma new_step w sp H n h p :
  WInv w sp H n -> w_handles w !! h = None -> U p ->
  exists w', do_new E w h p (keyof (canon p)) = (w', ROk None) /\
    WInv w' (Spec (sp_dirs sp) (<[h := canon p]> (sp_handles sp))) H n.
Proof.
  intros W Hh Up. unfold do_new. rewrite (wi_poison _ _ _ _ _ _ _ W), (lookup_reg_inv w sp H n p W).
  set (sp' := Spec _ _).
  assert (HC : forall d, contents sp' d = contents sp d) by (apply contents_ext; reflexivity).
  destruct (w_reg w !! p) as [i|] eqn:Hr.
  - eexists. split; [reflexivity|].
    destruct W as [A B C D G I J K]. split; auto.
    + intros h'. cbn [set_handles w_handles sp' sp_handles w_reg]. destruct (decide (h = h')) as [<-|Hne].
      * rewrite !lookup_insert. cbn. auto.
      * rewrite !lookup_insert_ne by exact Hne. apply C.
    + intros j x Hx. destruct (G j x Hx) as (X & Y & Z & h' & hd' & Hh' & Hi). split_and!; auto.
      * rewrite HC. eapply (inst_ok_frame E); [..|exact Y]; auto; try lia.
      * exists h', hd'. split; [|exact Hi]. cbn. rewrite lookup_insert_ne; [exact Hh'|congruence].
  - assert (Hno : forall i x, w_insts w !! i = Some x -> i_dir x <> canon p).
    { intros i x Hx Dx. destruct (wi_insts _ _ _ _ _ _ _ W i x Hx) as (_ & _ & (p' & Hp') & _).
      destruct (wi_reg _ _ _ _ _ _ _ W p' i Hp') as (Up' & x' & Hx' & Dx'). rewrite Hx in Hx'. injection Hx' as <-.
      assert (p' = p) as -> by (apply HU_inj; congruence). congruence. }
    destruct (open_impl_ok E HE keyof U HU_dir HU_key HU_inj w p (contents sp (canon p)) n Up (wi_dirs _ _ _ _ _ _ _ W _ Hno)
      (fun i => wi_fresh _ _ _ _ _ _ _ W (canon p) i))
      as (w1 & y & Eo & Dy & Iy & Qy & T1 & T2 & T3 & T4 & T5 & T6 & T7 & T8 & T9).
    rewrite Eo. eexists. split; [reflexivity|].
    assert (Hni : w_insts w !! w_next_inst w = None).
    { destruct (w_insts w !! w_next_inst w) as [x|] eqn:Hx; [|reflexivity].
      destruct (wi_insts _ _ _ _ _ _ _ W _ x Hx) as (X & _). lia. }
    assert (Hother : forall d j, d <> canon p -> d_data (dir_of w d) = Some j -> inode w1 j = inode w j).
    { intros d j Hd Hj. apply T8; [apply (wi_fresh _ _ _ _ _ _ _ W d j Hj)|]. right. intros Hj'. apply Hd.
      eapply (wi_ino _ _ _ _ _ _ _ W); eassumption. }
    assert (Hdino : forall d j, d <> canon p -> d_data (dir_of w d) = Some j -> j <> i_ino y).
    { intros d j Hd Hj ->. destruct T9 as [(X & _)|(_ & X & _)].
      - apply Hd. eapply (wi_ino _ _ _ _ _ _ _ W); eassumption.
      - pose proof (wi_fresh _ _ _ _ _ _ _ W d _ Hj). lia. }
    pose proof (Iy (H (canon p)) (wi_hist _ _ _ _ _ _ _ W (canon p))) as I0.
    pose proof (io_data _ _ _ _ _ _ _ I0) as Hdy. rewrite Dy in Hdy.
    split; cbn [w_poison w_handles w_reg w_insts w_next_inst w_next_ino].
    + rewrite T4. apply (wi_poison _ _ _ _ _ _ _ W).
    + intros d. rewrite HC. apply (wi_hist _ _ _ _ _ _ _ W).
    + intros h'. rewrite T2. cbn [sp' sp_handles]. destruct (decide (h = h')) as [<-|Hne].
      * rewrite !lookup_insert. cbn. rewrite lookup_insert. auto.
      * rewrite !lookup_insert_ne by exact Hne. pose proof (wi_handles _ _ _ _ _ _ _ W h') as G.
        unfold handle_ok in *. destruct (w_handles w !! h') as [hd'|]; [|exact G].
        destruct (sp_handles sp !! h') as [d'|]; [|exact G]. destruct G as (G1 & G2 & G3 & G4 & G5).
        split_and!; auto. cbn. rewrite lookup_insert_ne; [rewrite T3; exact G5|]. congruence.
    + intros p' i Hp'. rewrite T1, T5, T3 in *. destruct (decide (p = p')) as [<-|Hne].
      * rewrite lookup_insert in Hp'. injection Hp' as <-. split; [exact Up|]. exists y. rewrite lookup_insert. auto.
      * rewrite lookup_insert_ne in Hp' by exact Hne. destruct (wi_reg _ _ _ _ _ _ _ W p' i Hp') as (Up' & x & Hx & Dx).
        split; [exact Up'|]. exists x. rewrite lookup_insert_ne; [auto|]. congruence.
    + intros j x Hx. rewrite T1, T5, T3, T2 in *. destruct (decide (w_next_inst w = j)) as [<-|Hne].
      * rewrite lookup_insert in Hx. injection Hx as <-. split_and!.
        -- lia.
        -- rewrite HC, Dy. eapply (inst_ok_frame E); [..|exact I0]; auto; try lia.
        -- exists p. apply lookup_insert.
        -- exists h. eexists. rewrite lookup_insert. split; reflexivity.
      * rewrite lookup_insert_ne in Hx by exact Hne. destruct (wi_insts _ _ _ _ _ _ _ W j x Hx) as (X & Y & (p' & Z) & h' & hd' & Hh' & Hi).
        pose proof (Hno j x Hx) as Hd. split_and!.
        -- lia.
        -- rewrite HC. eapply (inst_ok_frame E); [..|exact Y]; auto; try lia; [apply T7, Hd|].
           eapply Hother; [exact Hd|]. apply (io_data _ _ _ _ _ _ _ Y).
        -- exists p'. rewrite lookup_insert_ne; [exact Z|]. congruence.
        -- exists h', hd'. split; [|exact Hi]. rewrite lookup_insert_ne; [exact Hh'|congruence].
    + intros d Hd. rewrite HC. rewrite T1, T5 in Hd.
      assert (Hdp : d <> canon p).
      { intros ->. eapply (Hd (w_next_inst w) y); [apply lookup_insert|exact Dy]. }
      eapply (dir_ok_frame E); [| | |apply (wi_dirs _ _ _ _ _ _ _ W d)].
      * apply T7, Hdp.
      * intros i Hi. apply (Hother d); [exact Hdp|exact Hi].
      * lia.
      * intros i x Hx. apply (Hd i). rewrite lookup_insert_ne; [exact Hx|]. congruence.
    + intros d i Hi. destruct (decide (d = canon p)) as [->|Hd].
      * change (d_data (dir_of w1 (canon p)) = Some i) in Hi. rewrite Hdy in Hi. injection Hi as <-.
        destruct T9 as [(X & Y)|(X & Y & Z & _)].
        -- pose proof (wi_fresh _ _ _ _ _ _ _ W _ _ X). lia.
        -- lia.
      * change (d_data (dir_of w1 d) = Some i) in Hi. rewrite T7 in Hi by exact Hd.
        pose proof (wi_fresh _ _ _ _ _ _ _ W _ _ Hi). lia.
    + intros d d' i Hi Hi'. change (d_data (dir_of w1 d) = Some i) in Hi. change (d_data (dir_of w1 d') = Some i) in Hi'.
      destruct (decide (d = canon p)) as [->|Hd], (decide (d' = canon p)) as [->|Hd']; [reflexivity| | |].
      * rewrite Hdy in Hi. injection Hi as <-. rewrite T7 in Hi' by exact Hd'. destruct (Hdino d' _ Hd' Hi'). reflexivity.
      * rewrite Hdy in Hi'. injection Hi' as <-. rewrite T7 in Hi by exact Hd. destruct (Hdino d _ Hd Hi). reflexivity.
      * rewrite T7 in Hi by exact Hd. rewrite T7 in Hi' by exact Hd'. eapply (wi_ino _ _ _ _ _ _ _ W); eassumption.
Qed.

Lemma drop_step w sp H n h hd :
  WInv w sp H n -> w_handles w !! h = Some hd -> room E n ->
  exists w' r1 w1, do_drop_reg w h hd = (w1, r1) /\ r1 = ROk None /\ do_drop_arc E w1 h hd = (w', ROk None) /\
    WInv w' (Spec (sp_dirs sp) (delete h (sp_handles sp))) H n.
Proof.
  intros W Hh Hroom. destruct (handle_cases w sp H n h hd W Hh) as (Hsp & Hun & Up & Hk & Hr & x & Hx & Dx & I).
  set (sp' := Spec _ _).
  assert (HC : forall d, contents sp' d = contents sp d) by (apply contents_ext; reflexivity).
  set (hd' := Handle (h_path hd) (h_key hd) (h_inst hd) true).
  unfold do_drop_reg. rewrite (wi_poison _ _ _ _ _ _ _ W).
  assert (Estr : forall rg, strong (set_handles (set_reg w rg) (<[h:=hd']> (w_handles w))) (h_inst hd) = strong w (h_inst hd)).
  { intros rg. unfold strong. cbn [set_handles w_handles].
    assert (Pm : Permutation (map_to_list (w_handles w)) ((h, hd) :: map_to_list (delete h (w_handles w)))).
    { rewrite <- map_to_list_insert by apply lookup_delete. rewrite insert_delete by exact Hh. reflexivity. }
    assert (Pm' : Permutation (map_to_list (<[h := hd']> (w_handles w))) ((h, hd') :: map_to_list (delete h (w_handles w)))).
    { rewrite <- insert_delete_insert. rewrite map_to_list_insert by apply lookup_delete. reflexivity. }
    rewrite Pm, Pm'. rewrite !filter_cons_True by reflexivity. reflexivity. }
  destruct (Nat.eqb_spec (strong w (h_inst hd)) 1) as [H1|H1].
  - (* the last handle *)
    pose proof (proj1 (strong_1 w h hd Hh) H1) as Honly.
    set (w1 := set_handles (set_reg w (delete (h_path hd) (w_reg w))) (<[h:=hd']> (w_handles w))).
    destruct (io_state _ _ _ _ _ _ _ I) as (q & rs & c & B1 & B2 & B3 & B4 & B5 & B6 & B7).
    assert (Hx1 : w_insts w1 !! h_inst hd = Some x) by exact Hx.
    assert (Hq1 : i_queue x = map jw q ++ []) by (rewrite app_nil_r; exact B1).
    assert (B3' : r_ok (i_codec E x) (i_st w1 x) rs c).
    { eapply r_ext; [..|exact B3]; reflexivity. }
    destruct (run_writes E HE q w1 (h_inst hd) x rs c [] Hx1 (io_run _ _ _ _ _ _ _ I) Hq1 B2 B3') as (s & rs' & Er & Ws & Rs & _).
    { eapply room_mono; [|exact Hroom]. lia. }
    eexists _, _, _. split; [reflexivity|]. split; [reflexivity|].
    unfold do_drop_arc. change (w_handles (set_reg w (delete (h_path hd) (w_reg w)))) with (w_handles w). fold hd'. fold w1. unfold w1 at 1. rewrite Estr, H1. cbn [Nat.eqb].
    unfold drain. rewrite Hx1.
    replace (length (i_queue x)) with (length q) by (rewrite B1, map_length; reflexivity).
    rewrite Er. set (y := i_after x [] IoRun s). cbn [set_seed set_inode set_inst set_insts w_insts].
    rewrite lookup_insert. cbn [y i_after i_join i_io]. rewrite (io_join _ _ _ _ _ _ _ I).
    split; [reflexivity|]. fold y.
    cbn [set_handles set_insts w_insts w_handles].
    match goal with |- WInv ?w' _ _ _ => set (w2 := w') end.
    assert (Einsts : w_insts w2 = delete (h_inst hd) (w_insts w)).
    { unfold w2. cbn. apply delete_insert_delete. }
    assert (Ehandles : w_handles w2 = delete h (w_handles w)).
    { unfold w2. cbn. apply delete_insert_delete. }
    assert (Ereg : w_reg w2 = delete (h_path hd) (w_reg w)) by reflexivity.
    assert (Edir : forall d, dir_of w2 d = dir_of w d) by reflexivity.
    assert (Einode : forall j, j <> i_ino x -> inode w2 j = inode w j).
    { intros j Hj. unfold w2, inode. cbn. rewrite lookup_insert_ne by congruence. reflexivity. }
    assert (Einx : inode w2 (i_ino x) = s_file s).
    { unfold w2, inode. cbn. rewrite lookup_insert. reflexivity. }
    assert (Hino : forall d j, d <> i_dir x -> d_data (dir_of w d) = Some j -> j <> i_ino x).
    { intros d j Hd Hj ->. apply Hd. eapply (wi_ino _ _ _ _ _ _ _ W); [exact Hj|]. apply (io_data _ _ _ _ _ _ _ I). }
    assert (Hothers : forall j z, j <> h_inst hd -> w_insts w !! j = Some z -> i_dir z <> i_dir x).
    { intros j z Hj Hz D. apply Hj. eapply (inst_unique E keyof U HU_inj w sp H n j (h_inst hd) z x W); eauto. }
    split.
    + apply (wi_poison _ _ _ _ _ _ _ W).
    + intros d. rewrite HC. apply (wi_hist _ _ _ _ _ _ _ W).
    + intros h'. rewrite Ehandles. cbn [sp' sp_handles]. destruct (decide (h = h')) as [<-|Hne].
      * rewrite !lookup_delete. exact Logic.I.
      * rewrite !lookup_delete_ne by exact Hne. pose proof (wi_handles _ _ _ _ _ _ _ W h') as G.
        unfold handle_ok in *. destruct (w_handles w !! h') as [hd2|] eqn:Hh2; [|exact G].
        destruct (sp_handles sp !! h') as [d'|]; [|exact G]. destruct G as (G1 & G2 & G3 & G4 & G5).
        split_and!; auto. rewrite Ereg, lookup_delete_ne; [exact G5|]. intros Ep. apply Hne.
        symmetry. apply (Honly h' hd2 Hh2). rewrite <- Ep in G5. congruence.
    + intros p i Hp. rewrite Ereg in Hp. apply lookup_delete_Some in Hp as [Hne Hp].
      destruct (wi_reg _ _ _ _ _ _ _ W p i Hp) as (Up' & z & Hz & Dz). split; [exact Up'|].
      exists z. rewrite Einsts, lookup_delete_ne; [auto|]. intros Ei. subst i.
      rewrite Hx in Hz. injection Hz as <-. apply Hne. apply HU_inj; [exact Up|exact Up'|congruence].
    + intros j z Hz. rewrite Einsts in Hz. apply lookup_delete_Some in Hz as [Hne Hz].
      destruct (wi_insts _ _ _ _ _ _ _ W j z Hz) as (X & Y & (p & Z) & h' & hd2 & Hh2 & Hi).
      assert (Hd : i_dir z <> i_dir x) by (apply (Hothers j); congruence).
      split_and!.
      * exact X.
      * rewrite HC. eapply (inst_ok_frame E); [..|exact Y]; auto; try lia.
        apply Einode, (Hino (i_dir z)); [exact Hd|apply (io_data _ _ _ _ _ _ _ Y)].
      * exists p. rewrite Ereg, lookup_delete_ne; [exact Z|]. congruence.
      * exists h', hd2. split; [|exact Hi]. rewrite Ehandles, lookup_delete_ne; [exact Hh2|]. congruence.
    + intros d Hd. rewrite HC. destruct (decide (d = i_dir x)) as [->|Hdx].
      * unfold dir_ok, WorldInv.dir_ok. rewrite Edir, (io_data _ _ _ _ _ _ _ I). left. exists rs', (i_nonce x), s. split_and!.
        -- apply (io_meta _ _ _ _ _ _ _ I).
        -- symmetry. exact Einx.
        -- unfold i_codec in Ws. rewrite (io_key _ _ _ _ _ _ _ I) in Ws.
           eapply r_mono; [|exact Ws]. exact B4.
        -- rewrite Rs, <- B5. exact B6.
      * eapply (dir_ok_frame E); [apply Edir| | |apply (wi_dirs _ _ _ _ _ _ _ W d)].
        -- intros i Hi. apply Einode, (Hino d); [exact Hdx|exact Hi].
        -- lia.
        -- intros j z Hz. destruct (decide (j = h_inst hd)) as [->|Hj]; [congruence|].
           apply (Hd j). rewrite Einsts, lookup_delete_ne by congruence. exact Hz.
    + intros d i. rewrite Edir. apply (wi_fresh _ _ _ _ _ _ _ W).
    + intros d d' i. rewrite !Edir. apply (wi_ino _ _ _ _ _ _ _ W).
  - (* others remain *)
    eexists _, _, _. split; [reflexivity|]. split; [reflexivity|].
    unfold do_drop_arc.
    pose proof (Estr (w_reg w)) as Es.
    replace (set_reg w (w_reg w)) with w in Es by (destruct w; reflexivity).
    fold hd'. rewrite Es. destruct (Nat.eqb_spec (strong w (h_inst hd)) 1) as [|_]; [contradiction|].
    split; [reflexivity|]. cbn [set_handles w_handles].
    assert (Hex : exists h' hd', h' <> h /\ w_handles w !! h' = Some hd' /\ h_inst hd' = h_inst hd).
    { destruct (filter (fun kh : N * handle => h_inst kh.2 = h_inst hd) (map_to_list (delete h (w_handles w)))) as [|[h' hd2] l] eqn:Ef.
      - destruct H1. apply (strong_1 w h hd Hh). intros h' hd2 Hh2 Hi2.
        destruct (decide (h' = h)) as [|Hne]; [assumption|exfalso].
        assert (In' : (h', hd2) ∈ filter (fun kh : N * handle => h_inst kh.2 = h_inst hd) (map_to_list (delete h (w_handles w)))).
        { apply elem_of_list_filter. split; [exact Hi2|]. apply elem_of_map_to_list.
          rewrite lookup_delete_ne by congruence. exact Hh2. }
        rewrite Ef in In'. inversion In'.
      - assert (In' : (h', hd2) ∈ filter (fun kh : N * handle => h_inst kh.2 = h_inst hd) (map_to_list (delete h (w_handles w)))).
        { rewrite Ef. left. }
        apply elem_of_list_filter in In' as [Hi In']. apply elem_of_map_to_list in In'.
        apply lookup_delete_Some in In' as [Hne In']. exists h', hd2. auto. }
    rewrite delete_insert_delete.
    destruct W as [A B C D G II J K]. split; auto.
    + intros h'. cbn [set_handles w_handles sp' sp_handles w_reg]. destruct (decide (h = h')) as [<-|Hne].
      * rewrite !lookup_delete. exact Logic.I.
      * rewrite !lookup_delete_ne by exact Hne. apply C.
    + intros j z Hz. destruct (G j z Hz) as (X & Y & Z & h2 & hd2 & Hh2 & Hi2). split_and!; auto.
      * rewrite HC. eapply (inst_ok_frame E); [..|exact Y]; auto; try lia.
      * cbn [set_handles w_handles]. destruct (decide (h2 = h)) as [->|Hne].
        -- destruct Hex as (h3 & hd3 & Hne3 & Hh3 & Hi3). exists h3, hd3. rewrite lookup_delete_ne by congruence.
           split; [exact Hh3|]. congruence.
        -- exists h2, hd2. rewrite lookup_delete_ne by congruence. auto.
Qed.

(** ** clear_data *)

Lemma clear_step w sp H n h hd :
  WInv w sp H n -> w_handles w !! h = Some hd -> room E n ->
  let d := canon (h_path hd) in
  let sp' := set_contents sp d ∅ in
  exists w', do_clear E w hd = (w', ROk None) /\ WInv w' sp' (upd H sp (EClear h) sp') n /\
    file_at w' d = Some (zeros (page P)) /\ (forall d', d' <> d -> same_disk w w' d').
Proof.
  intros W Hh Hroom d sp'. destruct (handle_cases w sp H n h hd W Hh) as (Hsp & Hun & Up & Hk & Hr & x & Hx & Dx & I).
  fold d in Hsp, Hk, Dx.
  assert (Hmut : mutates sp d (EClear h) = true) by (cbn; apply bool_decide_eq_true; exact Hsp).
  unfold do_clear. rewrite Hx, (io_poison _ _ _ _ _ _ _ I).
  unfold impl_clear. rewrite (io_valid _ _ _ _ _ _ _ I). cbn [negb].
  unfold post. cbn [i_invalid i_sender i_io i_queue].
  rewrite (io_sender _ _ _ _ _ _ _ I), (io_run _ _ _ _ _ _ _ I).
  destruct (io_state _ _ _ _ _ _ _ I) as (q & rs & c & B1 & B2 & B3 & B4 & B5 & B6 & B7).
  set (x1 := i_with_queue (i_invalid x) (i_queue x ++ [JRemove])).
  set (w1 := set_inst w (h_inst hd) x1).
  assert (Hx1 : w_insts w1 !! h_inst hd = Some x1) by apply lookup_insert.
  assert (Hq1 : i_queue x1 = map jw q ++ [JRemove]) by (cbn; rewrite B1; reflexivity).
  assert (Hrun1 : i_io x1 = IoRun) by exact (io_run _ _ _ _ _ _ _ I).
  assert (B3' : r_ok (i_codec E x1) (i_st w1 x1) rs c) by (eapply r_ext; [..|exact B3]; reflexivity).
  destruct (run_writes E HE q w1 (h_inst hd) x1 rs c [JRemove] Hx1 Hrun1 Hq1 B2 B3') as (s & rs' & Er & Ws & Rs & _).
  { eapply room_mono; [|exact Hroom]. lia. }
  unfold drain. rewrite Hx1, Hq1, app_length, map_length. cbn [length].
  rewrite Nat.add_1_r. rewrite Nat.iter_succ. rewrite Er.
  set (w2 := set_seed _ _).
  set (dd2 := Dir None (if is_encrypted F then None else d_meta (dir_of w2 (i_dir x1)))).
  set (y2 := i_with_queue (i_after x1 [JRemove] IoRun s) []).
  assert (Erm : run_job E w2 (h_inst hd) = set_inst (set_dir w2 (i_dir x1) dd2) (h_inst hd) y2).
  { unfold run_job. unfold w2 at 1. cbn [set_seed set_inode set_inst set_insts w_insts]. rewrite lookup_insert. reflexivity. }
  rewrite Erm.
  change (w_insts (set_inst (set_dir w2 (i_dir x1) dd2) (h_inst hd) y2)) with (<[h_inst hd := y2]> (w_insts w2)).
  rewrite lookup_insert. cbn [y2 i_with_queue i_after i_io]. fold y2.
  match goal with |- context [open_impl E ?wa _ _] => set (w3 := wa) end.
  assert (Hd3 : dir_of w3 d = dd2).
  { unfold w3. erewrite dir_of_insert by reflexivity. cbn [i_after i_dir x1 i_with_queue i_invalid]. rewrite Dx.
    destruct (decide (d = d)); [reflexivity|congruence]. }
  assert (Hdir3 : forall d', d' <> d -> dir_of w3 d' = dir_of w d').
  { intros d' Hne. unfold w3. erewrite dir_of_insert by reflexivity. cbn [i_after i_dir x1 i_with_queue i_invalid]. rewrite Dx.
    destruct (decide (d = d')); [congruence|reflexivity]. }
  rewrite Hk.
  destruct (open_impl_ok E HE keyof U HU_dir HU_key HU_inj w3 (h_path hd) ∅ n Up) as
    (w4 & y & Eo & Dy & Iy & Qy & T1 & T2 & T3 & T4 & T5 & T6 & T7 & T8 & T9).
  { fold d. unfold WorldInv.dir_ok. rewrite Hd3. reflexivity. }
  { fold d. rewrite Hd3. discriminate. }
  fold d in Eo, Dy, T7, T9. rewrite Eo.
  assert (Hold : w_insts w3 !! h_inst hd = Some (i_quit y2)) by apply lookup_insert.
  rewrite Hold. cbn [default i_quit i_join andb].
  change (default x (Some (i_quit y2))) with (i_quit y2). cbn [i_quit i_join andb].
  eexists. split; [reflexivity|].
  destruct T9 as [(X & _)|(_ & X & Y & Z)]; [rewrite Hd3 in X; discriminate|].
  assert (Hnext : w_next_ino w3 = w_next_ino w) by reflexivity.
  split; cycle 1.
  { split; cycle 1.
    { intros d' Hne. apply same_disk_by.
      - change (dir_of w4 d' = dir_of w d'). rewrite T7 by exact Hne. apply Hdir3, Hne.
      - intros j Hj. pose proof (wi_fresh _ _ _ _ _ _ _ W _ _ Hj) as Hfr. change (inode w4 j = inode w j).
        rewrite T8; [|rewrite Hnext; exact Hfr|right; fold d; rewrite Hd3; discriminate]. unfold w3, inode. cbn. rewrite lookup_insert_ne; [reflexivity|].
        intros <-. apply Hne. rewrite <- Dx. eapply (wi_ino _ _ _ _ _ _ _ W); [exact Hj|]. apply (io_data _ _ _ _ _ _ _ I). }
    pose proof (Iy (fun _ _ => True) Logic.I) as I4. pose proof (io_data _ _ _ _ _ _ _ I4) as D4. rewrite Dy in D4.
    unfold file_at. change (dir_of (set_inst w4 (h_inst hd) y) d) with (dir_of w4 d). rewrite D4. cbn [option_map].
    change (inode (set_inst w4 (h_inst hd) y) (i_ino y)) with (inode w4 (i_ino y)). rewrite Z. reflexivity. }
  eapply (WInv_update E keyof U HU_dir HU_key HU_inj w _ sp sp' H _ n n (h_inst hd) x y W Hx); cbn [set_inst set_insts w_handles w_reg w_poison w_next_inst w_next_ino w_insts].
  - rewrite Dy, Dx. reflexivity.
  - rewrite T2. reflexivity.
  - rewrite T3. reflexivity.
  - rewrite T4. apply (wi_poison _ _ _ _ _ _ _ W).
  - rewrite T5. reflexivity.
  - rewrite <- Hnext. exact T6.
  - rewrite T1. unfold w3. cbn. rewrite !insert_insert. reflexivity.
  - rewrite Dx. intros d' Hne. change (dir_of w4 d' = dir_of w d'). rewrite T7 by exact Hne. apply Hdir3, Hne.
  - intros j Hj Hne. change (inode w4 j = inode w j). rewrite T8; [|rewrite Hnext; exact Hj|right; fold d; rewrite Hd3; discriminate].
    unfold w3, inode. cbn. rewrite lookup_insert_ne by congruence. reflexivity.
  - right. rewrite X, Y, Hnext. lia.
  - reflexivity.
  - rewrite Dx. intros d' Hne. apply contents_set_ne. congruence.
  - rewrite Dx. intros d' Hne k S. apply upd_false. cbn. apply bool_decide_eq_false. congruence.
  - rewrite Dx. apply upd_0, Hmut.
  - lia.
  - rewrite Dx.
    pose proof (upd_0 H sp (EClear h) sp' d Hmut) as G. unfold sp' in G at 2. rewrite contents_set in G.
    replace (contents sp' d) with (∅ : smap) by (symmetry; apply contents_set).
    eapply (inst_ok_frame E); [..|apply (Iy _ G)]; try reflexivity. auto.
Qed.

End WorldStep.
