(** C34, C35, C52: the C interface. *)
From Verif Require Import Bytes Utf8 Proto ProtoFacts Value Codec Store StoreFacts Encrypt World Spec Hyps Refine WorldInv WorldStep Main Frames Reach Examples P_Map P_Store P_Fail Logging Ffi.
From Coq Require Import ZArith ZifyBool ZifyNat ZifyN.
Local Open Scope N_scope.

(** An allocator returns an address that is not null and not in use. *)
Definition allocator_ok (pick : heap -> ptr) : Prop := forall h, h !! pick h = None /\ pick h <> 0.

Section Owns.
Context (pick : heap -> ptr) (text : err -> bytes) (PO : allocator_ok pick).

Definition releases (f : heap -> out heap) (b : heap) : Prop := forall h, b ⊆ h -> f h = Done (h ∖ b).

(** [f h = (p, h')] made the blocks [b]. *)
Definition made (b : heap) (h h' : heap) : Prop := b ##ₘ h /\ h' = b ∪ h.

Lemma alloc_spec c h : fst (layout c) <> 0 ->
  exists p, alloc pick c h = (p, <[p := c]> h) /\ h !! p = None /\ p <> 0.
Proof.
  intros H. unfold alloc. destruct (N.eqb_spec (layout c).1 0) as [|_]; [contradiction|]. exists (pick h). destruct (PO h). auto.
Qed.

Lemma dealloc_live p c h : h !! p = Some c -> fst (layout c) <> 0 -> dealloc p (layout c) h = Done (delete p h).
Proof.
  intros H Hl. unfold dealloc. destruct (N.eqb_spec (layout c).1 0) as [|_]; [contradiction|]. rewrite H, decide_True; reflexivity.
Qed.

Lemma diff_insert (h b : heap) p c : delete p (h ∖ b) = h ∖ <[p := c]> b.
Proof.
  apply map_eq. intros i. apply option_eq. intros x. rewrite lookup_delete_Some, !lookup_difference_Some.
  destruct (decide (i = p)) as [->|Hne]; [rewrite lookup_insert|rewrite lookup_insert_ne by congruence]; naive_solver.
Qed.

Lemma diff_lookup (h b : heap) p c : h !! p = Some c -> b !! p = None -> (h ∖ b) !! p = Some c.
Proof. intros. rewrite lookup_difference_Some. auto. Qed.

Lemma sub_insert (h b : heap) p c : b !! p = None -> <[p := c]> b ⊆ h -> h !! p = Some c /\ b ⊆ h.
Proof.
  intros Hb Hs. split; [eapply lookup_weaken; [apply lookup_insert|exact Hs]|]. etrans; [|exact Hs]. apply insert_subseteq, Hb.
Qed.

Lemma made_insert b h h1 p c : made b h h1 -> h1 !! p = None -> made (<[p := c]> b) h (<[p := c]> h1) /\ b !! p = None.
Proof.
  intros [D ->] Hp. apply lookup_union_None in Hp as [Hb Hh]. split; [|exact Hb]. split.
  - apply map_disjoint_insert_l. auto.
  - apply insert_union_l.
Qed.

Lemma made_nil h : made ∅ h h.
Proof. split; [apply map_disjoint_empty_l|]. rewrite (left_id_L ∅ _). reflexivity. Qed.

(** The elements of a slice. *)
Lemma elems_spec v h : exists p b h', alloc pick (MElems v) h = (p, h') /\ made b h h' /\
  releases (dealloc p (count v * width v, width v)) b /\ (count v <> 0 -> b !! p = Some (MElems v)) /\ p <> 0 /\
  (forall q, h' !! q = None -> b !! q = None).
Proof.
  assert (W : width v <> 0) by (destruct v; cbn; lia).
  unfold alloc. cbn [layout fst snd]. destruct (N.eqb_spec (count v * width v) 0) as [Hz|Hz].
  - exists (width v), ∅, h. split_and!; auto; [apply made_nil| |lia].
    intros h2 _. unfold dealloc. cbn. rewrite Hz. cbn. rewrite (right_id_L ∅ _). reflexivity.
  - destruct (PO h) as [P1 P2]. exists (pick h), {[pick h := MElems v]}, (<[pick h := MElems v]> h). split_and!; auto.
    + split; [apply map_disjoint_singleton_l, P1|]. apply insert_union_singleton_l.
    + intros h2 Hs. apply map_singleton_subseteq_l in Hs. pose proof (dealloc_live _ _ _ Hs Hz) as Q. cbn [layout] in Q. rewrite Q. f_equal.
      rewrite <- (right_id_L ∅ (∖) h2) at 1. apply diff_insert.
    + intros _. apply lookup_singleton.
    + intros q Hq. apply lookup_insert_None in Hq as [_ Hq]. apply lookup_singleton_None. exact Hq.
Qed.

(** A block in front of others. *)
Lemma outer_spec c b h h1 : fst (layout c) <> 0 -> made b h h1 ->
  exists p, alloc pick c h1 = (p, <[p := c]> h1) /\ made (<[p := c]> b) h (<[p := c]> h1) /\ b !! p = None /\ p <> 0 /\
    forall f : heap -> out heap, (forall h2, h2 !! p = Some c -> b ⊆ h2 -> f h2 = obind (Done (h2 ∖ b)) (dealloc p (layout c))) -> releases f (<[p := c]> b).
Proof.
  intros Hl M. destruct (alloc_spec c h1 Hl) as (p & A & Hp & Hn). exists p. destruct (made_insert b h h1 p c M Hp) as [M' Hb].
  split_and!; auto. intros f Hf h2 Hs. apply sub_insert in Hs as [H1 H2]; [|exact Hb]. rewrite (Hf h2 H1 H2). cbn [obind].
  rewrite dealloc_live; [f_equal; apply diff_insert| |exact Hl]. apply diff_lookup; assumption.
Qed.

Lemma slice_spec s h : exists p b h', leak_slice pick s h = (p, h') /\ made b h h' /\ releases (free_slice p) b /\ p <> 0 /\
  is_Some (b !! p) /\ forall h2, b ⊆ h2 -> read_slice h2 p = Some s.
Proof.
  unfold leak_slice. destruct (elems_spec (VStr s) h) as (a & b & h1 & -> & M & R & L & Na & _).
  destruct (outer_spec (MSlice a (len s)) b h h1 ltac:(cbn; lia) M) as (p & A & M' & Hb & Np & F).
  exists p, (<[p := MSlice a (len s)]> b), (<[p := MSlice a (len s)]> h1). split_and!; auto.
  - apply F. intros h2 H1 H2. unfold free_slice. rewrite H1.
    pose proof (R h2 H2) as Q. cbn [count width] in Q. rewrite N.mul_1_r in Q. rewrite Q. reflexivity.
  - rewrite lookup_insert. eauto.
  - intros h2 Hs. apply sub_insert in Hs as [H1 H2]; [|exact Hb]. unfold read_slice. rewrite H1. unfold read_str.
    destruct (N.eqb_spec (len s) 0) as [Hz|Hz]; [unfold len in Hz; destruct s; [reflexivity|cbn in Hz; lia]|].
    rewrite (lookup_weaken _ _ _ _ (L Hz) H2), N.eqb_refl. reflexivity.
Qed.

Lemma get_type_eq g : get_type g = c_type g. Proof. destruct g; reflexivity. Qed.
Lemma put_fun_eq v : put_fun v = c_fun v. Proof. destruct v; reflexivity. Qed.

Lemma array_spec g v h w : elem_width g = Some w -> type_of v = c_type g ->
  exists p b h', leak_array pick v g h = (p, h') /\ made b h h' /\ releases (free_array p) b /\ p <> 0 /\
  is_Some (b !! p) /\ forall h2, b ⊆ h2 -> read_array h2 g p = Some v.
Proof.
  intros Hw Ht. unfold leak_array. destruct (elems_spec v h) as (a & b & h1 & -> & M & R & L & Na & _).
  destruct (outer_spec (MArray a g (count v)) b h h1 ltac:(cbn; lia) M) as (p & A & M' & Hb & Np & F).
  assert (Wv : width v = w) by (destruct g, v; cbn in *; congruence).
  exists p, (<[p := MArray a g (count v)]> b), (<[p := MArray a g (count v)]> h1). split_and!; auto.
  - apply F. intros h2 H1 H2. unfold free_array. rewrite H1, Hw. rewrite <- Wv, (R h2 H2). reflexivity.
  - rewrite lookup_insert. eauto.
  - intros h2 Hs. apply sub_insert in Hs as [H1 H2]; [|exact Hb]. unfold read_array. rewrite H1.
    rewrite bool_decide_eq_true_2 by reflexivity. cbn [negb].
    destruct (N.eqb_spec (count v) 0) as [Hz|Hz].
    + destruct g, v; cbn in *; try congruence; match goal with l : list _ |- _ => destruct l; [reflexivity|cbn in Hz; unfold len in Hz; cbn in Hz; lia] end.
    + rewrite (lookup_weaken _ _ _ _ (L Hz) H2), N.eqb_refl, bool_decide_eq_true_2 by assumption. reflexivity.
Qed.

Lemma scalar_spec v h : fst (layout (MScalar v)) <> 0 ->
  exists p b h', alloc pick (MScalar v) h = (p, h') /\ made b h h' /\ releases (free_scalar (width v) p) b /\ p <> 0 /\
  is_Some (b !! p) /\ forall h2, b ⊆ h2 -> h2 !! p = Some (MScalar v).
Proof.
  intros Hl. destruct (outer_spec (MScalar v) ∅ h h Hl (made_nil h)) as (p & A & M' & Hb & Np & F).
  exists p, (<[p := MScalar v]> ∅), (<[p := MScalar v]> h). split_and!; auto.
  - apply F. intros h2 H1 H2. cbn [obind layout]. rewrite (right_id_L ∅ _). reflexivity.
  - rewrite lookup_insert. eauto.
  - intros h2 Hs. eapply lookup_weaken; [apply lookup_insert|exact Hs].
Qed.

Lemma data_spec g v h : type_of v = c_type g ->
  exists p b h', leak_data pick g v h = Done (p, h') /\ made b h h' /\ releases (drop_data p g) b /\ p <> 0 /\ is_Some (b !! p) /\
  forall h2, b ⊆ h2 -> read_data h2 g p = Some v.
Proof.
  intros Ht. unfold leak_data, array_token.
  destruct g; destruct v; try discriminate Ht; cbn beta iota.
  all: lazymatch goal with
       | |- context[alloc pick (MScalar ?v) ?hh] => destruct (scalar_spec v hh ltac:(cbn; lia)) as (p & bb & h' & -> & M & R & Np & Hp & L)
       | |- context[leak_array pick ?v ?g ?hh] => destruct (array_spec g v hh _ eq_refl eq_refl) as (p & bb & h' & -> & M & R & Np & Hp & L)
       | |- context[leak_slice pick ?s ?hh] => destruct (slice_spec s hh) as (p & bb & h' & -> & M & R & Np & Hp & L)
       end; exists p, bb, h'; (split; [reflexivity|]); (split; [exact M|]);
    (split; [intros h2 Hs; unfold drop_data; destruct (N.eqb_spec p 0); [contradiction|]; exact (R h2 Hs)|]); (split; [exact Np|]); (split; [exact Hp|]);
    intros h2 Hs; cbn [read_data]; rewrite (L h2 Hs); reflexivity.
Qed.

(** The error record. *)
Definition reads_error (h : heap) (p : ptr) (c : Z) (reason : option bytes) : Prop :=
  match reason with
  | None => h !! p = Some (MError c 0)
  | Some s => exists q, h !! p = Some (MError c q) /\ q <> 0 /\ read_slice h q = Some s
  end.

Lemma error_spec code reason h :
  exists p b h', (let '(c, h1) := error_new pick code reason h in alloc pick c h1) = (p, h') /\ made b h h' /\ releases (free_error p) b /\ p <> 0 /\
  is_Some (b !! p) /\ forall h2, b ⊆ h2 -> reads_error h2 p code reason.
Proof.
  unfold error_new. destruct reason as [s|].
  - destruct (slice_spec s h) as (q & b & h1 & -> & M & R & Nq & Hq & L).
    destruct (outer_spec (MError code q) b h h1 ltac:(cbn; lia) M) as (p & A & M' & Hb & Np & F).
    exists p, (<[p := MError code q]> b), (<[p := MError code q]> h1). split_and!; auto.
    + apply F. intros h2 H1 H2. unfold free_error. rewrite H1. destruct (N.eqb_spec q 0); [contradiction|]. rewrite (R h2 H2). reflexivity.
    + rewrite lookup_insert. eauto.
    + intros h2 Hs. apply sub_insert in Hs as [H1 H2]; [|exact Hb]. exists q. auto.
  - destruct (outer_spec (MError code 0) ∅ h h ltac:(cbn; lia) (made_nil h)) as (p & A & M' & Hb & Np & F).
    exists p, (<[p := MError code 0]> ∅), (<[p := MError code 0]> h). split_and!; auto.
    + apply F. intros h2 H1 H2. unfold free_error. rewrite H1. cbn. rewrite (right_id_L ∅ _). reflexivity.
    + rewrite lookup_insert. eauto.
    + intros h2 Hs. eapply lookup_weaken; [apply lookup_insert|exact Hs].
Qed.

(** What is needed of the blocks of a result. *)
Record owns (b : heap) (p : ptr) (t : ctype) (r : result) : Prop := {
  ow_root : is_Some (b !! p);
  ow_null : p <> 0;
  ow_free : releases (free_buffer p) b;
  ow_read : forall h, b ⊆ h -> read_result h t p = expected text r
}.

Lemma finish_spec g r h : (forall v, r = ROk (Some v) -> type_of v = c_type g) -> expected text r <> None ->
  exists p b h', finish pick text g r h = Done (p, h') /\ made b h h' /\ owns b p g r.
Proof.
  intros Ht He. unfold finish, get_token. destruct r as [[v|]|e|]; [| | |contradiction He; reflexivity].
  - destruct (data_spec g v h (Ht v eq_refl)) as (d & b & h1 & -> & M & R & Nd & Hd & L). cbn [obind].
    destruct (outer_spec (MBuffer d g 0) b h h1 ltac:(cbn; lia) M) as (p & A & M' & Hb & Np & F).
    exists p, (<[p := MBuffer d g 0]> b), (<[p := MBuffer d g 0]> h1). split_and!; [rewrite A; reflexivity|exact M'|]. split; auto.
    + rewrite lookup_insert. eauto.
    + apply F. intros h2 H1 H2. unfold free_buffer. rewrite H1, (R h2 H2). reflexivity.
    + intros h2 Hs. apply sub_insert in Hs as [H1 H2]; [|exact Hb]. unfold read_result. rewrite H1, bool_decide_eq_true_2 by reflexivity.
      cbn [negb N.eqb]. destruct (N.eqb_spec d 0); [contradiction|]. rewrite (L h2 H2). reflexivity.
  - destruct (outer_spec (MBuffer 0 g 0) ∅ h h ltac:(cbn; lia) (made_nil h)) as (p & A & M' & Hb & Np & F).
    exists p, (<[p := MBuffer 0 g 0]> ∅), (<[p := MBuffer 0 g 0]> h). split_and!; [rewrite A; reflexivity|exact M'|]. split; auto.
    + rewrite lookup_insert. eauto.
    + apply F. intros h2 H1 H2. unfold free_buffer. rewrite H1. cbn. rewrite (right_id_L ∅ _). reflexivity.
    + intros h2 Hs. apply sub_insert in Hs as [H1 H2]; [|exact Hb]. unfold read_result. rewrite H1, bool_decide_eq_true_2 by reflexivity. reflexivity.
  - assert (Q : exists c, documented e = Some c /\ map_error pick text e h = Done (error_new pick c (if has_text e then Some (text e) else None) h)).
    { destruct e; cbn in *; try (eexists; split; reflexivity); contradiction He; reflexivity. }
    destruct Q as (c & Q1 & ->). cbn [obind].
    destruct (error_spec c (if has_text e then Some (text e) else None) h) as (q & b & h1 & Eq & M & R & Nq & Hq & L).
    destruct (error_new pick c (if has_text e then Some (text e) else None) h) as [ce he]. rewrite Eq.
    destruct (outer_spec (MBuffer 0 g q) b h h1 ltac:(cbn; lia) M) as (p & A & M' & Hb & Np & F).
    exists p, (<[p := MBuffer 0 g q]> b), (<[p := MBuffer 0 g q]> h1). split_and!; [rewrite A; reflexivity|exact M'|]. split; auto.
    + rewrite lookup_insert. eauto.
    + apply F. intros h2 H1 H2. unfold free_buffer. rewrite H1. cbn [obind drop_data N.eqb]. destruct (N.eqb_spec q 0); [contradiction|].
      rewrite (R h2 H2). reflexivity.
    + intros h2 Hs. apply sub_insert in Hs as [H1 H2]; [|exact Hb]. unfold read_result. rewrite H1, bool_decide_eq_true_2 by reflexivity.
      cbn [negb]. destruct (N.eqb_spec q 0); [contradiction|]. cbn [negb expected option_map]. rewrite Q1. cbn [option_map].
      pose proof (L h2 H2) as Y. unfold reads_error in Y. destruct (has_text e).
      * destruct Y as (z & -> & Nz & Z). destruct z; [contradiction|]. rewrite Z. reflexivity.
      * rewrite Y. reflexivity.
Qed.


(** ** What calls of the store do to its handles *)

Context (E : env).

Lemma on_inst_handles w i f w' r : on_inst w i f = (w', r) -> w_handles w' = w_handles w.
Proof. unfold on_inst. destruct (w_insts w !! i) as [x|]; [destruct (f x)|]; intros [= <- _]; reflexivity. Qed.

Lemma do_clear_handles w hd w' r : do_clear E w hd = (w', r) -> w_handles w' = w_handles w.
Proof.
  unfold do_clear. destruct (w_insts w !! h_inst hd) as [x|] eqn:Hx; [|intros [= <- _]; reflexivity].
  destruct (i_poison x); [intros [= <- _]; reflexivity|].
  destruct (impl_clear E w (h_inst hd) x) as [w1 r1] eqn:Ec.
  pose proof (impl_clear_sub _ _ _ _ _ _ Hx Ec) as (_ & B1 & _ & _).
  destruct r1; [|intros [= <- _]; auto..].
  destruct (open_impl E w1 (h_path hd) (h_key hd)) as [w2 o] eqn:Eo.
  pose proof (open_impl_sub _ _ _ _ _ _ Eo) as (_ & B2 & _).
  destruct o as [y|]; [destruct (i_join _ && _)%bool; intros [= <- _]; cbn; congruence|].
  destruct (w_insts w2 !! h_inst hd); intros [= <- _]; cbn; congruence.
Qed.

Lemma new_handles w h p k w' o : step E w (ENew h p k) = Some (w', ROk o) ->
  exists hd, w_handles w' = <[h := hd]> (w_handles w) /\ h_unreg hd = false.
Proof.
  cbn [step]. destruct (w_handles w !! h); [discriminate|]. unfold do_new. destruct (w_poison w); [discriminate|].
  destruct (lookup_reg w p); [intros [= <- _]; cbn; eauto|].
  destruct (open_impl E w p k) as [w1 [x|]] eqn:Eo; [|discriminate]. intros [= <- _]. cbn.
  pose proof (open_impl_sub _ _ _ _ _ _ Eo) as (_ & -> & _). eauto.
Qed.

Lemma drop_handles w h w' r : step E w (EDrop h) = Some (w', r) -> w_handles w' = delete h (w_handles w).
Proof.
  cbn [step]. intros H. apply with_handle_Some in H as (hd & Hh & _ & H).
  destruct (do_drop_reg w h hd) as [w1 r1] eqn:E1. destruct (do_drop_arc E w1 h hd) as [w2 r2] eqn:E2. injection H as <- _.
  assert (A1 : w_handles w1 = <[h := Handle (h_path hd) (h_key hd) (h_inst hd) true]> (w_handles w)).
  { unfold do_drop_reg in E1. destruct (w_poison w); injection E1 as <- _; [reflexivity|]. cbn. destruct (Nat.eqb _ _); reflexivity. }
  unfold do_drop_arc in E2. destruct (Nat.eqb _ _); injection E2 as <- _; cbn.
  - destruct (drain_sub E w1 (h_inst hd)) as (_ & -> & _). rewrite A1. apply delete_insert_delete.
  - rewrite A1. apply delete_insert_delete.
Qed.

Lemma handle_event w e h w' r :
  (exists k v, e = EPut h k v) \/ (exists k t, e = EGet h k t) \/ (exists k, e = EDelete h k) \/ e = EClear h ->
  step E w e = Some (w', r) -> w_handles w' = w_handles w.
Proof.
  intros [(k & v & ->)|[(k & t & ->)|[(k & ->)| ->]]]; cbn [step]; intros H; apply with_handle_Some in H as (hd & _ & _ & H).
  - eapply on_inst_handles, H.
  - eapply on_inst_handles, H.
  - eapply on_inst_handles, H.
  - eapply do_clear_handles, H.
Qed.

Lemma handle_event_live w e h hd :
  (exists k v, e = EPut h k v) \/ (exists k t, e = EGet h k t) \/ (exists k, e = EDelete h k) \/ e = EClear h \/ e = EDrop h ->
  w_handles w !! h = Some hd -> h_unreg hd = false -> step E w e <> None.
Proof.
  intros H Hh Hu. destruct H as [(k & v & ->)|[(k & t & ->)|[(k & ->)|[-> | ->]]]]; cbn [step]; unfold with_handle; rewrite Hh, Hu; discriminate.
Qed.

Lemma from_bytes_type t b v : from_bytes t b = ROk v -> type_of v = t.
Proof.
  destruct t; cbn; unfold res_map; try (destruct (number _ _); intros [= <-]; reflexivity); try (destruct (numbers _ _); intros [= <-]; reflexivity).
  - destruct (utf8_valid b); intros [= <-]; reflexivity.
  - destruct b; intros [= <-]; reflexivity.
  - intros [= <-]; reflexivity.
  - intros [= <-]; reflexivity.
Qed.

Lemma get_event_type w h k t w' v : step E w (EGet h k t) = Some (w', ROk (Some v)) -> type_of v = t.
Proof.
  cbn [step]. intros H. apply with_handle_Some in H as (hd & _ & _ & H). unfold on_inst in H.
  destruct (w_insts w !! h_inst hd) as [x|]; [|discriminate]. injection H as _ H. unfold inst_get in H.
  destruct (i_poison x); [discriminate|]. destruct (i_valid x); [|discriminate]. destruct (i_map x !! k) as [m|]; [|discriminate].
  unfold buffer_parse, res_map in H. destruct (type_token t); try discriminate. destruct (is_deleting m); [discriminate|].
  destruct (Z.eqb _ _); [|discriminate]. destruct (from_bytes t (kv_value m)) as [u|e|] eqn:F; try discriminate. injection H as ->.
  eapply from_bytes_type, F.
Qed.

Lemma post_answer x j y r : post x j = (y, r) -> forall v, r <> ROk (Some v).
Proof. unfold post. destruct (i_sender x), (i_io x); intros [= _ <-] v; discriminate. Qed.

Lemma put_event_answer w h k v w' r : step E w (EPut h k v) = Some (w', r) -> forall u, r <> ROk (Some u).
Proof.
  cbn [step]. intros H. apply with_handle_Some in H as (hd & _ & _ & H). unfold on_inst in H.
  destruct (w_insts w !! h_inst hd) as [x|]; [|injection H as _ <-; discriminate].
  destruct (inst_put x k v) as [y q] eqn:Q. injection H as _ ->. unfold inst_put in Q. destruct (i_poison x); [injection Q as _ <-; discriminate|].
  destruct (buffer_new k v); [|injection Q as _ <-; discriminate..]. destruct (i_valid x); [|injection Q as _ <-; discriminate].
  eapply post_answer, Q.
Qed.

Lemma delete_event_answer w h k w' r : step E w (EDelete h k) = Some (w', r) -> forall u, r <> ROk (Some u).
Proof.
  cbn [step]. intros H. apply with_handle_Some in H as (hd & _ & _ & H). unfold on_inst in H.
  destruct (w_insts w !! h_inst hd) as [x|]; [|injection H as _ <-; discriminate].
  destruct (inst_delete x k) as [y q] eqn:Q. injection H as _ ->. unfold inst_delete in Q. destruct (i_poison x); [injection Q as _ <-; discriminate|].
  destruct (i_valid x); [|injection Q as _ <-; discriminate]. destruct (_ !! k); [|injection Q as _ <-; discriminate].
  eapply post_answer, Q.
Qed.

(** ** The invariant: every block belongs to one pointer the caller holds *)

Definition part (own : gmap ptr ptr) (h : heap) (p : ptr) : heap := filter (fun x => own !! x.1 = Some p) h.

Record CInv (s : cstate) (o : held) (own : gmap ptr ptr) : Prop := {
  ci_dom : forall a, is_Some (c_heap s !! a) <-> is_Some (own !! a);
  ci_own : forall a p, own !! a = Some p -> is_Some (o !! p);
  ci_handle : forall p, o !! p = Some HHandle ->
    part own (c_heap s) p = {[p := MHandle]} /\ exists hd, w_handles (c_world s) !! p = Some hd /\ h_unreg hd = false;
  ci_result : forall p t r, o !! p = Some (HResult t r) -> owns (part own (c_heap s) p) p t r;
  ci_world : forall p, is_Some (w_handles (c_world s) !! p) -> o !! p = Some HHandle
}.

Lemma part_lookup own h p a c : part own h p !! a = Some c <-> h !! a = Some c /\ own !! a = Some p.
Proof. unfold part. rewrite map_filter_lookup_Some. reflexivity. Qed.

Lemma part_sub own h p : part own h p ⊆ h.
Proof. apply map_filter_subseteq. Qed.

Lemma CInv_0 : CInv cstate0 ∅ ∅.
Proof. split; cbn; intros; try (rewrite lookup_empty in *; discriminate); [split; intros [? Q]; discriminate Q|destruct H as [? Q]; discriminate Q]. Qed.

(** New blocks for a new pointer. *)
Lemma part_add own h b p q : b ##ₘ h -> (forall a, is_Some (h !! a) <-> is_Some (own !! a)) ->
  (forall a, own !! a <> Some p) ->
  part (((fun _ => p) <$> b) ∪ own) (b ∪ h) q = if decide (q = p) then b else part own h q.
Proof.
  intros D Hd Hn. apply map_eq. intros a. apply option_eq. intros c. rewrite part_lookup.
  destruct (b !! a) as [cb|] eqn:Hb.
  - assert (Hh : h !! a = None) by (eapply map_disjoint_Some_l; eauto).
    rewrite lookup_union_l by exact Hh. rewrite (lookup_union_Some_l _ _ a p) by (rewrite lookup_fmap, Hb; reflexivity).
    destruct (decide (q = p)) as [->|Hq].
    + naive_solver.
    + rewrite part_lookup, Hh. naive_solver.
  - rewrite !lookup_union_r by (rewrite ?lookup_fmap, Hb; reflexivity).
    destruct (decide (q = p)) as [->|Hq].
    + rewrite Hb. split; [intros [_ H]; destruct (Hn a H)|discriminate].
    + symmetry. apply part_lookup.
Qed.

Lemma CInv_add s o own w' lv b p k : CInv s o own -> b ##ₘ c_heap s -> is_Some (b !! p) ->
  match k with
  | HHandle => b = {[p := MHandle]} /\ exists hd, w_handles w' = <[p := hd]> (w_handles (c_world s)) /\ h_unreg hd = false
  | HResult t r => owns b p t r /\ w_handles w' = w_handles (c_world s)
  end ->
  CInv (CState w' (b ∪ c_heap s) lv) (<[p := k]> o) (((fun _ => p) <$> b) ∪ own) /\ o !! p = None.
Proof.
  intros I D Hp Hk.
  assert (Np : o !! p = None).
  { destruct (o !! p) as [k'|] eqn:Ho; [exfalso|reflexivity]. destruct Hp as [c Hc].
    assert (Q : exists c', part own (c_heap s) p !! p = Some c').
    { destruct k' as [|t r].
      - destruct (ci_handle _ _ _ I p Ho) as [-> _]. rewrite lookup_singleton. eauto.
      - destruct (ow_root _ _ _ _ (ci_result _ _ _ I p t r Ho)) as [c' Hc']. eauto. }
    destruct Q as [c' Q]. apply part_lookup in Q as [Q _]. pose proof (map_disjoint_Some_l _ _ _ _ D Hc). congruence. }
  assert (No : forall a, own !! a <> Some p).
  { intros a Ha. apply (ci_own _ _ _ I) in Ha as [? Ha]. congruence. }
  split; [|exact Np].
  pose proof (fun q => part_add own (c_heap s) b p q D (ci_dom _ _ _ I) No) as PA.
  split; cbn [c_heap c_world].
  - intros a. pose proof (ci_dom _ _ _ I a) as Q. destruct (b !! a) as [cb|] eqn:Hb.
    + assert (Hh : c_heap s !! a = None) by (eapply map_disjoint_Some_l; eauto).
      rewrite lookup_union_l by exact Hh. rewrite (lookup_union_Some_l _ _ a p) by (rewrite lookup_fmap, Hb; reflexivity). rewrite Hb. split; eauto.
    + rewrite !lookup_union_r by (rewrite ?lookup_fmap, Hb; reflexivity). exact Q.
  - intros a q H. apply lookup_union_Some_raw in H as [H|[_ H]].
    + rewrite lookup_fmap in H. destruct (b !! a); [|discriminate]. injection H as <-. rewrite lookup_insert. eauto.
    + destruct (decide (q = p)) as [->|Hq]; [rewrite lookup_insert; eauto|]. rewrite lookup_insert_ne by congruence. eapply (ci_own _ _ _ I), H.
  - intros q Hq. rewrite PA. destruct (decide (q = p)) as [->|Hne].
    + rewrite lookup_insert in Hq. injection Hq as ->. destruct Hk as (-> & hd & Hh & Hu). split; [reflexivity|]. exists hd. rewrite Hh, lookup_insert. auto.
    + rewrite lookup_insert_ne in Hq by congruence. destruct (ci_handle _ _ _ I q Hq) as (A & hd & Hh & Hu). split; [exact A|]. exists hd. split; [|exact Hu].
      destruct k as [|t r]; [destruct Hk as (_ & hd' & -> & _); rewrite lookup_insert_ne by congruence; exact Hh|destruct Hk as [_ ->]; exact Hh].
  - intros q t r Hq. rewrite PA. destruct (decide (q = p)) as [->|Hne].
    + rewrite lookup_insert in Hq. injection Hq as ->. apply Hk.
    + rewrite lookup_insert_ne in Hq by congruence. exact (ci_result _ _ _ I q t r Hq).
  - intros q Hq. destruct (decide (q = p)) as [->|Hne].
    + rewrite lookup_insert. destruct k as [|t r]; [reflexivity|]. destruct Hk as [_ Hk]. rewrite Hk in Hq. apply (ci_world _ _ _ I) in Hq. congruence.
    + rewrite lookup_insert_ne by congruence. apply (ci_world _ _ _ I).
      destruct k as [|t r]; [destruct Hk as (_ & hd' & Hk & _); rewrite Hk, lookup_insert_ne in Hq by congruence; exact Hq|destruct Hk as [_ Hk]; rewrite Hk in Hq; exact Hq].
Qed.

(** The blocks of a pointer are gone. *)
Lemma CInv_remove s o own w' lv p : CInv s o own ->
  (o !! p = Some HHandle -> w_handles w' = delete p (w_handles (c_world s))) ->
  (o !! p <> Some HHandle -> w_handles w' = w_handles (c_world s)) ->
  CInv (CState w' (c_heap s ∖ part own (c_heap s) p) lv) (delete p o) (filter (fun x => x.2 <> p) own).
Proof.
  intros I HH HN.
  assert (DD : o !! p = Some HHandle \/ o !! p <> Some HHandle) by (destruct (o !! p) as [[|t r]|]; [left; reflexivity|right; congruence|right; congruence]).
  assert (W : forall q, q <> p -> w_handles w' !! q = w_handles (c_world s) !! q).
  { intros q Hq. destruct DD as [e|n]; [rewrite (HH e), lookup_delete_ne by congruence; reflexivity|rewrite (HN n); reflexivity]. }
  assert (L : forall a c, (c_heap s ∖ part own (c_heap s) p) !! a = Some c <-> c_heap s !! a = Some c /\ own !! a <> Some p).
  { intros a c. rewrite lookup_difference_Some. split; intros [A B]; (split; [exact A|]).
    - intros Q. assert (X : part own (c_heap s) p !! a = Some c) by (apply part_lookup; auto). congruence.
    - destruct (part own (c_heap s) p !! a) as [c'|] eqn:X; [|reflexivity]. apply part_lookup in X as [_ X]. congruence. }
  assert (P : forall q, q <> p -> part (filter (fun x => x.2 <> p) own) (c_heap s ∖ part own (c_heap s) p) q = part own (c_heap s) q).
  { intros q Hq. apply map_eq. intros a. apply option_eq. intros c. rewrite !part_lookup, L, map_filter_lookup_Some. cbn. naive_solver. }
  split; cbn [c_heap c_world].
  - intros a. pose proof (ci_dom _ _ _ I a) as Q. split.
    + intros [c Hc]. apply L in Hc as [H1 H2]. destruct Q as [Q _]. destruct Q as [q Hq]; [eauto|]. exists q. apply map_filter_lookup_Some. cbn. split; congruence.
    + intros [q Hq]. apply map_filter_lookup_Some in Hq as [H1 H2]. cbn in H2. destruct Q as [_ Q]. destruct Q as [c Hc]; [eauto|]. exists c. apply L. split; congruence.
  - intros a q Hq. apply map_filter_lookup_Some in Hq as [H1 H2]. cbn in H2. rewrite lookup_delete_ne by congruence. eapply (ci_own _ _ _ I), H1.
  - intros q Hq. apply lookup_delete_Some in Hq as [Hne Hq]. rewrite P, W by congruence. exact (ci_handle _ _ _ I q Hq).
  - intros q t r Hq. apply lookup_delete_Some in Hq as [Hne Hq]. rewrite P by congruence. exact (ci_result _ _ _ I q t r Hq).
  - intros q Hq. destruct (decide (q = p)) as [->|Hne].
    + exfalso. destruct DD as [e|n].
      * rewrite (HH e), lookup_delete in Hq. destruct Hq; discriminate.
      * rewrite (HN n) in Hq. apply n, (ci_world _ _ _ I), Hq.
    + rewrite lookup_delete_ne by congruence. apply (ci_world _ _ _ I). rewrite W in Hq by exact Hne. exact Hq.
Qed.

Lemma CInv_world s o own w' lv : CInv s o own -> w_handles w' = w_handles (c_world s) -> CInv (CState w' (c_heap s) lv) o own.
Proof.
  intros I H. destruct I as [A B C D F]. split; cbn [c_heap c_world]; auto.
  - intros p Hp. rewrite H. auto.
  - intros p Hp. rewrite H in Hp. auto.
Qed.

Lemma buffer_step s o own g e p0 (I : CInv s o own) :
  o !! p0 = Some HHandle ->
  (exists k v, e = EPut p0 k v) \/ (exists k, e = EGet p0 k (c_type g)) \/ (exists k, e = EDelete p0 k) ->
  (with_buffer pick text E s g e = Abort) \/
  exists s' p r own', with_buffer pick text E s g e = Done (s', RBuffer p r) /\ CInv s' (<[p := HResult g r]> o) own' /\ o !! p = None /\
    c_world s' = match step E (c_world s) e with Some (w, _) => w | None => c_world s end /\
    (exists w, step E (c_world s) e = Some (w, r)) /\ owns (c_heap s' ∖ c_heap s) p g r.
Proof.
  intros Ho He. destruct (ci_handle _ _ _ I p0 Ho) as (_ & hd & Hh & Hu). unfold with_buffer.
  destruct (step E (c_world s) e) as [[w r]|] eqn:Hs; cycle 1.
  { exfalso. refine (handle_event_live (c_world s) e p0 hd _ Hh Hu Hs). destruct He as [He|[[k He]|He]]; eauto 8. }
  assert (WH : w_handles w = w_handles (c_world s)).
  { eapply (handle_event _ e p0); [|exact Hs]. destruct He as [He|[[k He]|He]]; eauto 8. }
  assert (T : forall v, r = ROk (Some v) -> type_of v = c_type g).
  { intros v ->. destruct He as [(k & u & ->)|[[k ->]|[k ->]]].
    - destruct (put_event_answer _ _ _ _ _ _ Hs v eq_refl).
    - eapply get_event_type, Hs.
    - destruct (delete_event_answer _ _ _ _ _ Hs v eq_refl). }
  destruct (expected text r) eqn:Ex.
  - destruct (finish_spec g r (c_heap s) T ltac:(congruence)) as (p & b & h' & -> & [D ->] & O). cbn [obind]. right.
    destruct (CInv_add s o own w (c_level s) b p (HResult g r) I D (ow_root _ _ _ _ O) (conj O WH)) as [I' Np].
    exists (CState w (b ∪ c_heap s) (c_level s)), p, r. eexists. split_and!; [reflexivity|exact I'|exact Np|reflexivity|eauto|]. cbn.
    assert (Eq : (b ∪ c_heap s) ∖ c_heap s = b).
    { apply map_eq. intros a. apply option_eq. intros c. rewrite lookup_difference_Some. split.
      - intros [Ha Hn]. apply lookup_union_Some_raw in Ha as [Ha|[_ Ha]]; [exact Ha|congruence].
      - intros Hb. split; [apply lookup_union_Some_l, Hb|eapply map_disjoint_Some_l; eauto]. }
    rewrite Eq. exact O.
  - left. destruct r as [[v|]|e'|]; cbn in Ex; try discriminate; [|reflexivity]. destruct e'; try discriminate; reflexivity.
Qed.

(** One call by a correct caller. *)
Lemma call_ok_step s o own c (I : CInv s o own) : allowed o c ->
  cstep pick text E s c = Abort \/
  exists s' x own', cstep pick text E s c = Done (s', x) /\ CInv s' (after o c x) own' /\
    match x with RBuffer p _ | RHandle p => o !! p = None | RUnit => True end.
Proof.
  intros Al. destruct c as [dir|p key v|p key g|p key|p|p|p|z|i]; cbn [cstep allowed] in *.
  - unfold arg. destruct (utf8_valid (cstr dir)); [|auto].
    destruct (alloc_spec MHandle (c_heap s) ltac:(cbn; lia)) as (p & -> & Hp & Np).
    destruct (step E (c_world s) (ENew p (cstr dir) [])) as [[w [r|e|]]|] eqn:Hs; auto; cycle 1.
    { exfalso. cbn [step] in Hs. destruct (w_handles (c_world s) !! p) eqn:Q; [|discriminate].
      assert (Q' : o !! p = Some HHandle) by (apply (ci_world _ _ _ I); rewrite Q; eauto).
      destruct (ci_handle _ _ _ I p Q') as [R _]. assert (X : part own (c_heap s) p !! p = Some MHandle) by (rewrite R; apply lookup_singleton).
      apply part_lookup in X as [X _]. congruence. }
    right. destruct (new_handles _ _ _ _ _ _ Hs) as (hd & Hh & Hu).
    destruct (CInv_add s o own w (c_level s) {[p := MHandle]} p HHandle I) as [I' Np'].
    + apply map_disjoint_singleton_l, Hp.
    + rewrite lookup_singleton. eauto.
    + eauto.
    + do 3 eexists. split; [reflexivity|]. cbn [after]. rewrite insert_union_singleton_l. split; [exact I'|exact Np'].
  - destruct Al as [Ho Hv]. unfold arg. destruct (utf8_valid (cstr key)); [|auto].
    assert (G : forall g u, (with_buffer pick text E s g (EPut p (cstr key) u) = Abort \/
      exists s' x own', with_buffer pick text E s g (EPut p (cstr key) u) = Done (s', x) /\ CInv s' (match x with RBuffer q r => <[q := HResult g r]> o | RHandle q => <[q := HHandle]> o | RUnit => o end) own' /\
        match x with RBuffer p _ | RHandle p => o !! p = None | RUnit => True end)).
    { intros g u. destruct (buffer_step s o own g (EPut p (cstr key) u) p I Ho ltac:(eauto)) as [A|(s' & q & r & own' & A & B & C & _)]; [auto|]. right.
      exists s', (RBuffer q r), own'. auto. }
    destruct v; try (destruct (Hv _ _ eq_refl)); try exact (G _ _).
    destruct (utf8_valid (cstr s0)); [exact (G _ _)|auto].
  - unfold arg. destruct (utf8_valid (cstr key)); [|auto].
    destruct (buffer_step s o own g (EGet p (cstr key) (c_type g)) p I Al ltac:(eauto 8)) as [A|(s' & q & r & own' & A & B & C & _)]; [auto|]. right.
    exists s', (RBuffer q r), own'. auto.
  - unfold arg. destruct (utf8_valid (cstr key)); [|auto].
    destruct (buffer_step s o own CStr (EDelete p (cstr key)) p I Al ltac:(eauto 8)) as [A|(s' & q & r & own' & A & B & C & _)]; [auto|]. right.
    exists s', (RBuffer q r), own'. auto.
  - destruct (ci_handle _ _ _ I p Al) as (_ & hd & Hh & Hu).
    destruct (step E (c_world s) (EClear p)) as [[w [r|e|]]|] eqn:Hs; auto.
    + right. do 3 eexists. split; [reflexivity|]. cbn [after]. split; [|exact Logic.I]. apply CInv_world; [exact I|]. eapply (handle_event _ _ p); [|exact Hs]. auto.
    + exfalso. refine (handle_event_live (c_world s) _ p hd _ Hh Hu Hs). auto 8.
  - destruct (ci_handle _ _ _ I p Al) as (Pt & hd & Hh & Hu).
    assert (Hc : c_heap s !! p = Some MHandle).
    { assert (X : part own (c_heap s) p !! p = Some MHandle) by (rewrite Pt; apply lookup_singleton). apply part_lookup in X as [X _]. exact X. }
    rewrite Hc. destruct (step E (c_world s) (EDrop p)) as [[w [r|e|]]|] eqn:Hs; auto.
    + right. change (32, 8) with (layout MHandle). rewrite (dealloc_live p MHandle) by (exact Hc || (cbn; lia)). cbn [obind].
      do 3 eexists. split; [reflexivity|]. cbn [after]. split; [|exact Logic.I].
      replace (delete p (c_heap s)) with (c_heap s ∖ part own (c_heap s) p).
      * apply CInv_remove; [exact I| |intros n; contradiction]. intros _. eapply drop_handles, Hs.
      * rewrite Pt. symmetry. rewrite <- (right_id_L ∅ (∖) (c_heap s)) at 1. apply diff_insert.
    + exfalso. refine (handle_event_live (c_world s) _ p hd _ Hh Hu Hs). auto 8.
  - destruct Al as (t & r & Ho). rewrite (ow_free _ _ _ _ (ci_result _ _ _ I p t r Ho) (c_heap s) (part_sub _ _ _)). cbn [obind]. right.
    do 3 eexists. split; [reflexivity|]. cbn [after]. split; [|exact Logic.I]. apply CInv_remove; [exact I|congruence|reflexivity].
  - destruct (of_code z); [|auto]. right. do 3 eexists. split; [reflexivity|]. cbn [after]. split; [|exact Logic.I]. apply CInv_world; [exact I|reflexivity].
  - right. do 3 eexists. split; [reflexivity|]. cbn [after]. split; [|exact Logic.I]. apply CInv_world; [exact I|].
    destruct (run_job_sub E (c_world s) i) as (_ & -> & _). reflexivity.
Qed.

Lemma CInv_exec cs s o : cexec pick text E cs s o -> exists own, CInv s o own.
Proof.
  induction 1 as [|cs s o c s' x _ [own I] Al Hs]; [exists ∅; apply CInv_0|].
  destruct (call_ok_step s o own c I Al) as [A|(s2 & x2 & own' & A & B & _)]; [congruence|]. rewrite Hs in A. injection A as <- <-. eauto.
Qed.

(** ** C35 *)

(** No call by a correct caller has undefined behaviour: nothing is released
    twice or with the wrong layout, whatever the order of calls and frees. *)
Theorem C35_no_undefined_behaviour cs s o c : cexec pick text E cs s o -> allowed o c -> cstep pick text E s c <> Undef.
Proof.
  intros X Al. destruct (CInv_exec _ _ _ X) as [own I]. destruct (call_ok_step s o own c I Al) as [A|(s2 & x2 & own' & A & B & _)]; congruence.
Qed.

(** A result not yet freed shows what the store answered, whatever happened
    since. *)
Theorem C35_results_own_their_data cs s o p t r : cexec pick text E cs s o -> o !! p = Some (HResult t r) ->
  read_result (c_heap s) t p = expected text r.
Proof.
  intros X Ho. destruct (CInv_exec _ _ _ X) as [own I]. apply (ow_read _ _ _ _ (ci_result _ _ _ I p t r Ho)), part_sub.
Qed.

(** A pointer handed out is not one the caller already holds. *)
Theorem C35_fresh_results cs s o c s' x : cexec pick text E cs s o -> allowed o c -> cstep pick text E s c = Done (s', x) ->
  match x with RBuffer p _ | RHandle p => o !! p = None | RUnit => True end.
Proof.
  intros X Al Hs. destruct (CInv_exec _ _ _ X) as [own I]. destruct (call_ok_step s o own c I Al) as [A|(s2 & x2 & own' & A & B & C)]; [congruence|].
  rewrite Hs in A. injection A as <- <-. exact C.
Qed.

(** When everything has been freed and closed, no allocation is left; more
    precisely every live block was allocated for one pointer still held. *)
Theorem C35_nothing_leaks cs s o : cexec pick text E cs s o -> o = ∅ -> c_heap s = ∅.
Proof.
  intros X ->. destruct (CInv_exec _ _ _ X) as [own I]. apply map_empty. intros a.
  destruct (c_heap s !! a) as [c|] eqn:Hc; [exfalso|reflexivity].
  destruct (proj1 (ci_dom _ _ _ I a)) as [p Hp]; [eauto|]. destruct (ci_own _ _ _ I a p Hp) as [k Hk]. rewrite lookup_empty in Hk. discriminate.
Qed.

(** Calls that return a result. *)
Lemma buffer_call s o c s1 q r : allowed o c -> cstep pick text E s c = Done (s1, RBuffer q r) ->
  exists p0 e, o !! p0 = Some HHandle /\ cstep pick text E s c = with_buffer pick text E s (fun_of c) e /\ events_of c (RBuffer q r) = [e] /\
    ((exists k v, e = EPut p0 k v) \/ (exists k, e = EGet p0 k (c_type (fun_of c))) \/ (exists k, e = EDelete p0 k)).
Proof.
  intros Al Hs. destruct c as [dir|p key v|p key g|p key|p|p|p|z|i]; cbn [cstep allowed events_of fun_of] in *; try unfold arg in *.
  - destruct (utf8_valid _); [|discriminate]. destruct (alloc pick MHandle (c_heap s)). destruct (step E _ _) as [[? []]|]; discriminate.
  - destruct Al as [Ho Hv]. destruct (utf8_valid (cstr key)); [|discriminate].
    exists p, (EPut p (cstr key) (cvalue v)). destruct v; cbn in *; try (split_and!; eauto; fail).
    + destruct (utf8_valid (cstr s0)); [|discriminate]. split_and!; eauto.
    + discriminate.
  - destruct (utf8_valid (cstr key)); [|discriminate]. eauto 10.
  - destruct (utf8_valid (cstr key)); [|discriminate]. eauto 10.
  - destruct (step E _ _) as [[? []]|]; discriminate.
  - destruct (c_heap s !! p) as [[]|]; try discriminate. destruct (step E _ _) as [[? []]|]; try discriminate. destruct (dealloc _ _ _); discriminate.
  - destruct (free_buffer _ _); discriminate.
  - destruct (of_code z); discriminate.
  - discriminate.
Qed.

(** Making a result and freeing it later, with any calls in between,
    releases exactly the blocks made for it: the heap is what it would be
    without them. *)
Theorem C35_free_releases_what_was_made cs s o c s1 q r : cexec pick text E cs s o ->
  allowed o c -> cstep pick text E s c = Done (s1, RBuffer q r) ->
  c_heap s ⊆ c_heap s1 /\
  forall h, c_heap s1 ∖ c_heap s ⊆ h -> free_buffer q h = Done (h ∖ (c_heap s1 ∖ c_heap s)).
Proof.
  intros X Al Hs. destruct (CInv_exec _ _ _ X) as [own I].
  destruct (buffer_call s o c s1 q r Al Hs) as (p0 & e & Ho & Hc & _ & He). rewrite Hc in Hs. clear Hc.
  destruct (buffer_step s o own _ e p0 I Ho He) as [A|(s' & q' & r' & own' & A & _ & _ & _ & _ & O)]; [congruence|].
  rewrite Hs in A. injection A as <- <- <-. split; [|apply (ow_free _ _ _ _ O)].
  unfold with_buffer in Hs. destruct (step E (c_world s) e) as [[w r']|] eqn:Hst; [|discriminate].
  destruct (finish pick text (fun_of c) r' (c_heap s)) as [[q2 h2]| |] eqn:F; try discriminate. cbn [obind] in Hs. injection Hs as <- <- <-. cbn.
  assert (Hx : expected text r' <> None).
  { intros Hx. destruct r' as [[v|]|x|]; cbn in Hx; try discriminate. destruct x; try discriminate; discriminate F. }
  assert (T : forall v, r' = ROk (Some v) -> type_of v = c_type (fun_of c)).
  { intros v ->. destruct He as [(k & u & ->)|[[k ->]|[k ->]]].
    - destruct (put_event_answer _ _ _ _ _ _ Hst v eq_refl).
    - eapply get_event_type, Hst.
    - destruct (delete_event_answer _ _ _ _ _ Hst v eq_refl). }
  destruct (finish_spec (fun_of c) r' (c_heap s) T Hx) as (p2 & b & h3 & F2 & [D ->] & _).
  rewrite F in F2. injection F2 as -> ->. apply map_union_subseteq_r, D.
Qed.

(** A log line lent to a C logger is readable during the call and released
    after it. *)
Theorem C35_log_lines line h : exists p h1, call_target pick line h = (p, h1, Done h) /\ read_slice h1 p = Some line /\ h ⊆ h1.
Proof.
  unfold call_target. destruct (slice_spec line h) as (p & b & h' & -> & [D ->] & R & Np & Hp & L).
  exists p, (b ∪ h). split_and!.
  - rewrite (R (b ∪ h)) by apply map_union_subseteq_l. do 2 f_equal.
    apply map_eq. intros a. apply option_eq. intros c. rewrite lookup_difference_Some. split.
    + intros [Ha Hn]. apply lookup_union_Some_raw in Ha as [Ha|[_ Ha]]; [congruence|exact Ha].
    + intros Hh. split; [apply lookup_union_Some_raw; right; split; [|exact Hh]|]; eapply map_disjoint_Some_r; eauto.
  - apply L, map_union_subseteq_l.
  - apply map_union_subseteq_r, D.
Qed.

End Owns.
