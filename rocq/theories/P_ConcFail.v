(** C82: calls that overlap on one store are atomic also when some of them
    fail: when a value is too large, a call panics, the store is closed or
    poisoned, or the background thread has died. *)
From Verif Require Import Bytes Utf8 Proto ProtoFacts Value Codec Store StoreFacts Encrypt World Spec Hyps Refine WorldInv WorldStep Main Frames Reach Examples P_Map P_Store P_Fail Looper P_Loop Conc P_Conc.
From Coq Require Import ZifyBool ZifyNat ZifyN.
Local Open Scope N_scope.

(** ** The specification: one thread, and the background thread of the store
    gone at some moment.  Nothing else about the world changes. *)
Definition thread_died (i : N) (w : world) : world :=
  match w_insts w !! i with
  | Some x => set_inst w i (Inst (i_map x) (i_valid x) (i_poison x) (i_queue x) IoDead (i_sender x) (i_join x) (i_dir x) (i_ino x) (i_key x) (i_nonce x) (i_ml x) (i_pos x) (i_trim x))
  | None => w
  end.

(** The calls of a history are puts, gets and deletes through handles of
    instance [i]. *)
Definition plain_calls (i : N) (w : world) (ls : list clabel) : Prop :=
  forall c h o, HInv c h o ∈ ls -> o <> CClear /\ exists hd, w_handles w !! h = Some hd /\ h_unreg hd = false /\ h_inst hd = i.

(** ** What a call answers and does to memory *)

Definition next_res (dead : bool) (n : next) : result :=
  match n with NRet r => r | _ => if dead then RErr IOError else ROk None end.

Inductive play (dead : bool) (f : front) : list (N * (N * cop) * result) -> front -> Prop :=
| pl_nil : play dead f [] f
| pl_snoc lin f1 c h o : play dead f lin f1 -> o <> CClear ->
    play dead f (lin ++ [(c, (h, o), next_res dead (body f1 o).2)]) (body f1 o).1.

Lemma play_nil dead f g : play dead f [] g -> g = f.
Proof. intros P. inversion P as [|l f1 c h o _ _ A]; [reflexivity|]. destruct l; discriminate A. Qed.

Section Fail.
Context (E : env) (i : N).

(** The instance [x] with its thread gone. *)
Definition i_gone (x : inst) : inst :=
  Inst (i_map x) (i_valid x) (i_poison x) (i_queue x) IoDead (i_sender x) (i_join x) (i_dir x) (i_ino x) (i_key x) (i_nonce x) (i_ml x) (i_pos x) (i_trim x).

Lemma step_body_gone w x f q h hd o : o <> CClear -> w_handles w !! h = Some hd -> h_unreg hd = false -> h_inst hd = i -> i_sender x = true -> i_io x = IoDead ->
  step E (set_inst w i (i_glue x f q)) (event_of h o) =
  Some (set_inst w i (i_glue x (body f o).1 (match (body f o).2 with NPost j => q ++ [j] | _ => q end)), next_res true (body f o).2).
Proof.
  intros Hcl Hh Hu Hi Hs Hio.
  assert (Self : forall y, set_inst (set_inst w i (i_glue x f q)) i y = set_inst w i y).
  { intros y. unfold set_inst, set_insts. cbn. rewrite insert_insert. reflexivity. }
  assert (WH : forall g, with_handle (set_inst w i (i_glue x f q)) h g = Some (g hd)).
  { intros g. unfold with_handle. cbn [set_inst set_insts w_handles]. rewrite Hh, Hu. reflexivity. }
  destruct o as [key v|key t|key|]; [..|contradiction]; cbn [event_of step]; rewrite WH; unfold on_inst; rewrite Hi; cbn [set_inst set_insts w_insts]; rewrite lookup_insert.
  - unfold inst_put, body. cbn [i_glue i_poison i_valid i_map]. destruct (f_poison f) eqn:Ep; [cbn; rewrite Self; reflexivity|].
    destruct (buffer_new key v); cbn.
    + destruct (f_valid f) eqn:Ev.
      * unfold post. cbn. rewrite Hs, Hio. rewrite Self. cbn. do 4 f_equal. unfold i_glue. cbn. rewrite ?Ev, ?Ep, ?Hs, ?Hio. reflexivity.
      * rewrite Self. reflexivity.
    + rewrite Self. reflexivity.
    + rewrite Self. reflexivity.
  - unfold inst_get, body. cbn [i_glue i_poison i_valid i_map]. rewrite Self. destruct (f_poison f); [reflexivity|].
    destruct (f_valid f); [destruct (f_map f !! key)|]; reflexivity.
  - unfold inst_delete, body. cbn [i_glue i_poison i_valid i_map]. destruct (f_poison f) eqn:Ep; [cbn; rewrite Self; reflexivity|].
    destruct (f_valid f) eqn:Ev; [|cbn; rewrite Self; reflexivity].
    destruct (f_map f !! key); [|cbn; rewrite Self; reflexivity]. unfold post. cbn. rewrite Hs, Hio, Self. cbn. do 4 f_equal.
    unfold i_glue. cbn. rewrite ?Ev, ?Ep, ?Hs, ?Hio. reflexivity.
Qed.

Lemma play_run w x (dead : bool) f lin g q : i_sender x = true -> i_io x = (if dead then IoDead else IoRun) ->
  (forall c h o r, (c, (h, o), r) ∈ lin -> exists hd, w_handles w !! h = Some hd /\ h_unreg hd = false /\ h_inst hd = i) ->
  play dead f lin g ->
  exists q', run E (set_inst w i (i_glue x f q)) (map lin_event lin) = Some (set_inst w i (i_glue x g q'), map snd lin).
Proof.
  intros Hs Hio Hh P. induction P as [|lin f1 c h o P IH Ho]; [exists q; reflexivity|].
  destruct IH as [q' IH]. { intros. eapply Hh. apply elem_of_app. left. eassumption. }
  destruct (Hh c h o (next_res dead (body f1 o).2)) as (hd & H1 & H2 & H3). { apply elem_of_app. right. apply elem_of_list_singleton. reflexivity. }
  eexists. rewrite !map_app, run_app, IH. cbn [map snd run]. unfold lin_event. cbn [fst snd]. destruct dead.
  - rewrite (step_body_gone w x f1 q' h hd o Ho H1 H2 H3 Hs Hio). reflexivity.
  - rewrite (step_body E i w x f1 q' h hd o Ho H1 H2 H3 Hs Hio). reflexivity.
Qed.

(** ** The simulation *)

Definition done_res (p : apc) : option result := match p with ARet r | ADone r => Some r | _ => None end.
Definition status' (s : conc) (c : N) : option ((N * cop) * option result) :=
  match c_calls s !! c with Some (p, ho) => Some (ho, done_res p) | None => None end.
Definition plain_pc (p : apc) : Prop := match p with AQuit | AJoin | AOpen => False | _ => True end.

(** Memory, and memory as the calls that have taken effect left it. *)
Definition ahead (s : conc) (af : front) : Prop :=
  (exists c p h o j, c_calls s !! c = Some (p, (h, o)) /\ posting p = true /\ body af o = (c_front s, NPost j)) \/
  ((forall c p ho, c_calls s !! c = Some (p, ho) -> posting p = false) /\ af = c_front s).

Lemma posting_writer s c p h o : LInv s -> c_calls s !! c = Some (p, (h, o)) -> posting p = true -> c_writer s = Some c.
Proof.
  intros L Hc Hb. pose proof (k_own _ L _ _ _ _ Hc) as G. rewrite (k_posting _ L _ _ _ _ Hc Hb) in G.
  apply G. destruct p; try discriminate Hb; reflexivity.
Qed.

Lemma ahead_alone s af c p h o : LInv s -> ahead s af -> c_calls s !! c = Some (p, (h, o)) -> owns p = true -> posting p = false ->
  af = c_front s /\ forall d q ho, c_calls s !! d = Some (q, ho) -> posting q = false.
Proof.
  intros L [(c' & p' & h' & o' & j & Hc' & Hb & _)|[A B]] Hc Ho Hn; [exfalso|auto].
  pose proof (posting_writer s c' p' h' o' L Hc' Hb) as W. pose proof (k_own _ L _ _ _ _ Hc Ho) as G. destruct (exclusive o).
  - assert (c = c') as <- by congruence. rewrite Hc in Hc'. injection Hc' as <- <- <-. congruence.
  - rewrite (k_wr _ L) in W; [discriminate W|]. set_solver.
Qed.

Lemma ahead_posting s af c p h o : LInv s -> ahead s af -> c_calls s !! c = Some (p, (h, o)) -> posting p = true ->
  (exists j, body af o = (c_front s, NPost j)) /\ forall d q ho, c_calls s !! d = Some (q, ho) -> d <> c -> posting q = false.
Proof.
  intros L F Hc Hb. pose proof (posting_writer s c p h o L Hc Hb) as W. split.
  - destruct F as [(c' & p' & h' & o' & j & Hc' & Hb' & B)|[A _]]; [|rewrite (A _ _ _ Hc) in Hb; discriminate Hb].
    pose proof (posting_writer s c' p' h' o' L Hc' Hb') as W'. assert (c' = c) as -> by congruence.
    rewrite Hc in Hc'. injection Hc' as <- <- <-. exists j. exact B.
  - intros d q [h' o'] Hd Hne. destruct (posting q) eqn:Q; [|reflexivity].
    pose proof (posting_writer s d q h' o' L Hd Q). congruence.
Qed.

Record FInv (f0 : front) (ls : list clabel) (s : conc) (lin1 lin2 : list (N * (N * cop) * result)) (f1 af : front) : Prop := {
  fi_1 : play false f0 lin1 f1;
  fi_2 : play true f1 lin2 af;
  fi_alive : alive (l_x (c_loop s)) = true -> lin2 = [];
  fi_front : ahead s af;
  fi_plain : forall c p h o, c_calls s !! c = Some (p, (h, o)) -> o <> CClear /\ plain_pc p;
  fi_k : l_k (c_loop s) = KOpen;
  fi_sender : l_sender (c_loop s) = true;
  fi_hist : HistInv ls (status' s) (c_next s) (lin1 ++ lin2)
}.

Lemma FInv_0 w x : FInv (Front (i_map x) (i_valid x) (i_poison x)) [] (conc0 w x) [] [] (Front (i_map x) (i_valid x) (i_poison x)) (Front (i_map x) (i_valid x) (i_poison x)).
Proof.
  split; cbn; auto; try apply pl_nil.
  - right. split; [|reflexivity]. intros c p ho X. cbn in X. rewrite lookup_empty in X. discriminate X.
  - intros c p h o X. rewrite lookup_empty in X. discriminate X.
  - pose proof Hist_0 as [A1 A2 A3 A4 A5 A6 A7]. split; auto; unfold status'; cbn; intros; rewrite lookup_empty in *; try discriminate; auto.
Qed.

(** Call [c] moves from [p] to [q]. *)
Lemma status'_call s s' c p q ho : c_calls s !! c = Some (p, ho) -> c_calls s' = <[c := (q, ho)]> (c_calls s) ->
  forall d, status' s' d = if decide (d = c) then Some (ho, done_res q) else status' s d.
Proof.
  intros Hc Hs d. unfold status'. rewrite Hs. destruct (decide (d = c)) as [->|Hne]; [rewrite lookup_insert; reflexivity|].
  rewrite lookup_insert_ne by congruence. reflexivity.
Qed.

Lemma status'_same s s' c p q ho : c_calls s !! c = Some (p, ho) -> c_calls s' = <[c := (q, ho)]> (c_calls s) -> done_res q = done_res p ->
  forall d, status' s' d = status' s d.
Proof.
  intros Hc Hs Hq d. rewrite (status'_call s s' c p q ho Hc Hs). destruct (decide (d = c)) as [->|]; [|reflexivity].
  unfold status'. rewrite Hc, Hq. reflexivity.
Qed.

Lemma plain_call s s' c p q h o : (forall c p h o, c_calls s !! c = Some (p, (h, o)) -> o <> CClear /\ plain_pc p) ->
  c_calls s !! c = Some (p, (h, o)) -> c_calls s' = <[c := (q, (h, o))]> (c_calls s) -> plain_pc q ->
  forall c p h o, c_calls s' !! c = Some (p, (h, o)) -> o <> CClear /\ plain_pc p.
Proof.
  intros A Hc Hs Hq d p' h' o' X. rewrite Hs in X. destruct (decide (d = c)) as [->|Hne].
  - rewrite lookup_insert in X. injection X as <- <- <-. destruct (A _ _ _ _ Hc). auto.
  - rewrite lookup_insert_ne in X by congruence. eauto.
Qed.

Lemma ahead_same s s' c p q ho af : c_calls s !! c = Some (p, ho) -> c_calls s' = <[c := (q, ho)]> (c_calls s) -> c_front s' = c_front s ->
  posting q = posting p -> ahead s af -> ahead s' af.
Proof.
  intros Hc Hs Hf Hq [(c' & p' & h' & o' & j & Hc' & Hb & B)|[A B]].
  - left. destruct (decide (c' = c)) as [->|Hne].
    + rewrite Hc in Hc'. injection Hc' as -> ->. exists c, q, h', o', j. rewrite Hs, lookup_insert, Hf. split_and!; congruence.
    + exists c', p', h', o', j. rewrite Hs, lookup_insert_ne, Hf by congruence. auto.
  - right. split; [|congruence]. intros d q' ho' X. rewrite Hs in X. destruct (decide (d = c)) as [->|Hne].
    + rewrite lookup_insert in X. injection X as <- <-. rewrite Hq. eauto.
    + rewrite lookup_insert_ne in X by congruence. eauto.
Qed.

(** A step that nobody can tell: call [c] moves on. *)
Lemma FInv_move f0 ls s s' lin1 lin2 f1 af c p q h o : FInv f0 ls s lin1 lin2 f1 af ->
  c_calls s !! c = Some (p, (h, o)) -> c_calls s' = <[c := (q, (h, o))]> (c_calls s) -> done_res q = done_res p -> posting q = posting p -> plain_pc q ->
  c_front s' = c_front s -> l_x (c_loop s') = l_x (c_loop s) -> l_k (c_loop s') = l_k (c_loop s) -> l_sender (c_loop s') = l_sender (c_loop s) -> c_next s' = c_next s ->
  FInv f0 (ls ++ [HTau]) s' lin1 lin2 f1 af.
Proof.
  intros [A1 A2 A3 A4 A5 A6 A7 A8] Hc Hs Hd Hp Hq Hf Hx Hk Hsn Hn. split; rewrite ?Hx, ?Hk, ?Hsn, ?Hn; auto.
  - eapply ahead_same; eassumption.
  - eapply plain_call; eassumption.
  - eapply Hist_tau; [exact A8|]. eapply status'_same; eassumption.
Qed.

(** A step of the looper. *)
Lemma FInv_loop f0 ls s l lin1 lin2 f1 af : FInv f0 ls s lin1 lin2 f1 af ->
  (alive (l_x l) = true -> alive (l_x (c_loop s)) = true) -> l_k l = l_k (c_loop s) -> l_sender l = l_sender (c_loop s) ->
  FInv f0 (ls ++ [HTau]) (set_loop s l) lin1 lin2 f1 af.
Proof.
  intros [A1 A2 A3 A4 A5 A6 A7 A8] Hx Hk Hs. split; cbn; rewrite ?Hk, ?Hs; auto.
  eapply Hist_tau; [exact A8|]. reflexivity.
Qed.

(** A call takes effect. *)
Lemma FInv_lin f0 ls s s' lin1 lin2 f1 af c p q h o r : FInv f0 ls s lin1 lin2 f1 af ->
  c_calls s !! c = Some (p, (h, o)) -> c_calls s' = <[c := (q, (h, o))]> (c_calls s) -> done_res p = None -> done_res q = Some r -> plain_pc q ->
  (forall dead, r = next_res dead (body af o).2 \/ dead = alive (l_x (c_loop s))) -> ahead s' (body af o).1 ->
  l_x (c_loop s') = l_x (c_loop s) -> l_k (c_loop s') = l_k (c_loop s) -> l_sender (c_loop s') = l_sender (c_loop s) -> c_next s' = c_next s ->
  exists lin1' lin2' f1', FInv f0 (ls ++ [HTau]) s' lin1' lin2' f1' (body af o).1.
Proof.
  intros [A1 A2 A3 A4 A5 A6 A7 A8] Hc Hs Hd Hq Hp Hr F Hx Hk Hsn Hn.
  destruct (A5 _ _ _ _ Hc) as [Ho _].
  assert (G : forall lin1' lin2' f1', play false f0 lin1' f1' -> play true f1' lin2' (body af o).1 -> (alive (l_x (c_loop s)) = true -> lin2' = []) ->
    lin1' ++ lin2' = (lin1 ++ lin2) ++ [(c, (h, o), r)] -> FInv f0 (ls ++ [HTau]) s' lin1' lin2' f1' (body af o).1).
  { intros l1 l2 g B1 B2 B3 B4. split; rewrite ?Hx, ?Hk, ?Hsn, ?Hn; auto.
    - eapply plain_call; eassumption.
    - rewrite B4. eapply Hist_lin; [exact A8| |].
      + unfold status'. rewrite Hc, Hd. reflexivity.
      + intros d. rewrite (status'_call s s' c p q (h, o) Hc Hs), Hq. reflexivity. }
  destruct (alive (l_x (c_loop s))) eqn:Al.
  - specialize (A3 eq_refl). subst lin2. apply play_nil in A2 as ->. destruct (Hr false) as [Er|X]; [|discriminate X].
    exists (lin1 ++ [(c, (h, o), r)]), [], (body f1 o).1. apply G; [subst r; constructor; assumption|constructor|reflexivity|].
    rewrite !app_nil_r. reflexivity.
  - destruct (Hr true) as [Er|X]; [|discriminate X].
    exists lin1, (lin2 ++ [(c, (h, o), r)]), f1. apply G; [assumption|subst r; constructor; assumption|discriminate|apply app_assoc].
Qed.

Lemma xstep_alive (ex : job -> world -> world * bool) l a l' : xstep ex l a l' -> alive (l_x l) = true.
Proof. intros X. inversion X; subst; cbn in *; match goal with H : l_x _ = _ |- _ => rewrite H; reflexivity end. Qed.
Lemma xstep_sender (ex : job -> world -> world * bool) l a l' : xstep ex l a l' -> l_sender l' = l_sender l.
Proof. intros X. inversion X; subst; reflexivity. Qed.
Lemma pstep_sender (l l' : loop job world) a : pstep l a l' -> l_sender l' = l_sender l /\ l_x l' = l_x l /\ l_k l' = l_k l.
Proof. intros X. inversion X; subst; auto. Qed.

Lemma FInv_step f0 ls s a s' lin1 lin2 f1 af : LInv s -> FInv f0 ls s lin1 lin2 f1 af -> cstep E i s a s' ->
  (forall c h o, HInv c h o ∈ ls ++ [a] -> o <> CClear) ->
  exists lin1' lin2' f1' af', FInv f0 (ls ++ [a]) s' lin1' lin2' f1' af'.
Proof.
  intros L S X Hcl. pose proof S as [A1 A2 A3 A4 A5 A6 A7 A8].
  destruct X as [s h o|s c h o Hc He Hw|s c h o Hc He Hw Hr|s c h o f r Hc Hb|s c h o f j Hc Hb|s c h o f Hc Hb|s c h o j l Hc Hp|s l Hp|s c h o lc ok l Hc Hp
    |s c h o l Hc Hk Hch|s c h o l Hc Hk|s c h o ok l Hc Hk|s c h o hd w y Hc Hh Ho Hk|s c h o hd w y Hc Hh Ho Hk Ha|s c h o hd w Hc Hh Ho|s a l Hx|s c h o r Hc|s c h o r Hc].
  - exists lin1, lin2, f1, af. split; cbn; auto.
    + destruct A4 as [(c' & p' & h' & o' & j & Hc' & Hb & B)|[A B]].
      * left. exists c', p', h', o', j. cbn. rewrite lookup_insert_ne; [auto|]. apply (k_next _ L) in Hc'. lia.
      * right. split; [|exact B]. intros d q ho Y. cbn in Y. destruct (decide (d = c_next s)) as [->|Hne].
        -- rewrite lookup_insert in Y. injection Y as <- _. reflexivity.
        -- rewrite lookup_insert_ne in Y by congruence. eauto.
    + intros d q h' o' Y. destruct (decide (d = c_next s)) as [->|Hne].
      * rewrite lookup_insert in Y. injection Y as <- <- <-. split; [|exact Logic.I]. eapply Hcl. apply in_csnoc. right. reflexivity.
      * rewrite lookup_insert_ne in Y by congruence. eauto.
    + eapply Hist_call; [exact A8| |].
      * intros d x Y. unfold status' in Y. destruct (c_calls s !! d) as [[q ho]|] eqn:Ed; [|discriminate Y]. eapply (k_next _ L), Ed.
      * intros d. unfold status'. cbn. destruct (decide (d = c_next s)) as [->|Hne]; [rewrite lookup_insert; reflexivity|].
        rewrite lookup_insert_ne by congruence. reflexivity.
  - exists lin1, lin2, f1, af. eapply FInv_move; [exact S|exact Hc|reflexivity..|exact Logic.I|reflexivity|reflexivity|reflexivity|reflexivity|reflexivity].
  - exists lin1, lin2, f1, af. eapply FInv_move; [exact S|exact Hc|reflexivity..|exact Logic.I|reflexivity|reflexivity|reflexivity|reflexivity|reflexivity].
  - destruct (ahead_alone s af c _ h o L A4 Hc eq_refl eq_refl) as [-> N].
    edestruct (FInv_lin f0 ls s (set_call (set_front s f) c (ARet r) (h, o)) lin1 lin2 f1 (c_front s) c AHeld (ARet r) h o r S Hc) as (l1 & l2 & g & G);
      [reflexivity|reflexivity|reflexivity|exact Logic.I|left; rewrite Hb; reflexivity| |reflexivity|reflexivity|reflexivity|reflexivity|eexists _, _, _, _; exact G].
    rewrite Hb. right. split; [|reflexivity]. intros d q ho Y. cbn in Y. destruct (decide (d = c)) as [->|Hne].
    + rewrite lookup_insert in Y. injection Y as <- _. reflexivity.
    + rewrite lookup_insert_ne in Y by congruence. eauto.
  - destruct (ahead_alone s af c _ h o L A4 Hc eq_refl eq_refl) as [-> N].
    exists lin1, lin2, f1, (c_front s). split; cbn; auto.
    + left. exists c, (APost j), h, o, j. cbn. rewrite lookup_insert. auto.
    + eapply (plain_call s (set_call (set_front s f) c (APost j) (h, o))); [exact A5|exact Hc|reflexivity|exact Logic.I].
    + eapply Hist_tau; [exact A8|]. eapply (status'_same s (set_call (set_front s f) c (APost j) (h, o))); [exact Hc|reflexivity|reflexivity].
  - exfalso. destruct (A5 _ _ _ _ Hc) as [Ho _]. unfold body in Hb. destruct (f_poison _); [discriminate Hb|].
    destruct o; [..|contradiction]; repeat case_match; discriminate Hb.
  - apply pstep_sender in Hp as (P1 & P2 & P3). exists lin1, lin2, f1, af.
    eapply FInv_move; [exact S|exact Hc|reflexivity|reflexivity|reflexivity|exact Logic.I|reflexivity|exact P2|exact P3|exact P1|reflexivity].
  - apply pstep_sender in Hp as (P1 & P2 & P3). exists lin1, lin2, f1, af. eapply FInv_loop; [exact S|rewrite P2; auto|exact P3|exact P1].
  - destruct (A5 _ _ _ _ Hc) as [Ho _].
    destruct (ahead_posting s af c _ h o L A4 Hc eq_refl) as [[j B] N].
    pose proof (pstep_sender _ _ _ Hp) as (P1 & P2 & P3).
    assert (Al : alive (l_x (c_loop s)) = ok).
    { inversion Hp as [| | | |? c' j' Hp' Hs' Ha'|? c' j' Hp' Hs']; subst; [assumption|]. destruct Hs' as [Hs'|Hs']; [congruence|assumption]. }
    assert (Eo : (if ok then match o with CClear => AQuit | _ => ARet (ROk None) end else ARet (RErr IOError)) = ARet (if ok then ROk None else RErr IOError)).
    { destruct ok; [destruct o; try reflexivity; contradiction|reflexivity]. }
    rewrite Eo.
    edestruct (FInv_lin f0 ls s (set_call (set_loop s l) c (ARet (if ok then ROk None else RErr IOError)) (h, o)) lin1 lin2 f1 af c (AWait lc) (ARet (if ok then ROk None else RErr IOError)) h o
      (if ok then ROk None else RErr IOError) S Hc) as (l1 & l2 & g & G);
      [reflexivity|reflexivity|reflexivity|exact Logic.I| | |exact P2|exact P3|exact P1|reflexivity|eexists _, _, _, _; exact G].
    + intros dead. rewrite B, Al. destruct dead, ok; auto.
    + rewrite B. right. split; [|reflexivity]. intros d q ho Y. cbn in Y. destruct (decide (d = c)) as [->|Hne].
      * rewrite lookup_insert in Y. injection Y as <- _. reflexivity.
      * rewrite lookup_insert_ne in Y by congruence. eauto.
  - destruct (A5 _ _ _ _ Hc) as [_ []].
  - destruct (A5 _ _ _ _ Hc) as [_ []].
  - destruct (A5 _ _ _ _ Hc) as [_ []].
  - destruct (A5 _ _ _ _ Hc) as [_ []].
  - destruct (A5 _ _ _ _ Hc) as [_ []].
  - destruct (A5 _ _ _ _ Hc) as [_ []].
  - exists lin1, lin2, f1, af. pose proof (xstep_alive _ _ _ _ Hx) as P1. pose proof (xstep_sender _ _ _ _ Hx) as P2. apply xstep_k in Hx as [P3 _].
    eapply FInv_loop; [exact S|auto|exact P3|exact P2].
  - exists lin1, lin2, f1, af. eapply FInv_move; [exact S|exact Hc|reflexivity|reflexivity|reflexivity|exact Logic.I|reflexivity|reflexivity|reflexivity|reflexivity|reflexivity].
  - exists lin1, lin2, f1, af. split; cbn; auto.
    + destruct A4 as [(c' & p' & h' & o' & j & Hc' & Hb & B)|[A B]].
      * left. exists c', p', h', o', j. cbn. rewrite lookup_delete_ne; [auto|]. intros <-. rewrite Hc in Hc'. injection Hc' as <- _ _. discriminate Hb.
      * right. split; [|exact B]. intros d q ho Y. cbn in Y. apply lookup_delete_Some in Y as [_ Y]. eauto.
    + intros d q h' o' Y. apply lookup_delete_Some in Y as [_ Y]. eauto.
    + eapply Hist_return; [exact A8| |].
      * unfold status'. rewrite Hc. reflexivity.
      * intros d. unfold status'. cbn. destruct (decide (d = c)) as [->|Hne]; [rewrite lookup_delete; reflexivity|].
        rewrite lookup_delete_ne by congruence. reflexivity.
Qed.

Lemma FInv_exec w x ls s : cexecn E i (conc0 w x) ls s -> (forall c h o, HInv c h o ∈ ls -> o <> CClear) ->
  LInv s /\ exists lin1 lin2 f1 af, FInv (Front (i_map x) (i_valid x) (i_poison x)) ls s lin1 lin2 f1 af.
Proof.
  intros X. induction X as [|ls s1 a s2 _ IH X]; intros Hcl.
  - split; [apply LInv_0|]. eexists _, _, _, _. apply FInv_0.
  - destruct IH as (L & lin1 & lin2 & f1 & af & S). { intros. eapply Hcl. apply in_csnoc. left. eassumption. }
    split; [eapply LInv_step; eassumption|]. eapply FInv_step; eassumption.
Qed.

(** However puts, gets and deletes overlap, and whatever becomes of them,
    there is an order of the calls in which one thread alone, calling them in
    that order, gets the same answers, the background thread being gone from
    one point on or never.  It is never gone if the thread still lives at the
    end.  What is in memory when no call is in progress is what the order
    leads to. *)
Theorem C82_atomic_also_when_calls_fail w x ls s :
  w_insts w !! i = Some x -> i_queue x = [] -> i_io x = IoRun -> i_sender x = true -> plain_calls i w ls ->
  cexecn E i (conc0 w x) ls s ->
  exists before after w1 w2, linearization ls (before ++ after) /\
    run E w (map lin_event before) = Some (w1, map snd before) /\
    run E (thread_died i w1) (map lin_event after) = Some (w2, map snd after) /\
    (alive (l_x (c_loop s)) = true -> after = []) /\
    (c_calls s = ∅ -> forall h hd key t, w_handles w !! h = Some hd -> h_unreg hd = false -> h_inst hd = i ->
      exists w3 r, step E w2 (EGet h key t) = Some (w3, r) /\ body (c_front s) (CGet key t) = (c_front s, NRet r)).
Proof.
  intros Hx Hq Hio Hs Hpl X. destruct (FInv_exec w x ls s X) as (L & lin1 & lin2 & f1 & af & [A1 A2 A3 A4 A5 A6 A7 A8]). { intros c h o Y. apply (Hpl c h o Y). }
  pose proof (hist_lin _ _ _ _ A8) as Lin.
  assert (Hh : forall c h o r, (c, (h, o), r) ∈ lin1 ++ lin2 -> exists hd, w_handles w !! h = Some hd /\ h_unreg hd = false /\ h_inst hd = i).
  { intros c h o r Y. apply (ln_called _ _ Lin) in Y. apply (Hpl _ _ _ Y). }
  assert (Ex : w = set_inst w i (i_glue x (Front (i_map x) (i_valid x) (i_poison x)) [])).
  { symmetry. apply set_inst_same. rewrite Hx. f_equal. destruct x. cbn in *. rewrite Hq. reflexivity. }
  destruct (play_run w x false (Front (i_map x) (i_valid x) (i_poison x)) lin1 f1 [] Hs Hio) as [q1 R1]; [|exact A1|].
  { intros. eapply Hh. apply elem_of_app. left. eassumption. }
  destruct (play_run w (i_gone x) true f1 lin2 af q1 Hs eq_refl) as [q2 R2]; [|exact A2|].
  { intros. eapply Hh. apply elem_of_app. right. eassumption. }
  rewrite <- Ex in R1.
  exists lin1, lin2. eexists _, _. split; [exact Lin|]. split; [exact R1|]. split; [|split; [exact A3|]].
  - unfold thread_died. cbn [set_inst set_insts w_insts]. rewrite lookup_insert.
    match goal with |- run E ?u _ = _ => replace u with (set_inst w i (i_glue (i_gone x) f1 q1)); [exact R2|] end.
    unfold set_inst, set_insts. cbn. rewrite insert_insert. reflexivity.
  - intros Hc h hd key t H1 H2 H3. eexists _, _. split; [exact (step_body_gone w (i_gone x) af q2 h hd (CGet key t) ltac:(discriminate) H1 H2 H3 Hs eq_refl)|].
    destruct A4 as [(c' & p' & h' & o' & j & Hc' & _)|[_ ->]]; [rewrite Hc, lookup_empty in Hc'; discriminate Hc'|].
    unfold body. destruct (f_poison _); reflexivity.
Qed.

Lemma play_item dead f lin g c h o r : play dead f lin g -> (c, (h, o), r) ∈ lin -> o <> CClear /\ exists f1, r = next_res dead (body f1 o).2.
Proof.
  intros P. induction P as [|lin f1 c' h' o' P IH Ho]; intros X; [inversion X|].
  apply elem_of_app in X as [X|X]; [auto|]. apply elem_of_list_singleton in X. injection X as -> -> -> ->. eauto.
Qed.

Lemma buffer_new_err key v e : buffer_new key v <> RErr e.
Proof.
  unfold buffer_new. destruct (type_of v); cbn; try discriminate. unfold type_token_new. destruct (reserved _); discriminate.
Qed.

Lemma body_not_io f o : exclusive o = true -> (body f o).2 <> NRet (RErr IOError).
Proof.
  unfold body. destruct (f_poison f); [discriminate|]. destruct o as [key v|key t|key|]; try discriminate; intros _.
  - destruct (buffer_new key v) as [m|e|] eqn:B; [destruct (f_valid f); discriminate|destruct (buffer_new_err _ _ _ B)|discriminate].
  - destruct (f_valid f); [|discriminate]. destruct (f_map f !! key); discriminate.
  - destruct (f_valid f); discriminate.
Qed.

Lemma body_put_not_ok f key v : (body f (CPut key v)).2 <> NRet (ROk None).
Proof.
  unfold body. destruct (f_poison f); [discriminate|]. destruct (buffer_new key v) as [m|e|] eqn:B; [destruct (f_valid f); discriminate|destruct (buffer_new_err _ _ _ B)|discriminate].
Qed.

(** Once a put or a delete has answered IOError, no put that begins later
    succeeds: the threads of a program agree on when the store is lost. *)
Theorem C82_lost_is_lost_for_all_threads w x ls s c hc oc d h key v r :
  w_insts w !! i = Some x -> i_queue x = [] -> i_io x = IoRun -> i_sender x = true -> plain_calls i w ls ->
  cexecn E i (conc0 w x) ls s ->
  HInv c hc oc ∈ ls -> (forall k t, oc <> CGet k t) ->
  earlier ls (HRet c (RErr IOError)) (HInv d h (CPut key v)) -> HRet d r ∈ ls -> r <> ROk None.
Proof.
  intros Hx Hq Hio Hs Hpl X Hc Hg Ea Hr. destruct (FInv_exec w x ls s X) as (L & lin1 & lin2 & f1 & af & [A1 A2 A3 A4 A5 A6 A7 A8]). { intros c' h' o' Y. apply (Hpl c' h' o' Y). }
  pose proof (hist_lin _ _ _ _ A8) as Lin. edestruct inv_once as [_ U]; [exact X|].
  assert (Hrc : HRet c (RErr IOError) ∈ ls). { destruct Ea as (l1 & l2 & -> & Y & _). apply elem_of_app. auto. }
  assert (Hid : HInv d h (CPut key v) ∈ ls). { destruct Ea as (l1 & l2 & -> & _ & Y). apply elem_of_app. auto. }
  destruct (ln_returned _ _ Lin c _ Hrc) as (h1 & o1 & Y1). pose proof (U _ _ _ _ _ Hc (ln_called _ _ Lin _ _ _ _ Y1)) as [= <- <-].
  destruct (ln_returned _ _ Lin d _ Hr) as (h2 & o2 & Y2). pose proof (U _ _ _ _ _ Hid (ln_called _ _ Lin _ _ _ _ Y2)) as [= <- <-].
  pose proof (ln_realtime _ _ Lin _ _ _ _ _ Ea ltac:(eapply in_ids, Y2)) as Ord.
  pose proof (ln_nodup _ _ Lin) as Nd. rewrite map_app in Nd, Ord. apply NoDup_app in Nd as (_ & Nd & _).
  apply elem_of_app in Y1 as [Y1|Y1].
  { exfalso. destruct (play_item _ _ _ _ _ _ _ _ A1 Y1) as (_ & f & B).
    assert (Ee : exclusive oc = true) by (destruct oc; try reflexivity; edestruct Hg; reflexivity).
    pose proof (body_not_io f oc Ee) as Nb. destruct (body f oc).2; cbn in B; try discriminate B. congruence. }
  destruct Ord as (l1 & l2 & El & B1 & B2).
  apply elem_of_app in Y2 as [Y2|Y2].
  - exfalso. apply in_ids in Y1, Y2. apply app_eq_inv in El as [(k & E1 & E2)|(k & E1 & E2)].
    + apply (Nd c); [rewrite E1; apply elem_of_app; auto|exact Y1].
    + apply (Nd d Y2). rewrite E2. apply elem_of_app. auto.
  - destruct (play_item _ _ _ _ _ _ _ _ A2 Y2) as (_ & f & B).
    pose proof (body_put_not_ok f key v) as Nb. destruct (body f (CPut key v)).2; cbn in B; subst r; congruence.
Qed.

End Fail.

(** ** A concrete run: a put (1) whose value is too large queues its job just
    before the background thread looks, is what the thread dies of, and is
    itself told so; the value is in memory all the same, and the put after it
    fails. *)
Definition ex_fail_sched : list cchoice :=
  KCall 0 (CPut k2 (VI32 7)) :: replicate 9 (KStep 0) ++ KCall 0 (CPut k2 ex_big) :: replicate 6 (KStep 1) ++ replicate 6 KBg ++ replicate 3 (KStep 1) ++
  KCall 1 (CGet k2 TBytes) :: replicate 4 (KStep 2) ++ KCall 1 (CPut k1 (VI32 8)) :: replicate 9 (KStep 3).

Definition ex_fail_labels : list clabel :=
  HInv 0 0 (CPut k2 (VI32 7)) :: replicate 8 HTau ++ HRet 0 (ROk None) :: HInv 1 0 (CPut k2 ex_big) :: replicate 14 HTau ++ HRet 1 (RErr IOError) ::
  HInv 2 1 (CGet k2 TBytes) :: replicate 3 HTau ++ HRet 2 (ROk (Some ex_big)) :: HInv 3 1 (CPut k1 (VI32 8)) :: replicate 8 HTau ++ [HRet 3 (RErr IOError)].

Example C82_example : exists w0 rs0 x0 s,
  run (ex_env FPlain) world0 ex_start = Some (w0, rs0) /\ w_insts w0 !! 0 = Some x0 /\ i_queue x0 = [] /\ i_io x0 = IoRun /\ i_sender x0 = true /\
  plain_calls 0 w0 ex_fail_labels /\ cexecn (ex_env FPlain) 0 (conc0 w0 x0) ex_fail_labels s /\ c_calls s = ∅ /\ alive (l_x (c_loop s)) = false.
Proof.
  assert (T : match run (ex_env FPlain) world0 ex_start with
              | Some (w, rs) =>
                match w_insts w !! 0 with
                | Some x => (is_nil (i_queue x) = true /\ i_io x = IoRun /\ i_sender x = true) /\
                  (match w_handles w !! 0 with Some hd => h_unreg hd = false /\ h_inst hd = 0 | None => False end) /\
                  (match w_handles w !! 1 with Some hd => h_unreg hd = false /\ h_inst hd = 0 | None => False end) /\
                  match csched (ex_env FPlain) 0 ex_fail_sched (conc0 w x) with
                  | Some (ls, s) => ls = ex_fail_labels /\ is_nil (map_to_list (c_calls s)) = true /\ alive (l_x (c_loop s)) = false
                  | None => False end
                | None => False end
              | _ => False end) by (vm_compute; repeat split).
  destruct (run (ex_env FPlain) world0 ex_start) as [[w0 rs0]|] eqn:Hr; [|contradiction].
  destruct (w_insts w0 !! 0) as [x0|] eqn:Hx; [|contradiction]. destruct T as ((T1 & T2 & T3) & T4 & T5 & T).
  destruct (w_handles w0 !! 0) as [hd0|] eqn:H0; [|contradiction]. destruct (w_handles w0 !! 1) as [hd1|] eqn:H1; [|contradiction].
  destruct (csched (ex_env FPlain) 0 ex_fail_sched (conc0 w0 x0)) as [[ls s]|] eqn:Hc; [|contradiction]. destruct T as (-> & T6 & T7).
  exists w0, rs0, x0, s. split; [reflexivity|]. split; [exact Hx|]. split; [apply is_nil_ok, T1|]. split; [exact T2|]. split; [exact T3|].
  split; [|split; [apply csched_ok in Hc; exact Hc|split; [apply map_to_list_empty_iff, is_nil_ok, T6|exact T7]]].
  intros c h o X. apply elem_of_list_In in X. cbn in X.
  repeat (destruct X as [X|X]; [try discriminate X; injection X as <- <- <-; (split; [discriminate|eauto])|]). contradiction.
Qed.
