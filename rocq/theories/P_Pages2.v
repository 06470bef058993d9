(** C88, continued: processes that are killed, on pages of changing sizes. *)
From Verif Require Import Bytes Utf8 Proto ProtoFacts Value Codec Store StoreFacts Encrypt World Spec Hyps Refine WorldInv WorldStep Main Frames Reach Examples P_Map P_Damaged P_Pages.
From Coq Require Import ZifyBool ZifyNat ZifyN.
Local Open Scope N_scope.

(** Every process of [l] may end with open stores: it is killed between two
    background jobs.  The next one finds every directory as it was after some
    of the calls, and as it was after all of them if it was closed. *)
Inductive spec_kills (canon : bytes -> bytes) : spec -> list (N * list event) -> list (list result) -> Prop :=
| sk_nil s : spec_kills canon s [] []
| sk_next s p es l rs rss s1 s' :
    spec_run canon s es = Some (s1, rs) ->
    rewound canon s es s' ->
    (forall d, (forall h, sp_handles s1 !! h <> Some d) -> contents s' d = contents s1 d) ->
    spec_kills canon s' l rss ->
    spec_kills canon s ((p, es) :: l) (rs :: rss).

(** Whether calls name open handles does not depend on the entries. *)
Lemma step_defined canon s s' e s1 r : sp_handles s = sp_handles s' -> spec_step canon s e = Some (s1, r) ->
  exists s1' r', spec_step canon s' e = Some (s1', r') /\ sp_handles s1 = sp_handles s1'.
Proof.
  intros H Hs. destruct e; cbn [spec_step] in *; rewrite <- ?H; try discriminate Hs;
    try (destruct (sp_handles s !! h) as [d|]; [|discriminate Hs]; injection Hs as <- _; do 2 eexists; split; [reflexivity|]; cbn; congruence).
  - destruct (sp_handles s !! h); [discriminate Hs|]. injection Hs as <- _. do 2 eexists; split; [reflexivity|]. cbn. congruence.
  - injection Hs as <- _. do 2 eexists; split; [reflexivity|]. exact H.
Qed.

Lemma run_defined canon es : forall s s', sp_handles s = sp_handles s' -> spec_run canon s es <> None -> spec_run canon s' es <> None.
Proof.
  induction es as [|e es IH]; intros s s' H Hr; cbn [spec_run] in *; [discriminate|].
  destruct (spec_step canon s e) as [[s1 r]|] eqn:Es; [|congruence].
  destruct (step_defined canon s s' e s1 r H Es) as (s1' & r' & -> & H1).
  specialize (IH s1 s1' H1). destruct (spec_run canon s1 es) as [[s2 rs]|]; [|congruence].
  specialize (IH ltac:(discriminate)). destruct (spec_run canon s1' es) as [[s2' rs']|]; [discriminate|congruence].
Qed.

Lemma no_mutations canon d es : forall s s' rs, spec_run canon s es = Some (s', rs) -> mutations canon s d es = 0%nat -> contents s' d = contents s d.
Proof.
  induction es as [|e es IH]; intros s s' rs Hr Hm; cbn [spec_run mutations] in *; [injection Hr as <- _; reflexivity|].
  destruct (spec_step canon s e) as [[s1 r1]|] eqn:Es; [|discriminate Hr]. destruct (spec_run canon s1 es) as [[s2 rs2]|] eqn:Er; [|discriminate Hr].
  injection Hr as <- _. rewrite (IH _ _ _ Er) by lia. destruct (mutates s d e) eqn:Em; [lia|]. clear Hm IH Er.
  destruct e; cbn in Es, Em; try discriminate Es; try (destruct (sp_handles s !! h) as [d'|] eqn:Eh; [|discriminate Es]); try (injection Es as <- _; reflexivity).
  - destruct (sp_handles s !! h); [discriminate Es|]. injection Es as <- _. reflexivity.
  - injection Es as <- _. apply bool_decide_eq_false in Em. apply contents_set_ne. congruence.
  - injection Es as <- _. apply bool_decide_eq_false in Em. destruct (decide (d' = d)) as [->|Hne]; [|apply contents_set_ne; congruence].
    unfold contents at 1. unfold set_contents. cbn. rewrite lookup_insert. cbn. apply delete_notin.
    destruct (contents s d !! key) eqn:Ek; [|exact Ek]. destruct Em. split; [reflexivity|eauto].
  - injection Es as <- _. apply bool_decide_eq_false in Em. apply contents_set_ne. congruence.
Qed.

Lemma run_app canon a : forall b s s1 r1, spec_run canon s a = Some (s1, r1) ->
  spec_run canon s (a ++ b) = match spec_run canon s1 b with Some (s2, r2) => Some (s2, r1 ++ r2) | None => None end.
Proof.
  induction a as [|e a IH]; intros b s s1 r1 H; cbn [app spec_run] in *.
  - injection H as <- <-. cbn. destruct (spec_run canon s b) as [[? ?]|]; reflexivity.
  - destruct (spec_step canon s e) as [[s2 x]|]; [|discriminate]. destruct (spec_run canon s2 a) as [[s3 xs]|] eqn:Er; [|discriminate].
    injection H as <- <-. rewrite (IH b s2 s3 xs Er). destruct (spec_run canon s3 b) as [[? ?]|]; reflexivity.
Qed.

Section Kills.
Context (E : env) (keyof : bytes -> bytes) (U : bytes -> Prop).
Context (HU_dir : forall p, U p -> e_dir_ok E p = true).
Context (HU_key : forall p, U p -> feature_key (e_feat E) (keyof (e_canon E p)) <> None).
Context (HU_inj : forall p p', U p -> U p' -> e_canon E p = e_canon E p' -> p = p').
Context (Q : bytes -> value -> Prop).

Lemma kills_ok l : forall w sp p n,
  quiet w -> sp_handles sp = ∅ -> inodes_ok w -> holds_only Q sp ->
  (forall d, dir_ok (Rp := moved (with_page E p)) (with_page E p) keyof w (contents sp d) n d) ->
  Forall (fun s => env_ok (with_page E s.1)) l ->
  Forall (fun s => Forall (call_ok (with_page E s.1) keyof) s.2) l ->
  Forall (fun s => Forall (in_U U) s.2) l ->
  Forall (fun s => spec_run (e_canon E) spec0 s.2 <> None) l ->
  Forall (fun s => puts_only Q s.2) l ->
  Forall (fun s => forall k v, Q k v -> put_ok (with_page E s.1) k v) l ->
  enough E p n l -> exists rss, moves E w l = Some rss /\ spec_kills (e_canon E) sp l rss.
Proof using HU_dir HU_key HU_inj.
  induction l as [|[p' es] l IH]; intros w sp p n Qw Hs Hi HQ Hd HEn HC HUs HW HP HF HR; [exists []; split; [reflexivity|constructor]|].
  inversion HEn as [|? ? HE1 HEn']; subst. inversion HC as [|? ? HC1 HC']; subst. inversion HUs as [|? ? HU1 HUs']; subst.
  inversion HW as [|? ? HW1 HW']; subst. inversion HP as [|? ? HP1 HP']; subst. inversion HF as [|? ? HF1 HF']; subst.
  cbn [fst snd] in *. destruct HR as [HR1 HR2]. cbn [moves].
  assert (Hp' : 8 <= p') by apply (po_page _ (eo_plat _ HE1)).
  pose proof (quiet_WInv (with_page E p') (moved (with_page E p')) keyof U w sp (budget p n p') Qw Hs Hi
    (fun d => moved_dir_ok E keyof p p' w _ n d Hp' (fun k v H => HF1 k v (HQ d k v H)) (Hd d))) as W.
  pose proof (run_ok (Rp := moved (with_page E p')) (RL := moved_law (with_page E p')) (with_page E p') HE1 keyof U HU_dir HU_key HU_inj
    es w sp _ _ W HC1 HU1 HR1) as G.
  change (e_canon (with_page E p')) with (e_canon E) in G.
  pose proof (run_defined (e_canon E) es spec0 sp ltac:(rewrite Hs; reflexivity) HW1) as Hdef.
  destruct (spec_run (e_canon E) sp es) as [[sp' rs']|] eqn:Hsp; [|congruence].
  destruct (run (with_page E p') w es) as [[w' rs]|]; [|contradiction]. destruct G as [-> W'].
  destruct (kill_ok (Rp := moved (with_page E p')) (RL := moved_law (with_page E p')) (with_page E p') keyof U HU_inj w' sp' _ _ W') as (s' & Hh & Wk & Hk).
  assert (HS : forall d, exists es1 es2 s2 rs2, es = es1 ++ es2 /\ spec_run (e_canon E) sp es1 = Some (s2, rs2) /\ contents s' d = contents s2 d /\
    jobs_left w' d (mutations (e_canon E) s2 d es2)).
  { intros d. destruct (Hk d) as (k & Hj & HH).
    destruct (hist0_sound (with_page E p') keyof U HU_dir HU_key HU_inj sp es d k _ sp' rs' Hsp HH) as (es1 & es2 & s1 & rs1 & A & B & C & D).
    exists es1, es2, s1, rs1. split_and!; auto. change (e_canon (with_page E p')) with (e_canon E) in D. rewrite D. exact Hj. }
  assert (Hno : forall i x, w_insts (killed w') !! i = Some x -> False).
  { intros i x Hx. unfold killed in Hx. cbn in Hx. rewrite lookup_empty in Hx. discriminate Hx. }
  destruct (IH (killed w') s' p' (budget p n p' + writes es)) as (rss & M & K); try assumption.
  - apply quiet_killed.
  - split; [apply (wi_fresh _ _ _ _ _ _ _ Wk)|apply (wi_ino _ _ _ _ _ _ _ Wk)].
  - intros d k v Hkv. destruct (HS d) as (es1 & es2 & s2 & rs2 & -> & Hr2 & Hc & _). rewrite Hc in Hkv.
    eapply (run_only (e_canon E) Q es1 sp s2 rs2 HQ); [|exact Hr2|exact Hkv]. intros h' k' v' Hin. eapply HP1. apply in_or_app. left. exact Hin.
  - intros d. apply (wi_dirs _ _ _ _ _ _ _ Wk d). intros i x Hx. destruct (Hno i x Hx).
  - rewrite M. exists (rs' :: rss). split; [reflexivity|]. econstructor; [exact Hsp| | |exact K].
    + split; [exact Hh|]. intros d. destruct (HS d) as (es1 & es2 & s2 & rs2 & A & B & C & _). exists es1, es2, s2, rs2. auto.
    + intros d Hopen. destruct (HS d) as (es1 & es2 & s2 & rs2 & -> & B & C & [(i & x & Hx & Dx & _)|[_ Hm]]).
      * exfalso. destruct (wi_insts _ _ _ _ _ _ _ W' i x Hx) as (_ & _ & _ & h & hd & Hhd & Hi').
        destruct (handle_cases (with_page E p') keyof U w' sp' _ _ h hd W' Hhd) as (Hsph & _ & _ & _ & _ & y & Hy & Dy & _).
        apply (Hopen h). rewrite Hsph. congruence.
      * rewrite C. rewrite (run_app (e_canon E) es1 es2 sp s2 rs2 B) in Hsp.
        destruct (spec_run (e_canon E) s2 es2) as [[s3 rs3]|] eqn:Er; [|discriminate Hsp]. injection Hsp as <- _.
        symmetry. apply (no_mutations (e_canon E) d es2 s2 s3 rs3 Er Hm).
Qed.
End Kills.

(** Any number of processes, each killed between two background jobs or after
    closing its stores, each with its own page size: when every entry that is
    ever put fits in the smallest page that is ever used, every process
    answers as if the maps had gone on from what had been written. *)
Theorem C88_kills_and_page_sizes_partial E keyof l :
  ordinary_moves E keyof 8 0 l ->
  (forall s, In s l -> spec_run (e_canon E) spec0 s.2 <> None) ->
  (forall s s' h k v, In s l -> In s' l -> In (EPut h k v) s.2 -> put_ok (with_page E s'.1) k v) ->
  exists rss, moves E world0 l = Some rss /\ spec_kills (e_canon E) spec0 l rss.
Proof.
  intros [HE HC HP HR] HD Hput.
  assert (HU : forall p, PU (concat (map snd l)) p -> e_dir_ok E p = true /\ feature_key (e_feat E) (keyof (e_canon E p)) <> None).
  { intros p' Hp. apply in_flat_map in Hp as (e & He & Hp). apply List.in_concat in He as (es & Hes & He). apply in_map_iff in Hes as ([q es'] & <- & Hin).
    rewrite List.Forall_forall in HC. specialize (HC _ Hin). cbn [fst snd] in *. rewrite List.Forall_forall in HC. specialize (HC _ He).
    destruct e; cbn in Hp; try contradiction. destruct Hp as [<-|[]]. cbn in HC. destruct HC as (A & -> & B). auto. }
  apply (kills_ok E keyof (PU (concat (map snd l))) (fun p H => proj1 (HU p H)) (fun p H => proj2 (HU p H)) HP
    (fun k v => forall s', In s' l -> put_ok (with_page E s'.1) k v) l world0 spec0 8 0); try assumption.
  - repeat split.
  - reflexivity.
  - split; unfold dir_of; cbn; intros d i; [|intros i' H]; rewrite lookup_empty in *; discriminate.
  - intros d k v. unfold contents. cbn. rewrite lookup_empty. cbn. intros Hk. destruct (lookup_empty_Some _ _ Hk).
  - intros d. unfold dir_ok, dir_of. cbn. rewrite lookup_empty. reflexivity.
  - apply List.Forall_forall. intros [q es] Hin. apply List.Forall_forall. intros e He. destruct e; cbn; auto. unfold PU. apply in_flat_map.
    eexists. split; [apply List.in_concat; exists es; split; [apply in_map_iff; exists (q, es); auto|exact He]|]. left. reflexivity.
  - apply List.Forall_forall. exact HD.
  - apply List.Forall_forall. intros s Hs h k v Hin s' Hs'. exact (Hput s s' h k v Hs Hs' Hin).
  - apply List.Forall_forall. intros s Hs k v H. apply H, Hs.
Qed.

(** The second process is killed on pages of 48 bytes with two writes still
    waiting; the third finds what had been written. *)
Definition ex_kills : list (N * list event) :=
  [(64, [ENew 0 dir_d ex_key; EPut 0 k1 (VI32 5); EPut 0 k2 hello; EDrop 0]);
   (48, [ENew 0 dir_d ex_key; EGet 0 k1 TI32; EPut 0 k1 (VI32 8); EIo 1; EPut 0 k1 (VI32 9); EDelete 0 k2; EGet 0 k1 TI32]);
   (128, [ENew 0 dir_d ex_key; EGet 0 k1 TI32; EGet 0 k2 TStr])].

Lemma C88_kills_example F : F = FPlain \/ F = FEncrypted toy_aead ->
  ordinary_moves (ex_env F) ex_keyof 8 0 ex_kills /\
  (forall s, In s ex_kills -> spec_run (e_canon (ex_env F)) spec0 s.2 <> None) /\
  (forall s s' h k v, In s ex_kills -> In s' ex_kills -> In (EPut h k v) s.2 -> put_ok (with_page (ex_env F) s'.1) k v) /\
  moves (ex_env F) world0 ex_kills = Some
    [[ROk None; ROk None; ROk None; ROk None];
     [ROk None; ROk (Some (VI32 5)); ROk None; ROk None; ROk None; ROk None; ROk (Some (VI32 9))];
     [ROk None; ROk (Some (VI32 8)); ROk (Some hello)]].
Proof.
  intros HF. assert (HE : env_ok (ex_env F)) by (apply ex_env_ok; destruct HF as [->| ->]; [exact Logic.I|apply toy_aead_correct]).
  split; [|split; [|split]].
  - apply ordinary_movesb_ok; [exact HE|vm_compute; reflexivity|]. destruct HF as [->| ->]; vm_compute; reflexivity.
  - assert (B : forallb (fun s => match spec_run (e_canon (ex_env F)) spec0 s.2 with Some _ => true | None => false end) ex_kills = true)
      by (destruct HF as [->| ->]; vm_compute; reflexivity).
    rewrite forallb_forall in B. intros s Hs. specialize (B s Hs). intros Hn. rewrite Hn in B. discriminate B.
  - apply putsb_ok. destruct HF as [->| ->]; vm_compute; reflexivity.
  - destruct HF as [->| ->]; vm_compute; reflexivity.
Qed.
