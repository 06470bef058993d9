(** C60: schedules that meet the hypotheses, and one that shows what happens
    without [apart]. *)
From Verif Require Import Bytes Utf8 Proto ProtoFacts Value Codec Store StoreFacts Encrypt World Spec Hyps Refine WorldInv WorldStep Main Frames Reach Examples P_Map P_Store P_Fail P_Alias Looper P_Loop Conc P_Conc P_Live Reg P_Reg P_Reg2.
From Coq Require Import ZifyBool ZifyNat ZifyN.
Local Open Scope N_scope.

(** ** A scheduler *)

Inductive rchoice := KOpen (path key : bytes) | KClose (h : N) | KUse (h : N) (o : cop) | KGo (c : N) | KIo (i : N).

Definition usableb (s : reg) (h : N) : bool :=
  bool_decide (is_Some (w_handles (r_world s) !! h)) && bool_decide (r_ops s !! h = None) &&
  forallb (fun x => match x.2.2 with OClose k => negb (N.eqb k h) | _ => true end) (map_to_list (r_ops s)).
Definition unborrowedb (s : reg) (h : N) : bool :=
  forallb (fun x => match x.2.2 with OCall k _ => negb (N.eqb k h) | _ => true end) (map_to_list (r_ops s)).

Lemma ops_in (s : reg) c p o : r_ops s !! c = Some (p, o) -> In (c, (p, o)) (map_to_list (r_ops s)).
Proof. intros H. apply elem_of_list_In, elem_of_map_to_list, H. Qed.

Lemma usableb_ok s h : usableb s h = true -> usable s h.
Proof.
  unfold usableb. rewrite !andb_true_iff, !bool_decide_eq_true, forallb_forall. intros [[A B] C]. split_and!; auto.
  intros c p X. apply ops_in, C in X. cbn in X. rewrite N.eqb_refl in X. discriminate X.
Qed.
Lemma unborrowedb_ok s h : unborrowedb s h = true -> forall c p o, r_ops s !! c = Some (p, OCall h o) -> False.
Proof. unfold unborrowedb. rewrite forallb_forall. intros C c p o X. apply ops_in, C in X. cbn in X. rewrite N.eqb_refl in X. discriminate X. Qed.

Section Sched.
Context (E : env).

Definition rdo (k : rchoice) (s : reg) : option (rlabel * reg) :=
  let tau s := Some (RTau, s) in
  match k with
  | KOpen p k => Some (RInv (r_next s) (OOpen p k), begin s QWant (OOpen p k))
  | KUse h o => if usableb s h then Some (RInv (r_next s) (OCall h o), begin s QWant (OCall h o)) else None
  | KClose h => if usableb s h && unborrowedb s h then Some (RInv (r_next s) (OClose h), begin s QWantW (OClose h)) else None
  | KIo i =>
      match w_insts (r_world s) !! i with
      | Some x => match i_queue x, i_io x with _ :: _, IoRun => tau (set_w s (run_job E (r_world s) i)) | _, _ => None end
      | None => None
      end
  | KGo c =>
      match r_ops s !! c with
      | None => None
      | Some (QWant, OOpen p k) => match r_writer s with None => tau (set_op (set_lk s ({[c]} ∪ r_readers s) None) c QRead (OOpen p k)) | Some _ => None end
      | Some (QWant, OCall h o) => match step E (r_world s) (event_of h o) with Some (w, r) => tau (set_op (set_w s w) c (QDone r) (OCall h o)) | None => None end
      | Some (QRead, OOpen p k) =>
          if w_poison (r_world s) then None
          else match find s p with
               | Some i => tau (set_op (set_w s (add_handle (r_world s) c p k i)) c (QRel (ROk None)) (OOpen p k))
               | None => tau (set_op (set_lk s (r_readers s ∖ {[c]}) (r_writer s)) c QWantW (OOpen p k))
               end
      | Some (QWantW, o) =>
          match r_writer s with
          | None => if bool_decide (r_readers s = ∅) then tau (set_op (set_lk s (r_readers s) (Some c)) c QWrite o) else None
          | Some _ => None
          end
      | Some (QWrite, OOpen p k) =>
          if w_poison (r_world s) then None
          else match find s p with
               | Some i => tau (set_op (set_w s (add_handle (r_world s) c p k i)) c (QRel (ROk None)) (OOpen p k))
               | None => tau (set_op s c QOpen (OOpen p k))
               end
      | Some (QOpen, OOpen p k) =>
          match open_impl E (r_world s) p k with
          | (w, Some x) => tau (set_op (set_w s
              (World (w_dirs w) (w_inodes w) (w_next_ino w) (<[w_next_inst w := x]> (w_insts w)) (w_next_inst w + 1)
                 (w_handles w) (w_reg w) (w_poison w) (w_rng w) (w_seed w))) c (QIns (w_next_inst w)) (OOpen p k))
          | (w, None) => tau (set_op (set_w s (set_poison w)) c (QRel RPanic) (OOpen p k))
          end
      | Some (QIns i, OOpen p k) =>
          tau (set_op (set_w s (set_reg (add_handle (r_world s) c p k i) (<[p := i]> (w_reg (r_world s))))) c (QRel (ROk None)) (OOpen p k))
      | Some (QRel r, o) =>
          tau (set_op (set_lk s (r_readers s ∖ {[c]}) (if decide (r_writer s = Some c) then None else r_writer s)) c
            (match o with OClose _ => QArc r | _ => QDone r end) o)
      | Some (QDone r, o) => Some (RRet c r, Reg (r_world s) (r_readers s) (r_writer s) (delete c (r_ops s)) (r_next s) (r_dead s))
      | Some (p, OClose h) =>
          match w_handles (r_world s) !! h with
          | None => None
          | Some hd =>
              match p with
              | QWrite => if w_poison (r_world s) then None else tau (set_op s c (QRem (Nat.eqb (strong (r_world s) (h_inst hd)) 1)) (OClose h))
              | QRem last => tau (set_op (set_w s (flag_handle
                  (if last then set_reg (r_world s) (delete (h_path hd) (w_reg (r_world s))) else r_world s) h hd)) c (QRel (ROk None)) (OClose h))
              | QArc r =>
                  if Nat.eqb (strong (r_world s) (h_inst hd)) 1
                  then tau (set_op (set_dead s ({[h_inst hd]} ∪ r_dead s)) c (QJoin r) (OClose h))
                  else tau (set_op (set_w s (set_handles (r_world s) (delete h (w_handles (r_world s))))) c (QDone r) (OClose h))
              | QJoin r =>
                  match w_insts (r_world s) !! h_inst hd with
                  | Some x =>
                      if match i_queue x, i_io x with [], _ => true | _, IoDead => true | _, _ => false end
                      then tau (set_op (set_dead (set_w s
                        (set_handles (set_insts (r_world s) (delete (h_inst hd) (w_insts (r_world s)))) (delete h (w_handles (r_world s)))))
                        (r_dead s ∖ {[h_inst hd]})) c
                        (QDone (both r (if i_join x then match i_io x with IoRun => ROk None | IoDead => RPanic end else ROk None))) (OClose h))
                      else None
                  | None => None
                  end
              | _ => None
              end
          end
      | _ => None
      end
  end.

Lemma rdo_ok k s a s' : rdo k s = Some (a, s') -> rstep E s a s'.
Proof.
  destruct k as [p k|h|h o|c|i]; cbn.
  - intros [= <- <-]. constructor.
  - destruct (usableb s h) eqn:U; [|discriminate]. destruct (unborrowedb s h) eqn:B; [|discriminate]. intros [= <- <-].
    constructor; [apply usableb_ok, U|apply unborrowedb_ok, B].
  - destruct (usableb s h) eqn:U; [|discriminate]. intros [= <- <-]. constructor. apply usableb_ok, U.
  - destruct (r_ops s !! c) as [[p o]|] eqn:Hc; [|discriminate].
    destruct p as [| | | | |i|last|r|r|r|r]; destruct o as [pa ke|h|h o]; try discriminate;
      try (intros [= <- <-]; exact (q_release E s c _ r Hc));
      try (intros [= <- <-]; exact (q_return E s c _ r Hc));
      try (destruct (w_handles (r_world s) !! h) as [hd|] eqn:Hh; [|discriminate]); try discriminate;
      try (intros [= <- <-]; econstructor; eassumption).
    + destruct (r_writer s) eqn:W; [discriminate|]. intros [= <- <-]. rewrite <- W. econstructor; eassumption.
    + destruct (step E _ _) as [[w r]|] eqn:Hs; [|discriminate]. intros [= <- <-]. econstructor; eassumption.
    + destruct (w_poison (r_world s)) eqn:P; [discriminate|]. destruct (find s pa) eqn:F; intros [= <- <-]; [eapply q_hit|eapply q_miss]; eassumption.
    + destruct (r_writer s) eqn:W; [discriminate|]. case_bool_decide; [|discriminate]. intros [= <- <-]. econstructor; eassumption.
    + destruct (r_writer s) eqn:W; [discriminate|]. case_bool_decide; [|discriminate]. intros [= <- <-]. econstructor; eassumption.
    + destruct (r_writer s) eqn:W; [discriminate|]. case_bool_decide; [|discriminate]. intros [= <- <-]. econstructor; eassumption.
    + destruct (w_poison (r_world s)) eqn:P; [discriminate|]. destruct (find s pa) eqn:F; intros [= <- <-]; [eapply q_again|eapply q_absent]; eassumption.
    + destruct (w_poison (r_world s)) eqn:P; [discriminate|]. intros [= <- <-]. eapply q_count; eassumption.
    + destruct (open_impl E _ _ _) as [w [x|]] eqn:Ho; intros [= <- <-]; [eapply q_build|eapply q_build_panic]; eassumption.
    + destruct (Nat.eqb _ 1) eqn:Q; intros [= <- <-]; [eapply q_arc_last|eapply q_arc]; try eassumption; [apply Nat.eqb_eq, Q|apply Nat.eqb_neq, Q].
    + destruct (w_insts (r_world s) !! h_inst hd) as [x|] eqn:Hx; [|discriminate]. match goal with |- (if ?b then _ else _) = _ -> _ => destruct b eqn:B; [|discriminate] end.
      intros [= <- <-]. eapply q_joined; eauto. destruct (i_queue x), (i_io x); auto; discriminate B.
  - destruct (w_insts (r_world s) !! i) as [x|] eqn:Hx; [|discriminate]. destruct (i_queue x) eqn:Q; [discriminate|]. destruct (i_io x) eqn:Io; [|discriminate].
    intros [= <- <-]. eapply q_io; eauto. rewrite Q. discriminate.
Qed.

Fixpoint rsched (ks : list rchoice) (s : reg) : option (list rlabel * reg) :=
  match ks with
  | [] => Some ([], s)
  | k :: r => match rdo k s with
              | Some (a, s1) => match rsched r s1 with Some (ls, s2) => Some (a :: ls, s2) | None => None end
              | None => None
              end
  end.

Lemma rsched_ok ks : forall s ls s', rsched ks s = Some (ls, s') -> rexec E s ls s'.
Proof.
  induction ks as [|k ks IH]; intros s ls s'; cbn [rsched]; [intros [= <- <-]; constructor|].
  destruct (rdo k s) as [[a s1]|] eqn:Ed; [|discriminate]. destruct (rsched ks s1) as [[ls1 s2]|] eqn:Es; [|discriminate].
  intros [= <- <-]. apply (rexec_app E s [a] s1); [|apply IH, Es]. apply (re_snoc E s [] s a s1); [constructor|eapply rdo_ok, Ed].
Qed.

End Sched.

(** ** [apart], checked *)

Definition returnedb (ls : list rlabel) (c : N) : bool := existsb (fun a => match a with RRet d _ => N.eqb c d | _ => false end) ls.
Definition closedb (ls : list rlabel) (h : N) : bool := existsb (fun a => match a with RInv _ (OClose k) => N.eqb h k | _ => false end) ls.
Definition apart1b (canon : bytes -> bytes) (ls : list rlabel) : bool :=
  forallb (fun a => match a with
    | RInv c (OOpen path _) => returnedb ls c ||
        forallb (fun b => match b with
          | RInv c' (OClose h) => returnedb ls c' ||
              forallb (fun d => match d with
                | RInv k (OOpen path' _) => negb (N.eqb k h) || negb (bool_decide (canon path' = canon path)) ||
                    existsb (fun e => match e with
                      | RInv h2 (OOpen p2 _) => bool_decide (p2 = path) && existsb (fun r => match r with RRet h3 (ROk _) => N.eqb h3 h2 | _ => false end) ls && negb (closedb ls h2)
                      | _ => false end) ls
                | _ => true end) ls
          | _ => true end) ls
    | _ => true end) ls.

Fixpoint prefixes (ls acc : list rlabel) : list (list rlabel) :=
  acc :: match ls with [] => [] | a :: r => prefixes r (acc ++ [a]) end.

Lemma prefixes_in ls : forall acc ls1 ls2, ls = ls1 ++ ls2 -> In (acc ++ ls1) (prefixes ls acc).
Proof.
  induction ls as [|a ls IH]; intros acc ls1 ls2 He; destruct ls1 as [|b ls1]; try discriminate He; [left; symmetry; apply app_nil_r..|].
  cbn in He. injection He as <- He. right. replace (acc ++ a :: ls1) with ((acc ++ [a]) ++ ls1) by (rewrite <- app_assoc; reflexivity). eapply IH, He.
Qed.

Lemma returnedb_false ls c : (forall r, RRet c r ∉ ls) -> returnedb ls c = false.
Proof.
  intros H. apply not_true_iff_false. intros X. apply existsb_exists in X as (a & Ha & X). destruct a as [| |d r]; try discriminate X.
  apply N.eqb_eq in X as <-. apply (H r), elem_of_list_In, Ha.
Qed.

Definition apartb (canon : bytes -> bytes) (ls : list rlabel) : bool := forallb (apart1b canon) (prefixes ls []).

Lemma apartb_ok canon ls : apartb canon ls = true -> apart canon ls.
Proof.
  unfold apartb. rewrite forallb_forall. intros H ls1 ls2 c path key c' h path' key' He [U1 U2] [V1 V2] I Ec.
  specialize (H ls1 (prefixes_in ls [] ls1 ls2 He)). unfold apart1b in H. rewrite forallb_forall in H.
  apply elem_of_list_In in U1, V1, I. specialize (H _ U1). cbn in H. rewrite (returnedb_false _ _ U2) in H. cbn in H.
  rewrite forallb_forall in H. specialize (H _ V1). cbn in H. rewrite (returnedb_false _ _ V2) in H. cbn in H.
  rewrite forallb_forall in H. specialize (H _ I). cbn in H. rewrite N.eqb_refl, bool_decide_eq_true_2 in H by exact Ec. cbn in H.
  apply existsb_exists in H as (e & He' & H). destruct e as [|h2 [p2 k2|h2'|h2' o2]|]; try discriminate H.
  apply andb_true_iff in H as [H H3]. apply andb_true_iff in H as [H1 H2]. apply bool_decide_eq_true in H1 as ->.
  exists h2, k2. split_and!; [apply elem_of_list_In, He'| |].
  - apply existsb_exists in H2 as (r & Hr & H2). destruct r as [| |h3 [v| |]]; try discriminate H2. apply N.eqb_eq in H2 as ->. exists v. apply elem_of_list_In, Hr.
  - intros d X. apply negb_true_iff in H3. apply not_true_iff_false in H3. apply H3. apply existsb_exists. exists (RInv d (OClose h2)).
    split; [apply elem_of_list_In, X|apply N.eqb_refl].
Qed.

(** ** Examples *)

Definition gos (c : N) (n : nat) : list rchoice := repeat (KGo c) n.

(** Two threads open the same directory at once: both miss under the read
    lock, the second finds the first one's store when it gets the write lock.
    One puts, the other reads.  One closes its handle while a third opens the
    directory.  The last two close at the same time, so that neither
    unregisters the store, and the directory is opened again. *)
Definition ex_rsched : list rchoice :=
  [KOpen dir_d ex_key; KOpen dir_d ex_key; KGo 0; KGo 1; KGo 1; KGo 0; KGo 0; KGo 0; KGo 0; KGo 0; KGo 0] ++ gos 1 4 ++ [KGo 0] ++
  [KUse 0 (CPut k1 (VI32 5)); KUse 1 (CPut k2 hello); KGo 3; KGo 2; KGo 2; KGo 3; KUse 1 (CGet k1 TI32); KGo 4; KGo 4;
   KClose 0; KOpen dir_d ex_key; KGo 5; KGo 5; KGo 5; KGo 5; KGo 6; KGo 6; KGo 5; KGo 5; KGo 6; KGo 6;
   KClose 1; KClose 6; KGo 7; KGo 7; KGo 7; KGo 7; KGo 8; KGo 8; KGo 8; KGo 8; KGo 7; KGo 7; KGo 8; KIo 0; KIo 0; KGo 8; KGo 8;
   KOpen dir_d ex_key] ++ gos 9 8 ++ [KUse 9 (CGet k2 TStr); KGo 10; KGo 10].

Definition returns (ls : list rlabel) : list (N * result) := flat_map (fun a => match a with RRet c r => [(c, r)] | _ => [] end) ls.

Example C60_example : exists ls s,
  rexec (ex_env FPlain) reg0 ls s /\ ordinary (ex_env FPlain) ex_keyof (begun ls) /\ apart (e_canon (ex_env FPlain)) ls /\
  returns ls = [(1, ROk None); (0, ROk None); (2, ROk None); (3, ROk None); (4, ROk (Some (VI32 5))); (5, ROk None); (6, ROk None); (7, ROk None);
                (8, ROk None); (9, ROk None); (10, ROk (Some hello))].
Proof.
  assert (T : match rsched (ex_env FPlain) ex_rsched reg0 with
              | Some (ls, s) => ordinaryb (ex_env FPlain) ex_keyof (begun ls) = true /\ apartb (e_canon (ex_env FPlain)) ls = true /\
                returns ls = [(1, ROk None); (0, ROk None); (2, ROk None); (3, ROk None); (4, ROk (Some (VI32 5))); (5, ROk None); (6, ROk None); (7, ROk None);
                (8, ROk None); (9, ROk None); (10, ROk (Some hello))]
              | None => False end) by (vm_compute; repeat split).
  destruct (rsched (ex_env FPlain) ex_rsched reg0) as [[ls s]|] eqn:X; [|contradiction]. destruct T as (A & B & C).
  exists ls, s. split_and!; [eapply rsched_ok, X|apply ordinaryb_ok; [apply ex_env_ok; exact Logic.I|exact A]|apply apartb_ok, B|exact C].
Qed.

(** Two open handles of one path, for [C60_one_store_per_path]. *)
Example C60_store_example : exists ls s,
  rexec (ex_env FPlain) reg0 ls s /\ open_handle ls 0 dir_d ex_key /\ open_handle ls 1 dir_d ex_key /\ r_writer s <> None.
Proof.
  assert (T : match rsched (ex_env FPlain) (take 25 ex_rsched ++ [KOpen dir_e ex_key; KGo 5; KGo 5; KGo 5]) reg0 with
              | Some (ls, s) => ls = [RInv 0 (OOpen dir_d ex_key); RInv 1 (OOpen dir_d ex_key)] ++ repeat RTau 12 ++ [RRet 1 (ROk None); RRet 0 (ROk None)] ++ drop 16 ls /\
                closedb ls 0 = false /\ closedb ls 1 = false /\ match r_writer s with Some _ => True | None => False end
              | None => False end) by (vm_compute; repeat split).
  destruct (rsched (ex_env FPlain) _ reg0) as [[ls s]|] eqn:X; [|contradiction]. destruct T as (A & B & C & D).
  assert (N : forall h, closedb ls h = false -> forall c, RInv c (OClose h) ∉ ls).
  { intros h Hb c Hc. apply not_true_iff_false in Hb. apply Hb. apply existsb_exists. exists (RInv c (OClose h)). split; [apply elem_of_list_In, Hc|apply N.eqb_refl]. }
  exists ls, s. split_and!; [eapply rsched_ok, X| | |destruct (r_writer s); [discriminate|contradiction]].
  - split_and!; [rewrite A; left|exists None; rewrite A|apply N, B]. apply elem_of_list_In. cbn. tauto.
  - split_and!; [rewrite A; right; left|exists None; rewrite A|apply N, C]. apply elem_of_list_In. cbn. tauto.
Qed.

(** ** Without [apart] *)

(** A thread drops the last handle of a directory; when it has unregistered
    the store but not yet joined the background thread, another opens the
    directory and reads a key that had been put. *)
Definition race_sched : list rchoice :=
  [KOpen dir_d ex_key] ++ gos 0 8 ++ [KUse 0 (CPut k1 (VI32 5)); KGo 1; KGo 1; KClose 0; KGo 2; KGo 2; KGo 2; KGo 2; KOpen dir_d ex_key] ++ gos 3 8 ++
  [KUse 3 (CGet k1 TI32); KGo 4; KGo 4].

Definition race_labels : list rlabel :=
  [RInv 0 (OOpen dir_d ex_key)] ++ repeat RTau 7 ++ [RRet 0 (ROk None); RInv 1 (OCall 0 (CPut k1 (VI32 5))); RTau; RRet 1 (ROk None);
   RInv 2 (OClose 0)] ++ repeat RTau 4 ++ [RInv 3 (OOpen dir_d ex_key)] ++ repeat RTau 7 ++ [RRet 3 (ROk None); RInv 4 (OCall 3 (CGet k1 TI32)); RTau;
   RRet 4 (RErr KeyNotFound)].

Section Race.
Notation canon := (e_canon (ex_env FPlain)).
Notation lev := (fun x : N * rop * result => op_event x.1.1 x.1.2).

Definition race_op (o : rop) : Prop :=
  match o with OOpen p _ => p = dir_d | OClose _ => True | OCall _ (CGet _ _) => True | OCall _ (CPut k v) => k = k1 /\ v = VI32 5 | OCall _ _ => False end.
Definition all_d (sp : spec) : Prop := forall h d, sp_handles sp !! h = Some d -> d = canon dir_d.
Definition has_k1 (sp : spec) : Prop := contents sp (canon dir_d) !! k1 = Some (VI32 5).

Lemma race_step sp c o sp' r : race_op o -> all_d sp -> spec_step canon sp (op_event c o) = Some (sp', r) ->
  all_d sp' /\ (has_k1 sp -> has_k1 sp') /\ ((exists h, o = OCall h (CPut k1 (VI32 5))) -> has_k1 sp') /\ (has_k1 sp -> forall h, o = OCall h (CGet k1 TI32) -> r = ROk (Some (VI32 5))).
Proof.
  intros Ho A. destruct o as [p k|h|h [k v|k t|k|]]; cbn [op_event event_of spec_step]; cbn in Ho; try contradiction.
  - destruct (sp_handles sp !! c); [discriminate|]. intros [= <- <-]. split_and!; auto; try (intros []; discriminate); try discriminate.
    intros h d. cbn. rewrite lookup_insert_Some. intros [[_ <-]|[_ X]]; [congruence|eauto].
  - destruct (sp_handles sp !! h); [|discriminate]. intros [= <- <-]. split_and!; auto; try (intros []; discriminate); try discriminate.
    intros k d. cbn. rewrite lookup_delete_Some. intros [_ X]. eauto.
  - destruct Ho as [-> ->]. destruct (sp_handles sp !! h) as [d|] eqn:Hd; [|discriminate]. intros [= <- <-]. apply A in Hd. subst d.
    assert (has_k1 (set_contents sp (canon dir_d) (<[k1:=VI32 5]> (contents sp (canon dir_d))))).
    { unfold has_k1, contents, set_contents. cbn [sp_dirs]. rewrite lookup_insert. cbn [default]. apply lookup_insert. }
    split_and!; auto; discriminate.
  - destruct (sp_handles sp !! h) as [d|] eqn:Hd; [|discriminate]. intros [= <- <-]. apply A in Hd. subst d.
    split_and!; auto; [intros []; discriminate|]. intros K h' [= <- -> ->]. unfold spec_get. unfold has_k1 in K. rewrite K. reflexivity.
Qed.

Lemma race_run l : Forall (fun x : N * rop * result => race_op x.1.2) l -> forall sp sp' rs, all_d sp -> spec_run canon sp (map lev l) = Some (sp', rs) ->
  all_d sp' /\ (has_k1 sp -> has_k1 sp').
Proof.
  induction l as [|[[c o] r] l IH]; intros F sp sp' rs A; cbn [map spec_run fst snd]; [intros [= <- _]; auto|]. apply Forall_cons in F as [F1 F2].
  destruct (spec_step canon sp (op_event c o)) as [[sp1 r1]|] eqn:E1; [|discriminate]. destruct (spec_run canon sp1 _) as [[sp2 rs2]|] eqn:E2; [|discriminate].
  intros [= <- _]. destruct (race_step _ _ _ _ _ F1 A E1) as (A1 & K1 & _). destruct (IH F2 _ _ _ A1 E2) as [A2 K2]. auto.
Qed.

Lemma in_labels a : a ∈ race_labels -> a = RTau \/ In a (List.filter (fun a => match a with RTau => false | _ => true end) race_labels).
Proof. intros X. destruct a; [auto|..]; right; apply filter_In; (split; [apply elem_of_list_In, X|reflexivity]). Qed.

(** So the answers are those of no order of the calls. *)
Theorem C60_apart_needed : exists s,
  rexec (ex_env FPlain) reg0 race_labels s /\ ordinary (ex_env FPlain) ex_keyof (begun race_labels) /\
  ~ exists lin sp, linearizes race_labels lin /\ spec_run canon spec0 (map lev lin) = Some (sp, map snd lin).
Proof.
  assert (T : match rsched (ex_env FPlain) race_sched reg0 with Some (ls, s) => ls = race_labels | None => False end) by (vm_compute; reflexivity).
  destruct (rsched (ex_env FPlain) race_sched reg0) as [[ls s]|] eqn:X; [|contradiction]. subst ls. exists s.
  split_and!; [eapply rsched_ok, X|apply ordinaryb_ok; [apply ex_env_ok; exact Logic.I|vm_compute; reflexivity]|].
  intros (lin & sp & [Z1 Z2 Z3 Z4] & Hs).
  assert (Ops : forall c o, RInv c o ∈ race_labels -> race_op o /\ (c = 1 -> o = OCall 0 (CPut k1 (VI32 5))) /\ (c = 4 -> o = OCall 3 (CGet k1 TI32))).
  { intros c o Hc. apply in_labels in Hc as [Hc|Hc]; [discriminate|].
    assert (L : List.filter (fun a => match a with RTau => false | _ => true end) race_labels =
      [RInv 0 (OOpen dir_d ex_key); RRet 0 (ROk None); RInv 1 (OCall 0 (CPut k1 (VI32 5))); RRet 1 (ROk None); RInv 2 (OClose 0); RInv 3 (OOpen dir_d ex_key);
       RRet 3 (ROk None); RInv 4 (OCall 3 (CGet k1 TI32)); RRet 4 (RErr KeyNotFound)]) by reflexivity.
    rewrite L in Hc. clear L. destruct Hc as [Hc|[Hc|[Hc|[Hc|[Hc|[Hc|[Hc|[Hc|[Hc|[]]]]]]]]]]; try discriminate Hc; injection Hc as <- <-.
    - split; [reflexivity|split; discriminate].
    - split; [split; reflexivity|split; [intros _; reflexivity|discriminate]].
    - split; [exact Logic.I|split; discriminate].
    - split; [reflexivity|split; discriminate].
    - split; [exact Logic.I|split; [discriminate|intros _; reflexivity]]. }
  assert (F : Forall (fun x : N * rop * result => race_op x.1.2) lin).
  { apply List.Forall_forall. intros [[c o] r] Hc. apply elem_of_list_In, Z2, Ops in Hc. apply Hc. }
  assert (Er : earlier race_labels (RRet 1 (ROk None)) (RInv 4 (OCall 3 (CGet k1 TI32)))).
  { exists (take 12 race_labels), (drop 12 race_labels). split_and!; [reflexivity|apply elem_of_list_In; cbn; tauto..]. }
  assert (R4 : exists o, (4, o, RErr KeyNotFound) ∈ lin) by (apply Z3; apply elem_of_list_In; cbn; tauto). destruct R4 as [o4 R4].
  assert (In4 : 4 ∈ map (fun x => x.1.1) lin) by (apply elem_of_list_In, in_map_iff; exists (4, o4, RErr KeyNotFound); split; [reflexivity|apply elem_of_list_In, R4]).
  destruct (Z4 _ _ _ _ Er In4) as (l1 & l2 & El & H1 & H4). apply map_eq_app in El as (A & B & -> & <- & <-).
  apply elem_of_list_In, in_map_iff in H1 as ([[c1 o1] r1] & E1 & H1). cbn in E1. subst c1.
  apply elem_of_list_In, in_map_iff in H4 as ([[c4 o4'] r4] & E4 & H4). cbn in E4. subst c4.
  assert (o1 = OCall 0 (CPut k1 (VI32 5))) as -> by (eapply (proj1 (proj2 (Ops 1 o1 (Z2 _ _ _ (proj2 (elem_of_app _ _ _) (or_introl (proj2 (elem_of_list_In _ _) H1))))))); reflexivity).
  assert (o4' = OCall 3 (CGet k1 TI32)) as -> by (eapply (proj2 (proj2 (Ops 4 o4' (Z2 _ _ _ (proj2 (elem_of_app _ _ _) (or_intror (proj2 (elem_of_list_In _ _) H4))))))); reflexivity).
  assert (r4 = RErr KeyNotFound) as ->.
  { assert (G : forall l, NoDup (map (fun x : N * rop * result => x.1.1) l) -> forall x y, In x l -> In y l -> x.1.1 = y.1.1 -> x = y).
    { clear. induction l as [|z l IH]; intros N x y Hx Hy Exy; [destruct Hx|]. apply NoDup_cons in N as [N1 N2].
      destruct Hx as [->|Hx], Hy as [->|Hy]; auto; exfalso; apply N1, elem_of_list_In, in_map_iff; eauto. }
    assert (Eq : (4, OCall 3 (CGet k1 TI32), r4) = (4, o4, RErr KeyNotFound)); [|congruence].
    apply (G _ Z1); [apply in_or_app; auto|apply elem_of_list_In, R4|reflexivity]. }
  apply in_split in H1 as (A1 & A2 & ->). apply in_split in H4 as (B1 & B2 & ->).
  apply Forall_app in F as [FA FB]. apply Forall_app in FA as [FA1 FA2]. apply Forall_cons in FA2 as [FA2 FA3]. apply Forall_app in FB as [FB1 FB2].
  rewrite <- app_assoc, map_app in Hs. cbn [app] in Hs. rewrite map_cons, map_app, map_app, map_cons in Hs. rewrite !map_app in Hs. rewrite spec_run_app in Hs.
  destruct (spec_run canon spec0 (map lev A1)) as [[s1 rs1]|] eqn:S1; [|discriminate Hs].
  assert (D0 : all_d spec0) by (intros h d Y; cbn in Y; rewrite lookup_empty in Y; discriminate Y).
  destruct (race_run _ FA1 _ _ _ D0 S1) as [D1 _]. cbn [spec_run fst snd] in Hs.
  destruct (spec_step canon s1 (op_event 1 _)) as [[s2 r2]|] eqn:S2; [|discriminate Hs].
  destruct (race_step _ _ _ _ _ FA2 D1 S2) as (D2 & _ & K2 & _). specialize (K2 (ex_intro _ 0 eq_refl)).
  rewrite spec_run_app in Hs. destruct (spec_run canon s2 (map lev A2)) as [[s3 rs3]|] eqn:S3; [|discriminate Hs]. destruct (race_run _ FA3 _ _ _ D2 S3) as [D3 K3].
  rewrite spec_run_app in Hs. destruct (spec_run canon s3 (map lev B1)) as [[s4 rs4]|] eqn:S4; [|discriminate Hs]. destruct (race_run _ FB1 _ _ _ D3 S4) as [D4 K4].
  cbn [spec_run fst snd] in Hs. destruct (spec_step canon s4 (op_event 4 _)) as [[s5 r5]|] eqn:S5; [|discriminate Hs].
  assert (Op : race_op (OCall 3 (CGet k1 TI32))) by exact Logic.I.
  destruct (race_step _ _ _ _ _ Op D4 S5) as (_ & _ & _ & G5). specialize (G5 (K4 (K3 K2)) 3 eq_refl). subst r5.
  destruct (spec_run canon s5 (map lev B2)) as [[s6 rs6]|] eqn:S6; [|discriminate Hs]. injection Hs as _ Hr.
  assert (Ln : forall l sp sp' rs, spec_run canon sp (map lev l) = Some (sp', rs) -> length rs = length l).
  { clear. induction l as [|x l IH]; intros sp sp' rs; cbn [map spec_run]; [intros [= _ <-]; reflexivity|].
    destruct (spec_step _ _ _) as [[? ?]|]; [|discriminate]. destruct (spec_run _ _ _) as [[? ?]|] eqn:Y; [|discriminate]. intros [= _ <-]. cbn. f_equal. eapply IH, Y. }
  apply Ln in S1, S3, S4. apply app_inj_1 in Hr as [_ Hr]; [|rewrite map_length; exact S1]. injection Hr as _ Hr.
  rewrite map_app in Hr. apply app_inj_1 in Hr as [_ Hr]; [|rewrite map_length; exact S3]. rewrite ?map_app in Hr. apply app_inj_1 in Hr as [_ Hr]; [|rewrite map_length; exact S4]. discriminate Hr.
Qed.

End Race.
