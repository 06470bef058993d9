(** C60: a schedule of the whole concurrent model. *)
From Verif Require Import Bytes Utf8 Proto ProtoFacts Value Codec Store StoreFacts Encrypt World Spec Hyps Refine WorldInv WorldStep Main Frames Reach Examples P_Map P_Store P_Fail P_Alias Looper P_Loop Conc P_Conc P_Live Reg P_Reg P_Reg2 P_Reg3 Full P_Full P_Full2.
From Coq Require Import ZifyBool ZifyNat ZifyN.
Local Open Scope N_scope.

Inductive fchoice := FOpen (path key : bytes) | FClose (h : N) | FUse (h : N) (o : cop) | FGo (c : N) | FBg (i : N).

Section Sched.
Context (E : env).

Definition freg (k : rchoice) (f : full) : option (rlabel * full) :=
  match rdo E k (u_reg f) with Some (a, s) => Some (a, Full s (u_stores f)) | None => None end.

Definition fdo (k : fchoice) (f : full) : option (rlabel * full) :=
  match k with
  | FOpen p k => freg (P_Reg3.KOpen p k) f
  | FClose h => freg (KClose h) f
  | FUse h o =>
      if usableb (u_reg f) h then
        match w_handles (r_world (u_reg f)) !! h with
        | Some hd =>
            match u_stores f !! h_inst hd with
            | Some st => match cdo E (h_inst hd) (KCall h o) (inner f st) with
                         | Some (_, st') => Some (RInv (r_next (u_reg f)) (OCall h o), Full (begin (u_reg f) QWant (OCall h o)) (<[h_inst hd := st']> (u_stores f)))
                         | None => None end
            | None => None
            end
        | None => None
        end
      else None
  | FBg i =>
      match u_stores f !! i with
      | Some st => match cdo E i KBg (inner f st) with Some (HTau, st') => Some (RTau, outer f i st') | _ => None end
      | None => None
      end
  | FGo c =>
      match r_ops (u_reg f) !! c with
      | None => None
      | Some (QOpen, OOpen path key) =>
          match open_impl E (r_world (u_reg f)) path key with
          | (w, Some x) => Some (RTau, Full (set_op (set_w (u_reg f)
              (World (w_dirs w) (w_inodes w) (w_next_ino w) (<[w_next_inst w := x]> (w_insts w)) (w_next_inst w + 1)
                     (w_handles w) (w_reg w) (w_poison w) (w_rng w) (w_seed w))) c (QIns (w_next_inst w)) (OOpen path key))
              (<[w_next_inst w := conc0 w x]> (u_stores f)))
          | _ => None
          end
      | Some (QWant, OCall h o) =>
          match w_handles (r_world (u_reg f)) !! h with
          | Some hd =>
              match u_stores f !! h_inst hd with
              | Some st =>
                  match cdo E (h_inst hd) (KStep c) (inner f st) with
                  | Some (HTau, st') => Some (RTau, outer f (h_inst hd) st')
                  | Some (HRet c' r, st') => if N.eqb c' c then Some (RRet c r,
                      (Full (Reg (r_world (u_reg f)) (r_readers (u_reg f)) (r_writer (u_reg f)) (delete c (r_ops (u_reg f))) (r_next (u_reg f)) (r_dead (u_reg f)))
                            (<[h_inst hd := st']> (u_stores f)))) else None
                  | _ => None
                  end
              | None => None
              end
          | None => None
          end
      | Some (QArc r, OClose h) =>
          match w_handles (r_world (u_reg f)) !! h with
          | Some hd =>
              if Nat.eqb (strong (r_world (u_reg f)) (h_inst hd)) 1 then
                match u_stores f !! h_inst hd with
                | Some st =>
                    let go l := Some (RTau, Full (set_op (set_dead (u_reg f) ({[h_inst hd]} ∪ r_dead (u_reg f))) c (QJoin r) (OClose h))
                                                 (<[h_inst hd := set_loop st l]> (u_stores f))) in
                    match l_k (c_loop st) with
                    | Looper.KOpen => if bool_decide (l_posts (c_loop st) = ∅) then go (set_k (c_loop st) false KJoin) else None
                    | KClosed _ => go (c_loop st)
                    | KFailed => go (set_k (c_loop st) false KJoin)
                    | KJoin => None
                    end
                | None => None
                end
              else freg (KGo c) f
          | None => None
          end
      | Some (QJoin r, OClose h) =>
          match w_handles (r_world (u_reg f)) !! h with
          | Some hd =>
              match u_stores f !! h_inst hd with
              | Some st =>
                  let go b := Some (RTau, Full (set_op (set_dead (set_w (u_reg f)
                      (set_handles (set_insts (r_world (u_reg f)) (delete (h_inst hd) (w_insts (r_world (u_reg f))))) (delete h (w_handles (r_world (u_reg f))))))
                      (r_dead (u_reg f) ∖ {[h_inst hd]})) c (QDone (both r b)) (OClose h))
                    (delete (h_inst hd) (u_stores f))) in
                  match l_k (c_loop st), l_x (c_loop st) with
                  | KJoin, XDone => go (ROk None)
                  | KJoin, XDead => go RPanic
                  | KClosed _, _ => go (ROk None)
                  | _, _ => None
                  end
              | None => None
              end
          | None => None
          end
      | Some (QWant, _) | Some (QRead, _) | Some (QWantW, OOpen _ _) | Some (QWantW, OClose _) | Some (QWrite, OOpen _ _) | Some (QWrite, OClose _)
      | Some (QIns _, OOpen _ _) | Some (QRem _, OClose _) | Some (QRel _, OOpen _ _) | Some (QRel _, OClose _) | Some (QDone _, OOpen _ _) | Some (QDone _, OClose _) => freg (KGo c) f
      | _ => None
      end
  end.

Lemma ro_set (s s1 : reg) c p o q : r_ops s1 = r_ops s -> w_insts (r_world s1) = w_insts (r_world s) -> r_ops s !! c = Some (q, o) ->
  (forall r, p <> QJoin r) -> (forall h o', o <> OCall h o') -> registry_only s (set_op s1 c p o).
Proof.
  intros Ho Hi Hc Hp Hn. constructor; [exact Hi|..]; cbn; rewrite Ho; intros d.
  - intros r o'. rewrite lookup_insert_Some. intros [[_ [= -> ->]]|[_ X]]; [destruct (Hp r eq_refl)|exact X].
  - intros p' h o'. rewrite lookup_insert_Some. intros [[_ [= -> ->]]|[_ X]]; [destruct (Hn h o' eq_refl)|exact X].
Qed.

Lemma ro_begin s p o : (forall h o', o <> OCall h o') -> (forall r, p <> QJoin r) -> registry_only s (begin s p o).
Proof.
  intros Hn Hp. constructor; [reflexivity|..]; cbn; intros d.
  - intros r o'. rewrite lookup_insert_Some. intros [[_ [= -> ->]]|[_ X]]; [destruct (Hp r eq_refl)|exact X].
  - intros p' h o'. rewrite lookup_insert_Some. intros [[_ [= -> ->]]|[_ X]]; [destruct (Hn h o' eq_refl)|exact X].
Qed.

Lemma freg_ok k f a f' : (forall s, rdo E k (u_reg f) = Some (a, s) -> registry_only (u_reg f) s) -> freg k f = Some (a, f') -> fstep E f a f'.
Proof.
  unfold freg. intros H. destruct (rdo E k (u_reg f)) as [[a1 s]|] eqn:X; [|discriminate]. intros [= -> <-].
  apply f_registry; [eapply rdo_ok, X|apply H; reflexivity].
Qed.

Lemma fdo_ok k f a f' : fdo k f = Some (a, f') -> fstep E f a f'.
Proof.
  destruct k as [p k|h|h o|c|i]; cbn [fdo].
  - apply freg_ok. intros s. cbn. intros [= <- <-]. apply ro_begin; discriminate.
  - apply freg_ok. intros s. cbn. destruct (_ && _); [|discriminate]. intros [= <- <-]. apply ro_begin; discriminate.
  - destruct (usableb (u_reg f) h) eqn:U; [|discriminate]. destruct (w_handles _ !! h) as [hd|] eqn:Hh; [|discriminate].
    destruct (u_stores f !! h_inst hd) as [st|] eqn:Hst; [|discriminate]. intros [= <- <-]. eapply f_call; eauto; [apply usableb_ok, U|]. apply c_call.
  - destruct (r_ops (u_reg f) !! c) as [[p o]|] eqn:Hc; [|discriminate].
    destruct p as [| | | | |i|last|r|r|r|r]; destruct o as [pa ke|h|h o]; try discriminate;
    try (apply freg_ok; intros s; cbn; rewrite Hc; intros H; try discriminate H;
      repeat (match type of H with context [match ?z with _ => _ end] => destruct z eqn:? end; try discriminate H); injection H as <- <-;
      (eapply ro_set; [reflexivity|reflexivity|exact Hc|discriminate|discriminate])).
    + destruct (w_handles _ !! h) as [hd|] eqn:Hh; [|discriminate]. destruct (u_stores f !! h_inst hd) as [st|] eqn:Hst; [|discriminate].
      destruct (cdo E (h_inst hd) (KStep c) (inner f st)) as [[[|? ? ?|c' r] st']|] eqn:X; try discriminate.
      * intros [= <- <-]. eapply f_store; [exact Hst|eapply cdo_ok, X].
      * destruct (N.eqb_spec c' c) as [->|]; [|discriminate]. intros [= <- <-]. eapply f_return; eauto. eapply cdo_ok, X.
    + destruct (open_impl E _ pa ke) as [w [x|]] eqn:Ho; [|discriminate]. intros [= <- <-]. eapply f_build; eauto.
    + destruct (w_handles _ !! h) as [hd|] eqn:Hh; [|discriminate]. destruct (Nat.eqb _ 1) eqn:S.
      * destruct (u_stores f !! h_inst hd) as [st|] eqn:Hst; [|discriminate]. apply Nat.eqb_eq in S.
        destruct (l_k (c_loop st)) eqn:K; try discriminate; [case_bool_decide; [|discriminate]|..]; intros [= <- <-]; eapply f_arc_last; eauto.
        -- left. split; [|reflexivity]. apply k_drop; assumption.
        -- right. left. eauto.
        -- right. right. auto.
      * apply freg_ok. intros s. cbn. rewrite Hc, Hh, S. intros [= <- <-]. eapply ro_set; [reflexivity|reflexivity|exact Hc|discriminate|discriminate].
    + destruct (w_handles _ !! h) as [hd|] eqn:Hh; [|discriminate]. destruct (u_stores f !! h_inst hd) as [st|] eqn:Hst; [|discriminate].
      destruct (l_k (c_loop st)) eqn:K; try discriminate; [destruct (l_x (c_loop st)) eqn:Hx; try discriminate|]; intros [= <- <-]; eapply f_joined; eauto.
      * left. exists true. eexists. split; [apply k_join_ok; assumption|reflexivity].
      * left. exists false. eexists. split; [apply k_join_err; assumption|reflexivity].
      * right. eauto.
    + apply freg_ok. intros s. cbn. rewrite Hc. intros [= <- <-].
      constructor; [reflexivity|..]; cbn; intros d; intros *; rewrite lookup_delete_Some; intros [_ X]; exact X.
    + apply freg_ok. intros s. cbn. rewrite Hc. intros [= <- <-].
      constructor; [reflexivity|..]; cbn; intros d; intros *; rewrite lookup_delete_Some; intros [_ X]; exact X.
  - destruct (u_stores f !! i) as [st|] eqn:Hst; [|discriminate]. destruct (cdo E i KBg (inner f st)) as [[[] st']|] eqn:X; try discriminate.
    intros [= <- <-]. eapply f_store; [exact Hst|eapply cdo_ok, X].
Qed.

Fixpoint fsched (ks : list fchoice) (f : full) : option (list rlabel * full) :=
  match ks with
  | [] => Some ([], f)
  | k :: r => match fdo k f with
              | Some (a, f1) => match fsched r f1 with Some (ls, f2) => Some (a :: ls, f2) | None => None end
              | None => None
              end
  end.

Lemma fexec_app f ls f1 : fexec E f ls f1 -> forall ls2 f2, fexec E f1 ls2 f2 -> fexec E f (ls ++ ls2) f2.
Proof.
  intros X ls2 f2 Y. induction Y as [|ls2 f2 a f3 Y IH Z]; [rewrite app_nil_r; exact X|]. rewrite app_assoc. econstructor; eassumption.
Qed.

Lemma fsched_ok ks : forall f ls f', fsched ks f = Some (ls, f') -> fexec E f ls f'.
Proof.
  induction ks as [|k ks IH]; intros f ls f'; cbn [fsched]; [intros [= <- <-]; constructor|].
  destruct (fdo k f) as [[a f1]|] eqn:Ed; [|discriminate]. destruct (fsched ks f1) as [[ls1 f2]|] eqn:Es; [|discriminate].
  intros [= <- <-]. apply (fexec_app f [a] f1); [|apply IH, Es]. apply (fe_snoc E f [] f a f1); [constructor|eapply fdo_ok, Ed].
Qed.

End Sched.

(** ** An execution *)

Definition go (c : N) (n : nat) : list fchoice := repeat (FGo c) n.
Definition bg (i : N) (n : nat) : list fchoice := repeat (FBg i) n.

(** Two threads open one directory at once and a third opens another.  A put
    and a get on the first, a put on the second run at the same time, with the
    background threads; the second store is cleared while its put is still
    queued.  A handle of the first store is dropped while another is being put
    through, then the last one is dropped with that job pending, and the
    directory is opened again. *)
Definition ex_fsched : list fchoice :=
  [FOpen dir_d ex_key; FOpen dir_d ex_key; FGo 0; FGo 1; FGo 1; FGo 0] ++ go 0 6 ++ go 1 2 ++ [FOpen dir_e ex_key; FGo 1] ++ go 2 2 ++ go 1 1 ++ go 2 6 ++
  [FUse 0 (CPut k1 (VI32 5)); FUse 2 (CPut k2 hello); FUse 1 (CGet k1 TI32); FGo 3; FGo 4; FGo 3; FGo 4; FGo 3; FGo 3; FGo 3; FGo 4; FGo 3; FGo 3;
   FBg 0; FGo 3; FGo 5; FGo 3; FGo 5; FBg 0; FBg 0; FGo 5; FGo 5] ++ go 4 6 ++
  [FUse 2 CClear; FBg 0] ++ go 6 4 ++ bg 1 1 ++ [FGo 6] ++ bg 0 2 ++ go 6 3 ++ bg 1 12 ++ go 6 4 ++
  [FUse 1 (CPut k2 hello); FClose 0; FGo 7; FGo 8; FGo 8; FGo 7; FGo 7; FGo 8; FGo 8; FGo 7; FGo 8; FGo 7; FGo 8] ++ go 7 4 ++
  [FClose 1] ++ go 9 5 ++ bg 0 7 ++ go 9 2 ++
  [FOpen dir_d ex_key] ++ go 10 8 ++ [FUse 10 (CGet k2 TStr); FUse 2 (CGet k2 TStr)] ++ go 12 4 ++ go 11 4 ++
  [FClose 10; FClose 2] ++ go 13 4 ++ go 14 4 ++ [FGo 13; FGo 14; FBg 1; FBg 2; FGo 13; FGo 14; FGo 14; FGo 13].

Definition ex_returns : list (N * result) :=
  [(0, ROk None); (1, ROk None); (2, ROk None); (3, ROk None); (5, ROk (Some (VI32 5))); (4, ROk None); (6, ROk None); (8, ROk None);
   (7, ROk None); (9, ROk None); (10, ROk None); (12, RErr KeyNotFound); (11, ROk (Some hello)); (14, ROk None); (13, ROk None)].

Example C60_full_example : exists ls f,
  fexec (ex_env FPlain) full0 ls f /\ ordinary (ex_env FPlain) ex_keyof (begun ls) /\ apart (e_canon (ex_env FPlain)) ls /\
  returns ls = ex_returns /\ w_insts (r_world (u_reg f)) = ∅.
Proof.
  assert (T : match fsched (ex_env FPlain) ex_fsched full0 with
              | Some (ls, f) => ordinaryb (ex_env FPlain) ex_keyof (begun ls) = true /\ apartb (e_canon (ex_env FPlain)) ls = true /\
                returns ls = ex_returns /\ map_to_list (w_insts (r_world (u_reg f))) = []
              | None => False end) by (vm_compute; repeat split).
  destruct (fsched (ex_env FPlain) ex_fsched full0) as [[ls f]|] eqn:X; [|contradiction]. destruct T as (A & B & C & D).
  exists ls, f. split_and!; [eapply fsched_ok, X|apply ordinaryb_ok; [apply ex_env_ok; exact Logic.I|exact A]|apply apartb_ok, B|exact C|].
  apply map_to_list_empty_iff, D.
Qed.
