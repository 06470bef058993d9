(** Concrete environments and traces, used next to the theorems to show that
    their hypotheses can be met by non-trivial cases. *)
From Verif Require Import Bytes Utf8 Proto ProtoFacts Value Codec Store StoreFacts Encrypt World Spec Hyps Refine.
From Coq Require String. Import (notations) String.
Local Open Scope N_scope.

(** 64-bit, pages of 64 bytes, a hash map that enumerates in the order of the
    finite map (backwards every other time). *)
Definition ex_plat : plat :=
  Plat 8 64 (2 ^ 40) (fun i m => let l := map snd (map_to_list m) in if N.even i then l else rev l).

Lemma ex_plat_ok : plat_ok ex_plat.
Proof.
  split.
  - reflexivity.
  - split; reflexivity || discriminate.
  - reflexivity.
  - intros i m. cbn. destruct (N.even i); [reflexivity|]. symmetry. apply Permutation_rev.
Qed.

(** The path "alias" names the directory "d" as well; everything else names
    itself.  Paths starting with "!" are not directories. *)
Definition ex_canon (p : bytes) : bytes := if decide (p = str "alias"%string) then str "d"%string else p.
Definition ex_dir_ok (p : bytes) : bool := match p with b :: _ => negb (b2n b =? 33) | [] => true end.
Definition ex_rng (i : N) : bytes := be 11 (i + 1).

Definition ex_env (F : feature) : env := Env ex_plat F ex_dir_ok ex_canon ex_rng.

Lemma ex_env_ok F : feature_ok F -> env_ok (ex_env F).
Proof.
  intros H. split; [apply ex_plat_ok|exact H|]. intros i. apply be_length.
Qed.

Definition ex_key : bytes := str "88C51C536176AD8A8EE4A06F62EE897E"%string.
Definition ex_keyof (d : bytes) : bytes := ex_key.

Definition dir_d : bytes := str "d"%string.
Definition dir_e : bytes := str "e"%string.
Definition k1 : bytes := str "k1"%string.
Definition k2 : bytes := str "key2"%string.
Definition hello : value := VStr (str "hello"%string).

(** Puts, overwrites, a delete, a compaction (the page fills up), a close and
    a reopen, a second directory and a clear. *)
Definition ex_trace : list event :=
  [ENew 0 dir_d ex_key; EPut 0 k1 (VI32 5); EIo 0; EGet 0 k1 TI32; EPut 0 k1 (VI32 7); EPut 0 k2 hello;
   EIo 0; EIo 0; EPut 0 k1 (VBool true); EPut 0 k2 (VI64 (-1)); ENew 1 dir_d ex_key; EGet 1 k2 TI64;
   ENew 2 dir_e ex_key; EPut 2 k1 (VF64 1); EDelete 1 k1; EDrop 0; EDrop 1; ENew 3 dir_d ex_key;
   EGet 3 k1 TBool; EGet 3 k2 TI64; EGet 3 k2 TStr; EClear 2; EGet 2 k1 TF64].

(** Checks for the decidable hypotheses. *)
Definition put_okb (E : env) (key : bytes) (v : value) : bool :=
  utf8_valid key && value_ok v &&
  match buffer_new key v with ROk m => record_size (e_feat E) m <=? page (e_plat E) | _ => false end.

Lemma put_okb_ok E key v : put_okb E key v = true -> put_ok E key v.
Proof.
  unfold put_okb, put_ok. rewrite !andb_true_iff. intros [[A B] C]. split_and!; auto.
  destruct (buffer_new key v) as [m| |]; try discriminate. exists m. split; [reflexivity|]. apply N.leb_le, C.
Qed.

Definition call_okb (E : env) (keyof : bytes -> bytes) (e : event) : bool :=
  match e with
  | ENew h path key =>
      e_dir_ok E path && bool_decide (key = keyof (e_canon E path)) &&
      match feature_key (e_feat E) key with Some _ => true | None => false end
  | EPut h key v => put_okb E key v
  | EGet h key t => match type_token t with ROk _ => true | _ => false end
  | EDelete _ _ | EClear _ | EDrop _ | EIo _ => true
  | _ => false
  end.

Lemma call_okb_ok E keyof e : call_okb E keyof e = true -> call_ok E keyof e.
Proof.
  destruct e; cbn; try discriminate; auto.
  - rewrite !andb_true_iff, bool_decide_eq_true. intros [[A B] C]. split_and!; auto. destruct (feature_key _ _); congruence.
  - apply put_okb_ok.
  - unfold get_ok. destruct (type_token t); try discriminate. eauto.
Qed.

Lemma calls_okb_ok E keyof es : forallb (call_okb E keyof) es = true -> Forall (call_ok E keyof) es.
Proof.
  intros H. apply List.Forall_forall. intros e He. apply call_okb_ok. rewrite forallb_forall in H. apply H, He.
Qed.

Definition one_spellingb (E : env) (es : list event) : bool :=
  forallb (fun p => forallb (fun p' => bool_decide (e_canon E p = e_canon E p' -> p = p')) (paths es)) (paths es).

Lemma one_spellingb_ok E es : one_spellingb E es = true -> one_spelling E es.
Proof.
  intros H p p' Hp Hp'. unfold one_spellingb in H. rewrite forallb_forall in H. specialize (H p Hp).
  rewrite forallb_forall in H. specialize (H p' Hp'). apply bool_decide_eq_true in H. exact H.
Qed.

Definition roomb (E : env) (n : N) : bool :=
  (page (e_plat E) * (1 + n * (1 + page (e_plat E))) <=? maxfile (e_plat E)) &&
  match e_feat E with FPlain => true | FEncrypted _ => n <? 2 ^ 32 - 1 end.

Lemma roomb_ok E n : roomb E n = true -> room E n.
Proof.
  unfold roomb, room. rewrite andb_true_iff, N.leb_le. intros [A B]. split; [exact A|].
  destruct (e_feat E); [exact Logic.I|]. apply N.ltb_lt, B.
Qed.

Definition ordinaryb (E : env) (keyof : bytes -> bytes) (es : list event) : bool :=
  forallb (call_okb E keyof) es && one_spellingb E es && roomb E (writes es).

Lemma ordinaryb_ok E keyof es : env_ok E -> ordinaryb E keyof es = true -> ordinary E keyof es.
Proof.
  intros HE. unfold ordinaryb. rewrite !andb_true_iff. intros [[A B] C].
  split; [exact HE|apply calls_okb_ok, A|apply one_spellingb_ok, B|apply roomb_ok, C].
Qed.

(** The results of a run. *)
Definition results (E : env) (es : list event) : option (list result) := option_map snd (run E world0 es).

Lemma ex_ordinary_plain : ordinary (ex_env FPlain) ex_keyof ex_trace.
Proof. apply ordinaryb_ok; [apply ex_env_ok; exact Logic.I|vm_compute; reflexivity]. Qed.

Lemma ex_ordinary_enc : ordinary (ex_env (FEncrypted toy_aead)) ex_keyof ex_trace.
Proof. apply ordinaryb_ok; [apply ex_env_ok, toy_aead_correct|vm_compute; reflexivity]. Qed.

Example ex_results_plain :
  results (ex_env FPlain) ex_trace = Some
   [ROk None; ROk None; ROk None; ROk (Some (VI32 5)); ROk None; ROk None; ROk None; ROk None; ROk None; ROk None;
    ROk None; ROk (Some (VI64 (-1))); ROk None; ROk None; ROk None; ROk None; ROk None; ROk None;
    RErr KeyNotFound; ROk (Some (VI64 (-1))); RErr TypeMissMatch; ROk None; RErr KeyNotFound].
Proof. vm_compute. reflexivity. Qed.

Example ex_results_enc : results (ex_env (FEncrypted toy_aead)) ex_trace = results (ex_env FPlain) ex_trace.
Proof. vm_compute. reflexivity. Qed.
