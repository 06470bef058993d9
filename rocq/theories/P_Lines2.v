(** C78: failures are in the log. *)
From Coq Require Import String ZArith ZifyBool ZifyNat ZifyN.
From Verif Require Import Bytes Utf8 Proto Value Codec Store Encrypt World Examples Logging Ffi P_Ffi P_Ffi2 Lines P_Lines.
Local Open Scope N_scope.
Local Notation "$ s" := (str s%string) (at level 9, s at level 0, only parsing).

(** ** The specification *)

(** The lines written at level Error. *)
Definition errors (l : list (level * line)) : list line :=
  flat_map (fun x => match x.1 with Error => [x.2] | _ => [] end) l.

(** The key a call is about. *)
Definition key_of (c : ccall) : option bytes :=
  match c with CPut _ k _ | CGet _ k _ | CDelete _ k => Some (cstr k) | _ => None end.

(** The calls that failed, with what they failed with. *)
Definition failures (cs : list (ccall * cret)) : list (bytes * err) :=
  flat_map (fun x => match key_of x.1, x.2 with Some k, RBuffer _ (RErr e) => [(k, e)] | _, _ => [] end) cs.

(** A line that tells which key and why. *)
Definition tells (F : fmt) (m : line) (x : bytes * err) : Prop := shows m x.1 /\ shows m (f_err F x.2).

(** The level stays at Error or above. *)
Definition loud (cs : list ccall) : Prop := forall z, In (CLevel z) cs -> (1 <= z)%Z.

(** ** Proofs *)

Lemma errors_app a b : errors (a ++ b) = errors a ++ errors b.
Proof. unfold errors. apply flat_map_app. Qed.

(** Error lines pass every level but Off. *)
Lemma errors_shown lv l : (1 <= lv)%Z -> errors (filter (fun x : level * line => (code x.1 <= lv)%Z) l) = errors l.
Proof.
  intros H. induction l as [|[l0 m] l IH]; [reflexivity|]. rewrite filter_cons. case_decide as D; cbn [errors flat_map] in *; [f_equal; exact IH|].
  destruct l0; cbn [fst code] in D; try lia; exact IH.
Qed.

Section C78.
Context (F : fmt) (pick : heap -> ptr) (text : err -> bytes) (E : env).

Lemma shows_mid a b c : shows (a ++ b ++ c) b.
Proof. exists a, c. reflexivity. Qed.
Lemma shows_pre a m b : shows m b -> shows (a ++ m) b.
Proof. intros (x & y & ->). exists (a ++ x), y. rewrite <- app_assoc. reflexivity. Qed.
Lemma shows_here b c : shows (b ++ c) b.
Proof. exists [], c. reflexivity. Qed.
Lemma shows_all b : shows b b.
Proof. exists [], []. rewrite app_nil_r. reflexivity. Qed.

Lemma tells_failed log key e : exists m, failed_line F log key e = (Error, m) /\ tells F m (key, e).
Proof.
  eexists. split; [reflexivity|]. unfold ffi, tagged. split; cbn [fst snd].
  - do 6 apply shows_pre. apply shows_here.
  - do 8 apply shows_pre. apply shows_all.
Qed.

Lemma no_errors_convert v h : errors (convert_lines F pick v h) = [].
Proof. destruct v; reflexivity. Qed.
Lemma no_errors_data g v h : errors (data_lines F pick g v h) = [].
Proof. destruct v; cbn [data_lines]; try reflexivity; destruct (alloc pick _ h); reflexivity. Qed.
Lemma no_errors_error e h : errors (error_lines F pick text e h) = [].
Proof.
  unfold error_lines. destruct (map_error pick text e h) as [[c h1]| |]; try reflexivity.
  rewrite errors_app. cbn [errors flat_map leak_line fst app]. rewrite app_nil_r.
  destruct c; try reflexivity. destruct reason; [reflexivity|]. destruct (h1 !! _); reflexivity.
Qed.
Lemma no_errors_buffer p h : errors (buffer_line F p h) = [].
Proof. unfold buffer_line. destruct (h !! p); reflexivity. Qed.

Lemma no_errors_free p h : errors (free_lines F p h) = [].
Proof.
  unfold free_lines. destruct (h !! p) as [c|]; [|reflexivity]. destruct c as [| | | |dat tk er| |]; try reflexivity.
  rewrite !errors_app. cbn [errors flat_map release_line fst app].
  assert (A : forall d tok, errors (free_data_lines F d tok h) = []).
  { intros d tok. unfold free_data_lines. destruct (d =? 0); [reflexivity|].
    destruct tok; try reflexivity; destruct (h !! d) as [c|]; try reflexivity; destruct c; try reflexivity;
      rewrite errors_app; cbn [errors flat_map release_line fst app]; destruct (_ =? 0); try reflexivity; destruct (h !! _); reflexivity. }
  fold (errors (free_data_lines F dat tk h)). rewrite A. cbn [app].
  destruct (_ =? 0); [reflexivity|]. destruct (h !! _) as [c|]; [|reflexivity]. destruct c; try reflexivity.
  destruct (_ =? 0); [reflexivity|]. destruct (h !! _); reflexivity.
Qed.

Lemma errors_finish log key ok g r h : ok.1 = Verbose ->
  match r with
  | RErr e => exists m, errors (finish_lines F pick text log key ok g r h) = [m] /\ tells F m (key, e)
  | _ => errors (finish_lines F pick text log key ok g r h) = []
  end.
Proof.
  intros Hok. assert (Hk : errors [ok] = []) by (destruct ok as [l m]; cbn in Hok; subst; reflexivity).
  assert (Hb : errors (match finish pick text g r h with Done (p, h1) => buffer_line F p h1 | _ => [] end) = []).
  { destruct (finish pick text g r h) as [[p h1]| |]; [apply no_errors_buffer|reflexivity..]. }
  destruct r as [[v|]|e|]; unfold finish_lines.
  - rewrite !errors_app, Hb, Hk, no_errors_convert, no_errors_data. reflexivity.
  - rewrite !errors_app, Hb, Hk. reflexivity.
  - destruct (tells_failed log key e) as (m & Hm & T). exists m. split; [|exact T].
    rewrite !errors_app, Hb, no_errors_error, Hm. reflexivity.
  - rewrite errors_app, Hb. reflexivity.
Qed.

(** A call that fails writes one line at level Error, with its key and the
    reason; a call that does not fail writes none. *)
Theorem C78_failures_are_logged s c s' p r : cstep pick text E s c = Done (s', RBuffer p r) -> (1 <= c_level s)%Z ->
  exists k, key_of c = Some k /\
  match r with
  | RErr e => exists m, errors (shown F pick text E s c) = [m] /\ tells F m (k, e)
  | _ => errors (shown F pick text E s c) = []
  end.
Proof.
  intros H Hl. unfold shown. rewrite errors_shown by exact Hl.
  assert (G : forall log key ok g e, ok.1 = Verbose -> with_buffer pick text E s g e = Done (s', RBuffer p r) ->
    match r with
    | RErr x => exists m, errors (answer_lines F pick text E s log key ok g e) = [m] /\ tells F m (key, x)
    | _ => errors (answer_lines F pick text E s log key ok g e) = [] end).
  { intros log key ok g e Hok W. unfold with_buffer in W. unfold answer_lines. destruct (step E (c_world s) e) as [[w r0]|]; [|discriminate W].
    destruct (finish pick text g r0 (c_heap s)) as [[q h]| |] eqn:Hf; cbn [obind] in W; try discriminate W. injection W as _ _ <-.
    apply errors_finish, Hok. }
  destruct c as [d|q k v|q k g|q k|q|q|q|z|i]; cbn [cstep key_of lines] in *; unfold arg in H.
  - destruct (utf8_valid _); [|discriminate H]. destruct (alloc pick MHandle (c_heap s)). destruct (step E _ _) as [[? []]|]; discriminate H.
  - exists (cstr k). split; [reflexivity|]. destruct (utf8_valid (cstr k)); [|discriminate H].
    destruct v; try discriminate H; try (eapply G; [reflexivity|exact H]).
    destruct (utf8_valid _); [|discriminate H]. eapply G; [reflexivity|exact H].
  - exists (cstr k). split; [reflexivity|]. destruct (utf8_valid (cstr k)); [|discriminate H]. eapply G; [reflexivity|exact H].
  - exists (cstr k). split; [reflexivity|]. destruct (utf8_valid (cstr k)); [|discriminate H]. eapply G; [reflexivity|exact H].
  - destruct (step E _ _) as [[? []]|]; discriminate H.
  - destruct (c_heap s !! q) as [[]|]; try discriminate H. destruct (step E _ _) as [[? []]|]; try discriminate H.
    destruct (dealloc _ _ _); discriminate H.
  - destruct (free_buffer q (c_heap s)); discriminate H.
  - destruct (of_code z); discriminate H.
  - destruct (step E _ _) as [[? ?]|]; discriminate H.
Qed.

(** The other calls write none. *)
Theorem C78_other_calls_log_no_error s c : key_of c = None -> errors (shown F pick text E s c) = [].
Proof.
  intros H. unfold shown. assert (G : errors (lines F pick text E s c) = []).
  { destruct c; try discriminate H; try reflexivity. apply no_errors_free. }
  revert G. generalize (lines F pick text E s c). intros l. induction l as [|[lv m] l IH]; [reflexivity|].
  change ((lv, m) :: l) with ([(lv, m)] ++ l). rewrite errors_app. intros G. apply app_eq_nil in G as [G1 G2].
  cbn [app]. rewrite filter_cons. case_decide; [|auto]. change (?a :: ?b) with ([a] ++ b). rewrite errors_app, G1. exact (IH G2).
Qed.

Lemma level_kept s c s' x : cstep pick text E s c = Done (s', x) -> (1 <= c_level s)%Z -> (forall z, c = CLevel z -> (1 <= z)%Z) -> (1 <= c_level s')%Z.
Proof.
  intros H Hl Hz. assert (W : forall g e, with_buffer pick text E s g e = Done (s', x) -> c_level s' = c_level s).
  { intros g e W. unfold with_buffer in W. destruct (step E (c_world s) e) as [[w r0]|]; [|discriminate W].
    destruct (finish pick text g r0 (c_heap s)) as [[q h]| |]; cbn [obind] in W; try discriminate W. injection W as <- _. reflexivity. }
  destruct c as [d|q k v|q k g|q k|q|q|q|z|i]; cbn [cstep] in *; unfold arg in H.
  - destruct (utf8_valid _); [|discriminate H]. destruct (alloc pick MHandle (c_heap s)). destruct (step E _ _) as [[? []]|]; try discriminate H. injection H as <- _. exact Hl.
  - destruct (utf8_valid (cstr k)); [|discriminate H].
    destruct v; try discriminate H; try (rewrite (W _ _ H); exact Hl).
    destruct (utf8_valid _); [|discriminate H]. rewrite (W _ _ H); exact Hl.
  - destruct (utf8_valid (cstr k)); [|discriminate H]. rewrite (W _ _ H); exact Hl.
  - destruct (utf8_valid (cstr k)); [|discriminate H]. rewrite (W _ _ H); exact Hl.
  - destruct (step E _ _) as [[? []]|]; try discriminate H. injection H as <- _. exact Hl.
  - destruct (c_heap s !! q) as [[]|]; try discriminate H. destruct (step E _ _) as [[? []]|]; try discriminate H.
    destruct (dealloc _ _ _); try discriminate H. injection H as <- _. exact Hl.
  - destruct (free_buffer q (c_heap s)); try discriminate H. injection H as <- _. exact Hl.
  - destruct (of_code z) as [l|] eqn:Hc; try discriminate H. injection H as <- _. cbn [c_level]. specialize (Hz z eq_refl).
    unfold of_code in Hc. repeat match type of Hc with context[(?a =? ?b)%Z] => destruct (Z.eqb_spec a b) end; cbn [code] in *; subst; try lia;
      try discriminate Hc; injection Hc as <-; cbn [code]; lia.
  - destruct (step E _ _) as [[? ?]|]; try discriminate H. injection H as <- _. exact Hl.
Qed.

(** Over a whole program: the error lines of the log are those of its failed
    calls, in order. *)
Theorem C78_the_log_of_failures cs : forall s s' xs, crun pick text E s cs = Done (s', xs) -> (1 <= c_level s)%Z -> loud cs ->
  Forall2 (tells F) (errors (log_of F pick text E s cs)) (failures (zip cs xs)).
Proof.
  induction cs as [|c cs IH]; intros s s' xs H Hl L; cbn [crun log_of] in *.
  - injection H as _ <-. constructor.
  - destruct (cstep pick text E s c) as [[s1 x]| |] eqn:Hc; cbn [obind] in H; try discriminate H.
    destruct (crun pick text E s1 cs) as [[s2 ys]| |] eqn:Hr; cbn [obind] in H; try discriminate H. injection H as <- <-.
    assert (Hl1 : (1 <= c_level s1)%Z) by (eapply level_kept; [exact Hc|exact Hl|intros z ->; apply L; left; reflexivity]).
    rewrite errors_app. cbn [zip zip_with failures flat_map]. apply Forall2_app; [|apply (IH s1 s2 ys Hr Hl1); intros z Hz; apply L; right; exact Hz].
    cbn [fst snd]. destruct (key_of c) as [k|] eqn:Hk.
    + assert (Hx : exists p r, x = RBuffer p r).
      { assert (W : forall g e, with_buffer pick text E s g e = Done (s1, x) -> exists p r, x = RBuffer p r).
        { intros g e W. unfold with_buffer in W. destruct (step E (c_world s) e) as [[w r0]|]; [|discriminate W].
          destruct (finish pick text g r0 (c_heap s)) as [[q h]| |]; cbn [obind] in W; try discriminate W. injection W as _ <-. eauto. }
        destruct c as [d|q k0 v|q k0 g|q k0|q|q|q|z|i]; try discriminate Hk; cbn [cstep] in Hc; unfold arg in Hc;
          (destruct (utf8_valid (cstr k0)); [|discriminate Hc]); try (eapply W, Hc).
        destruct v; try discriminate Hc; try (eapply W, Hc). destruct (utf8_valid _); [|discriminate Hc]. eapply W, Hc. }
      destruct Hx as (p & r & ->). destruct (C78_failures_are_logged _ _ _ _ _ Hc Hl) as (k' & Hk' & A). rewrite Hk in Hk'. injection Hk' as <-.
      destruct r; [rewrite A; constructor| |rewrite A; constructor]. destruct A as (m & -> & T). repeat constructor. exact (proj1 T). exact (proj2 T).
    + rewrite (C78_other_calls_log_no_error _ _ Hk). constructor.
Qed.

End C78.

(** The same on Android. *)
Theorem C78_kotlin F f key r :
  match r with
  | RErr e => exists m, errors (jni_lines F f key r) = [m] /\ tells F m (key, e)
  | _ => errors (jni_lines F f key r) = []
  end.
Proof.
  destruct r as [v|e|]; destruct f; try reflexivity; (eexists; split; [reflexivity|]; unfold tagged; split; cbn [fst snd]).
  - do 6 apply shows_pre. apply shows_here.
  - do 8 apply shows_pre. apply shows_all.
  - do 6 apply shows_pre. apply shows_here.
  - do 8 apply shows_pre. apply shows_all.
  - do 4 apply shows_pre. apply shows_here.
  - do 6 apply shows_pre. apply shows_all.
Qed.

(** A program with two failing calls, at level Error. *)
Definition ex_failing : list ccall :=
  [CLevel 1; CNew dir_d; CPut 1 k1 (VI32 5); CGet 1 k1 CBool; CGet 1 k2 CI32; CDelete 1 k1].
Lemma C78_the_log_of_failures_example : exists s xs, crun ex_pick ex_text (ex_env FPlain) cstate0 ex_failing = Done (s, xs) /\ loud ex_failing /\
  failures (zip ex_failing xs) = [(k1, TypeMissMatch); (k2, KeyNotFound)].
Proof.
  assert (T : match crun ex_pick ex_text (ex_env FPlain) cstate0 ex_failing with
    | Done (s, xs) => failures (zip ex_failing xs) = [(k1, TypeMissMatch); (k2, KeyNotFound)] | _ => False end) by (vm_compute; reflexivity).
  destruct (crun ex_pick ex_text (ex_env FPlain) cstate0 ex_failing) as [[s xs]| |]; try contradiction.
  exists s, xs. split; [reflexivity|]. split; [|exact T].
  intros z Hz. repeat (destruct Hz as [Hz|Hz]; [try discriminate Hz; injection Hz as <-; lia|]). destruct Hz.
Qed.
