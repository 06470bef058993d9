(** C42, C54, C55: the Swift and Kotlin wrappers. *)
From Verif Require Import Bytes Utf8 Proto ProtoFacts Value Codec Store StoreFacts Encrypt World Spec Hyps Refine WorldInv WorldStep Main Frames Reach Examples P_Map P_Store P_Types P_Fail Logging Ffi P_Ffi P_Ffi2 Bindings.
From Coq Require Import ZArith ZifyBool ZifyNat ZifyN.
Local Open Scope N_scope.

(** ** Text *)

Lemma utf8_decode_enc1 c r : is_scalar c = true -> utf8_decode (utf8_enc1 c ++ r) = c :: utf8_decode r.
Proof.
  intros Hs. unfold is_scalar in Hs. assert (L : c <= 0x10FFFF) by lia. clear Hs. unfold utf8_enc1.
  assert (M : forall x, x mod 64 < 64) by (intros x; apply N.mod_lt; lia).
  destruct (N.ltb_spec c 0x80).
  { cbn [app utf8_decode]. rewrite b2n_n2b, N.mod_small by lia. destruct (N.ltb_spec c 0x80); [reflexivity|lia]. }
  pose proof (N.div_mod' c 64) as D1. pose proof (M c) as M1.
  destruct (N.ltb_spec c 0x800).
  { cbn [app utf8_decode]. assert (c / 64 < 32) by (apply N.div_lt_upper_bound; lia).
    rewrite !b2n_n2b, !N.mod_small by lia. destruct (N.ltb_spec (0xC0 + c / 64) 0x80); [lia|]. destruct (N.ltb_spec (0xC0 + c / 64) 0xE0); [|lia].
    f_equal. lia. }
  pose proof (N.div_mod' (c / 64) 64) as D2. pose proof (M (c / 64)) as M2. rewrite N.div_div in D2 by lia. change (64 * 64) with 4096 in D2.
  destruct (N.ltb_spec c 0x10000).
  { cbn [app utf8_decode]. assert (c / 4096 < 16) by (apply N.div_lt_upper_bound; lia).
    rewrite !b2n_n2b, !N.mod_small by lia. destruct (N.ltb_spec (0xE0 + c / 4096) 0x80); [lia|]. destruct (N.ltb_spec (0xE0 + c / 4096) 0xE0); [lia|].
    destruct (N.ltb_spec (0xE0 + c / 4096) 0xF0); [|lia]. f_equal. lia. }
  pose proof (N.div_mod' (c / 4096) 64) as D3. pose proof (M (c / 4096)) as M3. rewrite N.div_div in D3 by lia. change (4096 * 64) with 262144 in D3.
  cbn [app utf8_decode]. assert (c / 262144 < 5) by (apply N.div_lt_upper_bound; lia).
  rewrite !b2n_n2b. repeat (rewrite N.mod_small by lia). 
  destruct (N.ltb_spec (0xF0 + c / 262144) 0x80); [lia|]. destruct (N.ltb_spec (0xF0 + c / 262144) 0xE0); [lia|].
  destruct (N.ltb_spec (0xF0 + c / 262144) 0xF0); [lia|]. f_equal. lia.
Qed.

Lemma utf8_decode_encode cs : forallb is_scalar cs = true -> utf8_decode (utf8_encode cs) = cs.
Proof.
  induction cs as [|c cs IH]; [reflexivity|]. cbn [forallb]. intros H. apply andb_true_iff in H as [H1 H2].
  unfold utf8_encode. cbn [map concat]. rewrite utf8_decode_enc1 by exact H1. f_equal. apply IH, H2.
Qed.

Lemma utf16_enc_wf cs : forallb is_scalar cs = true -> well_formed (utf16_encode cs).
Proof.
  induction cs as [|c cs IH]; [constructor|]. cbn [forallb]. intros H. apply andb_true_iff in H as [H1 H2]. unfold utf16_encode. cbn [flat_map].
  unfold is_scalar in H1. unfold utf16_enc1 at 1. destruct (N.ltb_spec c 0x10000); cbn [app].
  - apply wf_plain; [lia|lia|apply IH, H2].
  - assert ((c - 0x10000) / 1024 < 1024) by (apply N.div_lt_upper_bound; lia). pose proof (N.mod_lt (c - 0x10000) 1024 ltac:(lia)).
    apply wf_pair; [lia|lia|apply IH, H2].
Qed.

Lemma utf16_decode_wf u : well_formed u -> exists cs, utf16_decode u = Some cs /\ forallb is_scalar cs = true /\ utf16_encode cs = u.
Proof.
  induction 1 as [|x u Hx Hn _ (cs & A & B & C)|x y u Hx Hy _ (cs & A & B & C)].
  - exists []. auto.
  - exists (x :: cs). cbn [utf16_decode]. unfold high, low.
    replace ((0xD800 <=? x) && (x <=? 0xDBFF)) with false by lia. replace ((0xDC00 <=? x) && (x <=? 0xDFFF)) with false by lia. rewrite A. cbn [option_map].
    split; [reflexivity|]. cbn [forallb]. rewrite B. split; [unfold is_scalar; lia|]. unfold utf16_encode. cbn [flat_map]. unfold utf16_enc1 at 1.
    destruct (N.ltb_spec x 0x10000); [|lia]. cbn [app]. f_equal. exact C.
  - exists (0x10000 + (x - 0xD800) * 1024 + (y - 0xDC00) :: cs). cbn [utf16_decode]. unfold high, low.
    replace ((0xD800 <=? x) && (x <=? 0xDBFF)) with true by lia. replace ((0xDC00 <=? y) && (y <=? 0xDFFF)) with true by lia. rewrite A. cbn [option_map].
    split; [reflexivity|]. cbn [forallb]. rewrite B. split; [unfold is_scalar; lia|]. unfold utf16_encode. cbn [flat_map]. unfold utf16_enc1 at 1.
    destruct (N.ltb_spec (0x10000 + (x - 0xD800) * 1024 + (y - 0xDC00)) 0x10000); [lia|]. cbn [app].
    replace (0x10000 + (x - 0xD800) * 1024 + (y - 0xDC00) - 0x10000) with ((x - 0xD800) * 1024 + (y - 0xDC00)) by lia.
    rewrite N.div_add_l by lia. rewrite N.add_comm with (m := y - 0xDC00), N.mod_add by lia. rewrite (N.div_small (y - 0xDC00)), (N.mod_small (y - 0xDC00)) by lia.
    f_equal; [lia|]. f_equal; [lia|]. exact C.
Qed.

Lemma utf16_decode_encode cs : forallb is_scalar cs = true -> utf16_decode (utf16_encode cs) = Some cs.
Proof.
  induction cs as [|c cs IH]; [reflexivity|]. cbn [forallb]. intros H. apply andb_true_iff in H as [H1 H2]. unfold is_scalar in H1.
  change (utf16_encode (c :: cs)) with (utf16_enc1 c ++ utf16_encode cs). unfold utf16_enc1. destruct (N.ltb_spec c 0x10000); cbn [app utf16_decode]; unfold high, low.
  - replace ((0xD800 <=? c) && (c <=? 0xDBFF)) with false by lia. replace ((0xDC00 <=? c) && (c <=? 0xDFFF)) with false by lia. rewrite IH by exact H2. reflexivity.
  - assert ((c - 0x10000) / 1024 < 1024) by (apply N.div_lt_upper_bound; lia). pose proof (N.mod_lt (c - 0x10000) 1024 ltac:(lia)).
    set (a := 0xD800 + (c - 0x10000) / 1024). set (b := 0xDC00 + (c - 0x10000) mod 1024).
    replace ((0xD800 <=? a) && (a <=? 0xDBFF)) with true by lia. replace ((0xDC00 <=? b) && (b <=? 0xDFFF)) with true by lia. rewrite IH by exact H2. cbn [option_map].
    do 2 f_equal. unfold a, b. pose proof (N.div_mod' (c - 0x10000) 1024). lia.
Qed.

Section Kotlin.
Context (lossy : jstring -> bytes).

Lemma new_string_wf s : utf8_valid s = true -> well_formed (new_string s).
Proof.
  intros H. apply utf8_valid_decode in H as (cs & Hc & <-). unfold new_string. rewrite utf8_decode_encode by exact Hc. apply utf16_enc_wf, Hc.
Qed.

Lemma env_str_wf u : well_formed u -> utf8_valid (env_str lossy u) = true /\ new_string (env_str lossy u) = u.
Proof.
  intros H. destruct (utf16_decode_wf u H) as (cs & A & B & C). unfold env_str, new_string. rewrite A.
  split; [apply utf8_valid_encode, B|]. rewrite utf8_decode_encode by exact B. exact C.
Qed.

(** ** C55: Kotlin *)

(** A well-formed string crosses the border and back unchanged, and different
    ones stay different. *)
Theorem C55_kotlin_text_partial u u' : well_formed u -> well_formed u' ->
  utf8_valid (env_str lossy u) = true /\ new_string (env_str lossy u) = u /\ (env_str lossy u = env_str lossy u' -> u = u').
Proof.
  intros H H'. destruct (env_str_wf u H) as [A B]. destruct (env_str_wf u' H') as [_ B']. split_and!; auto. intros Q. rewrite <- B, <- B', Q. reflexivity.
Qed.
End Kotlin.

(** The property as wished for, for what the library makes of odd strings. *)
Definition kotlin_text_survives (lossy : jstring -> bytes) : Prop :=
  forall u, units u -> new_string (env_str lossy u) = u.

(** No choice of [lossy] could save it: a string with an unpaired surrogate
    does not come back. *)
Theorem C55_kotlin_text_refuted lossy : (forall u, utf8_valid (lossy u) = true) -> ~ kotlin_text_survives lossy.
Proof.
  intros L H. specialize (H [0xD800]). assert (U : units [0xD800]) by (repeat constructor). specialize (H U).
  assert (W : well_formed [0xD800]) by (rewrite <- H; apply new_string_wf; cbn; apply L).
  inversion W; subst; lia.
Qed.

(** ** C42: Kotlin *)

Lemma signed_range w z lo hi : (2 ^ (8 * Z.of_nat w - 1))%Z = hi -> lo = (- hi)%Z -> (lo <= z < hi)%Z -> in_signed w z = true.
Proof. intros H -> R. unfold in_signed. rewrite H. lia. Qed.

(** Every Kotlin value comes back as it was, bytes and booleans included. *)
Theorem C42_kotlin_values lossy k : kvalue_ok k -> text_ok k -> from_native (to_native lossy k) = Some k.
Proof.
  intros Hk Ht. destruct k; cbn in *; try reflexivity.
  - rewrite (proj2 (env_str_wf lossy u Ht)). reflexivity.
  - destruct b; reflexivity.
  - f_equal. f_equal. rewrite map_map. induction Hk as [|z l Hz _ IH]; [reflexivity|]. cbn [map]. rewrite IH. f_equal.
    rewrite b2n_n2b, N.mod_small by apply (z2u_lt 1). apply u2z_z2u; [lia|]. eapply (signed_range 1 z (-128) 128); [reflexivity|reflexivity|lia].
Qed.

(** ... and is a value of the type its getter asks for, which the store takes. *)
Theorem C42_kotlin_types lossy k : type_of (to_native lossy k) = jni_type (kty_of k).
Proof. destruct k; reflexivity. Qed.

Lemma kotlin_value_ok lossy k : kvalue_ok k -> text_ok k -> value_ok (to_native lossy k) = true.
Proof.
  assert (F : forall {A} (P : A -> Prop) (f : A -> bool) l, (forall a, P a -> f a = true) -> Forall P l -> forallb f l = true).
  { intros A P f l Hf. induction 1; [reflexivity|]. cbn. rewrite Hf by assumption. exact IHForall. }
  intros Hk Ht. destruct k; cbn in *; try reflexivity.
  - apply env_str_wf, Ht.
  - eapply (signed_range 4); [reflexivity|reflexivity|exact Hk].
  - eapply (signed_range 8); [reflexivity|reflexivity|exact Hk].
  - apply N.ltb_lt, Hk.
  - apply N.ltb_lt, Hk.
  - eapply F; [|exact Hk]. intros z Hz. eapply (signed_range 4); [reflexivity|reflexivity|exact Hz].
  - eapply F; [|exact Hk]. intros z Hz. eapply (signed_range 8); [reflexivity|reflexivity|exact Hz].
  - eapply F; [|exact Hk]. intros z Hz. apply N.ltb_lt, Hz.
  - eapply F; [|exact Hk]. intros z Hz. apply N.ltb_lt, Hz.
Qed.

(** The getters with a default: the stored value if there is one of the type,
    the default otherwise, in every ordinary history. *)
Theorem C42_kotlin_getters lossy E keyof es w rs sp rs' h d key t default :
  ordinary E keyof es -> run E world0 es = Some (w, rs) -> spec_run (e_canon E) spec0 es = Some (sp, rs') ->
  sp_handles sp !! h = Some d ->
  kstep lossy E w (KGetOr h key t default) = Some (w, KReturn
    (match contents sp d !! env_str lossy key with
     | Some v => if decide (type_of v = jni_type t) then from_native v else Some default
     | None => Some default
     end)).
Proof.
  intros HO Hr Hsp Hh. destruct (reach E keyof es HO w rs Hr) as (sp1 & Hs1 & W). rewrite Hsp in Hs1. injection Hs1 as <- ->.
  set (e := EGet h (env_str lossy key) (jni_type t)).
  assert (HO2 : ordinary E keyof (es ++ [e])).
  { destruct HO as [A B C D]. split; [exact A| | |].
    - apply Forall_app. split; [exact B|]. apply Forall_cons. split; [|constructor]. cbn. unfold get_ok. destruct t; cbn; eauto.
    - intros p p' Hp Hp'. rewrite paths_app in Hp, Hp'. cbn in Hp, Hp'. rewrite app_nil_r in Hp, Hp'. apply C; assumption.
    - rewrite writes_app. cbn. rewrite N.add_0_r. exact D. }
  assert (Hs2 : spec_run (e_canon E) spec0 (es ++ [e]) = Some (sp, rs ++ [spec_get (contents sp d) (env_str lossy key) (jni_type t)])).
  { rewrite spec_run_app, Hsp. cbn [spec_run spec_step]. unfold e. cbn [spec_step]. rewrite Hh. reflexivity. }
  pose proof (answers_ok E keyof _ HO2) as AN. rewrite Hs2 in AN. cbn [option_map snd] in AN. rewrite run_app, Hr in AN. cbn [run] in AN.
  destruct (step E w e) as [[w' r]|] eqn:Hs; [|discriminate AN]. cbn in AN.
  assert (AR : rs ++ [r] = rs ++ [spec_get (contents sp d) (env_str lossy key) (jni_type t)]) by congruence.
  apply app_inj_tail in AR as [_ AR].
  assert (Ew : w' = w).
  { unfold e in Hs. cbn [step] in Hs. apply with_handle_Some in Hs as (hd & Hd & _ & Hs). unfold on_inst in Hs.
    destruct (w_insts w !! h_inst hd) as [x|] eqn:Hx; [|congruence]. injection Hs as <- _. apply set_inst_same, Hx. }
  cbn [kstep]. fold e. rewrite Hs, Ew, AR. clear. unfold spec_get.
  destruct (contents sp d !! env_str lossy key) as [v|]; cbn [jni_get]; [|reflexivity].
  destruct (decide (type_of v = jni_type t)) as [Hv|Hv]; cbn [jni_get]; [|reflexivity].
  destruct (from_native v) eqn:F; [reflexivity|]. exfalso. destruct v; try discriminate F. destruct t; discriminate Hv.
Qed.

(** In particular: put and get through Kotlin. *)
Theorem C42_kotlin_put_get lossy E keyof es h key k w rs w1 o1 :
  kvalue_ok k -> text_ok k ->
  ordinary E keyof (es ++ [EPut h (env_str lossy key) (to_native lossy k)]) ->
  run E world0 es = Some (w, rs) -> kstep lossy E w (KPut h key k) = Some (w1, o1) ->
  o1 = KReturn None /\ forall d, kstep lossy E w1 (KGetOr h key (kty_of k) d) = Some (w1, KReturn (Some k)).
Proof.
  intros Hk Ht HO Hr Hs. cbn [kstep] in Hs. destruct (step E w (EPut h (env_str lossy key) (to_native lossy k))) as [[w2 r]|] eqn:Hst; [|discriminate].
  injection Hs as <- <-.
  assert (Hr2 : run E world0 (es ++ [EPut h (env_str lossy key) (to_native lossy k)]) = Some (w2, rs ++ [r])) by (rewrite run_app, Hr; cbn [run]; rewrite Hst; reflexivity).
  destruct (reach E keyof _ HO w2 _ Hr2) as (sp2 & Hsp & _). assert (Hsp2 := Hsp).
  rewrite spec_run_app in Hsp. destruct (spec_run (e_canon E) spec0 es) as [[sp rs1]|] eqn:Q1; [|discriminate].
  cbn [spec_run spec_step] in Hsp. destruct (sp_handles sp !! h) as [d|] eqn:Hd; [|discriminate]. injection Hsp as <- Hrs.
  assert (Hrr : rs1 = rs /\ ROk None = r) by (apply app_inj_tail, Hrs). destruct Hrr as [-> <-].
  split; [reflexivity|]. intros d0. rewrite (C42_kotlin_getters lossy E keyof _ w2 _ _ _ h d key (kty_of k) d0 HO Hr2 Hsp2); [|exact Hd].
  assert (CC : forall m, contents (set_contents sp d m) d = m) by (intros m; unfold contents, set_contents; cbn [sp_dirs]; rewrite lookup_insert; reflexivity).
  rewrite CC. unfold smap in *. rewrite lookup_insert.
  rewrite decide_True by apply C42_kotlin_types. rewrite C42_kotlin_values by assumption. reflexivity.
Qed.

(** ** C54 *)

(** The exception each call declares (MMKV.kt:54-...: [@Throws]). *)
Definition declared (c : kcall) : option exn :=
  match c with
  | KPut _ _ _ | KDelete _ _ => Some NativeException
  | KGet _ _ _ => Some KeyNotFoundException
  | KGetOr _ _ _ _ | KClear _ => None
  end.

(** The property as wished for. *)
Definition exceptions_are_declared (lossy : jstring -> bytes) (E : env) : Prop :=
  forall es w rs c w' x, run E world0 es = Some (w, rs) -> kstep lossy E w c = Some (w', KThrow x) -> declared c = Some x.

(** It is false of the code: a failing delete throws the exception of the
    getters (jni/mod.rs:402). *)
Theorem C54_declared_exceptions_refuted : env_ok (ex_env FPlain) /\ ~ exceptions_are_declared (fun _ => []) (ex_env FPlain).
Proof.
  split; [apply ex_env_ok; exact Logic.I|]. intros H.
  assert (T : match run (ex_env FPlain) world0 dead_trace with
              | Some (w, _) => match kstep (fun _ => []) (ex_env FPlain) w (KDelete 0 [107; 49]) with Some (_, KThrow KeyNotFoundException) => true | _ => false end
              | None => false end = true) by (vm_compute; reflexivity).
  destruct (run (ex_env FPlain) world0 dead_trace) as [[w rs]|] eqn:Hr; [|discriminate T].
  destruct (kstep (fun _ => []) (ex_env FPlain) w (KDelete 0 [107; 49])) as [[w' [|[]|]]|] eqn:Hs; try discriminate T.
  specialize (H dead_trace w rs _ w' _ Hr Hs). discriminate H.
Qed.

(** Every other call throws what it declares, in every world ... *)
Theorem C54_declared_exceptions_partial lossy E w c w' x :
  kstep lossy E w c = Some (w', KThrow x) -> (forall h key, c <> KDelete h key) -> declared c = Some x.
Proof.
  destruct c as [h key k|h key t|h key t d|h key|h]; cbn [kstep declared]; intros H N.
  - destruct (step E w _) as [[w1 [o|e|]]|]; try discriminate. injection H as _ <-. reflexivity.
  - destruct (step E w _) as [[w1 [[v|]|e|]]|]; cbn in H; try discriminate; [destruct (from_native v); discriminate|]. injection H as _ <-. reflexivity.
  - destruct (step E w _) as [[w1 [[v|]|e|]]|]; cbn in H; try discriminate. destruct (from_native v); discriminate.
  - destruct (N h key eq_refl).
  - destruct (step E w _) as [[w1 [o|e|]]|]; discriminate.
Qed.

(** ... and a delete throws only when the store fails, never in an ordinary
    history. *)
Theorem C54_ordinary_delete_partial lossy E keyof es w rs h key w' o :
  ordinary E keyof (es ++ [EDelete h (env_str lossy key)]) -> run E world0 es = Some (w, rs) ->
  kstep lossy E w (KDelete h key) = Some (w', o) -> o = KReturn None.
Proof.
  intros HO Hr H. cbn [kstep] in H. destruct (step E w (EDelete h (env_str lossy key))) as [[w1 r]|] eqn:Hs; [|discriminate]. injection H as <- <-.
  assert (Hr2 : run E world0 (es ++ [EDelete h (env_str lossy key)]) = Some (w1, rs ++ [r])) by (rewrite run_app, Hr; cbn [run]; rewrite Hs; reflexivity).
  destruct (reach E keyof _ HO w1 _ Hr2) as (sp2 & Hsp & _). rewrite spec_run_app in Hsp.
  destruct (spec_run (e_canon E) spec0 es) as [[sp rs1]|]; [|discriminate]. cbn [spec_run spec_step] in Hsp.
  destruct (sp_handles sp !! h); [|discriminate]. injection Hsp as _ Hrs. apply app_inj_tail in Hrs as [_ <-]. reflexivity.
Qed.

(** ** Levels *)

(** The levels of the three languages have the same numbers; a line of a level
    reaches the Swift method of that level. *)
Theorem C42_levels_agree :
  (forall l, jni_set_level (ordinal l) = inl (match l with KlClose => Off | KlError => Error | KlWarn => Warn | KlInfo => Info | KlDebug => Debug | KlVerbose => Verbose end)) /\
  (forall l, of_code (swift_code l) = Some (match l with SwOff => Off | SwError => Error | SwWarn => Warn | SwInfo => Info | SwDebug => Debug | SwTrace => Verbose end)) /\
  (forall l, l <> Off -> swift_method (native_level l) = match l with Error => SwError | Warn => SwWarn | Info => SwInfo | Debug => SwDebug | _ => SwTrace end) /\
  (forall z, ~ (0 <= z <= 5)%Z -> jni_set_level z = inr NativeException).
Proof.
  split_and!; try (intros []; reflexivity).
  intros z Hz. unfold jni_set_level, of_code. repeat match goal with |- context[(z =? ?b)%Z] => destruct (Z.eqb_spec z b); [cbn [code] in *; lia|] end. reflexivity.
Qed.

(** ** C63: log lines leave nothing behind *)

(** What the loggers of the two platforms should be given for a line. *)
Definition java_line (l : level * bytes) : kotlin_level * jstring :=
  (match l.1 with Error => KlError | Warn => KlWarn | Info => KlInfo | Debug => KlDebug | _ => KlVerbose end, new_string l.2).

Definition a_line (l : level * bytes) : Prop := l.1 <> Off /\ utf8_valid l.2 = true.

(** On the C side: after any number of lines the heap is what it was, and the
    logger could read every one of them. *)
Theorem C63_c_lines_leave_nothing pick ls h : allocator_ok pick ->
  c_lines pick ls h = Done (h, map (fun l => (code l.1, Some l.2)) ls).
Proof.
  intros Hp. induction ls as [|[l s] ls IH]; [reflexivity|]. cbn [c_lines map fst snd].
  destruct (C35_log_lines pick Hp s h) as (p & h1 & -> & R & _). cbn [obind]. rewrite IH. cbn [obind]. rewrite R. reflexivity.
Qed.

(** On Android: the lines are given to the Java logger as they should, and the
    table has two more entries for each. *)
Lemma java_lines_spec cap ls t : Forall a_line ls ->
  java_lines cap ls t =
    if N.of_nat (length t) + 2 * N.of_nat (length ls) <=? N.max cap (N.of_nat (length t))
    then Some (t ++ flat_map (fun l => [RfClass; RfLine (new_string l.2)]) ls, map java_line ls) else None.
Proof.
  intros Hl. revert t. induction Hl as [|[l s] ls [Hl _] _ IH]; intros t.
  - cbn. destruct (N.leb_spec (N.of_nat (length t) + 0) (N.max cap (N.of_nat (length t)))); [|lia]. rewrite app_nil_r. reflexivity.
  - cbn [java_lines]. assert (M : java_method l = Some (java_line (l, s)).1) by (destruct l; cbn in *; congruence). rewrite M.
    unfold call_java, new_local. cbn [length]. destruct (N.ltb_spec (N.of_nat (length t)) cap).
    2:{ match goal with |- context[N.leb ?a ?b] => destruct (N.leb_spec a b); [lia|reflexivity] end. }
    rewrite app_length. cbn [length]. destruct (N.ltb_spec (N.of_nat (length t + 1)) cap).
    2:{ match goal with |- context[N.leb ?a ?b] => destruct (N.leb_spec a b); [lia|reflexivity] end. }
    rewrite IH. rewrite !app_length. cbn [length].
    repeat match goal with |- context[N.leb ?a ?b] => destruct (N.leb_spec a b) end; try lia; [|reflexivity].
    cbn [option_map flat_map map snd]. rewrite <- !app_assoc. reflexivity.
Qed.

(** The property as wished for: some table is large enough for any number of lines. *)
Definition java_lines_go_on : Prop := exists cap, forall ls, Forall a_line ls -> java_lines cap ls [] <> None.

(** Every line ever logged stays in the JVM: however large the table, the
    process ends after half as many lines. *)
Theorem C63_java_lines_refuted : ~ java_lines_go_on.
Proof.
  intros [cap H]. set (ls := repeat (Info, [] : bytes) (N.to_nat (cap + 1))). apply (H ls).
  - apply Forall_forall. intros x Hx. apply elem_of_list_In, repeat_spec in Hx as ->. split; [discriminate|reflexivity].
  - rewrite java_lines_spec.
    + unfold ls. rewrite repeat_length. cbn [length]. match goal with |- context[N.leb ?a ?b] => destruct (N.leb_spec a b); [lia|reflexivity] end.
    + apply Forall_forall. intros x Hx. apply elem_of_list_In, repeat_spec in Hx as ->. split; [discriminate|reflexivity].
Qed.

(** Until then every line arrives, in order, with its text (reading it back
    gives the same UTF-8) at the method of its level; and all of them are still
    held. *)
Theorem C63_java_lines_partial lossy cap ls : Forall a_line ls -> 2 * N.of_nat (length ls) <= cap ->
  exists t, java_lines cap ls [] = Some (t, map java_line ls) /\
    Forall (fun l => env_str lossy (java_line l).2 = l.2) ls /\
    N.of_nat (length t) = 2 * N.of_nat (length ls) /\ forall l, l ∈ ls -> RfLine (java_line l).2 ∈ t.
Proof.
  intros Hl Hc. rewrite java_lines_spec by exact Hl. cbn [length]. match goal with |- context[N.leb ?a ?b] => destruct (N.leb_spec a b); [|lia] end.
  cbn [app]. eexists. split; [reflexivity|]. split_and!.
  - eapply Forall_impl; [exact Hl|]. intros [l s] [_ Hu]. cbn in Hu |- *. apply utf8_valid_decode in Hu as (cs & B & <-).
    unfold new_string. rewrite utf8_decode_encode by exact B. unfold env_str. rewrite utf16_decode_encode by exact B. reflexivity.
  - clear. induction ls as [|l ls IH]; [reflexivity|]. cbn [flat_map]. rewrite app_length. cbn [length]. lia.
  - intros l Hin. apply elem_of_list_In, in_flat_map. exists l. split; [apply elem_of_list_In, Hin|]. right. left. reflexivity.
Qed.

Example C63_example :
  Forall a_line [(Info, k2); (Error, k1); (Verbose, [])] /\ 2 * N.of_nat (length [(Info, k2); (Error, k1); (Verbose, [])]) <= 512 /\
  java_lines 5 [(Info, k2); (Error, k1); (Verbose, [])] [] = None.
Proof. split_and!; [repeat constructor; discriminate|vm_compute; discriminate|vm_compute; reflexivity]. Qed.

(** ** C42: Swift *)

(** Can the value be shown by the Swift wrapper? *)
Definition no_elements (v : value) : bool :=
  match v with VBytes [] | VI32s [] | VI64s [] | VF32s [] | VF64s [] => true | _ => false end.

(** What the wrapper should say for an answer of the store. *)
Definition outcome (text : err -> bytes) (r : result) : option swift :=
  match expected text r with
  | Some SNothing => Some (Success None)
  | Some (SValue v) => Some (Success (Some v))
  | Some (SError c s) => Some (Failure c s)
  | None => None
  end.

Lemma unwrap_read h t p x T : read_result h t p = Some x ->
  match x with
  | SNothing => T = None
  | SValue v => T = Some t /\ match v with VStr s => utf8_valid s = true | _ => True end
  | SError _ (Some s) => utf8_valid s = true
  | SError _ None => True
  end ->
  unwrap_result h p T = match x with
  | SNothing => Done (Success None)
  | SValue v => if no_elements v then Abort else Done (Success (Some v))
  | SError c s => Done (Failure c s)
  end.
Proof.
  unfold read_result, unwrap_result. destruct (h !! p) as [[| | | |data tok e| |]|]; try discriminate.
  destruct (bool_decide (t = tok)) eqn:B; [|discriminate]. apply bool_decide_eq_true in B as <-. cbn [negb].
  destruct (N.eqb_spec e 0) as [->|He]; cbn [negb].
  - destruct (N.eqb_spec data 0) as [->|Hd].
    + intros [= <-] ->. reflexivity.
    + destruct (read_data h t data) as [v|] eqn:Rd; [|discriminate]. intros [= <-] [-> Hu].
      assert (G : swift_data h t data = if no_elements v then Abort else Done v).
      { assert (GA : read_array h t data = Some v -> swift_array h t data = if no_elements v then Abort else Done v).
        { unfold read_array, swift_array. destruct (h !! data) as [[| | |a t' n| | |]|]; try discriminate.
          destruct (bool_decide (t = t')); [|discriminate]. cbn [negb]. destruct (N.eqb_spec n 0).
          - destruct t; try discriminate; intros [= <-]; reflexivity.
          - destruct (h !! a) as [[|u| | | | |]|]; try discriminate. destruct (bool_decide _ && _) eqn:Q; [|discriminate]. intros [= <-].
            apply andb_true_iff in Q as [_ Q]. apply N.eqb_eq in Q. destruct u as [| | | | | |[]|[]|[]|[]|[]|]; cbn in *; (reflexivity || congruence). }
        destruct t; cbn [read_data swift_data] in *; try (exact (GA Rd));
          try (destruct (h !! data) as [[u| | | | | |]|]; try discriminate Rd; destruct (bool_decide _) eqn:Q; [|discriminate Rd]; injection Rd as <-;
               apply bool_decide_eq_true in Q; destruct u; try discriminate Q; reflexivity).
        unfold read_slice in Rd. unfold swift_string. destruct (h !! data) as [[| |b n| | | |]|]; try discriminate Rd.
        destruct (read_str h b n) as [s|]; [|discriminate Rd]. injection Rd as <-. rewrite Hu. reflexivity. }
      rewrite G. destruct (no_elements v); [reflexivity|]. cbn [obind]. rewrite bool_decide_eq_true_2 by reflexivity. reflexivity.
  - destruct (h !! e) as [[| | | | |c q|]|]; try discriminate. destruct (N.eqb_spec q 0) as [->|Hq].
    + intros [= <-] _. reflexivity.
    + destruct (read_slice h q) as [s|] eqn:Rs.
      * destruct q; [contradiction|]. intros [= <-] Hu. unfold read_slice in Rs. unfold swift_string. destruct (h !! N.pos p0) as [[| |b n| | | |]|]; try discriminate Rs.
        rewrite Rs, Hu. reflexivity.
      * destruct q; [contradiction|discriminate].
Qed.

Lemma get_utf8 E w h k t w' s : step E w (EGet h k t) = Some (w', ROk (Some (VStr s))) -> utf8_valid s = true.
Proof.
  intros H. pose proof (get_event_type E _ _ _ _ _ _ H) as Ht. cbn in Ht. subst t.
  cbn [step] in H. apply with_handle_Some in H as (hd & _ & _ & H). unfold on_inst in H.
  destruct (w_insts w !! h_inst hd) as [x|]; [|discriminate]. injection H as _ H. unfold inst_get in H.
  destruct (i_poison x); [discriminate|]. destruct (i_valid x); [|discriminate]. destruct (i_map x !! k) as [m|]; [|discriminate].
  unfold buffer_parse in H. cbn [type_token] in H. destruct (is_deleting m); [discriminate|]. destruct (Z.eqb _ _); [|discriminate]. cbn in H.
  destruct (utf8_valid (kv_value m)) eqn:V; [|discriminate]. cbn in H. congruence.
Qed.

Section Swift.
Context (pick : heap -> ptr) (text : err -> bytes) (PO : allocator_ok pick) (E : env).
Hypothesis TX : forall e, utf8_valid (text e) = true.

(** A result made by a call and looked at by the wrapper of that call, at any
    later moment before it is freed, shows what the store answered - unless
    that is an array without elements. *)
Theorem C42_swift_results_partial cs0 s0 o0 c s1 p r cs s o :
  cexec pick text E cs0 s0 o0 -> allowed o0 c -> cstep pick text E s0 c = Done (s1, RBuffer p r) ->
  cexec pick text E cs s o -> o !! p = Some (HResult (fun_of c) r) ->
  (forall v, r = ROk (Some v) -> no_elements v = false) ->
  exists x, outcome text r = Some x /\ unwrap_result (c_heap s) p (swift_type c) = Done x.
Proof.
  intros X0 Al Hs X Ho Ne.
  pose proof (C35_results_own_their_data pick text PO E cs s o p _ r X Ho) as Rd.
  destruct (buffer_call pick text E s0 o0 c s1 p r Al Hs) as (p0 & e & _ & Hc & He & Hk). rewrite Hc in Hs. unfold with_buffer in Hs.
  destruct (step E (c_world s0) e) as [[w r']|] eqn:Hst; [|discriminate].
  destruct (finish pick text (fun_of c) r' (c_heap s0)) as [[q h]| |] eqn:F; try discriminate. cbn in Hs. injection Hs as _ _ ->.
  unfold outcome. destruct (expected text r) as [x|] eqn:Ex.
  2:{ destruct r as [[v|]|y|]; cbn in Ex; try discriminate. destruct y; try discriminate Ex; discriminate F. }
  rewrite (unwrap_read _ _ _ _ (swift_type c) Rd).
  - destruct r as [[v|]|y|]; cbn in Ex; try discriminate Ex; [injection Ex as <-; rewrite (Ne v eq_refl); eauto|injection Ex as <-; eauto|].
    destruct (documented y); [|discriminate Ex]. injection Ex as <-. eauto.
  - destruct r as [[v|]|y|]; cbn in Ex; try discriminate Ex.
    + injection Ex as <-. destruct c; cbn [events_of fun_of swift_type] in *; try discriminate He; injection He as <-.
      * destruct (put_event_answer E _ _ _ _ _ _ Hst v eq_refl).
      * split; [reflexivity|]. destruct v; auto. eapply get_utf8, Hst.
      * destruct (delete_event_answer E _ _ _ _ _ Hst v eq_refl).
      * destruct Hk as [(? & ? & Q)|[[? Q]|[? Q]]]; discriminate Q.
      * destruct Hk as [(? & ? & Q)|[[? Q]|[? Q]]]; discriminate Q.
      * destruct Hk as [(? & ? & Q)|[[? Q]|[? Q]]]; discriminate Q.
    + injection Ex as <-. destruct c; try reflexivity. cbn [events_of] in He. injection He as <-. exfalso. clear -Hst.
      cbn [step] in Hst. apply with_handle_Some in Hst as (hd & _ & _ & H). unfold on_inst in H.
      destruct (w_insts _ !! h_inst hd) as [x|]; [|discriminate]. injection H as _ H. unfold inst_get in H.
      destruct (i_poison x); [discriminate|]. destruct (i_valid x); [|discriminate]. destruct (i_map x !! _) as [m|]; [|discriminate].
      destruct (buffer_parse _ _); discriminate.
    + destruct (documented y); [|discriminate Ex]. injection Ex as <-. destruct (has_text y); auto.
Qed.

(** With an array without elements the wrapper traps. *)
Theorem C42_swift_empty_arrays cs s o p t v :
  cexec pick text E cs s o -> o !! p = Some (HResult t (ROk (Some v))) -> no_elements v = true ->
  unwrap_result (c_heap s) p (Some t) = Abort.
Proof.
  intros X Ho Ne. pose proof (C35_results_own_their_data pick text PO E cs s o p _ _ X Ho) as Rd. cbn in Rd.
  rewrite (unwrap_read _ _ _ _ (Some t) Rd), Ne; [reflexivity|]. split; [reflexivity|]. destruct v; try exact Logic.I. discriminate Ne.
Qed.
End Swift.

(** The property as wished for: every stored value is shown. *)
Definition swift_getters_show_values (E : env) : Prop :=
  forall pick text cs s o p t v, allocator_ok pick -> cexec pick text E cs s o -> o !! p = Some (HResult t (ROk (Some v))) ->
  unwrap_result (c_heap s) p (Some t) = Done (Success (Some v)).

(** It is false of the code: readArray of an empty array. *)
Theorem C42_swift_getters_refuted : env_ok (ex_env FPlain) /\ ~ swift_getters_show_values (ex_env FPlain).
Proof.
  split; [apply ex_env_ok; exact Logic.I|]. intros H.
  assert (T : match play ex_pick ex_text (ex_env FPlain) c_trace cstate0 ∅ with
    | Some (t, s, o) => o !! 8 = Some (HResult CF64s (ROk (Some (VF64s [])))) | _ => False end) by (vm_compute; reflexivity).
  destruct (play ex_pick ex_text (ex_env FPlain) c_trace cstate0 ∅) as [[[t s] o]|] eqn:P; [|contradiction].
  specialize (H ex_pick ex_text t s o 8 _ _ ex_pick_ok (play_here _ _ _ _ _ P) T).
  rewrite (C42_swift_empty_arrays ex_pick ex_text ex_pick_ok (ex_env FPlain) t s o 8 CF64s _ (play_here _ _ _ _ _ P) T eq_refl) in H. discriminate H.
Qed.

(** ** C55: Swift *)

(** Swift hands a string over as a pointer to its UTF-8 bytes; the C interface
    stops at the first zero byte. *)
Definition no_nul (s : bytes) : Prop := ~ In x00 s.

Lemma cstr_no_nul s : no_nul s -> cstr s = s.
Proof.
  unfold no_nul. induction s as [|b s IH]; [reflexivity|]. intros H. cbn [cstr]. destruct (decide (b = x00)) as [->|_]; [destruct H; left; reflexivity|].
  f_equal. apply IH. intros Q. apply H. right. exact Q.
Qed.

Theorem C55_swift_keys_partial k k' : no_nul k -> no_nul k' -> cstr k = cstr k' -> k = k'.
Proof. intros H H'. rewrite !cstr_no_nul by assumption. auto. Qed.

(** A text without zero characters comes back. *)
Theorem C55_swift_text_partial pick text E keyof cs s o h key x s1 y :
  allocator_ok pick -> cexec pick text E cs s o -> o !! h = Some HHandle ->
  no_nul key -> no_nul x -> utf8_valid key = true -> utf8_valid x = true ->
  ordinary E keyof (events cs ++ [EPut h key (VStr x)]) ->
  cstep pick text E s (CPut h key (VStr x)) = Done (s1, y) ->
  exists s2 p, cstep pick text E s1 (CGet h key CStr) = Done (s2, RBuffer p (ROk (Some (VStr x)))) /\
    unwrap_result (c_heap s2) p (Some CStr) = Done (Success (Some (VStr x))).
Proof.
  intros PO X Hh Nk Nx Uk Ux HO Hs. pose proof (cstr_no_nul _ Nk) as Ck. pose proof (cstr_no_nul _ Nx) as Cx.
  assert (Al : allowed o (CPut h key (VStr x))) by (split; [exact Hh|discriminate]).
  assert (X1 : cexec pick text E (cs ++ [(CPut h key (VStr x), y)]) s1 (after o (CPut h key (VStr x)) y)) by (econstructor; eassumption).
  assert (Ev : events (cs ++ [(CPut h key (VStr x), y)]) = events cs ++ [EPut h key (VStr x)]).
  { unfold events. rewrite flat_map_app. cbn [flat_map events_of fst snd cvalue app]. rewrite Ck, Cx. reflexivity. }
  assert (HO2 : ordinary E keyof ((events cs ++ [EPut h key (VStr x)]) ++ [EGet h key TStr])).
  { destruct HO as [A B C D]. split; [exact A| | |].
    - apply Forall_app. split; [exact B|]. apply Forall_cons. split; [|constructor]. cbn. unfold get_ok. cbn. eauto.
    - intros p p' Hp Hp'. rewrite paths_app in Hp, Hp'. cbn in Hp, Hp'. rewrite app_nil_r in Hp, Hp'. apply C; assumption.
    - rewrite writes_app. cbn. rewrite N.add_0_r. exact D. }
  assert (Hh1 : after o (CPut h key (VStr x)) y !! h = Some HHandle).
  { destruct (CInv_exec pick text PO E cs s o X) as [own I].
    destruct (call_ok_step pick text PO E s o own (CPut h key (VStr x)) I Al) as [A|(s' & y' & own' & A & _ & Q)]; [congruence|].
    rewrite Hs in A. injection A as <- <-. assert (IN : forall (p : ptr) (v : holds), o !! p = None -> <[p := v]> o !! h = Some HHandle).
    { intros p v Hp. rewrite lookup_insert_ne; [exact Hh|]. intros ->. congruence. }
    destruct y; cbn [after] in *; auto. }
  rewrite <- Ev in HO2.
  destruct (C53_answers_of_a_map pick text PO E keyof _ s1 _ (CGet h key CStr) (EGet h key TStr) X1 Hh1) as (sp & rs & sp' & r & s2 & p & z & Q1 & Q2 & Q3 & Q4 & Q5).
  - cbn. rewrite Ck. exact Uk.
  - reflexivity.
  - cbn. rewrite Ck. reflexivity.
  - exact HO2.
  - rewrite Ev, spec_run_app in Q1. destruct (spec_run (e_canon E) spec0 (events cs)) as [[sp0 rs0]|]; [|discriminate].
    cbn [spec_run spec_step] in Q1. destruct (sp_handles sp0 !! h) as [d|] eqn:Hd; [|discriminate]. injection Q1 as <- _.
    cbn [spec_step] in Q2. change (sp_handles (set_contents sp0 d (<[key:=VStr x]> (contents sp0 d)))) with (sp_handles sp0) in Q2. rewrite Hd in Q2. injection Q2 as <- <-.
    assert (CC : forall m, contents (set_contents sp0 d m) d = m) by (intros m; unfold contents, set_contents; cbn [sp_dirs]; rewrite lookup_insert; reflexivity).
    unfold spec_get in *. rewrite CC in *. unfold smap in *. rewrite lookup_insert in *. cbn [type_of] in *. rewrite decide_True in * by reflexivity.
    exists s2, p. split; [exact Q4|]. cbn in Q3. injection Q3 as <-. rewrite (unwrap_read _ _ _ _ (Some CStr) Q5); [reflexivity|]. auto.
Qed.

(** The property as wished for. *)
Definition swift_text_survives (E : env) : Prop :=
  forall pick text cs s o h key x s1 y s2 p r, allocator_ok pick -> cexec pick text E cs s o -> allowed o (CPut h key (VStr x)) ->
  utf8_valid key = true -> utf8_valid x = true ->
  cstep pick text E s (CPut h key (VStr x)) = Done (s1, y) -> cstep pick text E s1 (CGet h key CStr) = Done (s2, RBuffer p r) ->
  r = ROk (Some (VStr x)).
Definition swift_keys_stay_apart (E : env) : Prop :=
  forall pick text cs s o h key key' v s1 y s2 p r t, allocator_ok pick -> cexec pick text E cs s o -> allowed o (CPut h key v) -> key <> key' ->
  utf8_valid key = true -> utf8_valid key' = true ->
  cstep pick text E s (CPut h key v) = Done (s1, y) ->
  cstep pick text E s1 (CGet h key' t) = Done (s2, RBuffer p r) ->
  forall s0 p0 r0, cstep pick text E s (CGet h key' t) = Done (s0, RBuffer p0 r0) -> r = r0.

(** Both are false of the code: "a\0b" is cut to "a". *)
Definition a_nul (b : Byte.byte) : bytes := [x61; x00; b].

Theorem C55_swift_text_refuted : env_ok (ex_env FPlain) /\ ~ swift_text_survives (ex_env FPlain) /\ ~ swift_keys_stay_apart (ex_env FPlain).
Proof.
  split; [apply ex_env_ok; exact Logic.I|].
  assert (T : match play ex_pick ex_text (ex_env FPlain) [CNew dir_d] cstate0 ∅ with
    | Some (t, s, o) =>
        allowedb o (CPut 1 (a_nul x62) (VStr (a_nul x62))) = true /\
        match cstep ex_pick ex_text (ex_env FPlain) s (CPut 1 (a_nul x62) (VStr (a_nul x62))) with
        | Done (s1, _) =>
            match cstep ex_pick ex_text (ex_env FPlain) s1 (CGet 1 (a_nul x62) CStr), cstep ex_pick ex_text (ex_env FPlain) s1 (CGet 1 (a_nul x63) CStr),
                  cstep ex_pick ex_text (ex_env FPlain) s (CGet 1 (a_nul x63) CStr) with
            | Done (_, RBuffer _ r1), Done (_, RBuffer _ r2), Done (_, RBuffer _ r3) => r1 = ROk (Some (VStr [x61])) /\ r2 = ROk (Some (VStr [x61])) /\ r3 = RErr KeyNotFound
            | _, _, _ => False
            end
        | _ => False
        end
    | _ => False end) by (vm_compute; repeat split).
  destruct (play ex_pick ex_text (ex_env FPlain) [CNew dir_d] cstate0 ∅) as [[[t s] o]|] eqn:P; [|contradiction]. destruct T as [T1 T2].
  destruct (cstep _ _ _ s (CPut 1 (a_nul x62) (VStr (a_nul x62)))) as [[s1 y]| |] eqn:Q1; try contradiction.
  destruct (cstep _ _ _ s1 (CGet 1 (a_nul x62) CStr)) as [[s2 [|?|p2 r2]]| |] eqn:Q2; try contradiction.
  destruct (cstep _ _ _ s1 (CGet 1 (a_nul x63) CStr)) as [[s3 [|?|p3 r3]]| |] eqn:Q3; try contradiction.
  destruct (cstep _ _ _ s (CGet 1 (a_nul x63) CStr)) as [[s4 [|?|p4 r4]]| |] eqn:Q4; try contradiction. destruct T2 as (-> & -> & ->).
  pose proof (play_here _ _ _ _ _ P) as X. apply allowedb_ok in T1. split; intros H.
  - specialize (H _ _ _ _ _ _ _ _ _ _ _ _ _ ex_pick_ok X T1 eq_refl eq_refl Q1 Q2). discriminate H.
  - specialize (H _ _ _ _ _ _ _ (a_nul x63) _ _ _ _ _ _ _ ex_pick_ok X T1 ltac:(discriminate) eq_refl eq_refl Q1 Q3 _ _ _ Q4). discriminate H.
Qed.

(** ** The hypotheses are met *)

(** "k", an emoji (a surrogate pair) and a zero. *)
Definition j_text : jstring := [0x6B; 0xD83D; 0xDE00; 0].

Lemma j_text_wf : well_formed j_text.
Proof. repeat first [apply wf_nil | apply wf_plain; [lia|lia|] | apply wf_pair; [lia|lia|]]. Qed.

Definition k_trace (k : kvalue) : list event := [ENew 1 dir_d []; EPut 1 k1 (VI32 7); EPut 1 (env_str (fun _ => []) j_text) (to_native (fun _ => []) k)].

Example C42_kotlin_example :
  (forall u, env_str (fun _ => []) j_text = u -> u = [x6b; xf0; x9f; x98; x80; x00]) /\
  (forall k, In k [KString j_text; KBool false; KBytes [-128; 127]%Z; KDoubles []] ->
     kvalue_ok k /\ text_ok k /\ ordinary (ex_env FPlain) c_keyof (k_trace k)).
Proof.
  split; [intros u <-; vm_compute; reflexivity|].
  intros k [<-|[<-|[<-|[<-|[]]]]]; (split; [|split; [|apply ordinaryb_ok; [apply ex_env_ok; exact Logic.I|vm_compute; reflexivity]]]); cbn;
    try exact Logic.I; try exact j_text_wf; repeat constructor; lia.
Qed.

Example C54_example : ordinary (ex_env FPlain) c_keyof ([ENew 1 dir_d []; EPut 1 k1 (VI32 7)] ++ [EDelete 1 (env_str (fun _ => []) j_text)]).
Proof. apply ordinaryb_ok; [apply ex_env_ok; exact Logic.I|vm_compute; reflexivity]. Qed.

Example C42_swift_example : (forall e, utf8_valid (ex_text e) = true) /\ exists t s o,
  cexec ex_pick ex_text (ex_env FPlain) t s o /\ map fst t = c_trace /\
  unwrap_result (c_heap s) 5 (Some CI32s) = Done (Success (Some (VI32s [1; -2]%Z))) /\
  unwrap_result (c_heap s) 8 (Some CF64s) = Abort.
Proof.
  split; [intros []; reflexivity|].
  assert (T : match play ex_pick ex_text (ex_env FPlain) c_trace cstate0 ∅ with
    | Some (t, s, o) => map fst t = c_trace /\ unwrap_result (c_heap s) 5 (Some CI32s) = Done (Success (Some (VI32s [1; -2]%Z))) /\
        unwrap_result (c_heap s) 8 (Some CF64s) = Abort
    | _ => False end) by (vm_compute; repeat split).
  destruct (play ex_pick ex_text (ex_env FPlain) c_trace cstate0 ∅) as [[[t s] o]|] eqn:P; [|contradiction]. destruct T as (T1 & T2 & T3).
  exists t, s, o. split_and!; auto. exact (play_here _ _ _ _ _ P).
Qed.

Print Assumptions C42_kotlin_put_get.
Print Assumptions C42_swift_results_partial.
Print Assumptions C54_declared_exceptions_partial.
Print Assumptions C55_kotlin_text_partial.
Print Assumptions C55_swift_text_partial.
