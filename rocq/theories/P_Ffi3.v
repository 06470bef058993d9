(** C53: which bytes of the caller's memory are the text of a C string. *)
From Verif Require Import Bytes Utf8 Proto Value Codec Store Encrypt World Spec Examples Ffi.
From Coq Require Import ZArith ZifyBool ZifyNat ZifyN.
From Coq Require String. Import (notations) String.
Local Open Scope N_scope.

(** [in_memory c m]: the call [m] is the call [c] with its texts as they lie
    in the caller's memory: each text (which has no zero byte) is followed by a
    zero byte and then by whatever happens to be there. *)
Inductive in_memory : ccall -> ccall -> Prop :=
| im_new t r : ~ In x00 t -> in_memory (CNew t) (CNew (t ++ x00 :: r))
| im_put p t r v : ~ In x00 t -> (forall x, v <> VStr x) -> in_memory (CPut p t v) (CPut p (t ++ x00 :: r) v)
| im_put_str p t r u r' : ~ In x00 t -> ~ In x00 u ->
    in_memory (CPut p t (VStr u)) (CPut p (t ++ x00 :: r) (VStr (u ++ x00 :: r')))
| im_get p t r g : ~ In x00 t -> in_memory (CGet p t g) (CGet p (t ++ x00 :: r) g)
| im_delete p t r : ~ In x00 t -> in_memory (CDelete p t) (CDelete p (t ++ x00 :: r)).

Lemma cstr_mem t r : ~ In x00 t -> cstr (t ++ x00 :: r) = t.
Proof.
  induction t as [|b t IH]; intros H; cbn [app cstr].
  - destruct (decide (x00 = x00)); [reflexivity|contradiction].
  - destruct (decide (b = x00)) as [->|_]; [destruct H; left; reflexivity|]. rewrite IH; [reflexivity|]. intros Hin. apply H. right. exact Hin.
Qed.

Lemma cstr_pure t : ~ In x00 t -> cstr t = t.
Proof.
  induction t as [|b t IH]; intros H; cbn [cstr]; [reflexivity|].
  destruct (decide (b = x00)) as [->|_]; [destruct H; left; reflexivity|]. rewrite IH; [reflexivity|]. intros Hin. apply H. right. exact Hin.
Qed.

(** The text of a C string is what precedes its first zero byte, no more and no
    less: what lies behind it makes no difference to any call in any state, and
    the store is asked for exactly the key, the value and the directory that
    were written. *)
Theorem C53_texts_end_at_their_zero pick text E s c m :
  in_memory c m ->
  cstep pick text E s m = cstep pick text E s c /\
  forall x, events_of m x =
    match c with
    | CNew t => match x with RHandle p => [ENew p t []] | _ => [] end
    | CPut p t v => [EPut p t v]
    | CGet p t g => [EGet p t (c_type g)]
    | CDelete p t => [EDelete p t]
    | _ => []
    end.
Proof.
  destruct 1 as [t r H|p t r v H Hv|p t r u r' H Hu|p t r g H|p t r H]; (split; [unfold cstep, arg|intros x; cbn [events_of]]);
    rewrite ?(cstr_mem t r H), ?(cstr_pure t H); try reflexivity.
  - destruct v; try reflexivity. destruct (Hv _ eq_refl).
  - rewrite (cstr_mem u r' Hu), (cstr_pure u Hu). reflexivity.
  - cbn [cvalue]. rewrite (cstr_mem u r' Hu). reflexivity.
Qed.

Lemma C53_texts_example : in_memory (CPut 1 k1 (VStr (str "hello"%string)))
  (CPut 1 (k1 ++ x00 :: str "more"%string) (VStr (str "hello"%string ++ x00 :: []))).
Proof. apply im_put_str; vm_compute; intros H; repeat destruct H as [H|H]; try discriminate; exact H. Qed.
