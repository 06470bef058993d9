(** The two concurrent models put together: any number of threads opening
    directories, calling put, get, delete and clear_data and dropping handles,
    where every step of every call is interleaved: the registry's lock and the
    two halves of a drop (Reg.v), and, for each open store, its own RwLock,
    the executor protocol and the background thread (Conc.v, Looper.v).

    The files, the registry and the handles are one [world] shared by all
    stores.  [u_stores] holds one machine of Conc.v per open store; the
    machine works on the shared world, which it finds in [l_cb] and leaves
    there.  Its calls carry the names they have outside. *)
From Verif Require Import Bytes Utf8 Proto Value Codec Store Encrypt World Looper Conc Reg.
Local Open Scope N_scope.

Record full := Full { u_reg : reg; u_stores : gmap N conc }.

Definition full0 : full := Full reg0 ∅.

(** The machine [st] of a store, given the shared world and the name of the
    next call. *)
Definition plug (st : conc) (w : world) (n : N) : conc :=
  Conc (c_front st) (c_readers st) (c_writer st) (set_cb (c_loop st) w) (c_calls st) n.
Definition inner (f : full) (st : conc) : conc := plug st (r_world (u_reg f)) (r_next (u_reg f)).
(** The whole after store [i] has taken a step to [st]. *)
Definition outer (f : full) (i : N) (st : conc) : full :=
  Full (set_w (u_reg f) (l_cb (c_loop st))) (<[i := st]> (u_stores f)).

(** A step of Reg.v inside [MMKV::new] or the first half of [Drop for MMKV]:
    it creates or ends no store, and it is not a step of a call on a store. *)
Record registry_only (s s' : reg) : Prop := {
  ro_insts : w_insts (r_world s') = w_insts (r_world s);
  ro_join : forall c r o, r_ops s' !! c = Some (QJoin r, o) -> r_ops s !! c = Some (QJoin r, o);
  ro_call : forall c p h o, r_ops s' !! c = Some (p, OCall h o) -> r_ops s !! c = Some (p, OCall h o)
}.

(** [Drop for IOLooper] (io_looper.rs:93-104) begins: the sender is dropped;
    if the looper has been quit before there is none, and no thread to join
    unless sending Quit had failed. *)
Definition drops (l l' : loop job world) : Prop :=
  (kstep l LClose l' /\ l_chan l' = l_chan l) \/ (exists ok, l_k l = KClosed ok /\ l' = l) \/
  (l_k l = KFailed /\ l' = set_k l false KJoin).
(** It ends: [join().unwrap()] panics if the thread has died. *)
Definition joins (l : loop job world) (r : result) : Prop :=
  (exists ok l', kstep l (LJoin ok) l' /\ r = if ok then ROk None else RPanic) \/
  (exists ok, l_k l = KClosed ok /\ r = ROk None).

Section Full.
Context (E : env).

Inductive fstep : full -> rlabel -> full -> Prop :=
| f_registry f a s : (* mmkv.rs:43-55, 70-112 *)
    rstep E (u_reg f) a s -> registry_only (u_reg f) s -> fstep f a (Full s (u_stores f))
| f_build f c path key w x : (* mmkv.rs:99-105: as q_build; the new store's machine starts *)
    r_ops (u_reg f) !! c = Some (QOpen, OOpen path key) -> open_impl E (r_world (u_reg f)) path key = (w, Some x) ->
    fstep f RTau (Full (set_op (set_w (u_reg f)
      (World (w_dirs w) (w_inodes w) (w_next_ino w) (<[w_next_inst w := x]> (w_insts w)) (w_next_inst w + 1)
             (w_handles w) (w_reg w) (w_poison w) (w_rng w) (w_seed w))) c (QIns (w_next_inst w)) (OOpen path key))
      (<[w_next_inst w := conc0 w x]> (u_stores f)))
| f_call f h hd o st st' : (* a thread calls put, get, delete or clear_data *)
    usable (u_reg f) h -> w_handles (r_world (u_reg f)) !! h = Some hd -> u_stores f !! h_inst hd = Some st ->
    cstep E (h_inst hd) (inner f st) (HInv (r_next (u_reg f)) h o) st' ->
    fstep f (RInv (r_next (u_reg f)) (OCall h o)) (Full (begin (u_reg f) QWant (OCall h o)) (<[h_inst hd := st']> (u_stores f)))
| f_store f i st st' : (* a step of a call on a store, or of its background thread *)
    u_stores f !! i = Some st -> cstep E i (inner f st) HTau st' -> fstep f RTau (outer f i st')
| f_return f c h o hd st st' r : (* the call returns *)
    r_ops (u_reg f) !! c = Some (QWant, OCall h o) -> w_handles (r_world (u_reg f)) !! h = Some hd ->
    u_stores f !! h_inst hd = Some st -> cstep E (h_inst hd) (inner f st) (HRet c r) st' ->
    fstep f (RRet c r)
      (Full (Reg (r_world (u_reg f)) (r_readers (u_reg f)) (r_writer (u_reg f)) (delete c (r_ops (u_reg f))) (r_next (u_reg f)) (r_dead (u_reg f)))
            (<[h_inst hd := st']> (u_stores f)))
| f_arc_last f c h hd r st l : (* the last Arc: Drop for IOLooper begins *)
    r_ops (u_reg f) !! c = Some (QArc r, OClose h) -> w_handles (r_world (u_reg f)) !! h = Some hd ->
    strong (r_world (u_reg f)) (h_inst hd) = 1%nat -> u_stores f !! h_inst hd = Some st -> drops (c_loop st) l ->
    fstep f RTau (Full (set_op (set_dead (u_reg f) ({[h_inst hd]} ∪ r_dead (u_reg f))) c (QJoin r) (OClose h))
                       (<[h_inst hd := set_loop st l]> (u_stores f)))
| f_joined f c h hd r st b : (* the background thread is joined *)
    r_ops (u_reg f) !! c = Some (QJoin r, OClose h) -> w_handles (r_world (u_reg f)) !! h = Some hd ->
    u_stores f !! h_inst hd = Some st -> joins (c_loop st) b ->
    fstep f RTau (Full (set_op (set_dead (set_w (u_reg f)
        (set_handles (set_insts (r_world (u_reg f)) (delete (h_inst hd) (w_insts (r_world (u_reg f))))) (delete h (w_handles (r_world (u_reg f))))))
        (r_dead (u_reg f) ∖ {[h_inst hd]})) c (QDone (both r b)) (OClose h))
      (delete (h_inst hd) (u_stores f))).

Inductive fexec (f : full) : list rlabel -> full -> Prop :=
| fe_nil : fexec f [] f
| fe_snoc ls f1 a f2 : fexec f ls f1 -> fstep f1 a f2 -> fexec f (ls ++ [a]) f2.

End Full.

(** The history of an execution: the calls and the returns. *)
Definition seen (a : rlabel) : bool := match a with RTau => false | _ => true end.
Definition vis (ls : list rlabel) : list rlabel := List.filter seen ls.
