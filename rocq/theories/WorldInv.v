(** The invariant of the whole library against the specification, and its
    preservation by every ordinary call and by every background job. *)
From Verif Require Import Bytes Utf8 Proto ProtoFacts Value Codec Store StoreFacts Encrypt World Spec Hyps Refine.
From Coq Require Import ZifyBool ZifyNat ZifyN.
Local Open Scope N_scope.

(** A queued write. *)
Definition jw (q : kv * bool) : job := JWrite q.1 q.2.

(** The bytes of the nonce file of directory [d], if it exists. *)
Definition meta_at (w : world) (d : bytes) : option bytes := d_meta (dir_of w d).

(** The files of directory [d] are the same in both worlds. *)
Definition same_disk (w w' : world) (d : bytes) : Prop := file_at w' d = file_at w d /\ meta_at w' d = meta_at w d.

Lemma same_disk_by w w' d :
  dir_of w' d = dir_of w d -> (forall j, d_data (dir_of w d) = Some j -> inode w' j = inode w j) -> same_disk w w' d.
Proof.
  intros H1 H2. unfold same_disk, file_at, meta_at. rewrite H1. split; [|reflexivity].
  destruct (d_data (dir_of w d)) as [j|]; [|reflexivity]. cbn. f_equal. apply H2. reflexivity.
Qed.

Lemma same_disk_refl w d : same_disk w w d.
Proof. split; reflexivity. Qed.

Lemma same_disk_trans w1 w2 w3 d : same_disk w1 w2 d -> same_disk w2 w3 d -> same_disk w1 w3 d.
Proof. intros [A B] [C D]. split; congruence. Qed.

(** ** Representations

    The invariant below is stated for any relation [r_ok] between the writer's
    state and the records it stands for that background writes and openings
    respect.  [clean] (Main.v) is the ordinary one: the file is exactly the
    records written.  [damaged] (Damaged.v) also admits records that no longer
    decode, and (with [r_half]) files left half-created by a kill. *)
Class rep (E : env) := Rep { r_half : bool; r_ok : codec -> st -> list kv -> N -> Prop }.

Class rep_law (E : env) (R : rep E) : Prop := RepLaw {
  r_mono C s rs c c' : c <= c' -> r_ok C s rs c -> r_ok C s rs c';
  r_ext C s s' rs c : s_file s' = s_file s -> s_ml s' = s_ml s -> s_pos s' = s_pos s -> r_ok C s rs c -> r_ok C s' rs c;
  r_nonempty C s rs c : codec_law C (record_pos (e_feat E)) (record_size (e_feat E)) -> r_ok C s rs c -> 8 <= len (s_file s);
  r_write C s rs c m dup :
    env_ok E -> codec_law C (record_pos (e_feat E)) (record_size (e_feat E)) -> r_ok C s rs c -> good E m -> room E (c + 1) ->
    exists s' rs', write (e_plat E) C s m dup = (s', true) /\ r_ok C s' rs' (c + 1) /\ replay rs' = apply_kv (replay rs) m;
  r_fresh C : env_ok E -> exists s, s_file s = zeros (page (e_plat E)) /\ r_ok C s [] 0;
  r_open C s rs c seed :
    env_ok E -> codec_law C (record_pos (e_feat E)) (record_size (e_feat E)) -> r_ok C s rs c ->
    exists s', open_file (e_plat E) C seed (s_file s) = Some (s', replay rs) /\ s_file s' = s_file s /\ s_ml s' = s_ml s /\ s_pos s' = s_pos s
}.

Section WorldInv.
Context (E : env) {Rp : rep E} {RL : rep_law E Rp} (HE : env_ok E) (keyof : bytes -> bytes) (U : bytes -> Prop).
Context (HU_dir : forall p, U p -> e_dir_ok E p = true).
Context (HU_key : forall p, U p -> feature_key (e_feat E) (keyof (e_canon E p)) <> None).
Context (HU_inj : forall p p', U p -> U p' -> e_canon E p = e_canon E p' -> p = p').

Notation P := (e_plat E).
Notation F := (e_feat E).
Notation canon := (e_canon E).
Notation sz := (record_size F).
Notation pos_ok := (record_pos F).

(** The parsed key of a directory. *)
Definition kof (d : bytes) : bytes := default [] (feature_key F (keyof d)).

(** The meta file of [d] holds [nonce] (encrypted build). *)
Definition meta_ok (w : world) (d nonce : bytes) : Prop :=
  match F with FPlain => True | FEncrypted _ => d_meta (dir_of w d) = Some nonce /\ length nonce = nonce_len end.

(** A live instance over a directory with contents [S]; [Hd k S'] says the
    contents were [S'] before the last [k] mutations. *)
Record inst_ok (w : world) (S : smap) (Hd : nat -> smap -> Prop) (n : N) (x : inst) : Prop := {
  io_valid : i_valid x = true;
  io_poison : i_poison x = false;
  io_run : i_io x = IoRun;
  io_sender : i_sender x = true;
  io_join : i_join x = true;
  io_key : i_key x = kof (i_dir x);
  io_data : d_data (dir_of w (i_dir x)) = Some (i_ino x);
  io_meta : meta_ok w (i_dir x) (i_nonce x);
  io_state : exists q rs c,
    i_queue x = map jw q /\ Forall (good E) (map fst q) /\
    r_ok (i_codec E x) (i_st w x) rs c /\ c + N.of_nat (length q) <= n /\
    i_map x = fold_left apply_kv (map fst q) (replay rs) /\ rel E (i_map x) S /\
    (forall j, (j <= length q)%nat ->
       exists S', Hd (length q - j)%nat S' /\ rel E (fold_left apply_kv (take j (map fst q)) (replay rs)) S')
}.

(** A file without any record that can be read under key [k] and a nonce yet
    to be made (what the other build of the library left, P_Switch.v). *)
Definition unreadable (f k : bytes) (n : N) : Prop :=
  forall i, exists s, s_file s = f /\ r_ok (feature_codec F k (e_rng E i)) s [] n.

(** A directory without a live instance. *)
Definition dir_ok (w : world) (S : smap) (n : N) (d : bytes) : Prop :=
  match d_data (dir_of w d) with
  | None => S = ∅
  | Some ino =>
      (exists rs nonce s, meta_ok w d nonce /\ s_file s = inode w ino /\
         r_ok (feature_codec F (kof d) nonce) s rs n /\ rel E (replay rs) S) \/
      (r_half = true /\ (inode w ino = [] \/ inode w ino = zeros (page P) \/
         (d_meta (dir_of w d) = None /\ unreadable (inode w ino) (kof d) n)) /\ S = ∅)
  end.

Definition handle_ok (w : world) (oh : option handle) (od : option bytes) : Prop :=
  match oh, od with
  | Some hd, Some d => h_unreg hd = false /\ U (h_path hd) /\ d = canon (h_path hd) /\ h_key hd = keyof d /\
                       w_reg w !! h_path hd = Some (h_inst hd)
  | None, None => True
  | _, _ => False
  end.

Record WInv (w : world) (sp : spec) (H : bytes -> nat -> smap -> Prop) (n : N) : Prop := {
  wi_poison : w_poison w = false;
  wi_hist : forall d, H d 0%nat (contents sp d);
  wi_handles : forall h, handle_ok w (w_handles w !! h) (sp_handles sp !! h);
  wi_reg : forall p i, w_reg w !! p = Some i -> U p /\ exists x, w_insts w !! i = Some x /\ i_dir x = canon p;
  wi_insts : forall i x, w_insts w !! i = Some x ->
    i < w_next_inst w /\ inst_ok w (contents sp (i_dir x)) (H (i_dir x)) n x /\
    (exists p, w_reg w !! p = Some i) /\ exists h hd, w_handles w !! h = Some hd /\ h_inst hd = i;
  wi_dirs : forall d, (forall i x, w_insts w !! i = Some x -> i_dir x <> d) -> dir_ok w (contents sp d) n d;
  wi_fresh : forall d i, d_data (dir_of w d) = Some i -> i < w_next_ino w;
  wi_ino : forall d d' i, d_data (dir_of w d) = Some i -> d_data (dir_of w d') = Some i -> d = d'
}.

(** ** Frames *)

Lemma inst_ok_frame w w' S (Hd Hd' : nat -> smap -> Prop) n n' x :
  dir_of w' (i_dir x) = dir_of w (i_dir x) -> inode w' (i_ino x) = inode w (i_ino x) -> n <= n' ->
  (forall k S, Hd k S -> Hd' k S) ->
  inst_ok w S Hd n x -> inst_ok w' S Hd' n' x.
Proof.
  intros Ed Ei Hn HH [A1 A2 A3 A4 A5 A6 A7 A8 (q & rs & c & B1 & B2 & B3 & B4 & B5 & B6 & B7)].
  split; auto.
  - rewrite Ed. exact A7.
  - unfold meta_ok in *. rewrite Ed. exact A8.
  - exists q, rs, c. split_and!; auto.
    + eapply r_ext; [..|exact B3]; try reflexivity. cbn. exact Ei.
    + lia.
    + intros j Hj. destruct (B7 j Hj) as (S' & X & Y). exists S'. auto.
Qed.

Lemma dir_ok_frame w w' S n n' d :
  dir_of w' d = dir_of w d -> (forall i, d_data (dir_of w d) = Some i -> inode w' i = inode w i) -> n <= n' ->
  dir_ok w S n d -> dir_ok w' S n' d.
Proof.
  intros Ed Ei Hn. unfold dir_ok. rewrite Ed. destruct (d_data (dir_of w d)) as [i|]; [|auto].
  rewrite (Ei i eq_refl). intros [(rs & nonce & s & A & B & C & D)|(Gh & G & GS)]; [left|right].
  - exists rs, nonce, s. split_and!; [|exact B| |exact D].
    + unfold meta_ok in *. rewrite Ed. exact A.
    + eapply r_mono; [|exact C]. exact Hn.
  - split; [exact Gh|]. split; [|exact GS]. destruct G as [G|[G|[G1 G2]]]; [auto|auto|].
    right. right. split; [exact G1|]. intros j. destruct (G2 j) as (s & Hs & HW). exists s. split; [exact Hs|].
    eapply r_mono; [|exact HW]. exact Hn.
Qed.

(** Two live instances never share a directory. *)
Lemma inst_unique w sp H n i j x y :
  WInv w sp H n -> w_insts w !! i = Some x -> w_insts w !! j = Some y -> i_dir x = i_dir y -> i = j.
Proof.
  intros W Hi Hj Hd.
  destruct (wi_insts _ _ _ _ W i x Hi) as (_ & _ & (p & Hp) & _).
  destruct (wi_insts _ _ _ _ W j y Hj) as (_ & _ & (p' & Hp') & _).
  destruct (wi_reg _ _ _ _ W p i Hp) as (Up & x' & Hx & Dx). rewrite Hi in Hx. injection Hx as <-.
  destruct (wi_reg _ _ _ _ W p' j Hp') as (Up' & y' & Hy & Dy). rewrite Hj in Hy. injection Hy as <-.
  assert (p = p') as <- by (apply HU_inj; congruence). congruence.
Qed.

(** Replacing the instance of one directory. *)
Lemma WInv_update w w' sp sp' (H H' : bytes -> nat -> smap -> Prop) n n' i x y :
  WInv w sp H n -> w_insts w !! i = Some x -> i_dir y = i_dir x ->
  w_handles w' = w_handles w -> w_reg w' = w_reg w -> w_poison w' = false ->
  w_next_inst w' = w_next_inst w -> w_next_ino w <= w_next_ino w' ->
  w_insts w' = <[i := y]> (w_insts w) ->
  (forall d, d <> i_dir x -> dir_of w' d = dir_of w d) ->
  (forall j, j < w_next_ino w -> j <> i_ino x -> inode w' j = inode w j) ->
  (i_ino y = i_ino x \/ w_next_ino w <= i_ino y < w_next_ino w') ->
  sp_handles sp' = sp_handles sp ->
  (forall d, d <> i_dir x -> contents sp' d = contents sp d) ->
  (forall d, d <> i_dir x -> forall k S, H d k S -> H' d k S) ->
  H' (i_dir x) 0%nat (contents sp' (i_dir x)) -> n <= n' ->
  inst_ok w' (contents sp' (i_dir x)) (H' (i_dir x)) n' y -> WInv w' sp' H' n'.
Proof.
  intros W Hi Hdir Eh Er Ep En Eo Eins Hdirs Hinos Hino Esph Hcont Hhist Hh0 Hn Hy.
  assert (Hother : forall d j, d <> i_dir x -> d_data (dir_of w d) = Some j -> inode w' j = inode w j).
  { intros d j Hd Hj. apply Hinos; [eapply wi_fresh; eassumption|]. intros ->. apply Hd.
    eapply (wi_ino _ _ _ _ W); [exact Hj|]. destruct (wi_insts _ _ _ _ W i x Hi) as (_ & I & _). apply (io_data _ _ _ _ _ I). }
  assert (Hx : d_data (dir_of w (i_dir x)) = Some (i_ino x)).
  { destruct (wi_insts _ _ _ _ W i x Hi) as (_ & I & _). apply (io_data _ _ _ _ _ I). }
  assert (Hy' : d_data (dir_of w' (i_dir x)) = Some (i_ino y)).
  { rewrite <- Hdir. apply (io_data _ _ _ _ _ Hy). }
  split.
  - exact Ep.
  - intros d. destruct (decide (d = i_dir x)) as [->|Hd]; [exact Hh0|].
    rewrite Hcont by exact Hd. apply Hhist; [exact Hd|]. apply (wi_hist _ _ _ _ W).
  - intros h. rewrite Eh, Esph. pose proof (wi_handles _ _ _ _ W h) as G. unfold handle_ok in *. rewrite Er. exact G.
  - intros p j Hp. rewrite Er in Hp. destruct (wi_reg _ _ _ _ W p j Hp) as (Up & z & Hz & Dz).
    split; [exact Up|]. rewrite Eins. destruct (decide (i = j)) as [<-|Hne].
    + rewrite lookup_insert. exists y. split; [reflexivity|]. congruence.
    + rewrite lookup_insert_ne by exact Hne. exists z. auto.
  - intros j z Hz. rewrite Eins in Hz. rewrite En, Er, Eh. destruct (decide (i = j)) as [<-|Hne].
    + rewrite lookup_insert in Hz. injection Hz as <-. destruct (wi_insts _ _ _ _ W i x Hi) as (A & _ & B).
      rewrite Hdir. auto.
    + rewrite lookup_insert_ne in Hz by exact Hne. destruct (wi_insts _ _ _ _ W j z Hz) as (A & I & B).
      assert (Hd : i_dir z <> i_dir x). { intros D. apply Hne. eapply (inst_unique w sp H n i j x z W Hi Hz). auto. }
      split; [exact A|]. split; [|exact B]. rewrite Hcont by exact Hd.
      eapply inst_ok_frame; [| | |apply Hhist, Hd|exact I]; auto.
      eapply Hother; [exact Hd|]. apply (io_data _ _ _ _ _ I).
  - intros d Hno. assert (Hd : d <> i_dir x).
    { intros ->. apply (Hno i y); [rewrite Eins; apply lookup_insert|exact Hdir]. }
    rewrite Hcont by exact Hd. eapply dir_ok_frame; [apply Hdirs, Hd| |exact Hn|].
    + intros j Hj. apply (Hother d j Hd Hj).
    + apply (wi_dirs _ _ _ _ W). intros j z Hz Dz. destruct (decide (i = j)) as [<-|Hne].
      * congruence.
      * apply (Hno j z); [rewrite Eins, lookup_insert_ne by exact Hne; exact Hz|exact Dz].
  - intros d j Hj. destruct (decide (d = i_dir x)) as [->|Hd].
    + rewrite Hy' in Hj. injection Hj as <-. destruct Hino as [->|Hino]; [|lia].
      pose proof (wi_fresh _ _ _ _ W _ _ Hx). lia.
    + rewrite Hdirs in Hj by exact Hd. pose proof (wi_fresh _ _ _ _ W _ _ Hj). lia.
  - assert (G : forall d j, d <> i_dir x -> d_data (dir_of w' d) = Some j -> j <> i_ino y).
    { intros d j Hd Hj ->. rewrite Hdirs in Hj by exact Hd. destruct Hino as [E'|Hino].
      - rewrite E' in Hj. apply Hd. eapply (wi_ino _ _ _ _ W); eassumption.
      - pose proof (wi_fresh _ _ _ _ W _ _ Hj). lia. }
    intros d d' j Hj Hj'. destruct (decide (d = i_dir x)) as [->|Hd], (decide (d' = i_dir x)) as [->|Hd']; [reflexivity| | |].
    + rewrite Hy' in Hj. injection Hj as <-. destruct (G d' _ Hd' Hj'). reflexivity.
    + rewrite Hy' in Hj'. injection Hj' as <-. destruct (G d _ Hd Hj). reflexivity.
    + rewrite Hdirs in Hj by exact Hd. rewrite Hdirs in Hj' by exact Hd'. eapply (wi_ino _ _ _ _ W); eassumption.
Qed.

(** ** Background writes *)

Lemma set_inst_same w i x : w_insts w !! i = Some x -> set_inst w i x = w.
Proof. intros H. unfold set_inst, set_insts. rewrite insert_id by exact H. destruct w; reflexivity. Qed.

Lemma r_ok_i_st w w' x y rs c C :
  inode w' (i_ino y) = inode w (i_ino x) -> i_ml y = i_ml x -> i_pos y = i_pos x ->
  r_ok C (i_st w x) rs c -> r_ok C (i_st w' y) rs c.
Proof. intros A B D. apply r_ext; cbn; assumption. Qed.

Lemma law_of C' x : C' = i_codec E x -> codec_law C' pos_ok sz.
Proof. intros ->. apply feature_law, (eo_feat _ HE). Qed.

(** The thread runs the writes at the head of its queue. *)
Lemma run_writes q : forall w i x rs c tl,
  w_insts w !! i = Some x -> i_io x = IoRun -> i_queue x = map jw q ++ tl -> Forall (good E) (map fst q) ->
  r_ok (i_codec E x) (i_st w x) rs c -> room E (c + N.of_nat (length q)) ->
  exists s rs',
    Nat.iter (length q) (fun w => run_job E w i) w =
      set_seed (set_inode (set_inst w i (i_after x tl IoRun s)) (i_ino x) (s_file s)) (s_seed s) /\
    r_ok (i_codec E x) s rs' (c + N.of_nat (length q)) /\
    replay rs' = fold_left apply_kv (map fst q) (replay rs) /\
    (q = [] -> s = i_st w x /\ rs' = rs).
Proof.
  induction q as [|[m dup] q IH]; intros w i x rs c tl Hi Hrun Hq HF HW Hroom.
  - exists (i_st w x), rs. cbn [length Nat.iter map fold_left]. rewrite N.add_0_r. split; [|split_and!; auto].
    cbn in Hq. unfold set_seed, set_inode, set_inst, set_insts. cbn.
    assert (Hino : w_inodes w !! i_ino x = Some (inode w (i_ino x))).
    { pose proof (r_nonempty _ _ _ _ (law_of _ x eq_refl) HW) as L. cbn in L. unfold inode in *.
      destruct (w_inodes w !! i_ino x); [reflexivity|cbn in L; lia]. }
    rewrite (insert_id _ _ _ Hino). rewrite insert_id; [destruct w; reflexivity|].
    rewrite Hi. f_equal. destruct x; cbn in *. subst. reflexivity.
  - inversion HF as [|? ? Hm HF']; subst. cbn [map length] in *.
    destruct (r_write (i_codec E x) (i_st w x) rs c m dup HE (law_of _ x eq_refl) HW Hm) as (s1 & rs1 & E1 & W1 & R1).
    { eapply room_mono; [|exact Hroom]. lia. }
    set (x1 := i_after x (map jw q ++ tl) IoRun s1).
    set (w1 := set_seed (set_inode (set_inst w i x1) (i_ino x) (s_file s1)) (s_seed s1)).
    assert (Ejob : run_job E w i = w1).
    { unfold run_job. rewrite Hi, Hrun, Hq. cbn [app]. unfold jw at 1. cbn [fst snd]. rewrite E1. reflexivity. }
    assert (Est : i_st w1 x1 = St (s_file s1) (s_ml s1) (s_pos s1) (s_trim s1) (s_seed s1) []).
    { unfold i_st, w1, inode. cbn. rewrite lookup_insert. reflexivity. }
    destruct (IH w1 i x1 rs1 (c + 1) tl) as (s & rs' & E2 & W2 & R2 & _).
    + apply lookup_insert.
    + reflexivity.
    + reflexivity.
    + exact HF'.
    + change (i_codec E x1) with (i_codec E x). rewrite Est. eapply r_ext; [..|exact W1]; reflexivity.
    + eapply room_mono; [|exact Hroom]. lia.
    + exists s, rs'. rewrite Nat.iter_succ_r. rewrite Ejob, E2.
      split_and!.
      * unfold w1, set_seed, set_inode, set_inst, set_insts. cbn. rewrite !insert_insert. reflexivity.
      * eapply r_mono; [|exact W2]. lia.
      * rewrite R2, R1. reflexivity.
      * discriminate.
Qed.

(** ** Histories *)

(** The history predicate after one more call. *)
Definition upd (H : bytes -> nat -> smap -> Prop) (sp : spec) (e : event) (sp' : spec) (d : bytes) (k : nat) (S : smap) : Prop :=
  if mutates sp d e then (k = 0%nat /\ S = contents sp' d) \/ (exists k', k = Datatypes.S k' /\ H d k' S) else H d k S.

Lemma upd_false (H : bytes -> nat -> smap -> Prop) sp e sp' d k S : mutates sp d e = false -> H d k S -> upd H sp e sp' d k S.
Proof. unfold upd. intros ->. auto. Qed.

Lemma upd_0 (H : bytes -> nat -> smap -> Prop) sp e sp' d : mutates sp d e = true -> upd H sp e sp' d 0%nat (contents sp' d).
Proof. unfold upd. intros ->. auto. Qed.

Lemma upd_S (H : bytes -> nat -> smap -> Prop) sp e sp' d k S : mutates sp d e = true -> H d k S -> upd H sp e sp' d (Datatypes.S k) S.
Proof. unfold upd. intros ->. eauto. Qed.

Lemma contents_set sp d m : contents (set_contents sp d m) d = m.
Proof. unfold contents, set_contents. cbn. rewrite lookup_insert. reflexivity. Qed.

Lemma contents_set_ne sp d d' m : d <> d' -> contents (set_contents sp d m) d' = contents sp d'.
Proof. intros H. unfold contents, set_contents. cbn. rewrite lookup_insert_ne by exact H. reflexivity. Qed.

(** ** Queueing a write *)

Lemma take_len_app {A} (l l' : list A) j : (j <= length l)%nat -> take j (l ++ l') = take j l.
Proof. intros H. rewrite take_app_le by exact H. reflexivity. Qed.

Lemma inst_ok_queue w w' S S' (Hd Hd' : nat -> smap -> Prop) n x m dup :
  inst_ok w S Hd n x -> good E m -> rel E (apply_kv (i_map x) m) S' ->
  dir_of w' (i_dir x) = dir_of w (i_dir x) -> inode w' (i_ino x) = inode w (i_ino x) ->
  Hd' 0%nat S' -> (forall k S, Hd k S -> Hd' (Datatypes.S k) S) ->
  inst_ok w' S' Hd' (n + 1) (i_with_queue (i_with_map x (apply_kv (i_map x) m)) (i_queue x ++ [JWrite m dup])).
Proof.
  intros [A1 A2 A3 A4 A5 A6 A7 A8 (q & rs & c & B1 & B2 & B3 & B4 & B5 & B6 & B7)] Hm Hr Ed Ei H0 HS.
  split; cbn [i_with_queue i_with_map i_valid i_poison i_io i_sender i_join i_key i_dir i_ino i_nonce i_queue i_map]; auto.
  - rewrite Ed. exact A7.
  - unfold meta_ok in *. rewrite Ed. exact A8.
  - exists (q ++ [(m, dup)]), rs, c. rewrite !map_app, B1. cbn [map fst]. rewrite fold_left_app, <- B5. cbn [fold_left].
    split_and!; auto.
    + apply Forall_app. split; [exact B2|]. constructor; [exact Hm|constructor].
    + eapply r_ext; [..|exact B3]; try reflexivity. cbn. exact Ei.
    + rewrite app_length. cbn [length]. lia.
    + intros j Hj. rewrite app_length in *. cbn [length] in *.
      destruct (decide (j = length q + 1)%nat) as [->|Hne].
      * exists S'. rewrite Nat.sub_diag. split; [exact H0|].
        rewrite take_ge by (rewrite app_length, map_length; cbn; lia).
        rewrite fold_left_app, <- B5. exact Hr.
      * destruct (B7 j ltac:(lia)) as (T & HT & RT). exists T.
        replace (length q + 1 - j)%nat with (Datatypes.S (length q - j)) by lia. split; [apply HS, HT|].
        rewrite take_len_app by (rewrite map_length; lia). exact RT.
Qed.

(** ** Opening *)

Lemma kof_key p : U p -> feature_key F (keyof (canon p)) = Some (kof (canon p)).
Proof. intros H. unfold kof. pose proof (HU_key p H). destruct (feature_key F _); [reflexivity|congruence]. Qed.

Lemma dir_of_insert (w : world) ds d d' x :
  w_dirs w = <[d := x]> ds -> dir_of w d' = if decide (d = d') then x else default (Dir None None) (ds !! d').
Proof.
  intros H. unfold dir_of. rewrite H. destruct (decide (d = d')) as [<-|Hne].
  - rewrite lookup_insert. reflexivity.
  - rewrite lookup_insert_ne by exact Hne. reflexivity.
Qed.

(** What [open_impl] does in a world where the directory is well-formed. *)
Lemma open_impl_ok w p S n :
  U p -> dir_ok w S n (canon p) ->
  (forall i, d_data (dir_of w (canon p)) = Some i -> i < w_next_ino w) ->
  exists w' y, open_impl E w p (keyof (canon p)) = (w', Some y) /\
    i_dir y = canon p /\ (forall Hd : nat -> smap -> Prop, Hd 0%nat S -> inst_ok w' S Hd n y) /\
    i_queue y = [] /\
    w_insts w' = w_insts w /\ w_handles w' = w_handles w /\ w_reg w' = w_reg w /\ w_poison w' = w_poison w /\
    w_next_inst w' = w_next_inst w /\ w_next_ino w <= w_next_ino w' /\
    (forall d, d <> canon p -> dir_of w' d = dir_of w d) /\
    (forall j, j < w_next_ino w -> r_half = false \/ d_data (dir_of w (canon p)) <> Some j -> inode w' j = inode w j) /\
    ((d_data (dir_of w (canon p)) = Some (i_ino y) /\ w_next_ino w' = w_next_ino w) \/
     (d_data (dir_of w (canon p)) = None /\ i_ino y = w_next_ino w /\ w_next_ino w' = w_next_ino w + 1 /\
      inode w' (i_ino y) = zeros (page P))).
Proof.
  intros Up Hd Hfresh. unfold open_impl. rewrite (HU_dir p Up). cbv zeta. rewrite (kof_key p Up).
  set (d := canon p) in *.
  destruct (eo_plat _ HE) as [H64 Hpage Hmax Hhord].
  (* the file to be opened, in terms of both builds *)
  assert (Hcfg : exists w1 ino rs, open_config E w d = (w1, ino) /\
    d_data (dir_of w1 d) = Some ino /\ d_meta (dir_of w1 d) = d_meta (dir_of w d) /\
    w_insts w1 = w_insts w /\ w_handles w1 = w_handles w /\ w_reg w1 = w_reg w /\ w_poison w1 = w_poison w /\
    w_next_inst w1 = w_next_inst w /\ w_next_ino w <= w_next_ino w1 /\ w_rng w1 = w_rng w /\
    (forall d', d' <> d -> dir_of w1 d' = dir_of w d') /\
    (forall j, j < w_next_ino w -> r_half = false \/ d_data (dir_of w d) <> Some j -> inode w1 j = inode w j) /\
    ((d_data (dir_of w d) = Some ino /\ w_next_ino w1 = w_next_ino w) \/
     (d_data (dir_of w d) = None /\ ino = w_next_ino w /\ w_next_ino w1 = w_next_ino w + 1 /\ inode w1 ino = zeros (page P))) /\
    ((exists nonce s, meta_ok w d nonce /\ s_file s = inode w1 ino /\ r_ok (feature_codec F (kof d) nonce) s rs n) \/
     (rs = [] /\ inode w1 ino = zeros (page P)) \/
     (rs = [] /\ d_meta (dir_of w d) = None /\ unreadable (inode w1 ino) (kof d) n)) /\
    rel E (replay rs) S).
  { unfold open_config, dir_ok in *. destruct (d_data (dir_of w d)) as [ino|] eqn:Ed.
    - assert (Hin : inode (set_inode w ino (config_new P (inode w ino))) ino = config_new P (inode w ino)).
      { unfold inode at 1, set_inode. cbn. rewrite lookup_insert. reflexivity. }
      assert (Hsame : forall j, j <> ino -> inode (set_inode w ino (config_new P (inode w ino))) j = inode w j).
      { intros j Hj. unfold inode, set_inode. cbn. rewrite lookup_insert_ne by congruence. reflexivity. }
      destruct Hd as [(rs & nonce & s & Hmeta & Hf & HW & Hr)|(Hhalf & Hf & ->)].
      + assert (Hne : config_new P (inode w ino) = inode w ino).
        { unfold config_new. destruct (N.eqb_spec (len (inode w ino)) 0) as [Hz|]; [|reflexivity].
          pose proof (r_nonempty _ _ _ _ (feature_law F (kof d) nonce (eo_feat _ HE)) HW) as L. rewrite Hf in L. lia. }
        exists (set_inode w ino (config_new P (inode w ino))), ino, rs. split; [reflexivity|].
        split_and!; try reflexivity; auto.
        * intros j _ _. destruct (decide (j = ino)) as [->|Hj]; [rewrite Hin; exact Hne|apply Hsame, Hj].
        * left. exists nonce, s. rewrite Hin, Hne. auto.
      + exists (set_inode w ino (config_new P (inode w ino))), ino, []. split; [reflexivity|].
        split_and!; try reflexivity; auto.
        * intros j _ [?|Hj]; [congruence|]. apply Hsame. congruence.
        * right. rewrite Hin. destruct Hf as [Hf|[Hf|[Hm0 Hu]]].
          -- left. split; [reflexivity|]. rewrite Hf. reflexivity.
          -- left. split; [reflexivity|]. rewrite Hf. unfold config_new. destruct (len (zeros (page P)) =? 0); reflexivity.
          -- right. split; [reflexivity|]. split; [exact Hm0|].
             assert (Hne : config_new P (inode w ino) = inode w ino); [|rewrite Hne; exact Hu].
             unfold config_new. destruct (N.eqb_spec (len (inode w ino)) 0) as [Hz|]; [|reflexivity].
             destruct (Hu (w_rng w)) as (s & Hs & HW).
             pose proof (r_nonempty _ _ _ _ (feature_law F (kof d) _ (eo_feat _ HE)) HW) as L. rewrite Hs in L. lia.
        * apply rel_empty.
    - subst S. eexists _, (w_next_ino w), []. split; [reflexivity|].
      split_and!; try reflexivity; cbn [w_next_ino]; auto.
      + erewrite dir_of_insert by reflexivity. destruct (decide (d = d)); [reflexivity|congruence].
      + erewrite dir_of_insert by reflexivity. destruct (decide (d = d)); [reflexivity|congruence].
      + lia.
      + intros d' Hne. erewrite dir_of_insert by reflexivity. destruct (decide (d = d')); [congruence|reflexivity].
      + intros j Hj. unfold inode. cbn. rewrite lookup_insert_ne by lia. reflexivity.
      + right. split_and!; auto. unfold inode. cbn. rewrite lookup_insert. reflexivity.
      + right. left. split; [reflexivity|]. unfold inode. cbn. rewrite lookup_insert. reflexivity.
      + apply rel_empty. }
  destruct Hcfg as (w1 & ino & rs & Ecfg & Dd & Dm & Q1 & Q2 & Q3 & Q4 & Q5 & Q6 & Q7 & Q8 & Q9 & Q10 & Q11 & Hr).
  rewrite Ecfg.
  assert (Hnon : exists w2 nonce, open_nonce E w1 d = (w2, nonce) /\
    d_data (dir_of w2 d) = Some ino /\ meta_ok w2 d nonce /\
    w_insts w2 = w_insts w /\ w_handles w2 = w_handles w /\ w_reg w2 = w_reg w /\ w_poison w2 = w_poison w /\
    w_next_inst w2 = w_next_inst w /\ w_next_ino w2 = w_next_ino w1 /\
    (forall d', d' <> d -> dir_of w2 d' = dir_of w d') /\ (forall j, inode w2 j = inode w1 j) /\
    exists s, s_file s = inode w2 ino /\ r_ok (feature_codec F (kof d) nonce) s rs n).
  { unfold open_nonce, meta_ok in *. destruct F as [|A] eqn:EF; cbn [is_encrypted].
    - exists w1, []. split_and!; auto.
      destruct Q11 as [(nonce & s & _ & Hs & HW)|[(-> & ->)|(-> & _ & Hu)]]; [| |destruct (Hu 0) as (s & Hs & HW); rewrite EF in HW; exists s; split; [exact Hs|exact HW]].
      + exists s. split; [exact Hs|exact HW].
      + destruct (r_fresh (feature_codec FPlain (kof d) []) HE) as (s & Hs & HW). exists s. split; [exact Hs|].
        eapply r_mono; [|exact HW]. lia.
    - pose proof (eo_rng _ HE (w_rng w1)) as Hrng.
      assert (Hn : exists nonce, init_nonce (d_meta (dir_of w1 d)) (e_rng E (w_rng w1)) = (nonce, nonce) /\
                 length nonce = nonce_len /\
                 (forall n0, d_meta (dir_of w d) = Some n0 -> length n0 = nonce_len -> nonce = n0) /\
                 (d_meta (dir_of w d) = None -> exists i, nonce = e_rng E i)).
      { unfold init_nonce. rewrite Dm. destruct (d_meta (dir_of w d)) as [n0|].
        - destruct (Nat.eqb_spec (length n0) nonce_len) as [Hl|Hl].
          + exists n0. split_and!; auto; [congruence|discriminate].
          + eexists. split_and!; [reflexivity|exact Hrng| |discriminate]. intros n1 [= <-] Hn1. congruence.
        - eexists. split_and!; [reflexivity|exact Hrng|discriminate|eauto]. }
      destruct Hn as (nonce & En & Hlen & Hsame & Hnew). rewrite En.
      eexists _, nonce. split; [reflexivity|]. split_and!; try assumption; cbn [w_next_ino]; auto.
      + erewrite dir_of_insert by reflexivity. destruct (decide (d = d)); [exact Dd|congruence].
      + erewrite dir_of_insert by reflexivity. destruct (decide (d = d)); [reflexivity|congruence].
      + intros d' Hne. erewrite dir_of_insert by reflexivity. destruct (decide (d = d')); [congruence|].
        apply Q8. congruence.
      + change (exists s, s_file s = inode w1 ino /\ r_ok (feature_codec (FEncrypted A) (kof d) nonce) s rs n).
        destruct Q11 as [(n0 & s & [Hm0 Hl0] & Hs & HW)|[(-> & ->)|(-> & Hm0 & Hu)]];
          [| |destruct (Hnew Hm0) as (i & ->); destruct (Hu i) as (s & Hs & HW); rewrite EF in HW; exists s; split; [exact Hs|exact HW]].
        * rewrite (Hsame n0 Hm0 Hl0). exists s. split; [exact Hs|exact HW].
        * destruct (r_fresh (feature_codec (FEncrypted A) (kof d) nonce) HE) as (s & Hs & HW). exists s. split; [exact Hs|].
          eapply r_mono; [|exact HW]. lia. }
  destruct Hnon as (w2 & nonce & Enon & Dd2 & Dm2 & R1 & R2 & R3 & R4 & R5 & R6 & R7 & R8 & s0 & Hs0 & HW).
  rewrite Enon.
  destruct (r_open (feature_codec F (kof d) nonce) s0 rs n (w_seed w2) HE (feature_law F (kof d) nonce (eo_feat _ HE)) HW)
    as (s & Eo & Fs & MLs & POs).
  rewrite Hs0 in Eo. rewrite Eo.
  eexists w2, _. split; [reflexivity|]. cbn [i_dir i_queue i_ino].
  split_and!; auto.
  - intros Hd0 H0. split; cbn [i_valid i_poison i_io i_sender i_join i_key i_dir i_ino i_nonce i_queue i_map]; auto.
    exists [], rs, n. cbn [map length fold_left].
    split_and!; auto.
    + eapply r_ext; [..|exact HW]; cbn; congruence.
    + lia.
    + intros j Hj. exists S. replace (0 - j)%nat with 0%nat by lia. split; [exact H0|].
      rewrite take_nil. exact Hr.
  - lia.
  - intros j Hj Hh. rewrite R8. apply Q9; assumption.
  - destruct Q10 as [(X1 & X2)|(X1 & X2 & X3 & X4)].
    + left. rewrite R6. auto.
    + right. rewrite R6, R8. auto.
Qed.

End WorldInv.
