(** The invariant of the prefetching algorithm. *)
From Coq Require Import ZArith List Bool Lia Permutation Arith.
From Verif Require Import BsModel BsSpec BsProofs PfModel.
Import ListNotations.

Notation B p b := (blk (base p) b).
Definition cnt (i : nat) (l : list nat) : nat := count_occ Nat.eq_dec l i.
Definition hl (n : nat) (h : nat -> option nat) : list nat := flat_map (fun b => opt (h b)) (seq 0 n).

(** The internal block of a block: attached or reserved. *)
Definition hold (p : pst) (b : nat) : option nat :=
  match int (B p b) with
  | Some i => Some i
  | None => match sched p b with Some m => m_res m | None => None end
  end.

(** The operations of a block among those scheduled. *)
Definition proj (b : nat) (Q : list (pop_kind * nat)) : list pop_kind :=
  map fst (filter (fun x => Nat.eqb (snd x) b) Q).
Definition sops (p : pst) (b : nat) : list pop_kind :=
  match sched p b with Some m => m_ops m | None => [] end.
Definition has_acq (l : list pop_kind) : bool := existsb is_acq l.
Definition is_dei (k : pop_kind) : bool := match k with op_deinitialize => true | _ => false end.
Fixpoint nxt_acq (l : list pop_kind) : bool :=
  match l with
  | [] => false
  | k :: r => if is_acq k then true else if is_dei k then false else nxt_acq r
  end.

(** Block [t] is acquired before [g] is acquired or deinitialised. *)
Definition prec (t g : nat) (Q : list (pop_kind * nat)) : Prop :=
  exists Q1 k Q2, Q = Q1 ++ (k, t) :: Q2 /\ is_acq k = true /\
    forall k', In (k', g) Q1 -> is_acq k' = false /\ is_dei k' = false.

(** The external copy. *)
Definition dsk (p : pst) (b : nat) (x : Z) : Prop :=
  exists e, ext (B p b) = Some e /\
    match wq p b with
    | Some w => w_ph w <> Queued -> disk (base p) e = x
    | None => disk (base p) e = x
    end.

(** The handler is asked to start the read, or will do so. *)
Definition wants (w : wreq) : bool := w_shall w || match w_ph w with Go => true | _ => false end.

Lemma wants_eq w w0 : w_ph w = w_ph w0 -> w_shall w = w_shall w0 -> wants w = wants w0.
Proof. intros E1 E2. unfold wants. rewrite E1, E2. reflexivity. Qed.

(** A read into the block is in flight or will be started by the handler. *)
Definition reading (p : pst) (b : nat) : Prop :=
  (exists m k r, sched p b = Some m /\ m_read m = Some k /\ rds p k = Some r /\ r_done r = false) \/
  (exists g w, wq p g = Some w /\ wants w = true /\ w_taker w = Some b /\ w_ph w <> Over).

Definition data (L : list nat) (p : pst) (b : nat) (x : Z) : Prop :=
  match int (B p b) with
  | None => dirty (B p b) = false /\ dsk p b x
  | Some i =>
      if dirty (B p b) then mem (base p) i = x
      else dsk p b x /\ (In b L \/ mem (base p) i = x \/ reading p b)
  end.

Definition acqd (p : pst) (b : nat) (v : view) : Prop :=
  exists i, int (B p b) = Some i /\ mem (base p) i = work v /\
    (drt v = true -> dirty (B p b) = true) /\
    (dirty (B p b) = true -> drt v = true \/ val v <> None) /\
    (dirty (B p b) = false -> val v = option_map (disk (base p)) (ext (B p b))) /\
    (val v <> None -> mdf v = false -> val v = Some (work v)).

Definition taken (L : list nat) (Q : list (pop_kind * nat)) (c : client) (p : pst) (g : nat) (w : wreq)
  (t : nat) (m : meta) : Prop :=
  sched p t = Some m /\ m_giver m = (true, g) /\ hold p t = Some (w_buf w) /\
  (m_read m = None -> forall x, val (vw c g) = Some x -> mem (base p) (w_buf w) = x) /\
  (int (B p g) = None \/ t = g \/ In g L) /\
  (int (B p t) <> None -> wants w = true \/ t = g \/ In t L) /\
  (wants w = true ->
     w_start w = t /\ int (B p t) <> None /\ t <> g /\ wq p t = None /\ dirty (B p t) = false /\
     ext (B p t) <> None /\ In t (se p) /\ nxt_acq (sops p t) = true /\
     (w_ph w <> Over -> m_read m = None) /\ (w_ph w = Go -> w_shall w = true \/ In t L)).

Definition eager (Q : list (pop_kind * nat)) (c : client) (p : pst) (g : nat) (w : wreq) : Prop :=
  wants w = false /\ int (B p g) = Some (w_buf w) /\ uns p = [] /\ In g (fe p) /\
  (forall x, val (vw c g) = Some x -> mem (base p) (w_buf w) = x) /\
  keep true (sops p g) = false.

Record Inv (max : nat) (L : list nat) (Q : list (pop_kind * nat)) (c : client) (p : pst) : Prop := mkInv {
  I_cnt : forall i, cnt i (free_i (base p)) + cnt i (hl (nblk (base p)) (hold p)) =
            if Nat.ltb i (nalloc (base p)) then 1 else 0;
  I_max : nalloc (base p) + remaining (base p) = max;
  I_one : forall b m, sched p b = Some m -> int (B p b) <> None -> m_res m = None;
  I_used : forall b e, ext (B p b) = Some e -> In e (used (base p)) /\ own c e = None;
  I_inj : forall b b' e, ext (B p b) = Some e -> ext (B p b') = Some e -> b = b';
  I_own : forall e d, own c e = Some d -> In e (used (base p)) /\ disk (base p) e = d;
  I_live : forall b, live c b = true <-> b < nblk (base p) /\ ~ In b (free_s (base p));
  I_fnd : NoDup (free_s (base p));
  I_free : forall b, In b (free_s (base p)) -> b < nblk (base p);
  I_new : forall b, live c b = false -> B p b = sb_new /\ vw c b = v0;
  I_rng : forall b, nblk (base p) <= b -> sched p b = None /\ wq p b = None;
  I_simu : simu c = false;
  I_w : forall g w, wq p g = Some w ->
          rc (B p g) = 0 /\ dirty (B p g) = false /\ ext (B p g) = Some (w_ext w) /\
          match w_taker w with
          | Some t => exists m, taken L Q c p g w t m
          | None => eager Q c p g w
          end;
  I_g : forall t m g, sched p t = Some m -> m_giver m = (true, g) ->
          rc (B p t) = 0 /\ rc (B p g) = 0 /\ ~ In g (fe p) /\ prec t g Q /\
          (forall w, wq p g = Some w -> w_taker w = Some t);
  I_r : forall b m k, sched p b = Some m -> m_read m = Some k ->
          exists r, rds p k = Some r /\ int (B p b) = Some (r_buf r) /\ ext (B p b) = Some (r_ext r) /\
            rc (B p b) = 0 /\ dirty (B p b) = false /\ wq p b = None /\
            In b (se p) /\ nxt_acq (sops p b) = true /\
            (forall g w, m_giver m = (true, g) -> wq p g = Some w -> w_ph w = Over) /\
            (r_done r = true -> forall x, val (vw c b) = Some x -> mem (base p) (r_buf r) = x);
  I_k : forall k r, rds p k = Some r -> r_done r = false ->
          exists b m, sched p b = Some m /\ m_read m = Some k;
  I_kinj : forall b b' m m' k, sched p b = Some m -> m_read m = Some k ->
             sched p b' = Some m' -> m_read m' = Some k -> b = b';
  I_kn : forall k r, rds p k = Some r -> k < nrd p;
  I_rc : forall b, rc (B p b) = refs (vw c b);
  I_un : forall b, refs (vw c b) = 0 -> val (vw c b) = None -> B p b = sb_new;
  I_data : forall b x, refs (vw c b) = 0 -> val (vw c b) = Some x -> data L p b x;
  I_acq : forall b, 1 <= refs (vw c b) -> acqd p b (vw c b);
  I_ops : forall b, sops p b = proj b Q;
  I_ne : forall b m, sched p b = Some m -> m_ops m <> [];
  I_fend : NoDup (fe p);
  I_send : NoDup (se p);
  I_ev : forall b, In b (fe p) \/ In b (se p) <-> b < nblk (base p) /\ is_evictable (B p b) = true;
  I_dis : forall b, In b (fe p) -> In b (se p) -> False;
  I_fe : forall b, In b (fe p) -> keep (dirty (B p b)) (sops p b) = false;
  I_se : forall b, In b (se p) -> keep (dirty (B p b)) (sops p b) = true;
  I_res : forall b m, sched p b = Some m -> m_res m <> None -> has_acq (m_ops m) = true;
  I_nores : forall b, has_acq (sops p b) = true -> hold p b <> None;
  I_lim : forall b, In b L -> In b (se p) /\ dirty (B p b) = false /\ nxt_acq (sops p b) = true
}.

(** What the I/O threads leave alone. *)
Definition ph_le (a b : phase) : Prop :=
  match a, b with
  | Queued, _ => True
  | Written, Queued => False | Written, _ => True
  | Soon, (Soon | Go | Over) => True | Soon, _ => False
  | Go, (Go | Over) => True | Go, _ => False
  | Over, Over => True | Over, _ => False
  end.

Record io (p q : pst) : Prop := mkIo {
  io_fe : fe q = fe p; io_se : se q = se p; io_seq : pseqn q = pseqn p; io_uns : uns q = uns p;
  io_blk : forall b, B q b = B p b;
  io_free : free_i (base q) = free_i (base p);
  io_rem : remaining (base q) = remaining (base p);
  io_nal : nalloc (base q) = nalloc (base p);
  io_nblk : nblk (base q) = nblk (base p);
  io_frs : free_s (base q) = free_s (base p);
  io_used : used (base q) = used (base p);
  io_sched : forall b, match sched p b, sched q b with
               | Some m, Some m' => m_res m' = m_res m /\ m_giver m' = m_giver m /\ m_ops m' = m_ops m /\
                   (m_read m <> None -> m_read m' = m_read m)
               | None, None => True
               | _, _ => False
               end;
  io_wq : forall g, match wq p g, wq q g with
            | Some w, Some w' => w_buf w' = w_buf w /\ w_ext w' = w_ext w /\ w_shall w' = w_shall w /\
                w_start w' = w_start w /\ w_taker w' = w_taker w /\ ph_le (w_ph w) (w_ph w') /\
                (wants w' = true -> wants w = true)
            | None, None => True
            | _, _ => False
            end
}.

Lemma io_refl p : io p p.
Proof.
  constructor; auto.
  - intros b. destruct (sched p b); auto.
  - intros g. destruct (wq p g) as [w|]; auto. repeat split; auto. destruct (w_ph w); exact I.
Qed.
Lemma ph_le_trans a b c : ph_le a b -> ph_le b c -> ph_le a c.
Proof. destruct a, b, c; cbn; tauto. Qed.
Lemma io_trans p q r : io p q -> io q r -> io p r.
Proof.
  intros [] []. constructor; try congruence.
  - intros b. specialize (io_sched0 b). specialize (io_sched1 b).
    destruct (sched p b) as [m|], (sched q b) as [m'|], (sched r b) as [m''|]; try tauto.
    destruct io_sched0 as (A1 & A2 & A3 & A4), io_sched1 as (C1 & C2 & C3 & C4).
    repeat split; try congruence. intros N. rewrite C4, A4; auto. rewrite A4; auto.
  - intros g. specialize (io_wq0 g). specialize (io_wq1 g).
    destruct (wq p g) as [w|], (wq q g) as [w'|], (wq r g) as [w''|]; try tauto.
    destruct io_wq0 as (A1 & A2 & A3 & A4 & A5 & A6 & A7), io_wq1 as (C1 & C2 & C3 & C4 & C5 & C6 & C7).
    repeat split; try congruence; auto. eapply ph_le_trans; eassumption.
Qed.

(** ** Counting *)

Lemma cnt_app i l l' : cnt i (l ++ l') = cnt i l + cnt i l'.
Proof. apply count_occ_app. Qed.
Lemma cnt_in i l : In i l <-> 0 < cnt i l.
Proof. apply count_occ_In. Qed.
Lemma cnt_cons i x l : cnt i (x :: l) = (if Nat.eq_dec x i then 1 else 0) + cnt i l.
Proof. unfold cnt. cbn. destruct (Nat.eq_dec x i); reflexivity. Qed.

Lemma hl_ext n h h' : (forall b, b < n -> h' b = h b) -> hl n h' = hl n h.
Proof. intros H. apply flat_map_ext_in. intros x Hx. apply in_seq in Hx. rewrite H by lia. reflexivity. Qed.

Lemma hl_upd n h h' b i : b < n -> (forall c, c <> b -> h' c = h c) ->
  cnt i (hl n h') + cnt i (opt (h b)) = cnt i (hl n h) + cnt i (opt (h' b)).
Proof.
  intros Hb H. unfold hl.
  assert (E : seq 0 n = seq 0 b ++ b :: seq (S b) (n - S b)).
  { replace n with (b + S (n - S b)) at 1 by lia. rewrite seq_app. reflexivity. }
  rewrite E, !flat_map_app. cbn [flat_map]. rewrite !cnt_app.
  rewrite (flat_map_ext_in (fun x => opt (h' x)) (fun x => opt (h x)) (seq 0 b)).
  2:{ intros x Hx. apply in_seq in Hx. rewrite H by lia. reflexivity. }
  rewrite (flat_map_ext_in (fun x => opt (h' x)) (fun x => opt (h x)) (seq (S b) _)).
  2:{ intros x Hx. apply in_seq in Hx. rewrite H by lia. reflexivity. }
  lia.
Qed.

Lemma hl_swap n h h' b b' i : b < n -> b' < n -> b <> b' -> (forall c, c <> b -> c <> b' -> h' c = h c) ->
  h' b = h b' -> h' b' = h b -> cnt i (hl n h') = cnt i (hl n h).
Proof.
  intros Hb Hb' N H E1 E2.
  pose (k := fun c => if Nat.eqb c b then h b' else h c).
  pose proof (hl_upd n h k b i Hb) as A. pose proof (hl_upd n k h' b' i Hb') as C.
  assert (A0 : forall c, c <> b -> k c = h c).
  { intros c Hc. unfold k. destruct (Nat.eqb_spec c b); [contradiction|reflexivity]. }
  assert (C0 : forall c, c <> b' -> h' c = k c).
  { intros c Hc. unfold k. destruct (Nat.eqb_spec c b); [subst; assumption|auto]. }
  specialize (A A0). specialize (C C0).
  assert (K0 : k b = h b') by (unfold k; rewrite Nat.eqb_refl; reflexivity).
  assert (K : k b' = h b') by (apply A0; auto). rewrite K0 in A. rewrite K, E2 in C. lia.
Qed.

Lemma hl_in n h b i : b < n -> h b = Some i -> 0 < cnt i (hl n h).
Proof.
  intros Hb E. apply cnt_in. apply in_flat_map. exists b. split; [apply in_seq; lia|].
  rewrite E. left. reflexivity.
Qed.

Lemma hl_two n h b c i : b < n -> c < n -> b <> c -> h b = Some i -> h c = Some i -> 2 <= cnt i (hl n h).
Proof.
  intros Hb Hc N E1 E2. pose (h' := upd h b None).
  pose proof (hl_upd n h h' b i Hb) as A.
  assert (A0 : forall c, c <> b -> h' c = h c) by (intros; apply upd_other; assumption).
  specialize (A A0). unfold h' in A at 2. rewrite upd_same, E1 in A. cbn [opt] in A.
  assert (K : 0 < cnt i (hl n h')) by (apply (hl_in n h' c); [assumption|rewrite A0; auto]).
  rewrite cnt_cons in A. destruct (Nat.eq_dec i i); [|contradiction]. cbn in A. lia.
Qed.

(** ** Lists of operations *)

Lemma keep_false l : keep false l = has_acq l.
Proof. induction l as [|k l IH]; [reflexivity|]. destruct k; cbn; auto. Qed.
Lemma keep_mono l : keep true l = false -> keep false l = false.
Proof. induction l as [|k l IH]; [reflexivity|]. destruct k; cbn; auto; discriminate. Qed.
Lemma keep_any d l : keep true l = false -> keep d l = false.
Proof. destruct d; auto using keep_mono. Qed.
Lemma has_acq_keep d l : has_acq l = true -> keep d l = true.
Proof. induction l as [|k l IH]; [discriminate|]. destruct k; cbn; auto. destruct d; auto. Qed.
Lemma keep_no_acq d l : keep d l = false -> has_acq l = false.
Proof. intros H. destruct (has_acq l) eqn:E; [|reflexivity]. rewrite (has_acq_keep d) in H; auto. Qed.
Lemma nxt_has l : nxt_acq l = true -> has_acq l = true.
Proof.
  induction l as [|k l IH]; [discriminate|]. cbn. destruct (is_acq k); [reflexivity|].
  destruct (is_dei k); [discriminate|assumption].
Qed.
Lemma keep_app d l l' : keep d (l ++ l') = keep d l || keep d l'.
Proof. induction l as [|k l IH]; [reflexivity|]. destruct k; cbn; auto. destruct d; auto. Qed.
Lemma has_acq_app l l' : has_acq (l ++ l') = has_acq l || has_acq l'.
Proof. unfold has_acq. apply existsb_app. Qed.
Lemma nxt_app l l' : nxt_acq l = true -> nxt_acq (l ++ l') = true.
Proof.
  induction l as [|k l IH]; [discriminate|]. cbn. destruct (is_acq k); [reflexivity|].
  destruct (is_dei k); [discriminate|assumption].
Qed.
Lemma proj_app b Q Q' : proj b (Q ++ Q') = proj b Q ++ proj b Q'.
Proof. unfold proj. rewrite filter_app, map_app. reflexivity. Qed.
Lemma proj_cons b k b' Q : proj b ((k, b') :: Q) = if Nat.eqb b' b then k :: proj b Q else proj b Q.
Proof. unfold proj. cbn. destruct (Nat.eqb b' b); reflexivity. Qed.
Lemma proj_in k b Q : In k (proj b Q) <-> In (k, b) Q.
Proof.
  unfold proj. rewrite in_map_iff. split.
  - intros ((k', b') & E & H). apply filter_In in H. destruct H as (H & E2). cbn in *.
    apply Nat.eqb_eq in E2. subst. assumption.
  - intros H. exists (k, b). split; [reflexivity|]. apply filter_In. split; [assumption|]. cbn. apply Nat.eqb_refl.
Qed.
Lemma prec_app t g Q Q' : prec t g Q -> prec t g (Q ++ Q').
Proof.
  intros (Q1 & k & Q2 & -> & H). exists Q1, k, (Q2 ++ Q'). rewrite <- app_assoc. split; [reflexivity|exact H].
Qed.
Lemma prec_has t g Q : prec t g Q -> has_acq (proj t Q) = true.
Proof.
  intros (Q1 & k & Q2 & -> & H & _). rewrite proj_app, proj_cons, Nat.eqb_refl, has_acq_app.
  cbn. rewrite H. cbn. apply orb_true_r.
Qed.
Lemma prec_head t g k Q : prec t g ((k, g) :: Q) -> is_acq k = true \/ is_dei k = true -> t = g /\ is_acq k = true.
Proof.
  intros (Q1 & k' & Q2 & E & H & F) Hk. destruct Q1 as [|(k1, b1) Q1].
  - injection E as -> -> _. auto.
  - injection E as <- <- _. destruct (F k (or_introl eq_refl)) as (A & D). destruct Hk; congruence.
Qed.
Lemma prec_tail t g k b Q : prec t g ((k, b) :: Q) -> ~ (is_acq k = true /\ b = t) -> prec t g Q.
Proof.
  intros (Q1 & k' & Q2 & E & H & F) N. destruct Q1 as [|x Q1].
  - exfalso. injection E as -> -> _. auto.
  - injection E as _ ->. exists Q1, k', Q2. split; [reflexivity|]. split; [assumption|]. intros k'' H2. apply F. right; assumption.
Qed.
Lemma prec_new t g k Q : is_acq k = true -> keep true (proj g Q) = false -> prec t g (Q ++ [(k, t)]).
Proof.
  intros H K. exists Q, k, []. split; [reflexivity|]. split; [assumption|]. intros k' H'.
  apply proj_in in H'. revert H'. generalize (proj g Q) as l, K. clear. induction l as [|a l IH]; cbn; [contradiction|].
  intros K [->|H]; [destruct k'; cbn in *; auto; discriminate|]. apply IH; [|assumption]. destruct a; auto; discriminate.
Qed.
