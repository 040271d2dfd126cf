(** C120: concrete schedules of the block store on top of the kernel AIO queue. *)

From Coq Require Import ZArith List Bool Arith Lia.
From Verif Require Import WriterProofs.
From Verif Require Import AllocModel ManagerModel ManagerSpec FileModel StoreModel StoreSpec StoreProofs2 StoreProps StoreAModel StoreASpec StoreAProofs StoreAProps.
From Verif Require StoreQModel StoreQProps.
From Verif Require Import LioModel LioProofs AioXferModel.
From Verif Require Import StoreAModel.
Import ListNotations.

(** Moves of the threads of the queue. *)
Inductive qmove := QSignal | QPWait | QPFirst | QPStop | QPAcquire | QPMore | QPLast | QPSubmit | QPSignal | QWWait | QWGet | QWComp | QWHandle
| QCComplete | QCWait.

Definition is_nil {A} (l : list A) : bool := match l with [] => true | _ => false end.
Lemma nil_spec : forall A (l : list A), is_nil l = true -> l = [].
Proof. intros A [|]; cbn; auto; discriminate. Qed.
Lemma nil_not : forall A (l : list A), is_nil l = false -> l <> [].
Proof. intros A [|]; cbn; try discriminate. Qed.

Definition qexec (max : nat) (m : qmove) (q : st) : option st :=
  if crashed q then None else
  match m with
  | QSignal => match adders q with S n => Some (set_adders (set_wt q (S (wt q))) n) | O => None end
  | QPWait => match poster q, wt q with P_idle, S n => Some (set_poster (set_wt q n) P_got) | _, _ => None end
  | QPFirst => if lock q then None else match poster q, waiting q with
      | P_got, i :: w => Some (set_lock (set_poster (set_waiting q w) (P_coll [i])) true) | _, _ => None end
  | QPStop => match poster q with
      | P_coll r => if is_nil (waiting q) then Some (set_lock (set_poster q (P_free r)) false) else None | _ => None end
  | QPAcquire => match poster q with
      | P_coll r => if is_nil (waiting q) then None else if Nat.leb (1 + 1) (fr q) then Some (set_poster (set_fr q (fr q - 1)) (P_coll2 r)) else None
      | _ => None end
  | QPMore => match poster q, wt q, waiting q with
      | P_coll2 r, S n, i :: w => Some (set_poster (set_waiting (set_wt q n) w) (P_coll (r ++ [i]))) | _, _, _ => None end
  | QPLast => match poster q, fr q with P_free r, S n => Some (set_poster (set_fr q n) (P_sub r)) | _, _ => None end
  | QPSubmit => match poster q with
      | P_sub a => if is_nil a then None else
          Some (set_poster (log_submitted (set_kernel q (infl q ++ a) (dn q)) a) (P_sig (length a) []))
      | _ => None end
  | QPSignal => match poster q with P_sig n [] => Some (set_poster (set_po q (po q + n)) P_idle) | _ => None end
  | QWWait => match waiter q, po q with W_idle, S n => Some (set_waiter (set_po q n) W_get) | _, _ => None end
  | QWGet => match waiter q with
      | W_get => if (Nat.leb 1 (length (dn q)) && Nat.leb (length (dn q)) max)%bool then
          Some (set_waiter (log_reaped (set_kernel q (infl q) []) (dn q)) (W_comp (dn q))) else None
      | _ => None end
  | QWComp => match waiter q with W_comp e => Some (set_waiter (set_po q (S (po q))) (W_han (H_free e))) | _ => None end
  | QWHandle => match waiter q with
      | W_han (H_free evs) => Some (set_waiter (set_fr q (fr q + length evs)) (W_han (H_comp evs (length evs))))
      | W_han (H_comp (i :: rem) k) => Some (set_waiter (complete q i false) (W_han (H_comp rem k)))
      | W_han (H_comp [] k) => Some (set_waiter q (W_han (H_wait k)))
      | W_han (H_wait k) => if Nat.leb k (po q) then Some (set_waiter (set_po q (po q - k)) W_idle) else None
      | _ => None end
  | QCComplete => match cancelers q with C_compl i :: y => Some (set_cancelers (complete q i true) (C_wait i :: y)) | _ => None end
  | QCWait => match cancelers q, wt q with C_wait i :: y, S n => Some (set_cancelers (set_wt q n) y) | _, _ => None end
  end.

Ltac cases X := repeat match type of X with
  | match ?e with _ => _ end = _ => let E := fresh "E" in destruct e eqn:E; try discriminate X
  end.

Lemma qexec_ok : forall max ps m q q', qexec max m q = Some q' -> step max false ps q q' /\ quiet q q'.
Proof.
  intros max ps m q q' H. unfold qexec in H. destruct (crashed q) eqn:Cr; [discriminate|].
  destruct m; cases H; inversion H; subst q'; clear H.
  - split; [eapply S_add_signal; eauto|]. unfold quiet; unf; fields; csplit; auto. apply incl_refl.
  - split; [eapply S_p_wait; eauto|]. unfold quiet; unf; fields; csplit; auto. apply incl_refl.
  - split; [eapply S_p_first; eauto|]. unfold quiet; unf; fields; csplit; auto. apply incl_refl.
  - split; [eapply S_p_stop; eauto; left; apply nil_spec; auto|]. unfold quiet; unf; fields; csplit; auto. apply incl_refl.
  - split; [eapply S_p_acquire; eauto; [apply nil_not; auto|apply Nat.leb_le; auto]|]. unfold quiet; unf; fields; csplit; auto. apply incl_refl.
  - split; [eapply S_p_more; eauto|]. unfold quiet; unf; fields; csplit; auto. apply incl_refl.
  - split; [eapply S_p_last; eauto|]. unfold quiet; unf; fields; csplit; auto. apply incl_refl.
  - split; [eapply (S_p_submit _ _ _ _ cbs []); eauto; [rewrite app_nil_r; auto|apply nil_not; auto]|].
    unfold quiet; unf; fields; csplit; auto. apply incl_appl, incl_refl.
  - split; [eapply (S_p_signal _ _ _ _ n []); eauto|]. unfold quiet; unf; fields; csplit; auto. apply incl_refl.
  - split; [eapply S_w_wait; eauto|]. unfold quiet; unf; fields; csplit; auto. apply incl_refl.
  - apply andb_true_iff in E0. destruct E0 as (A & B). apply Nat.leb_le in A, B.
    split; [eapply S_w_get; eauto; apply take_all|]. unfold quiet; unf; fields; csplit; auto. apply incl_refl.
  - split; [eapply S_w_compensate; eauto|]. unfold quiet; unf; fields; csplit; auto. apply incl_refl.
  - split; [apply (S_w_handle _ _ _ q _ _ _ Cr E (HS_free _ _ _))|]. unfold quiet; unf; fields; csplit; auto. apply incl_refl.
  - split; [apply (S_w_handle _ _ _ q _ _ _ Cr E (HS_end _ _ _))|]. unfold quiet; unf; fields; csplit; auto. apply incl_refl.
  - split; [apply (S_w_handle _ _ _ q _ _ _ Cr E (HS_comp _ _ _ _ _))|].
    destruct (AioXferProofs.complete_same q i false) as (_ & _ & B & C & D). unfold quiet; unf; fields. rewrite B, C, D. csplit; auto. apply incl_refl.
  - apply Nat.leb_le in E1. split; [apply (S_w_handle _ _ _ q _ _ _ Cr E (HS_wait _ _ _ E1))|]. unfold quiet; unf; fields; csplit; auto. apply incl_refl.
  - split; [apply (S_c_complete _ _ _ q [] i l Cr E)|].
    destruct (AioXferProofs.complete_same q i true) as (_ & _ & B & C & D). unfold quiet; unf; fields. rewrite B, C, E. csplit; auto; [apply incl_refl|].
    intros j [I|I]; [discriminate|]. right; auto.
  - split; [apply (S_c_wait _ _ _ q [] i l n Cr E); auto|]. unfold quiet; unf; fields; rewrite E. csplit; auto; [apply incl_refl|].
    intros j I. right; auto.
Qed.

Fixpoint cut (i : nat) (l : list nat) : option (list nat * list nat) :=
  match l with
  | [] => None
  | j :: l' => if Nat.eqb j i then Some ([], l') else match cut i l' with Some (a, b) => Some (j :: a, b) | None => None end
  end.
Lemma cut_ok : forall i l a b, cut i l = Some (a, b) -> l = a ++ i :: b.
Proof.
  intros i. induction l as [|j l IH]; intros a b H; cbn in H; [discriminate|].
  destruct (Nat.eqb_spec j i) as [->|D]; [inversion H; subst; auto|].
  destruct (cut i l) as [[a' b']|]; inversion H; subst. cbn. f_equal. auto.
Qed.

Fixpoint find_fly (i : nat) (l : list (nat * rq)) : option (nat * rq) :=
  match l with
  | [] => None
  | (j, x) :: l' => if Nat.eqb j i then Some (0%nat, x) else option_map (fun p => (S (fst p), snd p)) (find_fly i l')
  end.
Lemma find_fly_ok : forall i l k x, find_fly i l = Some (k, x) -> nth_error l k = Some (i, x).
Proof.
  intros i. induction l as [|[j y] l IH]; intros k x H; cbn in H; [discriminate|].
  destruct (Nat.eqb_spec j i) as [->|D].
  - inversion H; subst. reflexivity.
  - destruct (find_fly i l) as [[k' x']|]; inversion H; subst. cbn. auto.
Qed.

(** A move of the queue; a post; the kernel finishes a request; one is removed; one is known to be
    finished; a call. *)
Inductive amove :=
| MQ (m : qmove)
| MP (c i : nat) (o : sop)
| MK (i : nat) (a : answers)
| ME (i : nat)
| MT (c i : nat) (b : bool)
| MC (o : sop).

Definition aexec (max ba : nat) (m : amove) (s : world) : option (option happening * world) :=
  match m with
  | MQ m => match qexec max m (a_q s) with Some q' => Some (None, MkA (a_client s) (a_disks s) (a_fly s) q') | None => None end
  | MP c i o =>
      if (crashed (a_q s) || lock (a_q s) || existsb (Nat.eqb i) (added (a_q s)))%bool then None else
      match store_step ba (as_store s) o with
      | Some (_, e) => match request_of e with
          | Some x => Some (Some (KPost c i e), MkA (a_client s) (a_disks s) (a_fly s ++ [(i, x)])
              (set_adders (log_added (set_waiting (a_q s) (waiting (a_q s) ++ [i])) i) (S (adders (a_q s)))))
          | None => None
          end
      | None => None
      end
  | MK i a =>
      if crashed (a_q s) then None else
      match cut i (infl (a_q s)), find_fly i (a_fly s) with
      | Some (l1, l2), Some (k, x) => match store_step ba (as_store s) (SServe a k) with
          | Some (s1, e) => Some (Some (KEnd i a e), MkA (st_client s1) (st_disks s1) (remove_nth k (a_fly s)) (set_kernel (a_q s) (l1 ++ l2) (dn (a_q s) ++ [i])))
          | None => None
          end
      | _, _ => None
      end
  | ME i =>
      if (crashed (a_q s) || lock (a_q s))%bool then None else
      match cut i (waiting (a_q s)), find_fly i (a_fly s) with
      | Some (l1, l2), Some (k, x) => Some (Some (KErased i), MkA (a_client s) (a_disks s) (remove_nth k (a_fly s))
          (set_cancelers (set_waiting (a_q s) (l1 ++ l2)) (C_compl i :: cancelers (a_q s))))
      | _, _ => None
      end
  | MT c i b => if existsb (fun p => Nat.eqb (fst p) i && Bool.eqb (snd p) b)%bool (handled (a_q s)) then Some (Some (KTold c i b), s) else None
  | MC o =>
      if StoreQModel.is_call o then
        match store_step ba (as_store s) o with
        | Some (s1, e) => Some (Some (KCall o e), MkA (st_client s1) (st_disks s1) (a_fly s) (a_q s))
        | None => None
        end
      else None
  end.

Lemma aexec_ok : forall max ps ba m s ho s', aexec max ba m s = Some (ho, s') -> StoreAModel.astep max ps ba s ho s'.
Proof.
  intros max ps ba m s ho s' H. destruct m as [m|c i o|i a|i|c i b|o]; cbn [aexec] in H.
  - destruct (qexec max m (a_q s)) as [q'|] eqn:X; inversion H; subst. destruct (qexec_ok max ps _ _ _ X). apply AQuiet; auto.
  - destruct (crashed (a_q s)) eqn:Cr; [discriminate|]. destruct (lock (a_q s)) eqn:Lk; [discriminate|].
    destruct (existsb (Nat.eqb i) (added (a_q s))) eqn:Ex; [discriminate|]. cbn [orb] in H.
    destruct (store_step ba (as_store s) o) as [[s1 e]|] eqn:So; [|discriminate]. destruct (request_of e) as [x|] eqn:Rx; inversion H; subst.
    eapply APost; eauto. apply S_add; auto. apply existsb_cnt in Ex. rewrite cnt_In. lia.
  - destruct (crashed (a_q s)) eqn:Cr; [discriminate|]. destruct (cut i (infl (a_q s))) as [[l1 l2]|] eqn:Cu; [|discriminate].
    destruct (find_fly i (a_fly s)) as [[k x]|] eqn:Fk; [|discriminate].
    destruct (store_step ba (as_store s) (SServe a k)) as [[s1 e]|] eqn:So; inversion H; subst. apply cut_ok in Cu.
    apply (AEnd max ps ba s _ l1 i l2 a k x s1 e); auto.
    + apply (S_kernel max false ps (a_q s) l1 i l2); auto.
    + apply find_fly_ok; auto.
  - destruct (crashed (a_q s)) eqn:Cr; [discriminate|]. destruct (lock (a_q s)) eqn:Lk; [discriminate|]. cbn [orb] in H.
    destruct (cut i (waiting (a_q s))) as [[l1 l2]|] eqn:Cu; [|discriminate].
    destruct (find_fly i (a_fly s)) as [[k x]|] eqn:Fk; inversion H; subst. apply cut_ok in Cu.
    apply (AErased max ps ba s _ i k x); auto.
    + apply (S_c_erase max false ps (a_q s) l1 i l2); auto.
    + apply find_fly_ok; auto.
  - match type of H with (if ?e then _ else _) = _ => destruct e eqn:Ex end; inversion H; subst. apply ATold. apply existsb_exists in Ex.
    destruct Ex as ([j b'] & I & E). cbn in E. apply andb_true_iff in E. destruct E as (E1 & E2). apply Nat.eqb_eq in E1. apply eqb_prop in E2. subst. auto.
  - destruct (StoreQModel.is_call o) eqn:Ic; [|discriminate]. destruct (store_step ba (as_store s) o) as [[s1 e]|] eqn:So; inversion H; subst.
    eapply ACall; eauto.
Qed.

Definition note (ho : option happening) (t : list happening) : list happening := match ho with Some h => h :: t | None => t end.
Fixpoint arun (max ba : nat) (ms : list amove) (t : list happening) (s : world) : option (list happening * world) :=
  match ms with
  | [] => Some (t, s)
  | m :: ms' => match aexec max ba m s with Some (ho, s') => arun max ba ms' (note ho t) s' | None => None end
  end.
Definition sane (n : nat) (h : happening) : Prop :=
  match h with KCall (SNew tsize f off sizes) _ => valid_mop n (MNew tsize f off sizes) | _ => True end.
Definition sane_move (n : nat) (m : amove) : Prop :=
  match m with MC (SNew tsize f off sizes) => valid_mop n (MNew tsize f off sizes) | _ => True end.
Lemma arun_ok : forall max ps ba w0 n ms t s t' s', history max ps ba w0 t s -> arun max ba ms t s = Some (t', s') ->
  Forall (sane n) t -> Forall (sane_move n) ms -> history max ps ba w0 t' s' /\ Forall (sane n) t'.
Proof.
  intros max ps ba w0 n. induction ms as [|m ms IH]; intros t s t' s' H E Sa Sm; cbn in E; [inversion E; subst; auto|].
  inversion Sm as [|? ? S1 S2]; subst.
  destruct (aexec max ba m s) as [[ho s1]|] eqn:X; [|discriminate].
  assert (Sh : match ho with Some h => sane n h | None => True end).
  { destruct m as [m|c i o|i a|i|c i b|o]; cbn [aexec] in X; cases X; inversion X; subst; try exact Logic.I. destruct o; exact S1 || exact Logic.I. }
  apply (aexec_ok max ps) in X. destruct ho as [h|]; cbn [note] in E.
  - eapply IH; [|exact E|constructor; auto|auto]. eapply HaSome; eauto.
  - eapply IH; [|exact E|auto|auto]. eapply HaSilent; eauto.
Qed.

(** The rules, computed. *)
Definition knows (t : list happening) : list nat := flat_map (fun h => match h with KTold _ i _ => [i] | _ => [] end) t.
Definition still_open (t : list happening) : list rq :=
  flat_map (fun h => match h with
    | KPost c i e => match request_of e with Some x => if existsb (Nat.eqb i) (knows t) then [] else [x] | None => [] end
    | _ => []
    end) t.
Lemma unfinished_open : forall t x, unfinished t x -> In x (still_open t).
Proof.
  intros t x (c & i & e & I & Rx & N). unfold still_open. apply in_flat_map. eexists. split; [exact I|]. cbn. rewrite Rx.
  destruct (existsb (Nat.eqb i) (knows t)) eqn:E; [|left; auto]. exfalso.
  apply existsb_exists in E. destruct E as (i' & J & E). apply Nat.eqb_eq in E. subst i'.
  unfold knows in J. apply in_flat_map in J. destruct J as (h & J & K). destruct h; try (destruct K; fail). destruct K as [->|[]]. eapply N; eauto.
Qed.
Definition mindsb (t : list happening) (h : happening) : bool :=
  match h with
  | KPost _ _ (EWrite b d) => Z.eqb (Z.of_nat (length d)) (b_size b) && forallb (fun x => negb (bid_eqb (rq_bid x) b)) (still_open t)
  | KPost _ _ (ERead b) => forallb (fun x => match rq_data x with Some _ => negb (bid_eqb (rq_bid x) b) | None => true end) (still_open t)
  | KCall _ (EDelete b) => forallb (fun x => negb (bid_eqb (rq_bid x) b)) (still_open t)
  | _ => true
  end.
Fixpoint followsb (t : list happening) : bool := match t with [] => true | h :: t' => mindsb t' h && followsb t' end.
Lemma followsb_ok : forall n t, followsb t = true -> Forall (sane n) t -> follows n t.
Proof.
  intros n. induction t as [|h t IH]; intros H Sa newer h' older E; [destruct newer; discriminate|].
  cbn in H. apply andb_true_iff in H. destruct H as (H1 & H2). inversion Sa as [|? ? Sa1 Sa2]; subst.
  destruct newer as [|y newer]; cbn in E; inversion E; subst; [|eapply IH; eauto].
  assert (All : forall b x, forallb (fun x => negb (bid_eqb (rq_bid x) b)) (still_open older) = true -> unfinished older x -> rq_bid x <> b).
  { intros b x A U. rewrite forallb_forall in A. apply StoreQProps.bid_neqb, A, unfinished_open. auto. }
  destruct h' as [c i e|i a e|i|c i b|o e]; cbn; auto.
  - destruct e as [bs|b|b d|b|b ok|b d]; auto; cbn in H1.
    + apply andb_true_iff in H1. destruct H1 as (A & B). apply Z.eqb_eq in A. split; auto.
    + intros x U D. rewrite forallb_forall in H1. specialize (H1 _ (unfinished_open _ _ U)). destruct (rq_data x); [|congruence].
      apply StoreQProps.bid_neqb; auto.
  - destruct o; auto; destruct e; auto; cbn in H1; intros x U; apply All; auto.
Qed.

(** The poster takes one request, or two; the waiter handles one, or two. *)
Definition q_post1 : list amove := map MQ [QSignal; QPWait; QPFirst; QPStop; QPLast; QPSubmit; QPSignal].
Definition q_post2 : list amove := map MQ [QSignal; QSignal; QPWait; QPFirst; QPAcquire; QPMore; QPStop; QPLast; QPSubmit; QPSignal].
Definition q_wait (n : nat) : list amove := map MQ ([QWWait; QWGet; QWComp; QWHandle] ++ repeat QWHandle n ++ [QWHandle; QWHandle]).

(** Client 0 writes block 1 and client 1 writes block 2; both are in the kernel together, and are
    finished in the other order.  Client 1 writes block 2 again and cancels that in time, then both
    read their blocks. *)
Definition moves120 : list amove :=
  [MC (SNew 4 stripe92 0 [4; 4; 4]%Z); MP 0 0 (SWrite 1 [1; 2; 3; 4]%Z); MP 1 1 (SWrite 2 [5; 6; 7; 8]%Z)] ++ q_post2 ++
  [MK 1 ok92; MK 0 ok92] ++ q_wait 2 ++ [MT 0 0 false; MT 1 1 false; MP 1 2 (SWrite 2 [9; 9; 9; 9]%Z); MQ QSignal; ME 2; MQ QCComplete; MQ QCWait; MT 1 2 true] ++
  [MP 1 3 (SRead 2)] ++ q_post1 ++ [MP 0 4 (SRead 1)] ++ q_post1 ++
  [MK 4 ok92; MK 3 ok92] ++ q_wait 2 ++ [MT 0 4 false; MT 1 3 false].
Definition t120 : list happening := match arun 2 4 moves120 [] (begin 2 start92) with Some (t, _) => t | None => [] end.
Definition b120 (d : nat) : bid := mk_bid (Managed d) 0 4 4.

Lemma valid120 : Forall (sane_move (length cfgs92)) moves120.
Proof.
  unfold moves120. apply Forall_cons.
  - split; [exact stripe92_lt|]. intros z Hz. cbn in Hz. destruct Hz as [<-|[<-|[<-|[]]]]; lia.
  - repeat (apply Forall_cons || apply Forall_nil || (apply Forall_app; split)); cbn; auto.
Qed.

Example C120_case : setup cfgs92 disks92 start92 /\ working ok92 /\
  (exists s, history 2 false 4 (begin 2 start92) t120 s) /\ follows (length cfgs92) t120 /\
  let w := KPost 1 1 (EWrite (b120 2) [5; 6; 7; 8]%Z) in let w' := KPost 1 2 (EWrite (b120 2) [9; 9; 9; 9]%Z) in
  t120 = [KTold 1 3 false; KTold 0 4 false; KEnd 3 ok92 (EReadDone (b120 2) (Some (map Some [5; 6; 7; 8]%Z)));
          KEnd 4 ok92 (EReadDone (b120 1) (Some (map Some [1; 2; 3; 4]%Z))); KPost 0 4 (ERead (b120 1))] ++
    KPost 1 3 (ERead (b120 2)) ::
    [KTold 1 2 true; KErased 2; w'; KTold 1 1 false; KTold 0 0 false; KEnd 0 ok92 (EWritten (b120 1) true); KEnd 1 ok92 (EWritten (b120 2) true)] ++
    w :: [KPost 0 0 (EWrite (b120 1) [1; 2; 3; 4]%Z); KCall (SNew 4 stripe92 0 [4; 4; 4]%Z) (EAlloc [b120 0; b120 1; b120 2])].
Proof.
  assert (HH : exists s, history 2 false 4 (begin 2 start92) t120 s /\ Forall (sane (length cfgs92)) t120).
  { unfold t120. destruct (arun 2 4 moves120 [] (begin 2 start92)) as [[t s]|] eqn:X; [|exfalso; vm_compute in X; discriminate].
    exists s. eapply arun_ok; [constructor|exact X|constructor|exact valid120]. }
  destruct HH as (s & H & Sa).
  split; [exact setup92|]. split; [intros i; split; [|split]; exists 2%nat; reflexivity|].
  split; [eauto|]. split; [apply followsb_ok; [vm_compute; reflexivity|auto]|].
  vm_compute. reflexivity.
Qed.

(** An error of the kernel is not noticed: the request counts as finished, not as canceled, and
    the block does not have the data. *)
Definition bad120 : answers := mk_answers (fun _ => Xfer 3) (fun _ => Xfer 3) (fun _ => Fail).
Definition moves120b : list amove :=
  [MC (SNew 4 stripe92 0 [4; 4]%Z); MP 0 0 (SWrite 1 [1; 2; 3; 4]%Z)] ++ q_post1 ++ [MK 0 bad120] ++
  q_wait 1 ++ [MT 0 0 false].

Theorem C120_error_refuted : ~ (forall max ps ba cfgs disks s0 t s c i a e, (1 <= ba)%nat -> setup cfgs disks s0 ->
  history max ps ba (begin max s0) t s -> follows (length cfgs) t -> In (KTold c i false) t -> In (KEnd i a e) t -> went e = true).
Proof.
  intros H. destruct (arun 2 4 moves120b [] (begin 2 start92)) as [[t s]|] eqn:X; [|vm_compute in X; discriminate].
  assert (Hh : history 2 false 4 (begin 2 start92) t s /\ Forall (sane (length cfgs92)) t).
  { apply (arun_ok 2 false 4 (begin 2 start92) (length cfgs92) moves120b [] _ _ _ (HaNil _ _ _ _) X); [constructor|].
    unfold moves120b. apply Forall_cons.
    - split; [exact stripe92_lt|]. intros z Hz. cbn in Hz. destruct Hz as [<-|[<-|[]]]; lia.
    - repeat (apply Forall_cons || apply Forall_nil || (apply Forall_app; split)); cbn; auto. }
  destruct Hh as (Hh & Sa).
  assert (Et : t = match arun 2 4 moves120b [] (begin 2 start92) with Some (t, _) => t | None => [] end) by (rewrite X; auto).
  assert (F : follows (length cfgs92) t) by (apply followsb_ok; [rewrite Et; vm_compute; reflexivity|auto]).
  assert (T : In (KTold 0 0 false) t) by (rewrite Et; vm_compute; auto).
  assert (K : In (KEnd 0 bad120 (EWritten (b120 1) false)) t) by (rewrite Et; vm_compute; auto).
  pose proof (H 2%nat false 4%nat _ _ _ _ _ _ _ _ _ ltac:(lia) setup92 Hh F T K) as W. discriminate.
Qed.
Print Assumptions C120_error_refuted.

(** Without the rules, what is read is not what was last written: block 0 is written, read, and
    written again without waiting for the read; both are in the kernel together. *)
Definition rude120 : list amove :=
  [MC (SNew 4 stripe92 0 [4]%Z); MP 0 0 (SWrite 0 [1; 1; 1; 1]%Z)] ++ q_post1 ++ [MK 0 ok92] ++ q_wait 1 ++
  [MT 0 0 false; MP 0 1 (SRead 0); MP 0 2 (SWrite 0 [2; 2; 2; 2]%Z)] ++ q_post2 ++ [MK 1 ok92].

Theorem C120_rules_needed_refuted : ~ (forall max ps ba cfgs disks s0 newer i a b x older s d, (1 <= ba)%nat -> setup cfgs disks s0 ->
  history max ps ba (begin max s0) (newer ++ KEnd i a (EReadDone b (Some x)) :: older) s ->
  expected (events older) b = Some d -> x = map Some d).
Proof.
  intros H. destruct (arun 2 4 rude120 [] (begin 2 start92)) as [[t s]|] eqn:X; [|vm_compute in X; discriminate].
  assert (Hh : history 2 false 4 (begin 2 start92) t s).
  { apply (arun_ok 2 false 4 (begin 2 start92) (length cfgs92) rude120 [] _ _ _ (HaNil _ _ _ _) X); [constructor|].
    unfold rude120. apply Forall_cons.
    - split; [exact stripe92_lt|]. intros z Hz. cbn in Hz. destruct Hz as [<-|[]]; lia.
    - repeat (apply Forall_cons || apply Forall_nil || (apply Forall_app; split)); cbn; auto. }
  assert (Et : t = match arun 2 4 rude120 [] (begin 2 start92) with Some (t, _) => t | None => [] end) by (rewrite X; auto).
  assert (K : exists older, t = KEnd 1 ok92 (EReadDone (b120 0) (Some (map Some [1; 1; 1; 1]%Z))) :: older /\ expected (events older) (b120 0) = Some [2; 2; 2; 2]%Z).
  { exists (tl t). rewrite Et. split; vm_compute; reflexivity. }
  destruct K as (older & K1 & K2). rewrite K1 in Hh.
  pose proof (H 2%nat false 4%nat _ _ _ [] _ _ _ _ _ _ _ ltac:(lia) setup92 Hh K2) as Z. discriminate.
Qed.
Print Assumptions C120_rules_needed_refuted.
