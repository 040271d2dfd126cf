(** C117: clients that wait see a sequential machine on top of the kernel AIO queue; but an error
    of the kernel is not reported to them. *)

From Coq Require Import ZArith List Bool Lia.
From Verif Require Import WriterProofs LioModel LioSpec LioProofs LioProofs2 AioXferModel AioXferSpec AioXferProofs.
From Verif Require AsyncModel AsyncSpec AsyncProofs AsyncProps XferProofs XferProps.
Import ListNotations.

(** The queue, its threads and the kernel, with any scheduling, transfer bytes as AsyncModel says. *)
Theorem C117_refines : forall max ps kf w t s, history max ps kf (begin max w) t s ->
  exists x, AsyncModel.run (AsyncModel.MkS w []) (views t) x /\ forall l, AsyncModel.s_val x l = a_val s l.
Proof.
  intros max ps kf w t s H. destruct (inv_history max ps kf w t s H) as (x & V). exists x. split.
  - apply (u_run _ _ _ _ _ _ V).
  - rewrite (u_val _ _ _ _ _ _ V). auto.
Qed.
Print Assumptions C117_refines.

(** Requests under way are posted, and nobody was told their end. *)
Lemma under_way : forall max ps w t s x c i q, inv max ps w t s x -> In (c, i, q) (AsyncSpec.pending [] (views t)) ->
  In (APost c i q) t /\ forall c', ~ In (ATold c' i) t.
Proof.
  intros max ps w t s x c i q V I. rewrite <- (u_pend _ _ _ _ _ _ V) in I. unfold AsyncProofs.pend in I. apply in_map_iff in I.
  destruct I as (e & E & Ie). unfold AsyncProofs.tag in E. inversion E; subst. destruct (u_fits _ _ _ _ _ _ V e Ie) as (X1 & X2 & _).
  split; [apply (u_par _ _ _ _ _ _ V); auto|]. intros c' H. destruct (u_told _ _ _ _ _ _ V _ _ H) as (b & B).
  exact (handled_landed _ _ _ _ (inv_reach _ _ _ (u_reach _ _ _ _ _ _ V)) B X2).
Qed.

Lemma history_prefix : forall max ps kf s0 t s, history max ps kf s0 t s -> forall u v, t = u ++ v -> exists s1, history max ps kf s0 u s1.
Proof.
  intros max ps kf s0 t s H. induction H as [|t s s' H IH St|t s h s' H IH St]; intros u v E.
  - destruct u; [|discriminate]. exists s0. constructor.
  - eauto.
  - destruct v as [|y v] using rev_ind.
    + rewrite app_nil_r in E. subst u. exists s'. eapply HaSome; eauto.
    + clear IHv. rewrite app_assoc in E. apply app_inj_tail in E. destruct E as (E & _). eauto.
Qed.

Lemma split_part : forall c t t1 l t2, AsyncSpec.part c (views t) = t1 ++ l :: t2 ->
  exists u h v, t = u ++ h :: v /\ view h = [l] /\ AsyncSpec.part c (views u) = t1 /\ AsyncSpec.client_of l = c.
Proof.
  intros c. induction t as [|h t IH]; intros t1 l t2 E; [destruct t1; discriminate|].
  cbn [views flat_map] in E. fold (views t) in E. rewrite AsyncProofs.part_app in E.
  assert (V : (view h = [] \/ exists m, view h = [m])) by (destruct h as [| c0 r0 []| | | |]; cbn; eauto).
  assert (St : forall p, AsyncSpec.part c (view h) = p -> AsyncSpec.part c (views t) = skipn (length p) (t1 ++ l :: t2) ->
    (exists p', t1 = p ++ p') ->
    exists u h0 v, h :: t = u ++ h0 :: v /\ view h0 = [l] /\ AsyncSpec.part c (views u) = t1 /\ AsyncSpec.client_of l = c).
  { intros p Ep Et (p' & ->). rewrite <- app_assoc, skipn_app, skipn_all, Nat.sub_diag in Et. cbn in Et.
    destruct (IH _ _ _ Et) as (u & h0 & v & A & B & C & D). exists (h :: u), h0, v. subst t. csplit; auto.
    cbn [views flat_map]. fold (views u). rewrite AsyncProofs.part_app, C, Ep. auto. }
  destruct V as [V|(m & V)]; rewrite V in E; cbn [AsyncSpec.part filter] in E.
  - apply (St []); cbn; auto; [rewrite V; reflexivity|]. exists t1. auto.
  - destruct (Nat.eqb_spec (AsyncSpec.client_of m) c) as [Q|D].
    + destruct t1 as [|y t1]; cbn in E; inversion E; subst.
      * exists [], h, t. csplit; auto.
      * apply (St [y]); cbn; auto; [rewrite V; cbn; rewrite Nat.eqb_refl; reflexivity|]. exists t1. auto.
    + apply (St []); cbn; auto; [|exists t1; auto]. rewrite V. cbn. apply Nat.eqb_neq in D. rewrite D. reflexivity.
Qed.

(** A client that waits is polite. *)
Lemma waits_polite : forall max ps kf w t s c, history max ps kf (begin max w) t s -> waits c t -> AsyncSpec.polite (AsyncSpec.part c (views t)).
Proof.
  intros max ps kf w t s c H Wt t1 l t2 E. destruct (split_part _ _ _ _ _ E) as (u & h & v & Et & Eh & E1 & Ec).
  destruct (history_prefix _ _ _ _ _ _ H u (h :: v) Et) as (s1 & H1). destruct (inv_history _ _ _ _ _ _ H1) as (x & V).
  assert (K : forall d' i q, In (d', i, q) (AsyncSpec.pending [] t1) -> In (APost c i q) u /\ ~ In (ATold c i) u).
  { intros d' i q I.
    assert (Hc : d' = c).
    { rewrite <- E1 in I. change (@nil AsyncSpec.posted) with (filter (AsyncProofs.mine c) []) in I at 1.
      rewrite AsyncProofs.pending_part in I. apply filter_In in I. destruct I as (_ & I). unfold AsyncProofs.mine in I.
      cbn in I. apply Nat.eqb_eq in I. auto. }
    subst d'. rewrite <- E1 in I. apply XferProps.mine_pending in I. destruct (under_way _ _ _ _ _ _ _ _ _ V I) as (A & B). auto. }
  specialize (Wt u h v Et).
  destruct h as [c' i0 a|c' i0 []|c' i0|c' i0|c' a v'|c' a v']; cbn in Eh; inversion Eh; subst l; cbn in *; auto; subst c';
    intros d' i q I; destruct (K d' i q I) as (K1 & K2); exact (Wt i q K1 K2 eq_refl).
Qed.

(** Clients that wait for their own requests, on locations of their own, see a sequential
    machine, however the threads, the kernel and the transfers are scheduled. *)
Theorem C117_waiting : forall (own : nat -> AsyncModel.loc -> Prop) max ps kf w t s,
  (forall c d m, own c m -> own d m -> c = d) ->
  history max ps kf (begin max w) t s -> Forall (stays own) t -> (forall c, waits c t) ->
  forall c, exists w', AsyncSpec.seq_run [] w (AsyncSpec.part c (views t)) w' /\
    forall l, own c l -> (forall i a, In (APost c i a) t -> In (ATold c i) t \/ ~ AsyncSpec.changes a l) -> a_val s l = w' l.
Proof.
  intros own max ps kf w t s D H F Wt c. destruct (inv_history _ _ _ _ _ _ H) as (x & V).
  assert (Fk : Forall (AsyncSpec.keeps_to own) (views t)).
  { unfold views. rewrite Forall_forall in *. intros l I. apply in_flat_map in I. destruct I as (h & I & J).
    specialize (F h I). destruct h as [c' i0 a|c' i0 []|c' i0|c' i0|c' a v'|c' a v']; cbn in *; try tauto; (destruct J as [J|J]; [|tauto]); subst l; cbn; auto. }
  destruct (AsyncProps.C115_clients own w (views t) x D (u_run _ _ _ _ _ _ V) Fk (fun c => waits_polite _ _ _ _ _ _ c H (Wt c)) c) as (w' & Q & A).
  exists w'. split; auto. intros l Ol Hl. rewrite <- (u_val _ _ _ _ _ _ V). apply A; auto.
  intros i q I Ch. apply XferProps.mine_pending in I. destruct (under_way _ _ _ _ _ _ _ _ _ V I) as (B & C).
  destruct (Hl i q B) as [X|X]; [exact (C c X)|exact (X Ch)].
Qed.
Print Assumptions C117_waiting.

(** Who is told the end of a request: the kernel has ended it, or it was removed before the kernel
    saw it; if the kernel never fails, all its bytes were copied or none was. *)
Lemma in_views : forall l t, In l (views t) <-> exists h, In h t /\ In l (view h).
Proof. intros. unfold views. apply in_flat_map. Qed.

Lemma no_failure : forall max ps s0 t s, history max ps false s0 t s -> forall c i, ~ In (AEnd c i false) t.
Proof.
  intros max ps s0 t s H. induction H as [|t s s' H IH St|t s h s' H IH St]; intros c i I; [destruct I|eapply IH; eauto|].
  apply XferProofs.in_snoc in I. destruct I as [I|I]; [eapply IH; eauto|]. subst h. inversion St; subst. discriminate.
Qed.

Theorem C117_told : forall max ps kf w t s c c0 i a, history max ps kf (begin max w) t s ->
  In (APost c0 i a) t -> In (ATold c i) t ->
  In (AEnd c0 i true) t \/ In (AErased c0 i) t \/ (kf = true /\ In (AEnd c0 i false) t).
Proof.
  intros max ps kf w t s c c0 i a H P T. destruct (inv_history _ _ _ _ _ _ H) as (x & V).
  assert (Pv : exists u v, views t = u ++ AsyncModel.Post c0 i a :: v).
  { apply in_split. apply in_views. exists (APost c0 i a). cbn. auto. }
  destruct Pv as (u & v & Ev).
  assert (Dn : forall l, In l v -> (l = AsyncModel.Done c0 i \/ l = AsyncModel.Fail c0 i \/ l = AsyncModel.Cancel c0 i) ->
    In (AEnd c0 i true) t \/ In (AErased c0 i) t \/ (kf = true /\ In (AEnd c0 i false) t)).
  { intros l I E. assert (I' : In l (views t)) by (rewrite Ev; apply in_app_iff; right; right; auto).
    apply in_views in I'. destruct I' as (h & Ih & Il).
    assert (Kf : forall c' j, In (AEnd c' j false) t -> kf = true).
    { intros c' j J. destruct kf; auto. exfalso. exact (no_failure _ _ _ _ _ H _ _ J). }
    destruct h as [c' j a'|c' j []|c' j|c' j|c' a' v'|c' a' v']; cbn in Il; try tauto; (destruct Il as [Il|[]]); subst l;
      destruct E as [E|[E|E]]; try discriminate; inversion E; subst; eauto. }
  assert (Dec : forall l (tr : list AsyncModel.label), {In l tr} + {~ In l tr}).
  { assert (Rd : forall q q' : AsyncModel.req, {q = q'} + {q <> q'}) by (decide equality; try apply Z.eq_dec; try apply Nat.eq_dec; apply bool_dec).
    intros. apply in_dec. decide equality; try apply Nat.eq_dec; apply Z.eq_dec. }
  destruct (Dec (AsyncModel.Done c0 i) v) as [X|X1]; [eapply Dn; eauto|].
  destruct (Dec (AsyncModel.Fail c0 i) v) as [X|X2]; [eapply Dn; eauto|].
  destruct (Dec (AsyncModel.Cancel c0 i) v) as [X|X3]; [eapply Dn; eauto|].
  exfalso.
  assert (I : In (c0, i, a) (AsyncSpec.pending [] (views t))).
  { rewrite Ev. unfold AsyncSpec.pending. rewrite fold_left_app. cbn [fold_left]. apply XferProps.still_pending; auto.
    cbn [AsyncSpec.after]. apply in_app_iff. right. left. auto. }
  destruct (under_way _ _ _ _ _ _ _ _ _ V I) as (_ & N). exact (N c T).
Qed.
Print Assumptions C117_told.

(** The model restricts neither the queue nor the kernel: whatever step they could make, they make,
    after finitely many bytes have been copied. *)
Lemma copy_all : forall max ps kf s0 t i c a m s, history max ps kf s0 t s -> In i (infl (a_q s)) -> a_par s i = Some (c, a) ->
  (length (a_todo s i) <= m)%nat -> (forall k, In k (a_todo s i) -> (0 <= k < AsyncModel.r_size a)%Z) ->
  exists s', history max ps kf s0 t s' /\ a_q s' = a_q s /\ a_par s' = a_par s /\ a_todo s' i = [].
Proof.
  intros max ps kf s0 t i c a. induction m as [|m IH]; intros s H Wp P Le Rg.
  - exists s. csplit; auto. destruct (a_todo s i); auto. cbn in Le. lia.
  - destruct (a_todo s i) as [|k l] eqn:E; [exists s; auto|].
    pose proof (AX_move max ps kf s i c a k Wp P (Rg k (or_introl eq_refl))) as St.
    pose proof (HaSilent _ _ _ _ _ _ _ H St) as H'.
    match type of H' with history _ _ _ _ _ ?y => destruct (IH y H') as (s' & A & B & C & D) end; auto.
    + cbn [a_todo]. rewrite put_same, E. cbn [filter]. rewrite Z.eqb_refl. cbn [negb].
      assert (X : forall (g : Z -> bool) l, (length (filter g l) <= length l)%nat).
      { intros g. induction l0 as [|y l0 IHl]; cbn; auto. destruct (g y); cbn; lia. }
      specialize (X (fun j => negb (Z.eqb j k)) l). cbn in Le. lia.
    + cbn [a_todo]. rewrite put_same. intros j J. apply filter_In in J. rewrite E in J. apply Rg. apply J.
    + exists s'. csplit; auto.
Qed.

Theorem C117_unrestricted : forall max ps kf w t s q', history max ps kf (begin max w) t s -> step max false ps (a_q s) q' ->
  exists t' s', history max ps kf (begin max w) (t ++ t') s' /\ a_q s' = q' /\ (length t' <= 1)%nat.
Proof.
  intros max ps kf w t s q' H T. destruct (inv_history _ _ _ _ _ _ H) as (x & V).
  pose proof (inv_reach _ _ _ (u_reach _ _ _ _ _ _ V)) as I1.
  assert (Par : forall i, flying (a_q s) i -> exists c a, a_par s i = Some (c, a)).
  { intros i F. destruct (a_par s i) as [[c a]|] eqn:E; eauto. exfalso. apply (u_none _ _ _ _ _ _ V) in E. apply E.
    eapply flying_added; eauto. }
  destruct (step_kind _ _ _ _ I1 T) as [Q _ _|i K1 K2 K3 K4 K5|l1 i l2 K1 K2 K3 K4 K5|i K1 K2 K3 K4 K5].
  - exists []. rewrite app_nil_r. eexists. csplit; [eapply HaSilent; [eauto|apply AX_quiet; eauto]| |cbn; lia]. reflexivity.
  - exists [APost 0 i (AsyncModel.MkR true 0 0 0 0)]. eexists. csplit; [eapply HaSome; [eauto|eapply AX_post; eauto]| |cbn; lia]. reflexivity.
  - assert (Ii : In i (infl (a_q s))) by (rewrite K1; apply in_elt).
    assert (Fi : flying (a_q s) i) by (right; right; auto).
    destruct (Par i Fi) as (c & a & P).
    assert (Rg : forall k, In k (a_todo s i) -> (0 <= k < AsyncModel.r_size a)%Z).
    { intros k I. destruct (u_has _ _ _ _ _ _ V i Fi) as (e & Ie & Eid).
      destruct (u_fits _ _ _ _ _ _ V e Ie) as (X1 & X2 & X3 & X4). rewrite Eid, P in *. inversion X1; subst c a.
      rewrite <- X3 in I. eapply (XferProps.todo_range _ _ _ (u_run _ _ _ _ _ _ V)); eauto. cbn. intros ? ? []. }
    destruct (copy_all max ps kf _ t i c a _ s H Ii P (le_n _) Rg) as (s1 & H1 & A1 & A2 & A3).
    rewrite <- A1 in T, K1. rewrite <- A2 in P.
    exists [AEnd c i true]. eexists. csplit; [eapply HaSome; [eauto|eapply AX_end; eauto]| |cbn; lia]. reflexivity.
  - destruct (Par i) as (c & a & P); [left; auto|].
    exists [AErased c i]. eexists. csplit; [eapply HaSome; [eauto|eapply AX_erased; eauto]| |cbn; lia]. reflexivity.
Qed.
Print Assumptions C117_unrestricted.

(** Concrete executions. *)
Arguments put : simpl never.
Arguments AsyncModel.upd : simpl never.
Arguments AsyncModel.offsets : simpl never.
Arguments filter : simpl never.

Ltac side := first [reflexivity | discriminate | left; reflexivity | apply take_all
                  | cbn; lia | cbn; intuition discriminate | cbn; auto; fail].
Ltac tidy H := unf; cbn in H.
(** A step nobody sees. *)
Ltac aq_ H tac :=
  match type of H with history ?m ?p ?k ?s0 ?t ?s =>
    let X := fresh "X" in let H' := fresh "H" in
    eassert (astep m p k s None _) as X;
      [eapply AX_quiet; cbn [a_q];
        [tac; side|unf; unfold quiet; cbn; split; [reflexivity|split; [intros ?y ?Hy; try (apply in_app_iff; left); cbn; auto|cbn; intuition (try discriminate)]]]
      |pose proof (HaSilent _ _ _ _ _ _ _ H X) as H'; clear X H; rename H' into H; tidy H]
  end.
Tactic Notation "aq" hyp(H) uconstr(c) := aq_ H ltac:(eapply c).
Tactic Notation "aqh" hyp(H) uconstr(c) uconstr(d) := aq_ H ltac:(eapply c; [| |eapply d]).
(** A happening. *)
Ltac ah_ H h tac :=
  match type of H with history ?m ?p ?k ?s0 ?t ?s =>
    let X := fresh "X" in let H' := fresh "H" in
    eassert (astep m p k s (Some h) _) as X;
      [tac
      |pose proof (HaSome _ _ _ _ _ _ _ _ H X) as H'; clear X H; rename H' into H; tidy H]
  end.
Ltac post H c i a := ah_ H (APost c i a) ltac:(eapply AX_post; [cbn [a_q]; eapply (S_add _ _ _ _ i); side|unf; reflexivity]).
Ltac told H c i b := ah_ H (ATold c i) ltac:(eapply (AX_told _ _ _ _ c i b); cbn; auto 20).
Ltac poke H c a v := ah_ H (APoke c a v) ltac:(eapply AX_poke).
Ltac peek H c a v := ah_ H (APeek c a v) ltac:(eapply AX_peek).
Ltac fin H c i l1 l2 ok a := ah_ H (AEnd c i ok)
  ltac:(eapply (AX_end _ _ _ _ _ l1 i l2 c a); [cbn [a_q]; eapply (S_kernel _ _ _ _ l1 i l2); side|unf; reflexivity|unf; reflexivity|reflexivity|reflexivity]).
Ltac byte H i c a k :=
  match type of H with history ?m ?p ?kf ?s0 ?t ?s =>
    let X := fresh "X" in let H' := fresh "H" in
    eassert (astep m p kf s None _) as X;
      [eapply (AX_move _ _ _ _ i c a k); [cbn; auto 20|reflexivity|cbn; lia]
      |pose proof (HaSilent _ _ _ _ _ _ _ H X) as H'; clear X H; rename H' into H; tidy H]
  end.

Definition wr := AsyncModel.MkR true 0 0 100 2.
Definition rd := AsyncModel.MkR false 0 0 200 2.
Definition ot := AsyncModel.MkR false 1 8 300 1.

(** Client 0 writes two bytes, waits, changes the buffer and reads them back; client 1 cancels a
    request of its own meanwhile. *)
Definition ex_t : list happening :=
  [APoke 0 100 7; APoke 0 101 8; APost 0 0 wr; APost 1 2 ot; AErased 1 2; AEnd 0 0 true; ATold 0 0; ATold 1 2; APoke 0 100 1;
   APost 0 1 rd; AEnd 0 1 true; ATold 0 1; APeek 0 200 7; APeek 0 201 8].
Definition ex_own (c : nat) (l : AsyncModel.loc) : Prop :=
  match l with AsyncModel.Mem a => if (a <? 300)%Z then c = 0%nat else c = 1%nat | AsyncModel.Disk f _ => c = f end.

Definition minds (c : nat) (t1 : list happening) (h : happening) : Prop :=
  forall i a, In (APost c i a) t1 -> ~ In (ATold c i) t1 ->
  match h with
  | APost c' _ b => c' = c -> ~ AsyncSpec.conflict b a
  | APoke c' m _ => c' = c -> ~ AsyncSpec.uses a (AsyncModel.Mem m)
  | APeek c' m _ => c' = c -> ~ AsyncSpec.changes a (AsyncModel.Mem m)
  | _ => True
  end.
Fixpoint waits_from (c : nat) (t1 t : list happening) : Prop :=
  match t with [] => True | h :: t' => minds c t1 h /\ waits_from c (t1 ++ [h]) t' end.
Lemma waits_from_ok : forall c t t1, waits_from c t1 t -> forall u h v, t = u ++ h :: v -> minds c (t1 ++ u) h.
Proof.
  intros c. induction t as [|x t IH]; intros t1 H u h v E; [destruct u; discriminate|]. destruct H as (H & H2).
  destruct u as [|y u]; inversion E; subst; [rewrite app_nil_r; auto|].
  specialize (IH _ H2 u h v eq_refl). rewrite <- app_assoc in IH. exact IH.
Qed.

Example C117_case : (exists s, history 2 false false (begin 2 (fun _ => 0%Z)) ex_t s) /\
  (forall c d m, ex_own c m -> ex_own d m -> c = d) /\ Forall (stays ex_own) ex_t /\ (forall c, waits c ex_t).
Proof.
  split.
  { pose proof (HaNil 2 false false (begin 2 (fun _ => 0%Z))) as H. unfold begin at 2, init in H.
    poke H 0 100%Z 7%Z. poke H 0 101%Z 8%Z. post H 0 0 wr. post H 1 2 ot.
    ah_ H (AErased 1 2) ltac:(eapply (AX_erased _ _ _ _ _ 2 1 ot); [cbn [a_q]; eapply (S_c_erase _ _ _ _ [0] 2 []); side|unf; reflexivity|reflexivity]).
    aq H S_add_signal. aq H S_add_signal. aq H (S_c_complete _ _ _ _ [] _ []). aq H (S_c_wait _ _ _ _ [] _ []).
    aq H S_p_wait. aq H S_p_first. aq H S_p_stop. aq H S_p_last. aq H (S_p_submit _ _ _ _ [0] []). aq H S_p_signal.
    aq H S_w_wait.
    byte H 0 0 wr 1%Z. byte H 0 0 wr 1%Z. byte H 0 0 wr 0%Z. fin H 0 0 (@nil nat) (@nil nat) true wr.
    aq H S_w_get. aq H S_w_compensate. aqh H S_w_handle HS_free. aqh H S_w_handle HS_comp. aqh H S_w_handle HS_end. aqh H S_w_handle HS_wait.
    told H 0 0 false. told H 1 2 true. poke H 0 100%Z 1%Z. post H 0 1 rd. aq H S_add_signal.
    aq H S_p_wait. aq H S_p_first. aq H S_p_stop. aq H S_p_last. aq H (S_p_submit _ _ _ _ [1] []). aq H S_p_signal.
    aq H S_w_wait.
    byte H 1 0 rd 0%Z. byte H 1 0 rd 1%Z. fin H 0 1 (@nil nat) (@nil nat) true rd.
    aq H S_w_get. aq H S_w_compensate. aqh H S_w_handle HS_free. aqh H S_w_handle HS_comp. aqh H S_w_handle HS_end. aqh H S_w_handle HS_wait.
    told H 0 1 false. peek H 0 200%Z 7%Z. peek H 0 201%Z 8%Z.
    eexists. exact H. }
  split.
  { intros c d [a|f o] A B; cbn in *; [destruct (a <? 300)%Z|]; congruence. }
  split.
  { unfold ex_t. repeat (apply Forall_cons || apply Forall_nil); cbn [stays]; auto; try reflexivity;
    intros m (k & Hk & [-> | ->]); unfold AsyncModel.src, AsyncModel.dst, wr, rd, ot in *;
      cbn [AsyncModel.r_size AsyncModel.r_write AsyncModel.r_file AsyncModel.r_off AsyncModel.r_buf ex_own] in *; auto;
      match goal with |- context [(?x <? 300)%Z] => destruct (Z.ltb_spec x 300); lia end. }
  intros c u h v E. apply (waits_from_ok c ex_t []) with (v := v); auto.
  unfold ex_t. cbn [waits_from app].
  repeat (split; [unfold minds; auto|]); auto; intros i a I N E'; try (subst c); cbn in I;
    repeat (destruct I as [I|I]; [try discriminate I; inversion I; subst|]); try destruct I;
    exfalso; apply N; cbn; auto 60.
Qed.

(** An error of the kernel is lost: the event carries it, but nobody looks (linuxaio_queue.cpp
    lines 248-263), so that a client that waits is told the end of a transfer that did not take
    place. *)
Theorem C117_error_refuted :
  ~ (forall max ps kf w t s c i, history max ps kf (begin max w) t s -> In (ATold c i) t -> forall c', ~ In (AEnd c' i false) t).
Proof.
  intros K.
  pose proof (HaNil 2 false true (begin 2 (fun _ => 0%Z))) as H. unfold begin at 2, init in H.
  post H 0 0 wr. aq H S_add_signal.
  aq H S_p_wait. aq H S_p_first. aq H S_p_stop. aq H S_p_last. aq H (S_p_submit _ _ _ _ [0] []). aq H S_p_signal.
  aq H S_w_wait. byte H 0 0 wr 1%Z. fin H 0 0 (@nil nat) (@nil nat) false wr.
  aq H S_w_get. aq H S_w_compensate. aqh H S_w_handle HS_free. aqh H S_w_handle HS_comp. aqh H S_w_handle HS_end. aqh H S_w_handle HS_wait.
  told H 0 0 false.
  refine (K _ _ _ _ _ _ 0 0 H _ 0 _); cbn; auto 20.
Qed.
Print Assumptions C117_error_refuted.
