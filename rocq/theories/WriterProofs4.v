(** Buffered writer: after flush(). *)

From Coq Require Import List Arith Bool ZArith Lia Permutation.
From Verif Require Import WriterModel WriterSpec WriterProofs WriterProofs2 WriterProofs3.
Import ListNotations.

(** Buffer numbers are in range in all runs, disciplined or not. *)
Record Range {A} (n : nat) (s : wst A) : Prop := mkRange {
  g_n : w_n s = n;
  g_free : Forall (fun b => b < n) (w_free s);
  g_busy : Forall (fun b => b < n) (w_busy s);
  g_batch : Forall (fun b => b < n) (map snd (w_batch s));
  g_held : Forall (fun b => b < n) (w_held s);
  g_pc : Forall (fun b => b < n) (pcb (w_pc s))
}.

Lemma forall_removed : forall (P : nat -> Prop) l k b, nth_error l k = Some b ->
  Forall P l -> P b /\ Forall P (firstn k l ++ skipn (S k) l).
Proof.
  intros P l k b H F. rewrite Forall_forall in F. split.
  - apply F. eapply nth_error_In; eauto.
  - apply Forall_forall. intros x Hx. apply F. eapply removed_in; eauto.
Qed.

Lemma range_post : forall {A} n (s : wst A) z x rest, Range n s ->
  top_of (w_batch s) z x rest -> Range n (post s x rest).
Proof.
  intros A n s z x rest [R1 R2 R3 R4 R5 R6] (l1 & l2 & E & -> & _).
  rewrite E in R4. rewrite map_app, Forall_app in R4. destruct R4 as (P1 & P2).
  cbn [map snd] in P2. inversion P2; subst.
  constructor; proj; auto.
  - rewrite Forall_app. auto.
  - rewrite map_app, Forall_app. auto.
Qed.

Lemma range_step : forall {A} n (s : wst A) l s', Range n s -> wstep s l s' -> Range n s'.
Proof.
  intros A n s l s' R [H|[H|H]]; inversion H; subst;
    try (eapply range_post; eauto; fail); destruct R as [R1 R2 R3 R4 R5 R6];
    try (constructor; proj; cbn [pcb]; auto; fail);
    try (rewrite H0 in R6; cbn [pcb] in R6; constructor; proj; cbn [pcb]; auto; fail).
  - rewrite H1 in R5. apply Forall_app in R5. destruct R5 as (P1 & P2). inversion P2; subst.
    constructor; proj; auto.
    + rewrite Forall_app; auto.
    + unfold enter_write. destruct (w_bs s <=? length (w_batch s)); cbn; auto.
  - constructor; proj; cbn [pcb]; auto. destruct keep; auto.
  - rewrite H0 in R6. cbn in R6. inversion R6; subst. constructor; proj; cbn; auto.
  - destruct (forall_removed _ _ _ _ H1 R3). constructor; proj; cbn [pcb]; auto.
    rewrite Forall_app; auto.
  - rewrite H1 in R2. apply Forall_app in R2. destruct R2 as (P1 & P2). inversion P2; subst.
    constructor; proj; cbn [pcb]; auto.
  - destruct (forall_removed _ _ _ _ H2 R3). constructor; proj; cbn [pcb]; auto.
  - constructor; proj; cbn [pcb]; auto. apply Forall_forall. intros x Hx. apply in_seq in Hx. lia.
Qed.

Lemma range_run : forall {A} bsz bt mem bids (disk0 : bid -> A) tr s,
  wrun (w_init bsz bt mem bids disk0) tr s -> Range (w_n (w_init bsz bt mem bids disk0)) s.
Proof.
  intros A bsz bt mem bids disk0 tr s R.
  remember (w_init bsz bt mem bids disk0) as s0. induction R; subst.
  - constructor; cbn [w_init w_n w_free w_busy w_batch w_held w_pc map pcb]; auto.
    apply Forall_forall. intros x Hx. apply in_seq in Hx. lia.
  - eapply range_step; eauto.
Qed.

(** [k] calls of get_free_block in a row. *)
Lemma take_many : forall {A} m (s : wst A), w_pc s = Idle -> w_busy s = [] ->
  forall l, w_free s = seq 0 m ++ l ->
  exists tr s', wrun s tr s' /\ (forall x, In x tr -> x = LGet \/ x = LTau \/ exists b, x = LRet b) /\
    w_pc s' = Idle /\ w_busy s' = [] /\ w_free s' = seq 0 m /\ w_held s' = l ++ w_held s.
Proof.
  intros A m s P B l. revert s P B. induction l as [|b l IH] using rev_ind; intros s P B F.
  - exists [], s. rewrite app_nil_r in F. csplit; auto; [constructor|intros ? []].
  - rewrite app_assoc in F.
    destruct (IH (return_buf (set_pc (set_pc s (GPoll 0)) GTake) (seq 0 m ++ l) (w_busy s) b)) as (tr & s' & R & X & P' & B' & F' & H'); auto.
    exists (LGet :: LTau :: LRet b :: tr), s'. csplit; auto.
    + eapply wrun_front; [left; apply CGet; auto|].
      eapply wrun_front; [right; left; apply (IPollEnd _ 0); [reflexivity|proj; rewrite B; cbn; lia]|].
      eapply wrun_front; [right; left; apply (ITakeFree (set_pc (set_pc s (GPoll 0)) GTake) (seq 0 m ++ l) b); auto|].
      exact R.
    + intros x [<-|[<-|[<-|Hx]]]; eauto.
    + rewrite H'. proj. rewrite <- app_assoc. reflexivity.
Qed.

Lemma wrun_cons_inv : forall {A} (s s' : wst A) tr, wrun s tr s' -> forall l t, tr = l :: t ->
  exists s1, wstep s l s1 /\ wrun s1 t s'.
Proof.
  intros A s s' tr R. induction R; intros l0 t E; [discriminate|].
  destruct tr as [|x tr]; cbn in E; inversion E; subst.
  - inversion R; subst.
    + exists s3. split; auto. constructor.
    + destruct tr; discriminate.
  - destruct (IHR _ _ eq_refl) as (s' & H1 & H2). exists s'. split; auto. econstructor; eauto.
Qed.

Lemma wrun_snoc_inv : forall {A} (s s' : wst A) tr, wrun s tr s' -> forall t l, tr = t ++ [l] ->
  exists s1, wrun s t s1 /\ wstep s1 l s'.
Proof.
  intros A s s' tr R. destruct R; intros t l0 E; [destruct t; discriminate|].
  apply app_inj_tail in E. destruct E; subst. eauto.
Qed.

(** In get_free_block with an empty busy list. *)
Definition getting {A} (free : list nat) (s : wst A) : Prop :=
  (w_pc s = GTake \/ exists k, w_pc s = GPoll k) /\ w_busy s = [] /\ w_free s = free.

Lemma getting_step : forall {A} free (s : wst A) l s', getting free s -> wstep s l s' ->
  (forall b, l <> LRet b) -> getting free s'.
Proof.
  intros A free s l s' (P & B & F) H N.
  destruct H as [H|[H|H]]; inversion H; subst;
    try (destruct P as [P|(k' & P)]; congruence); 
    try (rewrite B in H1; destruct k; discriminate);
    unfold getting; proj; csplit; eauto;
    try (exfalso; eapply N; eauto; fail).
Qed.

Lemma getting_run : forall {A} free (s s' : wst A) tr, wrun s tr s' -> getting free s ->
  (forall b, ~ In (LRet b) tr) -> getting free s'.
Proof.
  intros A free s s' tr R. induction R; intros G N; auto.
  apply (getting_step free s2 l s3); auto.
  - apply IHR; auto. intros b Q; apply (N b); apply in_or_app; auto.
  - intros b ->. apply (N b). apply in_or_app; cbn; auto.
Qed.

Lemma next_get : forall {A} (s s' : wst A) t free b b',
  w_pc s = Idle -> w_busy s = [] -> w_free s = free ++ [b] ->
  wrun s (LGet :: t ++ [LRet b']) s' -> (forall x, ~ In (LRet x) t) -> b' = b.
Proof.
  intros A s s' t free b b' P B F R N.
  destruct (wrun_cons_inv _ _ _ R _ _ eq_refl) as (s1 & St & R1).
  destruct (wrun_snoc_inv _ _ _ R1 _ _ eq_refl) as (s2 & R2 & St2).
  assert (G : getting (free ++ [b]) s1).
  { destruct St as [St|[St|St]]; inversion St; subst. unfold getting; proj; csplit; eauto. }
  apply (getting_run _ _ _ _ R2) in G; auto. destruct G as (P2 & B2 & F2).
  destruct St2 as [St2|[St2|St2]]; inversion St2; subst.
  - rewrite F2 in H1. apply app_inj_tail in H1. destruct H1; auto.
  - rewrite B2 in H2. destruct k; discriminate.
Qed.
