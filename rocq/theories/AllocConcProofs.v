From Coq Require Import ZArith List Bool Lia Permutation PeanoNat.
From Verif Require Import AllocModel AllocSpec AllocProofs AllocInv AllocMain AllocConcModel.
Import ListNotations.
Local Open Scope Z_scope.

Definition good_op (o : top) : Prop := match o with TNew b => good_batch b | _ => True end.

Definition good_thread (th : thread) : Prop :=
  Forall good_op (th_prog th) /\ Forall good_batch (th_pending th) /\
  (th_pending th = [] -> th_cur th = []).

Record sys_inv (cfg : Z) (grow : bool) (s : system) : Prop := {
  si_inv  : inv (sys_alloc s) (sys_blocks s);
  si_thr  : Forall good_thread (sys_threads s);
  si_bad  : sys_bad s = false;
  si_cfg  : cfg_bytes (sys_alloc s) = cfg;
  si_grow : autogrow (sys_alloc s) = grow
}.

Lemma set_nth_split : forall {A} (l : list A) i x, nth_error l i = Some x ->
  exists L R, l = L ++ x :: R /\ forall y, set_nth i y l = L ++ y :: R.
Proof.
  induction l as [|z l IH]; intros i x H; destruct i; simpl in *; try discriminate.
  - inversion H; subst. exists [], l. auto.
  - destruct (IH _ _ H) as (L & R & -> & E). exists (z :: L), R. split; auto.
    intros y. rewrite E. auto.
Qed.

Lemma Forall_replace : forall {A} (P : A -> Prop) L x y R,
  Forall P (L ++ x :: R) -> P y -> Forall P (L ++ y :: R).
Proof.
  intros A P L x y R H Hy. apply Forall_app in H. destruct H as [H1 H2]. inversion H2; subst.
  apply Forall_app. split; auto.
Qed.

(** Rearrangements of the block list used by the step lemma. *)
Lemma perm_held : forall (held lost L R cur new : list (Z * Z)),
  Permutation ((held ++ lost ++ L ++ cur ++ R) ++ new) ((held ++ cur ++ new) ++ lost ++ L ++ [] ++ R).
Proof.
  intros. simpl. rewrite <- !app_assoc. apply Permutation_app_head.
  rewrite (Permutation_app_comm cur (new ++ lost ++ L ++ R)). rewrite <- !app_assoc.
  rewrite (Permutation_app_comm new (lost ++ L ++ R ++ cur)). rewrite <- !app_assoc.
  apply Permutation_app_head. apply Permutation_app_head.
  rewrite !app_assoc. apply Permutation_app_tail. apply Permutation_app_comm.
Qed.

Lemma perm_cur : forall (held lost L R cur new : list (Z * Z)),
  Permutation ((held ++ lost ++ L ++ cur ++ R) ++ new) (held ++ lost ++ L ++ (cur ++ new) ++ R).
Proof.
  intros. rewrite <- !app_assoc. do 4 apply Permutation_app_head. apply Permutation_app_comm.
Qed.

Lemma perm_lost : forall (held lost L R cur : list (Z * Z)),
  Permutation (held ++ lost ++ L ++ cur ++ R) (held ++ (lost ++ cur) ++ L ++ [] ++ R).
Proof.
  intros. simpl. rewrite <- !app_assoc. do 2 apply Permutation_app_head.
  rewrite !app_assoc. apply Permutation_app_tail. apply Permutation_app_comm.
Qed.

Lemma sys_step_inv : forall cfg grow s t, sys_inv cfg grow s -> sys_inv cfg grow (sys_step s t).
Proof.
  intros cfg grow s t H. unfold sys_step.
  destruct (nth_error (sys_threads s) t) as [th|] eqn:Et; auto.
  destruct (set_nth_split _ _ _ Et) as (L & R & El & Es).
  destruct H as [Hi Ht Hb Hc Hg].
  assert (Gth : good_thread th).
  { rewrite Forall_forall in Ht. apply Ht. eapply nth_error_In; eauto. }
  destruct Gth as (Gp & Gq & Gc).
  assert (Eb : sys_blocks s = sys_held s ++ sys_lost s ++ concat (map th_cur L) ++ th_cur th ++ concat (map th_cur R)).
  { unfold sys_blocks. rewrite El, map_app, concat_app. reflexivity. }
  assert (Eb' : forall a th' h l bad, sys_blocks (mk_system a (L ++ th' :: R) h l bad) =
     h ++ l ++ concat (map th_cur L) ++ th_cur th' ++ concat (map th_cur R)).
  { intros. unfold sys_blocks. simpl. rewrite map_app, concat_app. reflexivity. }
  destruct (th_pending th) as [|b rest] eqn:Ep.
  - specialize (Gc eq_refl). destruct (th_prog th) as [|[sizes|i] p] eqn:Epr.
    + constructor; auto.
    + constructor; simpl; auto.
      * rewrite Es, Eb'. simpl. rewrite Eb, Gc in Hi. exact Hi.
      * rewrite Es. rewrite El in Ht. eapply Forall_replace; eauto. inversion Gp; subst.
        split; [auto|split; simpl; auto]. 
    + inversion Gp; subst.
      destruct (nth_error (sys_held s) i) as [[o z]|] eqn:En.
      * assert (P : Permutation (sys_blocks s)
            ((o, z) :: remove_nth i (sys_held s) ++ sys_lost s ++
              concat (map th_cur L) ++ [] ++ concat (map th_cur R))).
        { rewrite Eb, Gc. rewrite app_comm_cons. apply Permutation_app_tail.
          apply remove_nth_perm; auto. }
        destruct (inv_delete _ _ _ _ (inv_perm _ _ _ P Hi)) as (a' & E' & I' & [C1 C2] & _).
        rewrite E'. constructor; simpl; auto; try congruence.
        -- rewrite Es, Eb'. simpl. exact I'.
        -- rewrite Es. rewrite El in Ht. eapply Forall_replace; eauto. split; simpl; auto.
      * constructor; simpl; auto.
        -- rewrite Es, Eb'. simpl. rewrite Eb, Gc in Hi. exact Hi.
        -- rewrite Es. rewrite El in Ht. eapply Forall_replace; eauto. split; simpl; auto.
  - inversion Gq; subst. pose proof (section_spec _ _ b Hi H1) as S.
    destruct (new_blocks_section (sys_alloc s) b) as [a offs|a| |] eqn:ES.
    + destruct S as (I' & _ & [C1 C2] & _). cbv zeta. rewrite Eb in I'. destruct rest as [|b2 rest].
      * constructor; simpl; auto; try congruence.
        -- rewrite Es, Eb'. simpl th_cur. eapply inv_perm; [apply perm_held|exact I'].
        -- rewrite Es. rewrite El in Ht. eapply Forall_replace; eauto. split; simpl; auto.
      * constructor; simpl; auto; try congruence.
        -- rewrite Es, Eb'. simpl th_cur. eapply inv_perm; [apply perm_cur|exact I'].
        -- rewrite Es. rewrite El in Ht. eapply Forall_replace; eauto.
           split; simpl; auto. split; auto. discriminate.
    + destruct S as (I' & [C1 C2] & _ & _ & Hl & _). cbv zeta.
      destruct (good_firstn _ H1 Hl) as (G1 & G2 & _).
      constructor; simpl; auto; try congruence.
      * rewrite Es, Eb'. simpl th_cur. rewrite <- Eb. exact I'.
      * rewrite Es. rewrite El in Ht. eapply Forall_replace; eauto.
        split; simpl; auto. split; auto. discriminate.
    + constructor; simpl; auto.
      * rewrite Es, Eb'. simpl th_cur. eapply inv_perm; [apply perm_lost|rewrite <- Eb; exact Hi].
      * rewrite Es. rewrite El in Ht. eapply Forall_replace; eauto. split; simpl; auto.
    + destruct S.
Qed.

Lemma sys_run_inv : forall cfg grow sched s, sys_inv cfg grow s -> sys_inv cfg grow (sys_run s sched).
Proof.
  induction sched as [|t sched IH]; intros s H; simpl; auto. apply IH, sys_step_inv, H.
Qed.

Lemma sys_init_inv : forall cfg grow a progs, 0 <= cfg -> new_allocator cfg grow = Ret a ->
  (forall p, In p progs -> Forall good_op p) -> sys_inv cfg grow (sys_init a progs).
Proof.
  intros cfg grow a progs Hc E Hp. destruct (new_allocator_inv _ _ _ Hc E) as [(I & C & G) _].
  constructor; simpl; auto.
  - unfold sys_blocks. simpl. replace (concat (map th_cur (map (fun p => mk_thread p [] []) progs)))
      with (@nil (Z * Z)); auto. clear. induction progs; simpl; auto.
  - apply Forall_forall. intros th Hin. apply in_map_iff in Hin. destruct Hin as (p & <- & Hin).
    split; simpl; auto.
Qed.

Lemma conc_safe : forall cfg grow a progs sched, 0 <= cfg -> new_allocator cfg grow = Ret a ->
  (forall p sizes, In p progs -> In (TNew sizes) p -> good_batch sizes) ->
  let s := sys_run (sys_init a progs) sched in
  sys_bad s = false /\
  pairwise_disjoint (sys_blocks s) /\
  (forall r, In r (sys_blocks s) -> 0 < snd r /\ inside (disk_bytes (sys_alloc s)) r) /\
  used_bytes (sys_alloc s) = total_size (sys_blocks s) /\
  free_bytes (sys_alloc s) = total_size (free_space (sys_alloc s)) /\
  coalesced_from (-1) (free_space (sys_alloc s)) /\
  (forall x, covered (free_space (sys_alloc s)) x <->
             0 <= x < disk_bytes (sys_alloc s) /\ ~ covered (sys_blocks s) x).
Proof.
  intros cfg grow a progs sched Hc E Hp s.
  assert (H : sys_inv cfg grow s).
  { apply sys_run_inv, sys_init_inv; auto. intros p Hin. apply Forall_forall.
    intros [sizes|i] Ho; simpl; eauto. }
  destruct H as [Hi Ht Hb _ _]. csplit; auto.
  - apply FOP_nth, (i_dis _ _ Hi).
  - intros r Hr. eapply inv_inside; eauto.
  - pose proof (i_tot _ _ Hi). unfold used_bytes. lia.
  - apply (i_sum _ _ Hi).
  - apply (i_coal _ _ Hi).
  - intros x. pose proof (i_part _ _ Hi x). pose proof (i_excl _ _ Hi x). tauto.
Qed.

(** Termination: every step of a thread that is not done reduces the work. *)
Lemma list_sum_mid : forall L x R, list_sum (L ++ x :: R) = (list_sum L + x + list_sum R)%nat.
Proof. intros. rewrite list_sum_app. simpl. lia. Qed.

Lemma batch_work_split : forall b, (1 < length b)%nat ->
  (batch_work (firstn (Nat.div2 (length b)) b) + batch_work (skipn (Nat.div2 (length b)) b) < batch_work b)%nat.
Proof.
  intros b H. unfold batch_work. rewrite firstn_length, skipn_length.
  assert ((0 < Nat.div2 (length b) < length b)%nat).
  { split; [destruct (length b) as [|[|n]]; simpl; lia|apply Nat.lt_div2; lia]. }
  lia.
Qed.

Lemma sys_step_work : forall cfg grow s t th, sys_inv cfg grow s ->
  nth_error (sys_threads s) t = Some th -> ~ thread_done th ->
  (sys_work (sys_step s t) < sys_work s)%nat.
Proof.
  intros cfg grow s t th H Et Hnd. unfold sys_step. rewrite Et.
  destruct (set_nth_split _ _ _ Et) as (L & R & El & Es).
  destruct H as [Hi Ht Hb Hc Hg].
  assert (Gth : good_thread th).
  { rewrite Forall_forall in Ht. apply Ht. eapply nth_error_In; eauto. }
  destruct Gth as (Gp & Gq & Gc).
  assert (Ew : sys_work s = (list_sum (map thread_work L) + thread_work th + list_sum (map thread_work R))%nat).
  { unfold sys_work. rewrite El, map_app. simpl. apply list_sum_mid. }
  assert (Ew' : forall a th' h l bad, sys_work (mk_system a (L ++ th' :: R) h l bad) =
     (list_sum (map thread_work L) + thread_work th' + list_sum (map thread_work R))%nat).
  { intros. unfold sys_work. simpl. rewrite map_app. simpl. apply list_sum_mid. }
  assert (Epos : forall b, good_batch b -> (0 < batch_work b)%nat).
  { intros b [Hne _]. unfold batch_work. destruct b; [congruence|simpl; lia]. }
  unfold thread_work in Ew at 2.
  destruct (th_pending th) as [|b rest] eqn:Ep.
  - destruct (th_prog th) as [|[sizes|i] p] eqn:Epr.
    + destruct Hnd. split; auto.
    + rewrite Es, Ew', Ew. unfold thread_work at 2. simpl. lia.
    + inversion Gp; subst.
      destruct (nth_error (sys_held s) i) as [[o z]|] eqn:En; [destruct (delete_block _ _ _)|];
        rewrite Es, Ew', Ew; unfold thread_work at 2; simpl; lia.
  - inversion Gq; subst. pose proof (section_spec _ _ b Hi H1) as S.
    specialize (Epos b H1).
    destruct (new_blocks_section (sys_alloc s) b) as [a offs|a| |] eqn:ES.
    + cbv zeta. destruct rest as [|b2 rest];
        rewrite Es, Ew', Ew; unfold thread_work at 2; simpl; lia.
    + cbv zeta. destruct S as (_ & _ & _ & _ & Hl & _).
      pose proof (batch_work_split b Hl).
      rewrite Es, Ew', Ew; unfold thread_work at 2; unfold list_sum in *; cbn [th_pending th_prog map fold_right] in *. lia.
    + rewrite Es, Ew', Ew; unfold thread_work at 2; simpl; lia.
    + destruct S.
Qed.

(** A schedule that only runs threads which still have something to do. *)
Fixpoint busy_schedule (s : system) (sched : list nat) : Prop :=
  match sched with
  | [] => True
  | t :: r => (exists th, nth_error (sys_threads s) t = Some th /\ ~ thread_done th) /\
              busy_schedule (sys_step s t) r
  end.

Lemma busy_bound : forall cfg grow sched s, sys_inv cfg grow s -> busy_schedule s sched ->
  (length sched <= sys_work s)%nat.
Proof.
  induction sched as [|t r IH]; intros s H Hb; simpl in *; [lia|].
  destruct Hb as ((th & Et & Hn) & Hb).
  pose proof (sys_step_work _ _ _ _ _ H Et Hn).
  specialize (IH _ (sys_step_inv _ _ _ t H) Hb). lia.
Qed.
