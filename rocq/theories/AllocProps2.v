(** Theorem about the destructor of the disk block allocator (property C66). *)
From Coq Require Import ZArith List Bool Lia.
From Verif Require Import AllocModel AllocSpec AllocProofs AllocInv AllocMain.
Import ListNotations.
Local Open Scope Z_scope.

Lemma client_step_size : forall cfg grow c o, good_client cfg grow c ->
  (forall sizes, o = OpNew sizes -> good_batch sizes) ->
  disk_bytes (cl_alloc c) <= disk_bytes (cl_alloc (client_step c o)).
Proof.
  intros cfg grow c o (H & Hc & Hg) Ho. destruct o as [sizes|i]; simpl.
  - pose proof (new_blocks_spec _ _ sizes H (Ho _ eq_refl)) as K.
    destruct (new_blocks (cl_alloc c) sizes) as [a' offs|a'| |]; simpl; try lia; tauto || idtac.
    destruct K as (-> & _). lia.
  - destruct (nth_error (cl_live c) i) as [[o s]|] eqn:E; [|lia].
    pose proof (remove_nth_perm _ _ _ E) as P.
    destruct (inv_delete _ _ _ _ (inv_perm _ _ _ P H)) as (a' & E' & I & [C1 C2] & D & _).
    rewrite E'. simpl. lia.
Qed.

Lemma client_run_size : forall cfg grow ops c, good_client cfg grow c -> valid_history ops ->
  disk_bytes (cl_alloc c) <= disk_bytes (cl_alloc (client_run c ops)).
Proof.
  induction ops as [|o ops IH]; intros c H Hv; simpl; [lia|].
  assert (Ho : forall sizes, o = OpNew sizes -> good_batch sizes)
    by (intros sizes ->; apply Hv; simpl; auto).
  pose proof (client_step_size _ _ _ _ H Ho).
  assert (disk_bytes (cl_alloc (client_step c o)) <=
          disk_bytes (cl_alloc (client_run (client_step c o) ops))).
  { apply IH; [apply client_step_good; auto|]. intros sizes Hin. apply Hv. simpl; auto. }
  unfold client_run in *. lia.
Qed.

(** C66.  Between construction and destruction the file never gets smaller than
    the configured size, and the destructor leaves a file of exactly that size,
    however much the disk grew in between. *)
Theorem C66_destructor_restores_size : forall cfg grow c, reachable cfg grow c ->
  cfg <= storage_size (cl_alloc c) /\ delete_allocator (cl_alloc c) = cfg.
Proof.
  intros cfg grow c H. pose proof (reachable_inv _ _ _ H) as (I & C & G).
  destruct H as (Hc & a0 & ops & E & Hv & ->).
  destruct (new_allocator_inv _ _ _ Hc E) as [G0 D0].
  pose proof (client_run_size _ _ _ _ G0 Hv) as L. simpl in L. rewrite D0 in L.
  pose proof (i_stor _ _ I) as T. split; [lia|].
  unfold delete_allocator. destruct (Z.ltb_spec (cfg_bytes (cl_alloc (client_run {| cl_alloc := a0; cl_live := [] |} ops)))
    (disk_bytes (cl_alloc (client_run {| cl_alloc := a0; cl_live := [] |} ops)))); lia.
Qed.
Print Assumptions C66_destructor_restores_size.

(** A disk that really grew: 10 configured bytes, 13 used. *)
Definition grown : client :=
  client_run (mk_client (match new_allocator 10 true with Ret a => a | _ => mk_allocator [] 0 0 0 0 true end) [])
             [OpNew [6]; OpNew [7]; OpDelete 0].
Example C66_case : reachable 10 true grown /\ storage_size (cl_alloc grown) > 10 /\
  delete_allocator (cl_alloc grown) = 10.
Proof.
  split; [|split; vm_compute; reflexivity].
  split; [lia|]. eexists. exists [OpNew [6]; OpNew [7]; OpDelete 0]. split; [reflexivity|].
  split; [|reflexivity]. intros sizes Hin. simpl in Hin.
  repeat destruct Hin as [Hin|Hin]; try discriminate; try tauto;
    inversion Hin; subst; (split; [discriminate|repeat constructor; lia]).
Qed.
