(** Property C96: requests for managed blocks meet the alignment of direct I/O. *)
From Coq Require Import ZArith List Bool Lia PeanoNat.
From Verif Require Import AllocModel AllocSpec AllocProofs AllocInv AllocMain
  ManagerModel ManagerSpec ManagerProofs ManagerMain ManagerProps UtilModel UtilProps OffsModel OffsProofs.
Import ListNotations.
Local Open Scope Z_scope.

(** Every size asked for is a multiple of [b]. *)
Definition multiples (b : Z) (ops : list mop) : Prop :=
  forall tsize f off sizes s, In (MNew tsize f off sizes) ops -> In s sizes -> (b | s).

Lemma multiples_div : forall b ops, multiples b ops -> forall o, In o ops -> div_op b o.
Proof. intros b ops H [t f off sizes|i] Ho; simpl; auto. intros s Hs. eapply H; eauto. Qed.

(** Disks of any size, growing or not, calls that throw or not. *)
Theorem C96_offsets : forall b cfgs may_throw m ops c,
  (forall s g, In (s, g) cfgs -> 0 <= s) -> new_manager cfgs = Ret m ->
  mhistory (length cfgs) may_throw (start m) ops c -> multiples b ops ->
  forall x, In x (mc_held c) -> (b | b_offset x) /\ (b | b_size x).
Proof.
  intros b cfgs t m ops c Hc E H D.
  apply (history_div b (length cfgs) t (start m) ops c H).
  - eapply start_inv; eauto.
  - apply multiples_div; auto.
  - intros x [].
Qed.
Print Assumptions C96_offsets.

Definition ragged : list (Z * bool) := [(10000, false); (5000, true)].
Definition two_disks (i : nat) : nat := Nat.modulo i 2.
Definition page_ops : list mop :=
  [MNew 0 two_disks 0 [4096; 8192; 4096; 4096]; MDelete 1; MNew 4096 two_disks 1 [4096; 4096; 4096]; MDelete 0].
Definition page_world : mclient := world ragged page_ops.

Lemma page_history : exists m, new_manager ragged = Ret m /\ mhistory (length ragged) true (start m) page_ops page_world.
Proof.
  eexists. split; [vm_compute; reflexivity|]. apply run_ops_reach.
  - repeat (apply Forall_cons || apply Forall_nil); simpl; auto;
      (split; [intros i; apply (Nat.mod_upper_bound i 2); lia|]);
      intros s Hs; repeat (destruct Hs as [<-|Hs]; [lia|]); destruct Hs.
  - vm_compute. reflexivity.
Qed.

Lemma page_multiples : multiples 4096 page_ops.
Proof.
  intros t f off sizes s Ho Hs. unfold page_ops in Ho. simpl in Ho.
  assert (K : s = 4096 \/ s = 8192).
  { destruct Ho as [Ho|[Ho|[Ho|[Ho|[]]]]]; try discriminate Ho; injection Ho as _ _ _ <-; simpl in Hs; intuition auto. }
  destruct K as [->| ->]; [exists 1|exists 2]; reflexivity.
Qed.

Example C96_case : (exists m, new_manager ragged = Ret m /\
    mhistory (length ragged) true (start m) page_ops page_world) /\ multiples 4096 page_ops /\
  map (fun x => (b_storage x, range_of x)) (mc_held page_world) =
    [(Managed 0, (4096, 4096)); (Managed 1, (8192, 4096)); (Managed 1, (0, 4096));
     (Managed 1, (4096, 4096)); (Managed 1, (12288, 4096))].
Proof. split; [exact page_history|]. split; [exact page_multiples|]. vm_compute. reflexivity. Qed.

(** One block of an odd size is enough to put the blocks behind it at odd places. *)
Definition odd_ops : list mop := [MNew 0 two_disks 0 [512]; MNew 4096 two_disks 0 [4096]].
Theorem C96_mixed_refuted : ~ (forall b cfgs may_throw m ops c,
  (forall s g, In (s, g) cfgs -> 0 <= s) -> new_manager cfgs = Ret m ->
  mhistory (length cfgs) may_throw (start m) ops c ->
  forall x, In x (mc_held c) -> (b | b_size x) -> (b | b_offset x)).
Proof.
  intros H. destruct (new_manager ragged) as [m| |] eqn:E; try (vm_compute in E; discriminate E).
  assert (D : (4096 | 512)).
  { apply (H 4096 ragged true m odd_ops (world ragged odd_ops)) with (x := mk_bid (Managed 0) 512 4096 4096).
    - intros s g Hin. simpl in Hin. destruct Hin as [Hin|[Hin|[]]]; injection Hin as <- <-; lia.
    - exact E.
    - apply run_ops_reach.
      + repeat (apply Forall_cons || apply Forall_nil); simpl; auto;
          (split; [intros i; apply (Nat.mod_upper_bound i 2); lia|]);
          intros s Hs; repeat (destruct Hs as [<-|Hs]; [lia|]); destruct Hs.
      + vm_compute in E. injection E as <-. vm_compute. reflexivity.
    - vm_compute. auto.
    - exists 1. reflexivity. }
  destruct D as [k K]. lia.
Qed.
Print Assumptions C96_mixed_refuted.

(** ** Requests *)

(** What the check reports, in terms of divisibility. *)
Theorem C96_complaints : forall r,
  (In BadOffset (check_alignment r) <-> ~ (4096 | io_offset r)) /\
  (In BadSize (check_alignment r) <-> ~ (4096 | io_bytes r)) /\
  (In BadBuffer (check_alignment r) <-> ~ (4096 | io_buffer r)).
Proof.
  intros r. assert (D : forall x, (x mod 4096 =? 0) = true <-> (4096 | x)).
  { intros x. rewrite Z.eqb_eq. apply Z.mod_divide. lia. }
  unfold check_alignment, BlockAlignment. rewrite <- !D.
  destruct (io_offset r mod 4096 =? 0), (io_bytes r mod 4096 =? 0), (io_buffer r mod 4096 =? 0); simpl;
    intuition congruence.
Qed.
Print Assumptions C96_complaints.

(** The i-th block of an array made by new is aligned exactly if i blocks are a
    multiple of the alignment; the first one always is. *)
Theorem C96_buffers : forall raw bytes realloc moved buf1 buf2 i, 0 < raw -> 0 <= bytes -> 0 < buf1 -> 0 < buf2 ->
  ((4096 | block_address raw bytes realloc moved buf1 buf2 i) <-> (4096 | i * raw)).
Proof.
  intros raw bytes realloc moved buf1 buf2 i Hr Hb H1 H2. unfold block_address, BlockAlignment.
  pose proof (Z.mod_pos_bound bytes raw Hr) as M. pose proof (Z.mod_le bytes raw Hb Hr) as L.
  destruct (aligned_alloc 4096 (bytes - bytes mod raw) (bytes mod raw) realloc moved buf1 buf2)
    as [[[ptr buf] total] rl] eqn:E.
  destruct (C52_aligned_allocation 4096 (bytes - bytes mod raw) (bytes mod raw) realloc moved buf1 buf2 ptr buf total rl
    ltac:(lia) ltac:(lia) ltac:(lia) H1 H2 E) as [A _].
  split; intros D.
  - replace (i * raw) with (ptr + bytes mod raw + i * raw - (ptr + bytes mod raw)) by lia.
    apply Z.divide_sub_r; auto.
  - apply Z.divide_add_r; auto.
Qed.
Print Assumptions C96_buffers.

(** The n blocks of an array lie inside the memory that was allocated for it. *)
Theorem C96_blocks_inside : forall raw n cookie realloc moved buf1 buf2 ptr buf total rl i,
  0 < raw -> 0 <= cookie < raw -> 0 < buf1 -> 0 < buf2 -> 0 <= i < n ->
  aligned_alloc 4096 (n * raw) cookie realloc moved buf1 buf2 = (ptr, buf, total, rl) ->
  let addr := block_address raw (n * raw + cookie) realloc moved buf1 buf2 i in
  buf + 8 + cookie <= addr /\ addr + raw <= buf + total.
Proof.
  intros raw n cookie realloc moved buf1 buf2 ptr buf total rl i Hr Hk H1 H2 Hi E. cbv zeta.
  unfold block_address, BlockAlignment.
  replace ((n * raw + cookie) mod raw) with cookie.
  2:{ rewrite Z.add_comm, Z_mod_plus_full. symmetry. apply Z.mod_small. auto. }
  replace (n * raw + cookie - cookie) with (n * raw) by lia. rewrite E.
  destruct (C52_aligned_allocation 4096 (n * raw) cookie realloc moved buf1 buf2 ptr buf total rl
    ltac:(lia) ltac:(nia) ltac:(lia) H1 H2 E) as (_ & A & B & _).
  split; nia.
Qed.
Print Assumptions C96_blocks_inside.

(** Blocks whose size is a multiple of 4096 never cause a complaint: any history
    of such allocations, any block of any array. *)
Theorem C96_no_complaint : forall cfgs may_throw m ops c raw bytes realloc moved buf1 buf2 i x r need,
  (forall s g, In (s, g) cfgs -> 0 <= s) -> new_manager cfgs = Ret m ->
  mhistory (length cfgs) may_throw (start m) ops c -> multiples 4096 ops ->
  0 < raw -> (4096 | raw) -> 0 <= bytes -> 0 < buf1 -> 0 < buf2 ->
  In x (mc_held c) ->
  block_request raw (block_address raw bytes realloc moved buf1 buf2 i) x = Some r ->
  constructed need r = [].
Proof.
  intros cfgs t m ops c raw bytes realloc moved buf1 buf2 i x r need Hc E H D Hr Dr Hb H1 H2 Hx Er.
  destruct (C96_offsets 4096 cfgs t m ops c Hc E H D x Hx) as [Dx _].
  assert (R : r = mk_ior (block_address raw bytes realloc moved buf1 buf2 i) (b_offset x) raw).
  { unfold block_request in Er. destruct (b_tsize x =? 0); [destruct (raw <=? b_size x)|]; congruence. }
  assert (B : (4096 | block_address raw bytes realloc moved buf1 buf2 i)).
  { apply C96_buffers; auto. apply Z.divide_mul_r; auto. }
  destruct (C96_complaints r) as (C1 & C2 & C3). subst r. cbn [io_offset io_bytes io_buffer] in *.
  unfold constructed. destruct need; auto.
  destruct (check_alignment _) as [|[] l]; auto; exfalso.
  - apply C1; simpl; auto.
  - apply C2; simpl; auto.
  - apply C3; simpl; auto.
Qed.
Print Assumptions C96_no_complaint.

(** Blocks of any other size always do. *)
Theorem C96_complaint : forall raw addr x r, ~ (4096 | raw) ->
  block_request raw addr x = Some r -> In BadSize (constructed true r).
Proof.
  intros raw addr x r D E. unfold constructed. apply C96_complaints.
  unfold block_request in E. destruct (b_tsize x =? 0); [destruct (raw <=? b_size x)|]; try discriminate E;
    injection E as <-; auto.
Qed.
Print Assumptions C96_complaint.

Example C96_request_case : exists x, nth_error (mc_held page_world) 4 = Some x /\
  block_request 4096 (block_address 4096 (3 * 4096 + 8) false false 1000 1000 2) x = Some (mk_ior 12288 12288 4096) /\
  check_alignment (mk_ior 12288 12288 4096) = [] /\
  block_address 1000 (3 * 1000 + 8) false false 1000 1000 2 = 6096 /\
  check_alignment (mk_ior 6096 12288 1000) = [BadSize; BadBuffer] /\
  block_request 8192 4096 (mk_bid (Managed 0) 0 4096 0) = None.
Proof. eexists. split; [vm_compute; reflexivity|]. vm_compute. auto 8. Qed.

(** ** One block size *)

(** On a disk without autogrow and with one block size the file keeps its size and
    the blocks are numbered places, whatever the configured size is.  C65 is the
    case that it is a multiple of the block size. *)
Theorem C96_one_size_never_grows : forall b cfg ops a0, 0 < b -> 0 <= cfg ->
  new_allocator cfg false = Ret a0 ->
  (forall sizes, In (OpNew sizes) ops -> sizes <> [] /\ forall s, In s sizes -> s = b) ->
  let c := client_run (mk_client a0 []) ops in
  (forall o s, In (o, s) (cl_live c) -> (b | o) /\ (b | s)) /\ disk_bytes (cl_alloc c) = cfg.
Proof. exact reachable_uniform. Qed.
Print Assumptions C96_one_size_never_grows.

Lemma uniform_sizes : forall b ops a0 cfg, 0 < b -> 0 <= cfg -> new_allocator cfg false = Ret a0 ->
  (forall sizes, In (OpNew sizes) ops -> sizes <> [] /\ forall s, In s sizes -> s = b) ->
  let c := client_run (mk_client a0 []) ops in
  reachable cfg false c /\ Forall (fun r => snd r = b) (cl_live c).
Proof.
  intros b ops a0 cfg Hb Hc E Hops.
  assert (G : forall ops c, (forall sizes, In (OpNew sizes) ops -> sizes <> [] /\ forall s, In s sizes -> s = b) ->
    Forall (fun r => snd r = b) (cl_live c) -> Forall (fun r => snd r = b) (cl_live (client_run c ops))).
  { clear - Hb. induction ops as [|o ops IH]; intros c Ho F; [exact F|]. apply IH; [intros; apply Ho; simpl; auto|].
    destruct o as [sizes|i]; simpl.
    - destruct (Ho sizes (or_introl eq_refl)) as [_ Hs]. destruct (new_blocks (cl_alloc c) sizes); simpl; auto.
      apply Forall_app. split; auto. apply Forall_forall. intros [o s] Hin. apply in_combine_r in Hin. simpl. auto.
    - destruct (nth_error (cl_live c) i) as [[o s]|] eqn:En; auto. destruct (delete_block _ _ _); auto. simpl.
      apply Forall_forall. intros r Hin. rewrite Forall_forall in F. apply F. eapply In_remove_nth; eauto. }
  cbv zeta. split; [|apply G; simpl; auto].
  split; [exact Hc|]. exists a0, ops. split; [exact E|]. split; [|reflexivity]. intros sizes Hin. destruct (Hops sizes Hin) as [N K]. split; auto.
  apply Forall_forall. intros s Hs. rewrite (K s Hs). auto.
Qed.

(** So it holds exactly as many blocks as fit: a further batch of n is refused
    if and only if it would exceed the whole part of cfg / b. *)
Theorem C96_capacity : forall b cfg ops a0 n, 0 < b -> 0 <= cfg ->
  new_allocator cfg false = Ret a0 ->
  (forall sizes, In (OpNew sizes) ops -> sizes <> [] /\ forall s, In s sizes -> s = b) -> (0 < n)%nat ->
  let c := client_run (mk_client a0 []) ops in
  Z.of_nat (length (cl_live c)) <= cfg / b /\
  ((exists a', new_blocks (cl_alloc c) (repeat b n) = AllocThrow a') <->
   cfg / b < Z.of_nat (length (cl_live c) + n)).
Proof.
  intros b cfg ops a0 n Hb Hc E Hops Hn c.
  destruct (uniform_sizes b ops a0 cfg Hb Hc E Hops) as [R F]. fold c in R, F.
  destruct (reachable_uniform b cfg ops a0 Hb Hc E Hops) as [_ D]. fold c in D.
  destruct (reachable_inv _ _ _ R) as (I & _).
  assert (T : total_size (cl_live c) = b * Z.of_nat (length (cl_live c))).
  { clear - F. induction (cl_live c) as [|[o s] l IH]; [simpl; lia|].
    inversion F; subst. simpl total_size. rewrite IH by auto. simpl length. simpl. lia. }
  assert (Hg : good_batch (repeat b n)).
  { split; [destruct n; [lia|discriminate]|]. apply Forall_forall. intros s Hs. apply repeat_spec in Hs. lia. }
  assert (U : sum_sizes (repeat b n) = b * Z.of_nat n).
  { clear. induction n; [simpl; lia|]. simpl repeat. simpl sum_sizes. rewrite IHn. lia. }
  pose proof (i_tot _ _ I) as Tt. rewrite D, T in Tt.
  assert (Fr : 0 <= free_bytes (cl_alloc c)).
  { exact (inv_nonneg_free _ _ I). }
  split; [apply Z.div_le_lower_bound; lia|].
  destruct (throws_iff cfg false c (repeat b n) R Hg) as [W _]. rewrite W, U. rewrite Nat2Z.inj_add.
  split.
  - intros [_ K]. apply Z.div_lt_upper_bound; lia.
  - intros K. split; auto.
    pose proof (Z.mul_succ_div_gt cfg b Hb). nia.
Qed.
Print Assumptions C96_capacity.

Example C96_capacity_case : exists a0, new_allocator 10000 false = Ret a0 /\
  let c := client_run (mk_client a0 []) [OpNew [4096]; OpNew [4096]; OpDelete 0; OpNew [4096]; OpNew [4096]] in
  cl_live c = [(4096, 4096); (0, 4096)] /\ disk_bytes (cl_alloc c) = 10000 /\ free_bytes (cl_alloc c) = 1808.
Proof. eexists. split; [vm_compute; reflexivity|]. vm_compute. auto. Qed.
