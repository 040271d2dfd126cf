(** Property C97: the 64-bit arithmetic of allocator and manager. *)
From Coq Require Import ZArith List Bool Lia PeanoNat.
From Verif Require Import AllocModel AllocSpec AllocProofs AllocInv AllocMain
  ManagerModel ManagerSpec ManagerProofs ManagerMain WrapModel WrapSpec WrapProofs WrapManager.
Import ListNotations.
Local Open Scope Z_scope.

(** ** Where the code agrees with arithmetic on integers *)

(** One call: the request, the disk before and the disk after are below 2^64. *)
Theorem C97_one_call : forall cfg grow c sizes, reachable cfg grow c -> good_batch sizes ->
  sum sizes < 2 ^ 64 -> disk_bytes (cl_alloc c) < 2 ^ 64 ->
  (forall a' offs, new_blocks (cl_alloc c) sizes = AllocOk a' offs -> disk_bytes a' < 2 ^ 64) ->
  new_blocks64 (cl_alloc c) sizes = new_blocks (cl_alloc c) sizes.
Proof.
  intros cfg grow c sizes R Hg Hs Hd Ha. destruct (reachable_inv _ _ _ R) as (I & _).
  rewrite sum_eq in Hs. apply (new_blocks64_eq _ (cl_live c)); auto.
  destruct (new_blocks (cl_alloc c) sizes) as [a' offs| | |]; try exact W_pos. apply (Ha a' offs). reflexivity.
Qed.
Print Assumptions C97_one_call.

(** A batch makes the disk grow by at most its size, with or without autogrow. *)
Theorem C97_growth : forall cfg grow c sizes a' offs, reachable cfg grow c -> good_batch sizes ->
  new_blocks (cl_alloc c) sizes = AllocOk a' offs ->
  disk_bytes (cl_alloc c) <= disk_bytes a' <= disk_bytes (cl_alloc c) + sum sizes.
Proof.
  intros cfg grow c sizes a' offs R Hg E. destruct (reachable_inv _ _ _ R) as (I & _).
  split; [|rewrite sum_eq; eapply new_blocks_growth; eauto].
  pose proof (new_blocks_spec _ _ _ I Hg) as S. rewrite E in S. apply S.
Qed.
Print Assumptions C97_growth.

(** Whole histories on one disk, deletions and refused requests included. *)
Theorem C97_one_disk_exact : forall cfg grow a0 ops, 0 <= cfg < 2 ^ 64 -> valid_history ops ->
  new_allocator cfg grow = Ret a0 -> fits (mk_client a0 []) ops ->
  new_allocator64 cfg grow = Ret a0 /\
  client_run64 (mk_client a0 []) ops = client_run (mk_client a0 []) ops.
Proof.
  intros cfg grow a0 ops H V E F. split; [rewrite new_allocator64_eq; auto|].
  eapply run64_eq; eauto. eapply (proj1 (new_allocator_inv cfg grow a0 ltac:(lia) E)).
Qed.
Print Assumptions C97_one_disk_exact.

Theorem C97_one_disk : forall cfg grow a0 ops, 0 <= cfg -> valid_history ops ->
  new_allocator cfg grow = Ret a0 -> cfg + requested ops < 2 ^ 64 ->
  new_allocator64 cfg grow = Ret a0 /\
  client_run64 (mk_client a0 []) ops = client_run (mk_client a0 []) ops.
Proof.
  intros cfg grow a0 ops H V E F. pose proof (requested_nonneg _ V).
  destruct (new_allocator_inv cfg grow a0 H E) as [G D].
  apply C97_one_disk_exact; auto; [lia|]. eapply fits_small; eauto. simpl cl_alloc. rewrite D. exact F.
Qed.
Print Assumptions C97_one_disk.

(** The manager: histories, ids, counters and errors are the same. *)
Theorem C97_manager : forall cfgs may_throw ops m c,
  (forall s g, In (s, g) cfgs -> 0 <= s /\ s + mrequested ops < 2 ^ 64) ->
  0 <= mrequested ops < 2 ^ 64 -> new_manager cfgs = Ret m ->
  new_manager64 cfgs = Ret m /\
  (mhistory64 (length cfgs) may_throw (start m) ops c <-> mhistory (length cfgs) may_throw (start m) ops c).
Proof.
  intros cfgs t ops m c H Hr E. split.
  - rewrite new_manager64_eq; auto. intros s g Hin. change W with (2 ^ 64). specialize (H s g Hin). lia.
  - apply history64_iff. eapply start_roomleft; eauto.
Qed.
Print Assumptions C97_manager.

Definition one (i : nat) : nat := 0%nat.
Definition big_ops : list mop :=
  [MNew (2 ^ 62) one 0 [2 ^ 62; 2 ^ 62]; MDelete 0; MNew 0 one 0 [2 ^ 61]].
Example C97_case :
  exists m c, new_manager [(2 ^ 62, true)] = Ret m /\
  (forall s g, In (s, g) [(2 ^ 62, true)] -> 0 <= s /\ s + mrequested big_ops < 2 ^ 64) /\
  0 <= mrequested big_ops < 2 ^ 64 /\
  mhistory64 1 false (start m) big_ops c /\
  map range_of (mc_held c) = [(2 ^ 62, 2 ^ 62); (0, 2 ^ 61)] /\
  manager_total_bytes64 (mc_m c) = 3 * 2 ^ 62 /\ m_total (mc_m c) = 2 ^ 63 + 2 ^ 61.
Proof.
  assert (V : forall t f off sizes, (forall i, f i = 0%nat) -> (forall s, In s sizes -> 0 < s /\ (t = s \/ t = 0)) ->
    valid_mop 1 (MNew t f off sizes)).
  { intros t f off sizes Hf Hs. split; auto. intros i. rewrite Hf. lia. }
  do 2 eexists. split; [vm_compute; reflexivity|]. split.
  { intros s g [K|[]]. injection K as <- <-. split; [discriminate|reflexivity]. }
  split; [split; [discriminate|reflexivity]|]. split.
  - unfold big_ops. eapply mh64_ok; [| vm_compute; reflexivity |].
    { apply V; auto. intros s [<-|[<-|[]]]; split; auto; reflexivity. }
    eapply mh64_ok; [exact I| vm_compute; reflexivity|].
    eapply mh64_ok; [| vm_compute; reflexivity |constructor].
    apply V; auto. intros s [<-|[]]; split; auto; reflexivity.
  - vm_compute. auto.
Qed.

(** The sums over the disks are right modulo 2^64 in any case, and so is
    get_used_bytes. *)
Lemma fold_w_map : forall A (f : A -> Z) l t,
  fold_left (fun t a => w (t + f a)) l t = fold_left (fun t s => w (t + s)) (map f l) t.
Proof. induction l as [|x l IH]; intros t; simpl; auto. Qed.

Theorem C97_totals : forall m,
  manager_total_bytes64 m = manager_total_bytes m mod 2 ^ 64 /\
  manager_free_bytes64 m = manager_free_bytes m mod 2 ^ 64.
Proof.
  intros m. unfold manager_total_bytes64, manager_free_bytes64. split.
  - rewrite (fold_w_map _ disk_bytes), fold_w by (pose proof W_pos; lia). rewrite <- sum_eq. reflexivity.
  - rewrite (fold_w_map _ free_bytes), fold_w by (pose proof W_pos; lia). rewrite <- sum_eq. reflexivity.
Qed.
Print Assumptions C97_totals.

Theorem C97_used : forall cfg grow c, reachable cfg grow c -> disk_bytes (cl_alloc c) < 2 ^ 64 ->
  used_bytes64 (cl_alloc c) = used_bytes (cl_alloc c).
Proof.
  intros cfg grow c R H. destruct (reachable_inv _ _ _ R) as (I & _). unfold used_bytes64, used_bytes.
  apply w_small. change W with (2 ^ 64).
  pose proof (inv_free_le _ _ I). lia.
Qed.
Print Assumptions C97_used.

(** ** Numbers of any size stay 64-bit numbers *)

Lemma map_set_u64 : forall m k v, (forall p s, In (p, s) m -> u64 p /\ u64 s) -> u64 k -> u64 v ->
  forall p s, In (p, s) (map_set k v m) -> u64 p /\ u64 s.
Proof.
  induction m as [|[k' v'] m IH]; intros k v H Hk Hv p s Hin; simpl in Hin.
  - destruct Hin as [E|[]]. injection E as <- <-. auto.
  - destruct (k <? k'); [|destruct (k =? k')].
    + destruct Hin as [E|Hin]; [injection E as <- <-; auto|]. apply H. exact Hin.
    + destruct Hin as [E|Hin]; [injection E as <- <-; auto|]. apply H. right. exact Hin.
    + destruct Hin as [E|Hin]; [apply H; left; exact E|]. apply (IH k v); auto. intros q z Hq. apply H. right. exact Hq.
Qed.

Lemma map_erase_sub : forall k m e, In e (map_erase k m) -> In e m.
Proof.
  induction m as [|[k' v'] m IH]; intros e H; simpl in *; auto. destruct (k =? k'); auto.
  destruct H; auto.
Qed.

Lemma add_u64 : forall a pos size a', allocator_u64 a -> u64 pos -> u64 size ->
  add_free_region64 a pos size = Ret a' -> allocator_u64 a'.
Proof.
  intros a pos size a' (A1 & A2 & A3 & A4 & A5) Hp Hs E.
  assert (F : forall m p s, (forall e, In e m -> In e (free_space a)) -> u64 p -> u64 s ->
    allocator_u64 {| free_space := map_set p s m; free_bytes := w (free_bytes a + size);
      disk_bytes := disk_bytes a; cfg_bytes := cfg_bytes a; storage_size := storage_size a; autogrow := autogrow a |}).
  { intros m p s Hm H1 H2. unfold allocator_u64; simpl. split; [apply w_range|]. split; auto. split; auto. split; auto.
    apply map_set_u64; auto. }
  assert (P : forall k v, In (k, v) (free_space a) -> u64 k) by (intros k v Hin; apply (A5 k v Hin)).
  unfold add_free_region64 in E. cbv zeta in E.
  destruct (free_space a) as [|e m] eqn:Em.
  { injection E as <-. apply (F [] pos size); simpl; auto. }
  rewrite <- Em in *. clear Em e m.
  assert (Sub : forall k e, In e (map_erase k (free_space a)) -> In e (free_space a)) by (intros k e; apply map_erase_sub).
  assert (Sub2 : forall k k' e, In e (map_erase k (map_erase k' (free_space a))) -> In e (free_space a))
    by (intros k k' e H; apply map_erase_sub in H; eauto).
  destruct (upper_bound pos (free_space a)) as [[sp ss]|] eqn:Eu;
    destruct (entry_before pos (free_space a)) as [[pp ps]|] eqn:Ee;
    try (apply upper_bound_in in Eu; destruct Eu as [Eu _]; apply P in Eu);
    try (apply entry_before_in in Ee; destruct Ee as [Ee _]; apply P in Ee);
    repeat match type of E with (if ?b then _ else _) = _ => destruct b end; try discriminate E;
    repeat match type of E with
      | (let '(x, y) := (if ?b then _ else _) in _) = _ => destruct b
      | (if ?b then _ else _) = _ => destruct b
      end; try discriminate E; injection E as <-; apply F; eauto; apply w_range.
Qed.

Lemma grow_u64 : forall a n a', allocator_u64 a -> u64 n -> grow_file64 a n = Ret a' -> allocator_u64 a'.
Proof.
  intros a n a' (A1 & A2 & A3 & A4 & A5) Hn E. unfold grow_file64 in E.
  destruct (n =? 0); [injection E as <-; unfold allocator_u64; auto|]. cbv zeta in E.
  match type of E with context [add_free_region64 ?b _ _] => set (a1 := b) in E end.
  destruct (add_free_region64 a1 (disk_bytes a) n) as [a2| |] eqn:E2; try discriminate E.
  injection E as <-. 
  assert (U1 : allocator_u64 a1) by (unfold allocator_u64, a1; simpl; split; auto; split; auto; split; auto; split; auto; apply w_range).
  destruct (add_u64 _ _ _ _ U1 A2 Hn E2) as (B1 & B2 & B3 & B4 & B5).
  unfold allocator_u64; simpl. split; auto. split; [apply w_range|]. auto.
Qed.

Lemma section_u64 : forall a sizes, allocator_u64 a -> (forall s, In s sizes -> u64 s) ->
  match new_blocks_section64 a sizes with
  | SecDone a' offs => allocator_u64 a' /\ (forall o, In o offs -> u64 o)
  | SecSplit a' => allocator_u64 a'
  | _ => True
  end.
Proof.
  intros a sizes U Hs. unfold new_blocks_section64. cbv zeta.
  assert (Hr : u64 (sum_sizes64 sizes)) by (rewrite sum64; apply w_range).
  set (req := sum_sizes64 sizes) in *.
  assert (O : forall sizes p, u64 p -> forall o, In o (assign_offsets64 p sizes) -> u64 o).
  { clear. induction sizes as [|z r IH]; intros p Hp o Ho; simpl in Ho; [tauto|].
    destruct Ho as [<-|Ho]; auto. eapply IH; [|exact Ho]. apply w_range. }
  assert (T : forall a2 p s, allocator_u64 a2 -> find_region req (free_space a2) = Some (p, s) ->
    match (if free_bytes a2 <? req then SecAssert else
      SecDone {| free_space := (if req <? s then map_set (w (p + req)) (w (s - req)) (map_erase p (free_space a2))
                                else map_erase p (free_space a2));
                 free_bytes := w (free_bytes a2 - req); disk_bytes := disk_bytes a2; cfg_bytes := cfg_bytes a2;
                 storage_size := storage_size a2; autogrow := autogrow a2 |} (assign_offsets64 p sizes)) with
    | SecDone a' offs => allocator_u64 a' /\ (forall o, In o offs -> u64 o)
    | SecSplit a' => allocator_u64 a'
    | _ => True
    end).
  { intros a2 p s (A1 & A2 & A3 & A4 & A5) EF. destruct (free_bytes a2 <? req); auto.
    destruct (find_region_some _ _ _ _ EF) as (L & R & Efs & _).
    assert (Hp : u64 p) by (apply (A5 p s); rewrite Efs; apply in_or_app; simpl; auto).
    split; [|apply O; auto]. unfold allocator_u64; simpl. split; [apply w_range|]. split; auto. split; auto. split; auto.
    assert (Em : forall q z, In (q, z) (map_erase p (free_space a2)) -> u64 q /\ u64 z).
    { intros q z Hin. apply map_erase_sub in Hin. auto. }
    destruct (req <? s); auto. apply map_set_u64; auto; apply w_range. }
  match goal with |- match match ?x with _ => _ end with _ => _ end => destruct x as [a1| |] eqn:EG end; auto.
  assert (U1 : allocator_u64 a1).
  { destruct (free_bytes a <? req); [destruct (autogrow a); [eapply grow_u64; eauto|discriminate]|].
    injection EG as <-. auto. }
  destruct (find_region req (free_space a1)) as [[p s]|] eqn:EF.
  - specialize (T a1 p s U1 EF). destruct sizes as [|z [|z' r]]; exact T.
  - destruct sizes as [|z [|z' r]]; try (destruct (1 <? _); auto; fail).
    destruct (grow_file64 a1 z) as [a2| |] eqn:E2; auto.
    assert (U2 : allocator_u64 a2) by (eapply grow_u64; [exact U1| |exact E2]; apply Hs; simpl; auto).
    destruct (find_region req (free_space a2)) as [[p s]|] eqn:EF2.
    + exact (T a2 p s U2 EF2).
    + destruct (1 <? _); auto.
Qed.

Lemma fuel_u64 : forall fuel a sizes, allocator_u64 a -> (forall s, In s sizes -> u64 s) ->
  match new_blocks_fuel64 fuel a sizes with
  | AllocOk a' offs => allocator_u64 a' /\ (forall o, In o offs -> u64 o)
  | AllocThrow a' => allocator_u64 a'
  | _ => True
  end.
Proof.
  induction fuel as [|f IH]; intros a sizes U Hs; cbn [new_blocks_fuel64]; auto.
  pose proof (section_u64 a sizes U Hs) as S. destruct (new_blocks_section64 a sizes) as [a' offs|a'| |]; auto.
  cbv zeta. set (half := Nat.div2 (length sizes)).
  assert (H1 : forall s, In s (firstn half sizes) -> u64 s).
  { intros s Hin. apply Hs. rewrite <- (firstn_skipn half sizes). apply in_or_app; auto. }
  assert (H2 : forall s, In s (skipn half sizes) -> u64 s).
  { intros s Hin. apply Hs. rewrite <- (firstn_skipn half sizes). apply in_or_app; auto. }
  pose proof (IH a' _ S H1) as J. destruct (new_blocks_fuel64 f a' (firstn half sizes)) as [a1 o1|a1| |]; auto.
  destruct J as [J1 J2]. pose proof (IH a1 _ J1 H2) as K.
  destruct (new_blocks_fuel64 f a1 (skipn half sizes)) as [a2 o2|a2| |]; auto.
  destruct K as [K1 K2]. split; auto. intros o Ho. apply in_app_or in Ho. destruct Ho; auto.
Qed.

Theorem C97_numbers : forall cfg grow c, reachable64 cfg grow c ->
  allocator_u64 (cl_alloc c) /\ forall o s, In (o, s) (cl_live c) -> u64 o /\ u64 s.
Proof.
  intros cfg grow c (Hc & a0 & ops & E & V & ->).
  assert (U0 : allocator_u64 a0).
  { eapply grow_u64; [|exact Hc|exact E]. unfold allocator_u64, u64; simpl.
    repeat split; try lia; try apply Hc; tauto. }
  assert (G : forall ops c, history_u64 ops -> allocator_u64 (cl_alloc c) ->
    (forall o s, In (o, s) (cl_live c) -> u64 o /\ u64 s) ->
    allocator_u64 (cl_alloc (client_run64 c ops)) /\
    forall o s, In (o, s) (cl_live (client_run64 c ops)) -> u64 o /\ u64 s).
  { clear. induction ops as [|o ops IH]; intros c V U L; [auto|].
    change (client_run64 c (o :: ops)) with (client_run64 (client_step64 c o) ops).
    assert (V' : history_u64 ops) by (intros sizes Hin; apply V; simpl; auto).
    destruct o as [sizes|i]; cbn [client_step64].
    - destruct (V sizes (or_introl eq_refl)) as [[_ Hp] Hs]. rewrite Forall_forall in Hp.
      assert (Hz : forall s, In s sizes -> u64 s) by (intros s Hin; specialize (Hp s Hin); specialize (Hs s Hin); unfold u64; lia).
      pose proof (fuel_u64 (S (length sizes)) (cl_alloc c) sizes U Hz) as F. unfold new_blocks64.
      destruct (new_blocks_fuel64 _ _ sizes) as [a' offs|a'| |]; apply IH; auto; cbn [cl_alloc cl_live]; try tauto.
      intros o s Hin. apply in_app_or in Hin. destruct Hin as [Hin|Hin]; auto.
      split; [apply F; eapply in_combine_l; eauto|apply Hz; eapply in_combine_r; eauto].
    - destruct (nth_error (cl_live c) i) as [[o s]|] eqn:En; [|apply IH; auto].
      assert (Hos : u64 o /\ u64 s) by (apply L; eapply nth_error_In; eauto). destruct Hos as [Ho Hs].
      destruct (delete_block64 (cl_alloc c) o s) as [a'| |] eqn:Ed; apply IH; auto; cbn [cl_alloc cl_live].
      + exact (add_u64 _ _ _ _ U Ho Hs Ed).
      + intros o' s' Hin. apply L. eapply In_remove_nth; eauto. }
  apply G; auto. intros o s [].
Qed.
Print Assumptions C97_numbers.

(** ** Beyond 2^64 *)

(** The sum of the request is taken modulo 2^64: only the remainder is looked for
    and taken, from the first region if that is large enough. *)
Theorem C97_remainder : forall a sizes p s rest, good_batch sizes -> free_space a = (p, s) :: rest ->
  free_bytes a < 2 ^ 64 -> sum sizes mod 2 ^ 64 <= s -> sum sizes mod 2 ^ 64 <= free_bytes a ->
  exists a', new_blocks64 a sizes = AllocOk a' (assign_offsets64 p sizes) /\
    free_bytes a' = free_bytes a - sum sizes mod 2 ^ 64 /\ disk_bytes a' = disk_bytes a.
Proof.
  intros a sizes p s rest Hg Ef Hf Hs Hfr. unfold new_blocks64. cbn [new_blocks_fuel64].
  unfold new_blocks_section64. cbv zeta. rewrite sum64, <- sum_eq. change (w (sum sizes)) with (sum sizes mod 2 ^ 64).
  set (k := sum sizes mod 2 ^ 64) in *.
  assert (Hk : 0 <= k) by (apply (Z.mod_pos_bound (sum sizes) (2 ^ 64)); reflexivity).
  destruct (Z.ltb_spec (free_bytes a) k) as [X|X]; [lia|].
  assert (EF : find_region k (free_space a) = Some (p, s)).
  { rewrite Ef. simpl. destruct (Z.leb_spec k s); [reflexivity|lia]. }
  rewrite EF.
  assert (Y : (free_bytes a <? k) = false) by (apply Z.ltb_ge; lia).
  destruct sizes as [|z [|z' r]]; rewrite Y; eexists; (split; [reflexivity|]);
    cbn [free_bytes disk_bytes]; (split; [|reflexivity]);
    apply w_small; change W with (2 ^ 64); lia.
Qed.
Print Assumptions C97_remainder.

(** Two blocks of 2^63 bytes are handed out on a disk of 100 bytes. *)
Definition small_start : allocator := mk_allocator [(0, 100)] 100 100 100 100 false.
Definition small_ops : list aop := [OpNew [40]].
Definition small_disk : client := client_run64 (mk_client small_start []) small_ops.
Lemma small_disk_reachable : reachable64 100 false small_disk.
Proof.
  split; [split; [discriminate|reflexivity]|]. exists small_start, small_ops.
  split; [vm_compute; reflexivity|]. split; [|reflexivity].
  intros sizes [E|[]]. injection E as <-. split; [split; [discriminate|repeat constructor]|].
  intros s [<-|[]]. reflexivity.
Qed.

Theorem C97_out_of_space_refuted : ~ (forall cfg c sizes a' offs, reachable64 cfg false c -> good_batch sizes ->
  (forall s, In s sizes -> s < 2 ^ 64) -> new_blocks64 (cl_alloc c) sizes = AllocOk a' offs ->
  sum sizes <= free_bytes (cl_alloc c)).
Proof.
  intros H. destruct (new_blocks64 (cl_alloc small_disk) [2 ^ 63; 2 ^ 63]) as [a' offs| | |] eqn:E;
    try (vm_compute in E; discriminate E).
  specialize (H 100 small_disk [2 ^ 63; 2 ^ 63] a' offs small_disk_reachable).
  assert (K : sum [2 ^ 63; 2 ^ 63] <= free_bytes (cl_alloc small_disk)).
  { apply H; auto.
    - split; [discriminate|repeat constructor].
    - intros s [<-|[<-|[]]]; reflexivity. }
  apply K. reflexivity.
Qed.
Print Assumptions C97_out_of_space_refuted.
Example C97_remainder_case : exists a',
  new_blocks64 (cl_alloc small_disk) [2 ^ 63; 2 ^ 63 + 10] = AllocOk a' [40; 2 ^ 63 + 40] /\
  free_space a' = [(50, 50)] /\ disk_bytes a' = 100.
Proof. eexists. split; vm_compute; auto. Qed.

(** A disk that grows to 2^64 is cut to size 0, and its space is given out again. *)
Definition full_start : allocator :=
  mk_allocator [(0, 2 ^ 64 - 8)] (2 ^ 64 - 8) (2 ^ 64 - 8) (2 ^ 64 - 8) (2 ^ 64 - 8) true.
Definition full_ops : list aop := [OpNew [2 ^ 64 - 8]; OpNew [8]; OpNew [8]].
Definition full_disk : client := client_run64 (mk_client full_start []) full_ops.
Lemma full_disk_reachable : reachable64 (2 ^ 64 - 8) true full_disk.
Proof.
  split; [split; [discriminate|reflexivity]|]. exists full_start, full_ops.
  split; [vm_compute; reflexivity|]. split; [|reflexivity].
  intros sizes [E|[E|[E|[]]]]; injection E as <-; (split; [split; [discriminate|]|]);
    try (intros s [<-|[]]; reflexivity); (constructor; [reflexivity|constructor]).
Qed.

Theorem C97_disjoint_refuted : ~ (forall cfg grow c, reachable64 cfg grow c ->
  forall i j r1 r2 x, i <> j -> nth_error (cl_live c) i = Some r1 -> nth_error (cl_live c) j = Some r2 ->
    in_range x r1 -> ~ in_range x r2).
Proof.
  intros H. apply (H _ _ _ full_disk_reachable 0%nat 2%nat (0, 2 ^ 64 - 8) (0, 8) 3);
    try (vm_compute; reflexivity); try discriminate; split; simpl; try discriminate; reflexivity.
Qed.
Print Assumptions C97_disjoint_refuted.

Theorem C97_file_size_refuted : ~ (forall cfg grow c, reachable64 cfg grow c ->
  forall o s, In (o, s) (cl_live c) -> o + s <= storage_size (cl_alloc c)).
Proof.
  intros H. specialize (H _ _ _ full_disk_reachable 0 (2 ^ 64 - 8)).
  apply H; [vm_compute; auto|reflexivity].
Qed.
Print Assumptions C97_file_size_refuted.

(** The check for double deallocation can be passed with a size that wraps. *)
Theorem C97_bad_delete_refuted : ~ (forall cfg grow c pos size x, reachable64 cfg grow c -> u64 pos -> u64 size ->
  covered (free_space (cl_alloc c)) x -> in_range x (pos, size) -> delete_block64 (cl_alloc c) pos size = Throw).
Proof.
  intros H. assert (K : delete_block64 (cl_alloc small_disk) 10 (2 ^ 64 - 5) = Throw).
  { apply (H _ _ _ 10 (2 ^ 64 - 5) 70 small_disk_reachable).
    - split; [discriminate|reflexivity].
    - split; [discriminate|reflexivity].
    - exists (40, 60). split; [vm_compute; auto|]. split; simpl; [discriminate|reflexivity].
    - split; simpl; [discriminate|reflexivity]. }
  vm_compute in K. discriminate K.
Qed.
Print Assumptions C97_bad_delete_refuted.

(** The positions that a well-behaved program frees never do: see C97_one_disk. *)
