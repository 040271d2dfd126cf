(** 64-bit arithmetic agrees with unbounded integers while everything fits. *)
From Coq Require Import ZArith List Bool Lia PeanoNat Permutation.
From Verif Require Import AllocModel AllocSpec AllocProofs AllocInv AllocMain ManagerModel WrapModel WrapSpec.
Import ListNotations.
Local Open Scope Z_scope.

Lemma W_pos : 0 < W.
Proof. reflexivity. Qed.

Lemma w_small : forall x, 0 <= x < W -> w x = x.
Proof. intros x H. unfold w. apply Z.mod_small. auto. Qed.

Lemma w_range : forall x, 0 <= w x < W.
Proof. intros x. unfold w. apply Z.mod_pos_bound. exact W_pos. Qed.

Lemma upper_bound_in : forall p m k v, upper_bound p m = Some (k, v) -> In (k, v) m /\ p < k.
Proof.
  induction m as [|[k' v'] m IH]; intros k v H; simpl in H; [discriminate|].
  destruct (Z.ltb_spec p k').
  - injection H as <- <-. simpl; auto.
  - destruct (IH _ _ H). simpl; auto.
Qed.

Lemma entry_before_in : forall p m k v, entry_before p m = Some (k, v) -> In (k, v) m /\ k <= p.
Proof.
  induction m as [|[k' v'] m IH]; intros k v H; simpl in H; [discriminate|].
  destruct (Z.ltb_spec p k'); [discriminate|].
  destruct (entry_before p m) as [[k0 v0]|] eqn:E.
  - injection H as <- <-. destruct (IH _ _ eq_refl). simpl; auto.
  - injection H as <- <-. simpl; auto.
Qed.

Lemma add64_eq : forall a pos size, coalesced_from (-1) (free_space a) ->
  (forall p s, In (p, s) (free_space a) -> p + s < W) ->
  0 <= pos -> 0 < size -> pos + size < W -> 0 <= free_bytes a -> free_bytes a + size < W ->
  add_free_region64 a pos size = add_free_region a pos size.
Proof.
  intros a pos size Hc Hb Hp Hs Hps Hf Hfs. unfold add_free_region64, add_free_region. cbv zeta.
  rewrite (w_small (free_bytes a + size)) by lia.
  rewrite (w_small (pos + size)) by lia.
  assert (P : forall k v, In (k, v) (free_space a) -> 0 <= k /\ 0 < v /\ k + v < W).
  { intros k v Hin. specialize (Hb k v Hin). destruct (coalesced_in _ _ _ _ Hc Hin) as (? & ? & _). lia. }
  destruct (free_space a) as [|e m] eqn:Em; [reflexivity|]. rewrite <- Em in *. clear Em e m.
  assert (Hlen : forall (x y : outcome allocator), x = y -> x = y) by auto.
  destruct (upper_bound pos (free_space a)) as [[sp ss]|] eqn:Eu;
    destruct (entry_before pos (free_space a)) as [[pp ps]|] eqn:Ee.
  - apply upper_bound_in in Eu. destruct Eu as [Iu Hu]. apply entry_before_in in Ee. destruct Ee as [Ie He].
    destruct (P _ _ Iu) as (U1 & U2 & U3). destruct (P _ _ Ie) as (E1 & E2 & E3).
    rewrite (w_small (pp + ps)) by lia.
    destruct (_ && _); [reflexivity|]. destruct (_ && _); [reflexivity|].
    destruct (Z.eqb_spec sp (pos + size)).
    + rewrite (w_small (size + ss)) by lia. destruct (1 <? _); [|reflexivity].
      destruct (Z.eqb_spec (pp + ps) pos); [|reflexivity].
      rewrite w_small by lia. reflexivity.
    + destruct (1 <? _); [|reflexivity].
      destruct (Z.eqb_spec (pp + ps) pos); [|reflexivity].
      rewrite w_small by lia. reflexivity.
  - apply upper_bound_in in Eu. destruct Eu as [Iu Hu]. destruct (P _ _ Iu) as (U1 & U2 & U3).
    rewrite (w_small (sp + ss)) by lia.
    destruct (_ && _); [reflexivity|]. destruct (_ && _); [reflexivity|].
    destruct (Z.eqb_spec sp (pos + size)); [|reflexivity].
    rewrite (w_small (size + ss)) by lia. reflexivity.
  - apply entry_before_in in Ee. destruct Ee as [Ie He]. destruct (P _ _ Ie) as (E1 & E2 & E3).
    rewrite (w_small (pp + ps)) by lia.
    destruct (_ && _); [reflexivity|].
    destruct (Z.eqb_spec (pp + ps) pos); [|reflexivity].
    rewrite w_small by lia. reflexivity.
  - reflexivity.
Qed.

Lemma inv_ends : forall a live p s, inv a live -> In (p, s) (free_space a) ->
  0 <= p /\ 0 < s /\ p + s <= disk_bytes a.
Proof.
  intros a live p s I Hin. destruct (coalesced_in _ _ _ _ (i_coal _ _ I) Hin) as (A & B & _).
  assert (0 <= p + s - 1 < disk_bytes a); [|lia].
  apply (i_part _ _ I). left. exists (p, s). split; auto. unfold in_range; simpl; lia.
Qed.

Lemma inv_free_le : forall a live, inv a live -> 0 <= free_bytes a <= disk_bytes a.
Proof.
  intros a live I. pose proof (inv_nonneg_free _ _ I). split; auto.
  pose proof (i_tot _ _ I). pose proof (i_pos _ _ I) as P.
  assert (0 <= total_size live); [|lia].
  clear - P. induction P as [|[o s] l H P IH]; simpl in *; lia.
Qed.

Lemma grow64_eq : forall a live n, inv a live -> 0 < n -> disk_bytes a + n < W ->
  grow_file64 a n = grow_file a n.
Proof.
  intros a live n I Hn Hw. pose proof (inv_free_le _ _ I). unfold grow_file64, grow_file.
  destruct (n =? 0); [reflexivity|]. cbv zeta.
  rewrite (w_small (disk_bytes a + n)) by lia.
  rewrite add64_eq; cbn [free_space free_bytes]; try lia.
  - destruct (inv_grow _ _ _ I Hn) as (a' & E & _ & _ & D & _). unfold grow_file in E.
    destruct (Z.eqb_spec n 0); [lia|]. cbv zeta in E.
    destruct (add_free_region _ _ _) as [a2| |]; [|reflexivity|reflexivity].
    injection E as E. subst a'. cbn [disk_bytes] in D. rewrite w_small by lia. reflexivity.
  - exact (i_coal _ _ I).
  - intros p s Hin. pose proof (inv_ends _ _ _ _ I Hin). lia.
Qed.

Lemma delete64_eq : forall a live o s, inv a ((o, s) :: live) -> disk_bytes a < W ->
  delete_block64 a o s = delete_block a o s.
Proof.
  intros a live o s I Hw. unfold delete_block64, delete_block.
  pose proof (i_pos _ _ I) as P. inversion P as [|? ? Hs P']; subst. simpl in Hs.
  assert (R : 0 <= o < disk_bytes a /\ 0 <= o + s - 1 < disk_bytes a).
  { split; apply (i_part _ _ I); right; exists (o, s); simpl; split; auto; unfold in_range; simpl; lia. }
  destruct (inv_delete _ _ _ _ I) as (a' & E & I' & _ & D' & F').
  pose proof (inv_free_le _ _ I'). pose proof (inv_free_le _ _ I).
  apply add64_eq; try lia.
  - exact (i_coal _ _ I).
  - intros p z Hin. pose proof (inv_ends _ _ _ _ I Hin). lia.
Qed.

Lemma fold_w : forall sizes t, 0 <= t < W -> fold_left (fun t s => w (t + s)) sizes t = w (t + sum_sizes sizes).
Proof.
  induction sizes as [|s r IH]; intros t Ht; simpl.
  - rewrite Z.add_0_r. symmetry. apply w_small. auto.
  - rewrite IH by apply w_range. unfold w. rewrite Z.add_mod_idemp_l by (pose proof W_pos; lia).
    f_equal. lia.
Qed.

Lemma sum64 : forall sizes, sum_sizes64 sizes = w (sum_sizes sizes).
Proof. intros. unfold sum_sizes64. rewrite fold_w; [reflexivity|]. pose proof W_pos. lia. Qed.

Lemma assign64_eq : forall sizes p, Forall (fun s => 0 < s) sizes -> 0 <= p -> p + sum_sizes sizes < W ->
  assign_offsets64 p sizes = assign_offsets p sizes.
Proof.
  induction sizes as [|s r IH]; intros p F Hp Hw; simpl in *; auto. inversion F; subst.
  pose proof (sum_sizes_nonneg _ H2). rewrite w_small by lia. rewrite IH; auto; lia.
Qed.

(** Taking the blocks out of the region that was found. *)
Lemma take64_eq : forall a live sizes p s, inv a live -> good_batch sizes -> disk_bytes a < W ->
  find_region (sum_sizes sizes) (free_space a) = Some (p, s) ->
  (if sum_sizes sizes <? s then map_set (w (p + sum_sizes sizes)) (w (s - sum_sizes sizes)) (map_erase p (free_space a))
   else map_erase p (free_space a)) =
  (if sum_sizes sizes <? s then map_set (p + sum_sizes sizes) (s - sum_sizes sizes) (map_erase p (free_space a))
   else map_erase p (free_space a)) /\
  w (free_bytes a - sum_sizes sizes) = free_bytes a - sum_sizes sizes /\
  assign_offsets64 p sizes = assign_offsets p sizes.
Proof.
  intros a live sizes p s I Hg Hw E. pose proof (sum_sizes_pos _ Hg) as Hpos.
  destruct (find_region_some _ _ _ _ E) as (L & R & Efs & Hle & _).
  assert (Hin : In (p, s) (free_space a)) by (rewrite Efs; apply in_or_app; simpl; auto).
  pose proof (inv_ends _ _ _ _ I Hin) as (A & B & C). pose proof (inv_free_le _ _ I).
  assert (Hf : s <= free_bytes a).
  { rewrite (i_sum _ _ I), Efs, total_size_app. simpl.
    pose proof (i_coal _ _ I) as Co. rewrite Efs in Co. apply coalesced_app in Co. destruct Co as [C1 C2].
    pose proof (coalesced_nonneg_total _ _ C1). simpl in C2. destruct C2 as (_ & _ & C2).
    pose proof (coalesced_nonneg_total _ _ C2). lia. }
  split; [|split].
  - destruct (Z.ltb_spec (sum_sizes sizes) s); auto. rewrite !w_small by lia. reflexivity.
  - apply w_small. lia.
  - apply assign64_eq; try lia. apply Hg.
Qed.

Definition section_disk (r : section_result) (d : Z) : Z :=
  match r with SecDone a' _ => disk_bytes a' | SecSplit a' => disk_bytes a' | _ => d end.

Lemma section64_eq : forall a live sizes, inv a live -> good_batch sizes -> sum_sizes sizes < W ->
  disk_bytes a < W -> section_disk (new_blocks_section a sizes) 0 < W ->
  new_blocks_section64 a sizes = new_blocks_section a sizes.
Proof.
  intros a live sizes I Hg Hsw Hw Hd. pose proof (sum_sizes_pos _ Hg) as Hpos.
  unfold new_blocks_section64, new_blocks_section in *. cbv zeta in *.
  rewrite sum64, (w_small (sum_sizes sizes)) by lia.
  destruct (Z.ltb_spec (free_bytes a) (sum_sizes sizes)) as [Hlt|Hge].
  - destruct (autogrow a); [|reflexivity].
    destruct (inv_grow _ _ _ I Hpos) as (a1 & E & I1 & _ & D1 & F1 & (p0 & s0 & Hin0 & Hle0)).
    rewrite E in Hd |- *.
    destruct (find_region (sum_sizes sizes) (free_space a1)) as [[p s]|] eqn:EF.
    2:{ pose proof (find_region_none _ _ EF _ _ Hin0). lia. }
    assert (Hw1 : disk_bytes a1 < W).
    { assert (X : (free_bytes a1 <? sum_sizes sizes) = false).
      { apply Z.ltb_ge. pose proof (inv_free_le _ _ I). lia. }
      destruct sizes as [|z [|z' r]]; rewrite X in Hd; exact Hd. }
    rewrite (grow64_eq a live) by (auto; lia). rewrite E, EF.
    destruct (take64_eq a1 live sizes p s I1 Hg Hw1 EF) as (T1 & T2 & T3).
    rewrite T1, T2, T3. destruct sizes as [|z [|z' r]]; reflexivity.
  - destruct (find_region (sum_sizes sizes) (free_space a)) as [[p s]|] eqn:EF.
    + destruct (take64_eq a live sizes p s I Hg Hw EF) as (T1 & T2 & T3).
      rewrite T1, T2, T3. destruct sizes as [|z [|z' r]]; reflexivity.
    + destruct sizes as [|z [|z' r]]; try reflexivity.
      assert (Hz : 0 < z) by (simpl in Hpos; lia).
      destruct (inv_grow _ _ _ I Hz) as (a2 & E & I2 & _ & D2 & F2 & (p0 & s0 & Hin0 & Hle0)).
      rewrite E in Hd |- *.
      destruct (find_region (sum_sizes [z]) (free_space a2)) as [[p s]|] eqn:EF2.
      2:{ pose proof (find_region_none _ _ EF2 _ _ Hin0). simpl in *. lia. }
      assert (Hw2 : disk_bytes a2 < W).
      { destruct (Z.ltb_spec (free_bytes a2) (sum_sizes [z])) as [X|X]; [|exact Hd].
        pose proof (inv_free_le _ _ I). simpl in X. lia. }
      rewrite (grow64_eq a live) by (auto; lia). rewrite E, EF2.
      destruct (take64_eq a2 live [z] p s I2 Hg Hw2 EF2) as (T1 & T2 & T3).
      rewrite T1, T2, T3. reflexivity.
Qed.

Definition result_disk (r : alloc_result) : Z :=
  match r with AllocOk a' _ => disk_bytes a' | _ => 0 end.

Lemma fuel64_eq : forall fuel a live sizes, inv a live -> good_batch sizes -> (length sizes < fuel)%nat ->
  sum_sizes sizes < W -> disk_bytes a < W -> result_disk (new_blocks_fuel fuel a sizes) < W ->
  new_blocks_fuel64 fuel a sizes = new_blocks_fuel fuel a sizes.
Proof.
  induction fuel as [|f IH]; intros a live sizes I Hg Hf Hs Hw Hd; [lia|].
  pose proof (section_spec a live sizes I Hg) as S. cbn [new_blocks_fuel new_blocks_fuel64] in *.
  destruct (new_blocks_section a sizes) as [a' offs|a'| |] eqn:ES.
  - rewrite (section64_eq a live) by (auto; rewrite ES; exact Hd). rewrite ES. reflexivity.
  - destruct S as (I1 & C1 & D1 & F1 & L1 & N1).
    destruct (good_firstn _ Hg L1) as (G1 & G2 & L2 & L3). cbv zeta in *.
    set (half := Nat.div2 (length sizes)) in *.
    assert (Hsum : sum_sizes sizes = sum_sizes (firstn half sizes) + sum_sizes (skipn half sizes)).
    { rewrite <- sum_sizes_app, firstn_skipn. reflexivity. }
    pose proof (sum_sizes_pos _ G1) as P1. pose proof (sum_sizes_pos _ G2) as P2.
    pose proof (new_blocks_fuel_spec f a' live (firstn half sizes) I1 G1 ltac:(lia)) as J.
    destruct (new_blocks_fuel f a' (firstn half sizes)) as [a1 o1|a1| |] eqn:E1; try tauto.
    + destruct J as (K1 & K2 & K3 & K4 & _).
      pose proof (new_blocks_fuel_spec f a1 _ (skipn half sizes) K1 G2 ltac:(lia)) as J2.
      assert (Hd' : disk_bytes a1 < W /\ result_disk (new_blocks_fuel f a1 (skipn half sizes)) < W).
      { destruct (new_blocks_fuel f a1 (skipn half sizes)) as [a2 o2|a2| |] eqn:E2; try tauto.
        - destruct J2 as (_ & _ & _ & Q4 & _). simpl in *. lia.
        - exfalso. destruct J2 as (_ & Q1 & Q2). destruct K3 as [K3 _].
          assert (A' : autogrow a' = false) by congruence.
          assert (A0 : autogrow a = false) by (destruct C1; congruence).
          pose proof (new_blocks_fuel_spec (S f) a live sizes I Hg Hf) as SP.
          cbn [new_blocks_fuel] in SP. rewrite ES in SP. fold half in SP. rewrite E1, E2 in SP.
          destruct SP as (_ & _ & SP). rewrite (N1 A0) in F1. lia. }
      destruct Hd' as [Hd1 Hd2].
      rewrite (section64_eq a live); auto; rewrite ES; [|simpl; lia].
      rewrite (IH a' live); auto; try lia; [|rewrite E1; exact Hd1]. rewrite E1.
      rewrite (IH a1 _ (skipn half sizes) K1); auto; lia.
    + exfalso. destruct J as (-> & Q1 & Q2). lia.
  - rewrite (section64_eq a live) by (auto; rewrite ES; exact W_pos). rewrite ES. reflexivity.
  - tauto.
Qed.

(** A batch makes the file grow by at most its size. *)
Lemma section_growth : forall a live sizes, inv a live -> good_batch sizes ->
  match new_blocks_section a sizes with
  | SecDone a' _ => disk_bytes a' <= disk_bytes a + sum_sizes sizes
  | SecSplit a' => a' = a
  | _ => True
  end.
Proof.
  intros a live sizes I Hg. pose proof (sum_sizes_pos _ Hg) as Hpos.
  unfold new_blocks_section. cbv zeta.
  destruct (Z.ltb_spec (free_bytes a) (sum_sizes sizes)) as [Hlt|Hge].
  - destruct (autogrow a); [|auto].
    destruct (inv_grow _ _ _ I Hpos) as (a1 & E & I1 & _ & D1 & _ & (p0 & s0 & Hin0 & Hle0)). rewrite E.
    destruct (find_region (sum_sizes sizes) (free_space a1)) as [[p s]|] eqn:EF.
    2:{ pose proof (find_region_none _ _ EF _ _ Hin0). lia. }
    destruct sizes as [|z [|z' r]]; destruct (free_bytes a1 <? _); cbn [disk_bytes]; auto; lia.
  - destruct (find_region (sum_sizes sizes) (free_space a)) as [[p s]|] eqn:EF.
    + destruct sizes as [|z [|z' r]]; destruct (free_bytes a <? _); cbn [disk_bytes]; auto; lia.
    + destruct sizes as [|z [|z' r]].
      * simpl. auto.
      * assert (Hz : 0 < z) by (simpl in Hpos; lia).
        destruct (inv_grow _ _ _ I Hz) as (a2 & E & I2 & _ & D2 & _ & (p0 & s0 & Hin0 & Hle0)). rewrite E.
        destruct (find_region (sum_sizes [z]) (free_space a2)) as [[p s]|] eqn:EF2.
        2:{ pose proof (find_region_none _ _ EF2 _ _ Hin0). simpl in *. lia. }
        destruct (free_bytes a2 <? _); cbn [disk_bytes]; auto. simpl sum_sizes. lia.
      * destruct (1 <? _); auto.
Qed.

Lemma fuel_growth : forall fuel a live sizes, inv a live -> good_batch sizes -> (length sizes < fuel)%nat ->
  match new_blocks_fuel fuel a sizes with
  | AllocOk a' _ => disk_bytes a' <= disk_bytes a + sum_sizes sizes
  | _ => True
  end.
Proof.
  induction fuel as [|f IH]; intros a live sizes I Hg Hf; [lia|].
  pose proof (section_spec a live sizes I Hg) as S. pose proof (section_growth a live sizes I Hg) as G.
  cbn [new_blocks_fuel].
  destruct (new_blocks_section a sizes) as [a' offs|a'| |] eqn:ES; auto.
  destruct S as (I1 & C1 & D1 & F1 & L1 & N1). subst a'.
  destruct (good_firstn _ Hg L1) as (G1 & G2 & L2 & L3). cbv zeta in *.
  set (half := Nat.div2 (length sizes)) in *.
  assert (Hsum : sum_sizes sizes = sum_sizes (firstn half sizes) + sum_sizes (skipn half sizes)).
  { rewrite <- sum_sizes_app, firstn_skipn. reflexivity. }
  pose proof (new_blocks_fuel_spec f a live (firstn half sizes) I1 G1 ltac:(lia)) as J.
  pose proof (IH a live (firstn half sizes) I1 G1 ltac:(lia)) as J'.
  destruct (new_blocks_fuel f a (firstn half sizes)) as [a1 o1|a1| |]; auto.
  destruct J as (K1 & _).
  pose proof (IH a1 _ (skipn half sizes) K1 G2 ltac:(lia)) as J2.
  destruct (new_blocks_fuel f a1 (skipn half sizes)); auto. lia.
Qed.

Lemma new_blocks64_eq : forall a live sizes, inv a live -> good_batch sizes ->
  sum_sizes sizes < W -> disk_bytes a < W -> result_disk (new_blocks a sizes) < W ->
  new_blocks64 a sizes = new_blocks a sizes.
Proof. intros. eapply fuel64_eq; eauto. Qed.

Lemma new_blocks_growth : forall a live sizes a' offs, inv a live -> good_batch sizes ->
  new_blocks a sizes = AllocOk a' offs -> disk_bytes a' <= disk_bytes a + sum_sizes sizes.
Proof.
  intros a live sizes a' offs I Hg E. pose proof (fuel_growth (S (length sizes)) a live sizes I Hg ltac:(lia)) as G.
  unfold new_blocks in E. rewrite E in G. auto.
Qed.

Lemma new_allocator64_eq : forall cfg g, 0 <= cfg < W -> new_allocator64 cfg g = new_allocator cfg g.
Proof.
  intros cfg g H. unfold new_allocator64, new_allocator.
  destruct (Z.eq_dec cfg 0) as [->|]; [reflexivity|].
  eapply grow64_eq; [apply inv_empty|lia|simpl; lia].
Qed.

(** * Histories on one disk *)

Lemma sum_eq : forall sizes, sum sizes = sum_sizes sizes.
Proof. induction sizes; simpl; unfold sum in *; simpl; congruence. Qed.

Lemma step64_eq : forall cfg g c o, good_client cfg g c ->
  (forall sizes, o = OpNew sizes -> good_batch sizes /\ sum sizes < W) ->
  disk_bytes (cl_alloc c) < W -> disk_bytes (cl_alloc (client_step c o)) < W ->
  client_step64 c o = client_step c o.
Proof.
  intros cfg g c o (I & _) Ho Hw Hw'. destruct o as [sizes|i]; simpl in *.
  - destruct (Ho sizes eq_refl) as [Hg Hs]. rewrite sum_eq in Hs.
    rewrite (new_blocks64_eq _ (cl_live c)); auto.
    destruct (new_blocks (cl_alloc c) sizes); simpl in *; auto; exact W_pos.
  - destruct (nth_error (cl_live c) i) as [[o s]|] eqn:En; auto.
    rewrite (delete64_eq _ (remove_nth i (cl_live c))); auto.
    eapply inv_perm; [|exact I]. exact (remove_nth_perm _ _ _ En).
Qed.

Lemma run64_eq : forall cfg g ops c, good_client cfg g c -> valid_history ops -> fits c ops ->
  client_run64 c ops = client_run c ops.
Proof.
  intros cfg g. induction ops as [|o ops IH]; intros c G V F; [reflexivity|].
  destruct F as (F0 & F1 & F2). simpl.
  assert (V' : forall sizes, o = OpNew sizes -> good_batch sizes) by (intros sizes ->; apply V; simpl; auto).
  assert (E : client_step64 c o = client_step c o).
  { eapply step64_eq; eauto. destruct ops; apply F2. }
  change (client_run64 (client_step64 c o) ops = client_run (client_step c o) ops). rewrite E. apply IH; auto.
  - apply client_step_good; auto.
  - intros sizes Hin. apply V. simpl; auto.
Qed.

Lemma requested_nonneg : forall ops, valid_history ops -> 0 <= requested ops.
Proof.
  induction ops as [|[sizes|i] ops IH]; intros V; simpl; [lia| |]; rewrite ?sum_eq.
  - pose proof (sum_sizes_pos _ (V sizes (or_introl eq_refl))).
    assert (0 <= requested ops) by (apply IH; intros z Hz; apply V; simpl; auto). lia.
  - apply IH. intros z Hz. apply V. simpl; auto.
Qed.

Lemma step_growth : forall cfg g c o, good_client cfg g c ->
  (forall sizes, o = OpNew sizes -> good_batch sizes) ->
  disk_bytes (cl_alloc (client_step c o)) <= disk_bytes (cl_alloc c) + requested [o].
Proof.
  intros cfg g c o (I & _) Ho. destruct o as [sizes|i]; simpl; rewrite ?sum_eq.
  - pose proof (sum_sizes_pos _ (Ho _ eq_refl)).
    pose proof (new_blocks_spec _ _ sizes I (Ho _ eq_refl)) as S.
    destruct (new_blocks (cl_alloc c) sizes) as [a' offs|a'| |] eqn:E; simpl; try lia.
    + pose proof (new_blocks_growth _ _ _ _ _ I (Ho _ eq_refl) E). lia.
    + destruct S as (-> & _). lia.
  - destruct (nth_error (cl_live c) i) as [[o s]|] eqn:En; [|lia].
    pose proof (inv_perm _ _ _ (remove_nth_perm _ _ _ En) I) as I'.
    destruct (inv_delete _ _ _ _ I') as (a' & E' & _ & _ & D' & _). rewrite E'. simpl. lia.
Qed.

Lemma fits_small : forall cfg g ops c, good_client cfg g c -> valid_history ops ->
  disk_bytes (cl_alloc c) + requested ops < W -> fits c ops.
Proof.
  intros cfg g. induction ops as [|o ops IH]; intros c G V H; cbn [fits]; change (2 ^ 64) with W.
  - split; auto. cbn [requested] in H. lia.
  - assert (V' : valid_history ops) by (intros sizes Hin; apply V; simpl; auto).
    assert (Vo : forall sizes, o = OpNew sizes -> good_batch sizes) by (intros sizes ->; apply V; simpl; auto).
    pose proof (requested_nonneg _ V') as R0. pose proof (step_growth _ _ _ o G Vo) as SG.
    assert (Er : requested (o :: ops) = requested [o] + requested ops) by (destruct o; simpl; lia).
    assert (0 <= requested [o]).
    { destruct o; simpl; [|lia]. rewrite sum_eq. pose proof (sum_sizes_pos _ (Vo _ eq_refl)). lia. }
    destruct G as (I & G'). pose proof (i_disk _ _ I).
    split; [lia|]. split.
    + intros sizes ->. cbn [requested] in H. lia.
    + apply IH; auto; [|lia]. apply client_step_good; auto. split; auto.
Qed.
