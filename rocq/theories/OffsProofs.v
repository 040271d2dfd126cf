(** Offsets of blocks whose sizes have a common divisor. *)
From Coq Require Import ZArith List Bool Lia Permutation PeanoNat.
From Verif Require Import AllocModel AllocSpec AllocProofs AllocInv AllocMain
  ManagerModel ManagerSpec ManagerProofs ManagerMain.
Import ListNotations.
Local Open Scope Z_scope.

(** A free region begins at the start of the file or where a block ends, and ends
    where a block begins or at the end of the file. *)
Lemma free_region_ends : forall b a live p s, inv a live -> live_mult b live ->
  In (p, s) (free_space a) -> (b | p) /\ 0 < s /\ ((b | p + s) \/ p + s = disk_bytes a).
Proof.
  intros b a live p s H Hl Hin.
  assert (Hreg : forall x, in_range x (p, s) -> covered (free_space a) x) by (intros x Hx; exists (p, s); auto).
  destruct H as [Ico Isu Idi Ipo Ids Ipa Iex Ito Ist].
  destruct (coalesced_in _ _ _ _ Ico Hin) as (Hp & Hs & _).
  assert (Hend : p + s <= disk_bytes a).
  { assert (0 <= p + s - 1 < disk_bytes a); [|lia]. apply Ipa. left. apply Hreg. unfold in_range; simpl; lia. }
  assert (Hgap : forall m lo, coalesced_from lo m -> In (p, s) m -> ~ covered m (p - 1) /\ ~ covered m (p + s)).
  { clear. induction m as [|[p0 s0] m IH]; intros lo Hc Hin; simpl in *; [tauto|].
    destruct Hc as (H1 & H2 & H3). rewrite !covered_cons. destruct Hin as [E|Hin].
    - inversion E; subst. split; (intros [K|K]; [unfold in_range in K; simpl in K; lia|]);
        apply (covered_coalesced_lb _ _ _ H3) in K; lia.
    - destruct (IH _ H3 Hin) as [A B]. destruct (coalesced_in _ _ _ _ H3 Hin) as (? & ? & ?).
      split; intros [K|K]; auto; unfold in_range in K; simpl in K; lia. }
  destruct (Hgap _ _ Ico Hin) as [G1 G2].
  split; [|split; auto].
  - destruct (Z.eq_dec p 0) as [->|Hne]; [apply Z.divide_0_r|].
    assert (0 <= p - 1 < disk_bytes a) as K by lia. apply Ipa in K. destruct K as [K|K]; [tauto|].
    destruct K as ((o, z) & Hi & Hr). destruct (Hl _ _ Hi) as [D1 D2].
    assert (p = o + z).
    { unfold in_range in Hr; simpl in Hr. destruct (Z_lt_le_dec p (o + z)); [|lia]. exfalso. apply (Iex p). split.
      - apply Hreg. unfold in_range; simpl; lia.
      - exists (o, z). split; auto. unfold in_range; simpl; lia. }
    subst p. apply Z.divide_add_r; auto.
  - destruct (Z.eq_dec (p + s) (disk_bytes a)) as [->|Hne]; auto. left.
    assert (0 <= p + s < disk_bytes a) as K by lia. apply Ipa in K. destruct K as [K|K]; [tauto|].
    destruct K as ((o, z) & Hi & Hr). destruct (Hl _ _ Hi) as [D1 D2].
    assert (p + s = o).
    { unfold in_range in Hr; simpl in Hr. destruct (Z.eq_dec (p + s) o); auto. exfalso. apply (Iex (p + s - 1)). split.
      - apply Hreg. unfold in_range; simpl; lia.
      - exists (o, z). split; auto. unfold in_range; simpl; lia. }
    subst o. auto.
Qed.

Lemma assign_div : forall b sizes pos, (b | pos) -> (forall s, In s sizes -> (b | s)) ->
  live_mult b (combine (assign_offsets pos sizes) sizes).
Proof.
  induction sizes as [|z r IH]; intros pos Hp Hs o s Hin; simpl in *; [tauto|].
  destruct Hin as [E|Hin].
  - inversion E; subst. auto.
  - eapply IH; [| |exact Hin]; auto. apply Z.divide_add_r; auto.
Qed.

Lemma section_div : forall b a live sizes, inv a live -> good_batch sizes ->
  live_mult b live -> (forall s, In s sizes -> (b | s)) ->
  match new_blocks_section a sizes with
  | SecDone a' offs => live_mult b (live ++ combine offs sizes)
  | _ => True
  end.
Proof.
  intros b a live sizes H Hg Hl Hs. pose proof (sum_sizes_pos _ Hg) as Hpos.
  unfold new_blocks_section. cbv zeta.
  assert (G : exists a1,
     (if free_bytes a <? sum_sizes sizes
      then if autogrow a then grow_file a (sum_sizes sizes) else Throw else Ret a) = Ret a1 /\
     inv a1 live \/
     (if free_bytes a <? sum_sizes sizes
      then if autogrow a then grow_file a (sum_sizes sizes) else Throw else Ret a) = Throw).
  { destruct (Z.ltb_spec (free_bytes a) (sum_sizes sizes)).
    - destruct (autogrow a); [|exists a; auto].
      destruct (inv_grow _ _ _ H Hpos) as (a' & A & B & _). exists a'. left. auto.
    - exists a. left. auto. }
  assert (Hres : forall a1 p s, inv a1 live -> find_region (sum_sizes sizes) (free_space a1) = Some (p, s) ->
     live_mult b (live ++ combine (assign_offsets p sizes) sizes)).
  { intros a1 p s I1 EF. destruct (find_region_some _ _ _ _ EF) as (L & R & Efs & _).
    destruct (free_region_ends b a1 live p s I1 Hl) as (Hp & _).
    { rewrite Efs. apply in_or_app; simpl; auto. }
    intros o z Hin. apply in_app_or in Hin. destruct Hin as [Hin|Hin]; [eauto|].
    eapply assign_div; eauto. }
  destruct G as (a1 & [(E & I1)|E]); rewrite E; [|auto].
  destruct (find_region (sum_sizes sizes) (free_space a1)) as [[p s]|] eqn:EF.
  - specialize (Hres a1 p s I1 EF). destruct sizes as [|z [|z' r]];
      destruct (free_bytes a1 <? _); auto.
  - destruct sizes as [|z [|z' r]].
    + simpl. auto.
    + assert (Hz : 0 < z) by (simpl in Hpos; lia).
      destruct (inv_grow _ _ _ I1 Hz) as (a2 & A & B & _). rewrite A.
      destruct (find_region (sum_sizes [z]) (free_space a2)) as [[p s]|] eqn:EF2.
      * specialize (Hres a2 p s B EF2). destruct (free_bytes a2 <? _); auto.
      * destruct (1 <? _); auto.
    + destruct (1 <? _); auto.
Qed.

Lemma new_blocks_fuel_div : forall b fuel a live sizes, inv a live -> good_batch sizes ->
  (length sizes < fuel)%nat -> live_mult b live -> (forall s, In s sizes -> (b | s)) ->
  match new_blocks_fuel fuel a sizes with
  | AllocOk a' offs => live_mult b (live ++ combine offs sizes)
  | _ => True
  end.
Proof.
  induction fuel as [|f IH]; intros a live sizes H Hg Hf Hl Hs; [lia|].
  pose proof (section_spec a live sizes H Hg) as S.
  pose proof (section_div b a live sizes H Hg Hl Hs) as M. cbn [new_blocks_fuel].
  destruct (new_blocks_section a sizes) as [a' offs|a'| |] eqn:ES; auto.
  destruct S as (I1 & C1 & D1 & F1 & L1 & N1).
  destruct (good_firstn _ Hg L1) as (G1 & G2 & L2 & L3). cbv zeta.
  set (half := Nat.div2 (length sizes)) in *.
  assert (Hs1 : forall s, In s (firstn half sizes) -> (b | s)).
  { intros s Hin. apply Hs. rewrite <- (firstn_skipn half sizes). apply in_or_app; auto. }
  assert (Hs2 : forall s, In s (skipn half sizes) -> (b | s)).
  { intros s Hin. apply Hs. rewrite <- (firstn_skipn half sizes). apply in_or_app; auto. }
  pose proof (IH a' live (firstn half sizes) I1 G1 ltac:(lia) Hl Hs1) as J.
  pose proof (new_blocks_fuel_spec f a' live (firstn half sizes) I1 G1 ltac:(lia)) as JS.
  destruct (new_blocks_fuel f a' (firstn half sizes)) as [a1 o1|?| |]; auto.
  destruct JS as (K1 & K2 & K3 & _).
  pose proof (IH a1 (live ++ combine o1 (firstn half sizes)) (skipn half sizes) K1 G2 ltac:(lia) J Hs2) as Q.
  destruct (new_blocks_fuel f a1 (skipn half sizes)) as [a2 o2|?| |]; auto.
  rewrite <- (firstn_skipn half sizes), combine_app, app_assoc; auto.
Qed.

Lemma new_blocks_div : forall b a live sizes a' offs, inv a live -> good_batch sizes ->
  live_mult b live -> (forall s, In s sizes -> (b | s)) ->
  new_blocks a sizes = AllocOk a' offs -> forall o, In o offs -> (b | o).
Proof.
  intros b a live sizes a' offs H Hg Hl Hs E o Ho.
  pose proof (new_blocks_fuel_div b (S (length sizes)) a live sizes H Hg ltac:(lia) Hl Hs) as M.
  pose proof (new_blocks_fuel_spec (S (length sizes)) a live sizes H Hg ltac:(lia)) as N.
  unfold new_blocks in E. rewrite E in *. destruct N as (_ & N & _).
  apply In_nth_error in Ho. destruct Ho as (i & Hi).
  assert (exists s, nth_error sizes i = Some s) as (s & Es).
  { destruct (nth_error sizes i) eqn:En; eauto. apply nth_error_None in En.
    assert (i < length offs)%nat by (apply nth_error_Some; congruence). lia. }
  apply (M o s). apply in_or_app. right.
  clear - Hi Es. revert sizes i Hi Es. induction offs; intros sizes i Hi Es; destruct i, sizes; simpl in *;
    try discriminate; eauto.
  injection Hi as Hi. injection Es as Es. subst. auto.
Qed.

(** * The manager *)

Definition held_div (b : Z) (held : list bid) : Prop :=
  forall x, In x held -> (b | b_offset x) /\ (b | b_size x).

Definition div_op (b : Z) (o : mop) : Prop :=
  match o with MNew _ _ _ sizes => forall s, In s sizes -> (b | s) | MDelete _ => True end.

Lemma held_blocks_on : forall b held d, held_div b held -> live_mult b (blocks_on d held).
Proof.
  intros b held d H o s Hin. unfold blocks_on in Hin. apply in_map_iff in Hin.
  destruct Hin as (x & E & Hx). apply filter_In in Hx. destruct Hx as [Hx _].
  unfold range_of in E. injection E as E1 E2. subst. apply H. auto.
Qed.

Lemma step_div : forall b n c o c', cinv n c -> held_div b (mc_held c) -> valid_mop n o -> div_op b o ->
  (mclient_step c o = StepOk c' \/ mclient_step c o = StepThrow c') -> held_div b (mc_held c').
Proof.
  intros b n c o c' (I & L & C & T) F Hv Hf Hs. destruct o as [tsize f off sizes|i]; cbn [mclient_step] in Hs.
  - destruct (valid_mop_fresh _ _ _ _ _ Hv) as (V1 & V2 & V3 & V4). rewrite <- L in V1.
    destruct (manager_new_spec (mc_m c) (mc_held c) f off _ I V1 V2 V3) as (disks & E & SP).
    destruct (chosen _ _ _ _ _ E) as [Hl _]. rewrite map_length in Hl.
    simpl in Hf.
    assert (SZ : forall i, (b | b_size (nth i (map (fresh_bid tsize) sizes) dflt))).
    { intros i. destruct (nth_in_or_default i (map (fresh_bid tsize) sizes) dflt) as [Hin|Hd].
      - apply in_map_iff in Hin. destruct Hin as (s & <- & Hs'). simpl. auto.
      - rewrite Hd. apply Z.divide_0_r. }
    assert (G : forall ds m' b', (forall d, In d ds -> (d < length (m_allocs (mc_m c)))%nat) ->
       placed disks ds (mc_m c) (map (fresh_bid tsize) sizes) m' b' (mc_held c) ->
       forall x, In x (filter valid b') -> (b | b_offset x) /\ (b | b_size x)).
    { intros ds m' b' Hds P x Hb. apply filter_In in Hb. destruct Hb as [Hb Vx].
      destruct (In_nth _ _ dflt Hb) as (i & Hi & <-). destruct P as (P1 & _ & P3 & _ & P5 & _ & _ & _ & _ & P10).
      destruct (P3 i) as [A B]. split; [|rewrite A; auto].
      destruct (in_dec Nat.eq_dec (nth i disks O) ds) as [Hd|Hd].
      - set (d := nth i disks O) in *.
        assert (Hidx : In i (indices_on d disks)).
        { apply indices_on_nth with (x := O). split; [|reflexivity]. congruence. }
        assert (exists a, nth_error (m_allocs (mc_m c)) d = Some a) as (a & Ea).
        { destruct (nth_error (m_allocs (mc_m c)) d) eqn:En; eauto.
          apply nth_error_None in En. specialize (Hds d Hd). lia. }
        destruct (P10 d a Ea) as (a' & _ & _ & _ & _ & _ & Q6 & _).
        destruct (Q6 Hd) as (offs & N & M). { intros Z0. rewrite Z0 in Hidx. destruct Hidx. }
        assert (Hgb : good_batch (sizes_on disks (map (fresh_bid tsize) sizes) d)).
        { split.
          - unfold sizes_on. destruct (indices_on d disks); [destruct Hidx|discriminate].
          - apply Forall_forall. intros s Hs'. unfold sizes_on in Hs'. apply in_map_iff in Hs'.
            destruct Hs' as (j & <- & Hj). apply indices_on_spec in Hj. apply V2. apply in_nth_bids. lia. }
        eapply (new_blocks_div b a (blocks_on d (mc_held c))); [apply I; auto| exact Hgb | | | exact N |].
        + apply held_blocks_on; auto.
        + intros s Hs'. unfold sizes_on in Hs'. apply in_map_iff in Hs'. destruct Hs' as (j & <- & _). auto.
        + rewrite <- M. apply in_map_iff. exists i. auto.
      - rewrite P5 in Vx |- *.
        + destruct (nth_in_or_default i (map (fresh_bid tsize) sizes) dflt) as [Hin|Hdf].
          * apply V3 in Hin. congruence.
          * rewrite Hdf in Vx. discriminate.
        + intros d Hd' Hidx. apply indices_on_nth with (x := O) in Hidx. destruct Hidx. subst d. auto.
        + intros d Hd' Hidx. apply indices_on_nth with (x := O) in Hidx. destruct Hidx. subst d. auto. }
    destruct (manager_new_blocks (mc_m c) f off (map (fresh_bid tsize) sizes)) as [m' b'|m' b'|]; [| |tauto];
      destruct Hs as [Hs|Hs]; inversion Hs; subst c'; simpl;
      intros x Hb; apply in_app_or in Hb; destruct Hb as [Hb|Hb]; auto.
    + destruct SP as (_ & (m0 & P & _) & _). eapply G; [|exact P|exact Hb]. intros d Hd. apply in_seq in Hd. lia.
    + destruct SP as (_ & (ds1 & d & ds2 & Es & _ & P) & _). eapply G; [|exact P|exact Hb].
      intros d' Hd. assert (In d' (seq 0 (length (m_allocs (mc_m c))))) as K by (rewrite Es; apply in_or_app; auto).
      apply in_seq in K. lia.
  - destruct (nth_error (mc_held c) i) as [x|] eqn:E.
    2:{ destruct Hs as [Hs|Hs]; inversion Hs; subst. auto. }
    destruct (manager_delete_block (mc_m c) x); destruct Hs as [Hs|Hs]; inversion Hs; subst; simpl; auto.
    intros y Hy. apply F. eapply In_remove_nth; eauto.
Qed.

Lemma history_div : forall b n t c ops c', mhistory n t c ops c' -> cinv n c ->
  (forall o, In o ops -> div_op b o) -> held_div b (mc_held c) -> held_div b (mc_held c').
Proof.
  intros b n t c ops c' H. induction H as [c|c o c1 ops c2 V S1 H IH|c o c1 ops c2 MT V S1 H IH]; intros I D F; auto.
  - pose proof (step_inv _ _ _ I V) as K. rewrite S1 in K. apply IH; [exact K| |].
    + intros o' Ho. apply D. right. exact Ho.
    + exact (step_div b n c o c1 I F V (D o (or_introl eq_refl)) ltac:(auto)).
  - pose proof (step_inv _ _ _ I V) as K. rewrite S1 in K. apply IH; [exact K| |].
    + intros o' Ho. apply D. right. exact Ho.
    + exact (step_div b n c o c1 I F V (D o (or_introl eq_refl)) ltac:(auto)).
Qed.

(** * One block size on a disk of any size *)

Lemma uniform_fits : forall b a live, 0 < b -> inv a live -> live_mult b live -> b <= free_bytes a ->
  exists p s, In (p, s) (free_space a) /\ b <= s.
Proof.
  intros b a live Hb I Hl Hf. pose proof (i_sum _ _ I) as Es.
  assert (E : forall m lo, coalesced_from lo m -> (forall p s, In (p, s) m -> In (p, s) (free_space a)) ->
    (exists p s, In (p, s) m /\ b <= s) \/ total_size m < b).
  { induction m as [|[p s] m IH]; intros lo Hc Hin; simpl in *; [right; lia|].
    destruct Hc as (H1 & H2 & H3).
    destruct (Z_le_gt_dec b s) as [|Hgt]; [left; exists p, s; auto|].
    destruct (free_region_ends b a live p s I Hl (Hin p s (or_introl eq_refl))) as (D1 & _ & [D2|D2]).
    - exfalso. assert (b | s) as D3.
      { replace s with (p + s - p) by lia. apply Z.divide_sub_r; auto. }
      apply Z.divide_pos_le in D3; lia.
    - (* the region at the end of the file is the last *)
      destruct m as [|[p' s'] m]; [right; simpl; lia|]. exfalso.
      destruct H3 as (K1 & K2 & _).
      assert (covered (free_space a) (p' + s' - 1)) as Cv.
      { exists (p', s'). split; [apply Hin; simpl; auto|unfold in_range; simpl; lia]. }
      assert (0 <= p' + s' - 1 < disk_bytes a) by (apply (i_part _ _ I); auto). lia. }
  destruct (E _ _ (i_coal _ _ I) (fun p s H => H)) as [K|K]; auto. lia.
Qed.

Lemma section_uniform : forall b a live sizes, 0 < b -> inv a live -> good_batch sizes ->
  live_mult b live -> (forall s, In s sizes -> s = b) -> autogrow a = false ->
  match new_blocks_section a sizes with
  | SecDone a' offs => disk_bytes a' = disk_bytes a
  | SecSplit a' => disk_bytes a' = disk_bytes a
  | _ => True
  end.
Proof.
  intros b a live sizes Hb H Hg Hl Hs Ha. unfold new_blocks_section. cbv zeta. rewrite Ha.
  destruct (Z.ltb_spec (free_bytes a) (sum_sizes sizes)) as [Hlt|Hge]; auto.
  destruct (find_region (sum_sizes sizes) (free_space a)) as [[p s]|] eqn:EF.
  - destruct sizes as [|z [|z' r]]; destruct (free_bytes a <? _); auto.
  - destruct sizes as [|z [|z' r]].
    + simpl. auto.
    + exfalso. assert (z = b) by (apply Hs; simpl; auto). subst z. simpl in *.
      destruct (uniform_fits b a live Hb H Hl ltac:(lia)) as (p & s & Hin & Hle).
      apply (find_region_none _ _ EF) in Hin. lia.
    + destruct (1 <? _); auto.
Qed.

Lemma new_blocks_fuel_uniform : forall b fuel a live sizes, 0 < b -> inv a live -> good_batch sizes ->
  (length sizes < fuel)%nat -> live_mult b live -> (forall s, In s sizes -> s = b) -> autogrow a = false ->
  match new_blocks_fuel fuel a sizes with
  | AllocOk a' offs => disk_bytes a' = disk_bytes a
  | _ => True
  end.
Proof.
  induction fuel as [|f IH]; intros a live sizes Hb H Hg Hf Hl Hs Ha; [lia|].
  pose proof (section_spec a live sizes H Hg) as S.
  pose proof (section_uniform b a live sizes Hb H Hg Hl Hs Ha) as M. cbn [new_blocks_fuel].
  destruct (new_blocks_section a sizes) as [a' offs|a'| |] eqn:ES; auto.
  destruct S as (I1 & C1 & D1 & F1 & L1 & N1).
  destruct (good_firstn _ Hg L1) as (G1 & G2 & L2 & L3). cbv zeta.
  set (half := Nat.div2 (length sizes)) in *.
  assert (Hs1 : forall s, In s (firstn half sizes) -> s = b).
  { intros s Hin. apply Hs. rewrite <- (firstn_skipn half sizes). apply in_or_app; auto. }
  assert (Hs2 : forall s, In s (skipn half sizes) -> s = b).
  { intros s Hin. apply Hs. rewrite <- (firstn_skipn half sizes). apply in_or_app; auto. }
  specialize (N1 Ha). subst a'.
  pose proof (IH a live (firstn half sizes) Hb I1 G1 ltac:(lia) Hl Hs1 Ha) as J.
  pose proof (new_blocks_fuel_spec f a live (firstn half sizes) I1 G1 ltac:(lia)) as JS.
  assert (Hd1 : forall s, In s (firstn half sizes) -> (b | s)).
  { intros s Hin. rewrite (Hs1 s Hin). apply Z.divide_refl. }
  pose proof (new_blocks_fuel_div b f a live (firstn half sizes) I1 G1 ltac:(lia) Hl Hd1) as JD.
  destruct (new_blocks_fuel f a (firstn half sizes)) as [a1 o1|?| |]; auto.
  destruct JS as (K1 & K2 & (K3 & _) & _).
  pose proof (IH a1 (live ++ combine o1 (firstn half sizes)) (skipn half sizes) Hb K1 G2 ltac:(lia) JD Hs2 ltac:(congruence)) as Q.
  destruct (new_blocks_fuel f a1 (skipn half sizes)) as [a2 o2|?| |]; auto. congruence.
Qed.

Lemma reachable_uniform : forall b cfg ops a0, 0 < b -> 0 <= cfg -> new_allocator cfg false = Ret a0 ->
  (forall sizes, In (OpNew sizes) ops -> sizes <> [] /\ forall s, In s sizes -> s = b) ->
  let c := client_run (mk_client a0 []) ops in
  live_mult b (cl_live c) /\ disk_bytes (cl_alloc c) = cfg.
Proof.
  intros b cfg ops a0 Hb Hc E Hops.
  destruct (new_allocator_inv _ _ _ Hc E) as [G0 D0].
  assert (forall ops c, good_client cfg false c -> live_mult b (cl_live c) -> disk_bytes (cl_alloc c) = cfg ->
    (forall sizes, In (OpNew sizes) ops -> sizes <> [] /\ forall s, In s sizes -> s = b) ->
    let c' := client_run c ops in
    live_mult b (cl_live c') /\ disk_bytes (cl_alloc c') = cfg) as Gen.
  { clear ops Hops. induction ops as [|o ops IH]; intros c Gc Hl Hm Hops; [simpl; auto|].
    assert (Hgood : forall sizes, o = OpNew sizes -> good_batch sizes).
    { intros sizes ->. destruct (Hops sizes) as [Hne Hs]; [simpl; auto|]. split; auto.
      apply Forall_forall. intros s Hin. rewrite (Hs s Hin). auto. }
    pose proof (client_step_good _ _ _ o Gc Hgood) as Gc'.
    apply IH; auto; [| |intros sizes Hin; apply Hops; simpl; auto];
      clear IH Gc'; destruct Gc as (I & _ & Ga); destruct o as [sizes|i]; simpl.
    - destruct (Hops sizes) as [Hne Hs]; [simpl; auto|].
      assert (Hd : forall s, In s sizes -> (b | s)) by (intros s Hin; rewrite (Hs s Hin); apply Z.divide_refl).
      pose proof (new_blocks_fuel_div b _ _ _ sizes I (Hgood _ eq_refl) (Nat.lt_succ_diag_r _) Hl Hd) as M.
      unfold new_blocks. destruct (new_blocks_fuel _ _ sizes); simpl; tauto.
    - destruct (nth_error (cl_live c) i) as [[o s]|] eqn:En; auto.
      destruct (delete_block _ _ _); auto. simpl.
      intros o' s' Hin. apply Hl. pose proof (remove_nth_perm _ _ _ En) as P.
      eapply Permutation_in; [apply Permutation_sym; exact P|]. right. auto.
    - destruct (Hops sizes) as [Hne Hs]; [simpl; auto|].
      pose proof (new_blocks_fuel_uniform b _ _ _ sizes Hb I (Hgood _ eq_refl) (Nat.lt_succ_diag_r _) Hl Hs Ga) as M.
      pose proof (new_blocks_spec _ _ sizes I (Hgood _ eq_refl)) as S.
      unfold new_blocks in *. destruct (new_blocks_fuel _ _ sizes); simpl; try (exact Hm).
      + congruence.
      + destruct S as (-> & _). auto.
    - destruct (nth_error (cl_live c) i) as [[o s]|] eqn:En; auto.
      pose proof (inv_perm _ _ _ (remove_nth_perm _ _ _ En) I) as I'.
      destruct (inv_delete _ _ _ _ I') as (a' & E' & _ & _ & D' & _). rewrite E'. simpl. congruence. }
  apply Gen; auto.
  intros o s [].
Qed.
