(** Growth that may fail: the allocator. *)
From Coq Require Import ZArith List Bool Lia Permutation PeanoNat.
From Verif Require Import AllocModel AllocSpec AllocProofs AllocInv AllocMain ManagerModel GrowModel.
Import ListNotations.
Local Open Scope Z_scope.

Section Oracle.
Variable ok : nat -> bool.

(** The calls of [set_size] from the n-th up to before the n'-th succeed. *)
Definition all_ok (n n' : nat) : Prop := (n <= n')%nat /\ forall k, (n <= k < n')%nat -> ok k = true.
Definition one_fails (n n' : nat) : Prop := exists k, (n <= k < n')%nat /\ ok k = false.

Lemma all_ok_refl : forall n, all_ok n n.
Proof. split; auto. intros; lia. Qed.
Lemma all_ok_S : forall n, ok n = true -> all_ok n (S n).
Proof. intros n H. split; [lia|]. intros k Hk. replace k with n by lia. auto. Qed.
Lemma all_ok_trans : forall a b c, all_ok a b -> all_ok b c -> all_ok a c.
Proof.
  intros a b c [A1 A2] [B1 B2]. split; [lia|]. intros k Hk.
  destruct (Nat.lt_ge_cases k b); [apply A2|apply B2]; lia.
Qed.
Lemma one_fails_S : forall n, ok n = false -> one_fails n (S n).
Proof. intros n H. exists n. split; auto. Qed.
Lemma one_fails_wide : forall a b c d, one_fails b c -> (a <= b)%nat -> (c <= d)%nat -> one_fails a d.
Proof. intros a b c d (k & A & B) ? ?. exists k. split; auto. lia. Qed.

(** There is a large enough region after a growth. *)
Lemma grown_found : forall a live n, inv a live -> 0 < n ->
  exists a' p s, grow_file a n = Ret a' /\ inv a' live /\ same_cfg a a' /\
    disk_bytes a' = disk_bytes a + n /\ n <= free_bytes a' /\
    find_region n (free_space a') = Some (p, s).
Proof.
  intros a live n H Hn. destruct (inv_grow _ _ _ H Hn) as (a' & A & B & C & D & E & (p & s & F & G)).
  destruct (find_region n (free_space a')) as [[p' s']|] eqn:Ef.
  - exists a', p', s'. csplit; auto. pose proof (inv_nonneg_free _ _ H). lia.
  - exfalso. eapply find_region_exists; [exact F| |exact Ef]. lia.
Qed.

Lemma take_done : forall a live sizes p s, inv a live -> good_batch sizes ->
  find_region (sum_sizes sizes) (free_space a) = Some (p, s) ->
  (free_bytes a <? sum_sizes sizes) = false /\
  inv {| free_space := if sum_sizes sizes <? s
                       then map_set (p + sum_sizes sizes) (s - sum_sizes sizes) (map_erase p (free_space a))
                       else map_erase p (free_space a);
         free_bytes := free_bytes a - sum_sizes sizes; disk_bytes := disk_bytes a; cfg_bytes := cfg_bytes a;
         storage_size := storage_size a; autogrow := autogrow a |}
      (live ++ combine (assign_offsets p sizes) sizes).
Proof.
  intros a live sizes p s H Hg EF.
  destruct (find_region_some _ _ _ _ EF) as (L & R & E & Hle & _).
  pose proof (inv_take a live sizes L R p s H Hg E Hle) as I2.
  unfold take_region in I2. cbv zeta in I2. split; [|exact I2].
  apply Z.ltb_ge. pose proof (i_sum _ _ H) as K. rewrite E in K.
  pose proof (i_coal _ _ H) as C. rewrite E in C.
  pose proof (i_tot _ _ I2) as T. pose proof (i_tot _ _ H) as T0.
  pose proof (inv_nonneg_free _ _ I2) as N. cbn [free_bytes] in N. lia.
Qed.

Lemma section_f_spec : forall n a live sizes, inv a live -> good_batch sizes ->
  match section_f ok n a sizes with
  | (FDone a' offs, n') =>
      inv a' (live ++ combine offs sizes) /\ length offs = length sizes /\ same_cfg a a' /\
      disk_bytes a <= disk_bytes a' /\ all_ok n n'
  | (FSplit a', n') => a' = a /\ sum_sizes sizes <= free_bytes a /\ (1 < length sizes)%nat /\ n' = n
  | (FThrow a', n') => a' = a /\ (n <= n')%nat /\
      (autogrow a = false /\ free_bytes a < sum_sizes sizes \/ one_fails n n')
  | (FAssert, _) => False
  end.
Proof.
  intros n a live sizes H Hg. pose proof (sum_sizes_pos _ Hg) as Hpos.
  unfold section_f. cbv zeta.
  destruct (Z.ltb_spec (free_bytes a) (sum_sizes sizes)) as [Hlt|Hge].
  - destruct (autogrow a) eqn:Ea; [|csplit; auto].
    unfold grow_file_f. destruct (Z.eqb_spec (sum_sizes sizes) 0) as [|_]; [lia|].
    destruct (ok n) eqn:En.
    2:{ csplit; auto. right. apply one_fails_S; auto. }
    destruct (grown_found _ _ _ H Hpos) as (a1 & p & s & G & I1 & C1 & D1 & F1 & Ef).
    rewrite G, Ef. destruct (take_done _ _ _ _ _ I1 Hg Ef) as [T1 T2].
    assert (P : same_cfg a a1 /\ disk_bytes a <= disk_bytes a1 /\ all_ok n (S n)).
    { csplit; auto; [lia|apply all_ok_S; auto]. }
    destruct P as ([P1 P2] & P3 & P4).
    destruct sizes as [|z [|z' r]]; rewrite T1; csplit; auto; try apply assign_offsets_length;
      try (split; cbn; congruence).
  - destruct (find_region (sum_sizes sizes) (free_space a)) as [[p s]|] eqn:Ef.
    + destruct (take_done _ _ _ _ _ H Hg Ef) as [T1 T2].
      destruct sizes as [|z [|z' r]]; rewrite T1; csplit; auto; try apply assign_offsets_length;
        try (split; cbn; congruence); try (cbn [disk_bytes]; lia); apply all_ok_refl.
    + destruct sizes as [|z [|z' r]]; [destruct Hg; congruence| |].
      * assert (Hz : 0 < z) by (simpl in Hpos; lia). assert (Es : sum_sizes [z] = z) by (simpl; lia).
        rewrite Es in *. unfold grow_file_f. destruct (Z.eqb_spec z 0) as [|_]; [lia|].
        destruct (ok n) eqn:En.
        2:{ csplit; auto. right. apply one_fails_S; auto. }
        destruct (grown_found _ _ _ H Hz) as (a1 & p & s & G & I1 & C1 & D1 & F1 & Ef1).
        rewrite G, Ef1.
        rewrite <- Es in Ef1. destruct (take_done _ _ _ _ _ I1 Hg Ef1) as [T1 T2]. rewrite Es in *. rewrite T1.
        destruct C1 as [C1 C2]. csplit; auto; [split; cbn; congruence|cbn; lia|apply all_ok_S; auto].
      * cbn [length]. destruct (Z.ltb_spec 1 (Z.of_nat (S (S (length r))))); [|lia].
        csplit; auto. lia.
Qed.

Lemma combine_firstn_short : forall {A B} (w : list A) (l : list B) h, (length w <= h)%nat ->
  combine w (firstn h l) = combine w l.
Proof.
  induction w as [|x w IH]; intros l h H; [reflexivity|].
  destruct h as [|h]; simpl in H; [lia|]. destruct l; [reflexivity|].
  cbn [firstn combine]. f_equal. apply IH. lia.
Qed.

Lemma new_blocks_f_spec : forall fuel n a live sizes, inv a live -> good_batch sizes ->
  (length sizes < fuel)%nat ->
  match new_blocks_f ok fuel n a sizes with
  | (FOk a' offs, n') =>
      inv a' (live ++ combine offs sizes) /\ length offs = length sizes /\ same_cfg a a' /\
      disk_bytes a <= disk_bytes a' /\ all_ok n n'
  | (FFail a' w, n') =>
      inv a' (live ++ combine w sizes) /\ (length w < length sizes)%nat /\ same_cfg a a' /\
      disk_bytes a <= disk_bytes a' /\ (n <= n')%nat /\
      (autogrow a = false /\ free_bytes a < sum_sizes sizes /\ a' = a /\ w = [] \/ one_fails n n') /\
      (free_bytes a < sum_sizes sizes -> a' = a /\ w = [])
  | _ => False
  end.
Proof.
  induction fuel as [|f IH]; intros n a live sizes H Hg Hl; [lia|].
  cbn [new_blocks_f]. pose proof (section_f_spec n a live sizes H Hg) as SP.
  destruct (section_f ok n a sizes) as [[a' offs|a'|a'|] n1]; [exact SP| | |destruct SP].
  2:{ destruct SP as (-> & N1 & W). cbn [combine length]. rewrite app_nil_r.
      assert (0 < length sizes)%nat by (destruct Hg as [Hg _]; destruct sizes; simpl; [congruence|lia]).
      csplit; auto; try lia; try apply same_cfg_refl. destruct W as [[W1 W2]|W]; auto. }
  destruct SP as (-> & F1 & L1 & ->).
  destruct (good_firstn _ Hg L1) as (G1 & G2 & L2 & L3). cbv zeta.
  set (half := Nat.div2 (length sizes)) in *.
  assert (Esz : sum_sizes sizes = sum_sizes (firstn half sizes) + sum_sizes (skipn half sizes)).
  { rewrite <- sum_sizes_app, firstn_skipn. auto. }
  pose proof (sum_sizes_pos _ G1) as P1. pose proof (sum_sizes_pos _ G2) as P2.
  pose proof (IH n a live (firstn half sizes) H G1 ltac:(lia)) as IH1.
  destruct (new_blocks_f ok f n a (firstn half sizes)) as [[a1 o1|a1 w1| |] n2]; try (destruct IH1; fail).
  - destruct IH1 as (J1 & J2 & J3 & J4 & J5).
    pose proof (IH n2 a1 (live ++ combine o1 (firstn half sizes)) (skipn half sizes) J1 G2 ltac:(lia)) as IH2.
    assert (Ff : sum_sizes (skipn half sizes) <= free_bytes a1).
    { pose proof (i_tot _ _ J1) as T1. pose proof (i_tot _ _ H) as T2.
      rewrite total_size_app, combine_total in T1 by auto. lia. }
    assert (Ec : forall w, combine (o1 ++ w) sizes =
                 combine o1 (firstn half sizes) ++ combine w (skipn half sizes)).
    { intros w. rewrite <- (firstn_skipn half sizes) at 1. apply combine_app. auto. }
    assert (Elen : (length (firstn half sizes) + length (skipn half sizes) = length sizes)%nat).
    { rewrite <- app_length, firstn_skipn. auto. }
    destruct (new_blocks_f ok f n2 a1 (skipn half sizes)) as [[a2 o2|a2 w2| |] n3]; try (destruct IH2; fail).
    + destruct IH2 as (K1 & K2 & K3 & K4 & K5).
      rewrite Ec, app_length. csplit.
      * rewrite app_assoc. auto.
      * lia.
      * eapply same_cfg_trans; eauto.
      * lia.
      * eapply all_ok_trans; eauto.
    + destruct IH2 as (K1 & K2 & K3 & K4 & K5 & K6 & K7). destruct J5 as [J5 _].
      rewrite Ec, app_length. csplit.
      * rewrite app_assoc. auto.
      * lia.
      * eapply same_cfg_trans; eauto.
      * lia.
      * lia.
      * right. destruct K6 as [(_ & K6 & _)|K6]; [lia|]. eapply one_fails_wide; eauto.
      * intros; lia.
  - destruct IH1 as (J1 & J2 & J3 & J4 & J5 & J6 & J7).
    rewrite combine_firstn_short in J1 by (rewrite firstn_length in J2; lia).
    csplit; auto; try lia.
    + right. destruct J6 as [(_ & J6 & _)|J6]; [lia|auto].
Qed.

(** * Blocks of one size *)
Lemma section_f_mult : forall b n a live sizes, inv a live -> good_batch sizes ->
  live_mult b live -> (b | disk_bytes a) -> (forall s, In s sizes -> s = b) ->
  match section_f ok n a sizes with
  | (FDone a' offs, _) => live_mult b (live ++ combine offs sizes) /\ (b | disk_bytes a')
  | (FThrow _, _) => free_bytes a < sum_sizes sizes
  | _ => True
  end.
Proof.
  intros b n a live sizes H Hg Hl Hd Hs. pose proof (sum_sizes_pos _ Hg) as Hpos.
  assert (Dn : forall a1 p s, inv a1 live -> (b | disk_bytes a1) ->
     find_region (sum_sizes sizes) (free_space a1) = Some (p, s) ->
     live_mult b (live ++ combine (assign_offsets p sizes) sizes)).
  { intros a1 p s I1 D1 EF. destruct (find_region_some _ _ _ _ EF) as (L & R & Efs & Hle & _).
    assert (Hpm : (b | p)).
    { eapply (free_region_mult b a1 live p s); eauto. rewrite Efs. apply in_or_app; simpl; auto. }
    intros o z Hin. apply in_app_or in Hin. destruct Hin as [Hin|Hin]; [eauto|].
    eapply assign_mult; eauto. }
  unfold section_f. cbv zeta.
  destruct (Z.ltb_spec (free_bytes a) (sum_sizes sizes)) as [Hlt|Hge].
  - destruct (autogrow a) eqn:Ea; [|auto].
    unfold grow_file_f. destruct (Z.eqb_spec (sum_sizes sizes) 0) as [|_]; [lia|].
    destruct (ok n) eqn:En; [|auto].
    destruct (grown_found _ _ _ H Hpos) as (a1 & p & s & G & I1 & C1 & D1 & F1 & Ef).
    rewrite G, Ef. destruct (take_done _ _ _ _ _ I1 Hg Ef) as [T1 _].
    assert (Hd1 : (b | disk_bytes a1)) by (rewrite D1; apply Z.divide_add_r; auto; apply sum_mult; auto).
    pose proof (Dn a1 p s I1 Hd1 Ef) as Q.
    destruct sizes as [|z [|z' r]]; rewrite T1; cbn [disk_bytes]; auto.
  - destruct (find_region (sum_sizes sizes) (free_space a)) as [[p s]|] eqn:Ef.
    + destruct (take_done _ _ _ _ _ H Hg Ef) as [T1 _]. pose proof (Dn a p s H Hd Ef) as Q.
      destruct sizes as [|z [|z' r]]; rewrite T1; cbn [disk_bytes]; auto.
    + destruct sizes as [|z [|z' r]]; [destruct Hg; congruence| |].
      2:{ destruct (1 <? Z.of_nat (length (z :: z' :: r))); auto. }
      exfalso. assert (z = b) by (apply Hs; simpl; auto). subst z. simpl sum_sizes in *.
      destruct (free_space a) as [|[p s] m] eqn:Efs.
      * pose proof (i_sum _ _ H) as K. rewrite Efs in K. simpl in K. lia.
      * assert (In (p, s) (free_space a)) as Hin by (rewrite Efs; simpl; auto).
        destruct (free_region_mult b a live p s H Hl Hd Hin) as [_ Hsm].
        destruct (coalesced_in _ _ _ _ (i_coal _ _ H) Hin) as (_ & Hps & _).
        apply Z.divide_pos_le in Hsm; auto. rewrite Efs in Hin.
        apply (find_region_none _ _ Ef) in Hin. lia.
Qed.

Lemma new_blocks_f_mult : forall b fuel n a live sizes, inv a live -> good_batch sizes ->
  (length sizes < fuel)%nat ->
  live_mult b live -> (b | disk_bytes a) -> (forall s, In s sizes -> s = b) ->
  match new_blocks_f ok fuel n a sizes with
  | (FOk a' offs, _) => live_mult b (live ++ combine offs sizes) /\ (b | disk_bytes a')
  | (FFail a' w, _) => free_bytes a < sum_sizes sizes
  | _ => True
  end.
Proof.
  induction fuel as [|f IH]; intros n a live sizes H Hg Hf Hl Hd Hs; [lia|].
  pose proof (section_f_spec n a live sizes H Hg) as SP.
  pose proof (section_f_mult b n a live sizes H Hg Hl Hd Hs) as M. cbn [new_blocks_f].
  destruct (section_f ok n a sizes) as [[a' offs|a'|a'|] n1]; auto.
  destruct SP as (-> & F1 & L1 & ->). clear M.
  destruct (good_firstn _ Hg L1) as (G1 & G2 & L2 & L3). cbv zeta.
  set (half := Nat.div2 (length sizes)) in *.
  assert (Hs1 : forall s, In s (firstn half sizes) -> s = b).
  { intros s Hin. apply Hs. rewrite <- (firstn_skipn half sizes). apply in_or_app; auto. }
  assert (Hs2 : forall s, In s (skipn half sizes) -> s = b).
  { intros s Hin. apply Hs. rewrite <- (firstn_skipn half sizes). apply in_or_app; auto. }
  assert (Esz : sum_sizes sizes = sum_sizes (firstn half sizes) + sum_sizes (skipn half sizes)).
  { rewrite <- sum_sizes_app, firstn_skipn. auto. }
  pose proof (sum_sizes_pos _ G1) as P1. pose proof (sum_sizes_pos _ G2) as P2.
  pose proof (IH n a live (firstn half sizes) H G1 ltac:(lia) Hl Hd Hs1) as J.
  pose proof (new_blocks_f_spec f n a live (firstn half sizes) H G1 ltac:(lia)) as JS.
  destruct (new_blocks_f ok f n a (firstn half sizes)) as [[a1 o1|a1 w1| |] n2]; auto; [|lia].
  destruct J as (J1 & J2). destruct JS as (K1 & K2 & K3 & K4 & _).
  assert (Ff : sum_sizes (skipn half sizes) <= free_bytes a1).
  { pose proof (i_tot _ _ K1) as T1. pose proof (i_tot _ _ H) as T2.
    rewrite total_size_app, combine_total in T1 by auto. lia. }
  pose proof (IH n2 a1 (live ++ combine o1 (firstn half sizes)) (skipn half sizes) K1 G2 ltac:(lia) J1 J2 Hs2) as Q.
  destruct (new_blocks_f ok f n2 a1 (skipn half sizes)) as [[a2 o2|a2 w2| |] n3]; auto; [|lia].
  destruct Q as (Q1 & Q2). split; auto.
  rewrite <- (firstn_skipn half sizes), combine_app, app_assoc; auto.
Qed.

(** * Calls in which no growth fails *)
Lemma grow_file_f_cases : forall n a e,
  grow_file_f ok n a e = (Throw, S n) /\ ok n = false \/
  exists n', grow_file_f ok n a e = (grow_file a e, n') /\ (n <= n')%nat.
Proof.
  intros n a e. unfold grow_file_f. destruct (Z.eqb_spec e 0) as [->|_].
  - right. exists n. auto.
  - destruct (ok n) eqn:E; [right; exists (S n); auto|left; auto].
Qed.

Definition sec_of (r : fsec) : section_result :=
  match r with
  | FDone a o => SecDone a o | FSplit a => SecSplit a | FThrow _ => SecThrow | FAssert => SecAssert
  end.

Lemma section_f_same : forall n a sizes r n', section_f ok n a sizes = (r, n') ->
  (n <= n')%nat /\ (one_fails n n' \/ sec_of r = new_blocks_section a sizes).
Proof.
  intros n a sizes r n' E. unfold section_f in E. unfold new_blocks_section. cbv zeta in *.
  assert (R : (exists k, (if free_bytes a <? sum_sizes sizes
     then if autogrow a then grow_file_f ok n a (sum_sizes sizes) else (Throw, n) else (Ret a, n)) =
    ((if free_bytes a <? sum_sizes sizes
     then if autogrow a then grow_file a (sum_sizes sizes) else Throw else Ret a), k) /\ (n <= k)%nat) \/
    (if free_bytes a <? sum_sizes sizes
     then if autogrow a then grow_file_f ok n a (sum_sizes sizes) else (Throw, n) else (Ret a, n)) = (Throw, S n) /\ ok n = false).
  { destruct (free_bytes a <? sum_sizes sizes); [destruct (autogrow a)|]; eauto.
    destruct (grow_file_f_cases n a (sum_sizes sizes)) as [K|K]; auto. }
  destruct R as [(k & R & Hk)|[R F]]; rewrite R in E.
  2:{ inversion E; subst. split; [lia|]. left. apply one_fails_S; auto. }
  clear R.
  destruct (if free_bytes a <? sum_sizes sizes
     then if autogrow a then grow_file a (sum_sizes sizes) else Throw else Ret a) as [a1| |];
    [|inversion E; subst; split; [lia|auto]..].
  assert (Q : (exists k2, (match find_region (sum_sizes sizes) (free_space a1), sizes with
        | None, [s] => let '(g, n2) := grow_file_f ok k a1 s in
            (match g with
             | Ret a2 => Ret (a2, find_region (sum_sizes sizes) (free_space a2))
             | Throw => Throw
             | AssertFail => AssertFail
             end, n2)
        | _, _ => (Ret (a1, find_region (sum_sizes sizes) (free_space a1)), k)
        end) = (match find_region (sum_sizes sizes) (free_space a1), sizes with
        | None, [s] => match grow_file a1 s with
             | Ret a2 => Ret (a2, find_region (sum_sizes sizes) (free_space a2))
             | Throw => Throw
             | AssertFail => AssertFail
             end
        | _, _ => Ret (a1, find_region (sum_sizes sizes) (free_space a1))
        end, k2) /\ (k <= k2)%nat) \/
     (match find_region (sum_sizes sizes) (free_space a1), sizes with
        | None, [s] => let '(g, n2) := grow_file_f ok k a1 s in
            (match g with
             | Ret a2 => Ret (a2, find_region (sum_sizes sizes) (free_space a2))
             | Throw => Throw
             | AssertFail => AssertFail
             end, n2)
        | _, _ => (Ret (a1, find_region (sum_sizes sizes) (free_space a1)), k)
        end) = (Throw, S k) /\ ok k = false).
  { destruct (find_region (sum_sizes sizes) (free_space a1)) as [[p s]|]; [left; exists k; auto|].
    destruct sizes as [|z [|z' t]]; [left; exists k; auto| |left; exists k; auto].
    destruct (grow_file_f_cases k a1 z) as [[K1 K2]|(k2 & K1 & K2)]; rewrite K1; [right; auto|left].
    exists k2. destruct (grow_file a1 z); auto. }
  destruct Q as [(k2 & Q & Hk2)|[Q F]]; rewrite Q in E.
  2:{ inversion E; subst. split; [lia|]. left. eapply one_fails_wide; [apply one_fails_S; exact F|lia|lia]. }
  clear Q.
  destruct (match find_region (sum_sizes sizes) (free_space a1) with
            | Some _ => Ret (a1, find_region (sum_sizes sizes) (free_space a1))
            | None => match sizes with
                      | [s] => match grow_file a1 s with
                               | Ret a2 => Ret (a2, find_region (sum_sizes sizes) (free_space a2))
                               | Throw => Throw
                               | AssertFail => AssertFail
                               end
                      | _ => Ret (a1, find_region (sum_sizes sizes) (free_space a1))
                      end
            end) as [[a2 [[p s]|]]| |].
  - inversion E; subst. split; [lia|]. right. destruct (free_bytes a2 <? sum_sizes sizes); reflexivity.
  - inversion E; subst. split; [lia|]. right. destruct (1 <? Z.of_nat (length sizes)); reflexivity.
  - inversion E; subst. split; [lia|]. right. reflexivity.
  - inversion E; subst. split; [lia|]. right. reflexivity.
Qed.

Definition res_of (r : fresult) : alloc_result :=
  match r with FOk a o => AllocOk a o | FFail a _ => AllocThrow a | FBad => AllocAssert | FFuel => AllocFuel end.

Lemma new_blocks_f_same : forall fuel n a live sizes r n',
  inv a live -> good_batch sizes -> (length sizes < fuel)%nat ->
  new_blocks_f ok fuel n a sizes = (r, n') ->
  one_fails n n' \/ res_of r = new_blocks_fuel fuel a sizes.
Proof.
  induction fuel as [|f IH]; intros n a live sizes r n' H Hg Hl E; [lia|].
  cbn [new_blocks_f new_blocks_fuel] in *.
  pose proof (section_f_spec n a live sizes H Hg) as SP.
  destruct (section_f ok n a sizes) as [rs n1] eqn:Es. destruct (section_f_same _ _ _ _ _ Es) as [Hn SS].
  destruct rs as [a' offs|a'|a'|].
  - inversion E; subst. destruct SS as [SS|SS]; [auto|]. rewrite <- SS. auto.
  - destruct SP as (-> & F1 & L1 & ->).
    destruct SS as [(k & K & _)|SS]; [lia|]. rewrite <- SS. cbn [sec_of].
    destruct (good_firstn _ Hg L1) as (G1 & G2 & L2 & L3). cbv zeta in *.
    set (half := Nat.div2 (length sizes)) in *.
    pose proof (new_blocks_f_spec f n a live (firstn half sizes) H G1 ltac:(lia)) as JS.
    destruct (new_blocks_f ok f n a (firstn half sizes)) as [r1 n2] eqn:E1.
    pose proof (IH n a live (firstn half sizes) r1 n2 H G1 ltac:(lia) E1) as J.
    destruct r1 as [a1 o1|a1 w1| |]; try (destruct JS; fail).
    + destruct JS as (K1 & _ & _ & _ & [K5 _]).
      pose proof (new_blocks_f_spec f n2 a1 _ (skipn half sizes) K1 G2 ltac:(lia)) as QS.
      destruct (new_blocks_f ok f n2 a1 (skipn half sizes)) as [r2 n3] eqn:E2.
      pose proof (IH n2 a1 _ (skipn half sizes) r2 n3 K1 G2 ltac:(lia) E2) as Q.
      assert (Hn23 : (n2 <= n3)%nat).
      { destruct r2; try (destruct QS; fail).
        - destruct QS as (_ & _ & _ & _ & [QS _]). exact QS.
        - destruct QS as (_ & _ & _ & _ & QS & _). exact QS. }
      destruct J as [J|J].
      { left. destruct r2; inversion E; subst; (eapply one_fails_wide; [exact J|lia|lia]). }
      destruct Q as [Q|Q].
      { left. destruct r2; inversion E; subst; (eapply one_fails_wide; [exact Q|lia|lia]). }
      right. rewrite <- J. cbn [res_of]. rewrite <- Q. destruct r2; inversion E; subst; reflexivity.
    + inversion E; subst. destruct J as [J|J]; [auto|]. right. rewrite <- J. reflexivity.
  - inversion E; subst. destruct SP as (-> & _). destruct SS as [SS|SS]; [auto|]. rewrite <- SS. auto.
  - destruct SP.
Qed.

End Oracle.
