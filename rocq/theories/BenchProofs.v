(** Proofs about the file benchmark, for BenchProps.v. *)

From Coq Require Import ZArith List Bool Permutation Lia ZifyBool.
From Verif Require Import BenchModel BenchSpec.
Import ListNotations.
Local Open Scope Z_scope.
Ltac Zify.zify_post_hook ::= Z.to_euclidean_division_equations.

Lemma zseq_in : forall n i, In i (zseq n) <-> 0 <= i < n.
Proof.
  intros n i. unfold zseq. rewrite in_map_iff. split.
  - intros (x & <- & Hx). apply in_seq in Hx. lia.
  - intros H. exists (Z.to_nat i). split; [lia|]. apply in_seq. lia.
Qed.

Lemma nodup_map : forall {A B} (f : A -> B) l, (forall x y, In x l -> In y l -> f x = f y -> x = y) -> NoDup l -> NoDup (map f l).
Proof.
  intros A B f. induction l as [|x l IH]; intros Inj N; cbn; [constructor|].
  inversion N as [|y m N1 N2]; subst. constructor.
  - intros Hin. apply in_map_iff in Hin. destruct Hin as (y & E & Hy). apply N1.
    rewrite <- (Inj y x (or_intror Hy) (or_introl eq_refl) E). exact Hy.
  - apply IH; auto. intros u v Hu Hv. apply Inj; right; auto.
Qed.

Lemma zseq_nodup : forall n, NoDup (zseq n).
Proof. intros n. apply nodup_map; [intros; lia|]. apply seq_NoDup. Qed.

(** Sizes. *)
Lemma step_pos : forall a, plain a -> 0 < step_size a.
Proof. intros a (_ & _ & _ & B & C & _). unfold step_size. apply Z.mul_pos_pos; auto. Qed.

Lemma step_int : forall a, plain a -> 4 * (step_size a / 4) = step_size a /\ step_size a / 4 = batch_size a * block_int a /\
  4 * block_int a = block_size a /\ 0 < block_int a.
Proof.
  intros a (_ & _ & _ & B & C & _ & _ & M). unfold step_size, block_int.
  assert (E : block_size a = 4 * (block_size a / 4)) by lia. set (k := block_size a / 4) in *.
  replace (block_size a * batch_size a) with (batch_size a * k * 4) by (rewrite E; ring).
  rewrite Z.div_mul by lia. split; [ring|]. split; [ring|]. lia.
Qed.

Lemma cur_eq : forall a off, more a off = true -> cur_step a off = step_size a.
Proof.
  intros a off M. unfold more, cur_step in *. destruct (Z.eqb_spec (a_length a) 0); auto.
  rewrite orb_false_r in M. apply Z.leb_le in M. lia.
Qed.

(** Marks. *)
Lemma fold_upd : forall (g : Z -> Z) (v : Z) l buf k,
  fold_left (fun b i => upd b (g i) v) l buf k = (if existsb (fun i => k =? g i) l then v else buf k).
Proof.
  intros g v. induction l as [|i l IH]; intros buf k; cbn [fold_left existsb]; [reflexivity|].
  rewrite IH. unfold upd. destruct (k =? g i); cbn [orb]; [destruct (existsb _ l); reflexivity|reflexivity].
Qed.

Lemma split_index : forall si d x, 0 <= x < si -> (si * d + x) / si = d /\ (si * d + x) mod si = x.
Proof.
  intros si d x H. split.
  - rewrite Z.mul_comm, Z.add_comm, Z.div_add by lia. rewrite Z.div_small by lia. lia.
  - rewrite Z.mul_comm, Z.add_comm, Z.mod_add by lia. apply Z.mod_small. lia.
Qed.

Lemma split_inj : forall si d x d' x', 0 <= x < si -> 0 <= x' < si -> si * d + x = si * d' + x' -> d = d' /\ x = x'.
Proof.
  intros si d x d' x' H H' E. destruct (split_index si d x H) as [E1 E2]. destruct (split_index si d' x' H') as [E3 E4].
  rewrite E in E1, E2. lia.
Qed.

Lemma marks_spec : forall a si b0 fuel m buf, 0 <= m -> si - (42 + 128 * m) < Z.of_nat fuel -> (0 < fuel)%nat ->
  exists buf', marks fuel a si (42 + 128 * m) (b0 + m) buf = Some buf' /\
    forall d x, 0 <= d < a_files a -> 0 <= x < si ->
      buf' (si * d + x) = if (x mod 128 =? 42) && (m <=? x / 128) then u32 (b0 + x / 128) else buf (si * d + x).
Proof.
  intros a si b0. induction fuel as [|fuel IH]; intros m buf Hm Hf Hp; [lia|]. cbn [marks].
  destruct (Z.ltb_spec (42 + 128 * m) si).
  - replace (42 + 128 * m + 512 / 4) with (42 + 128 * (m + 1)) by lia. replace (b0 + m + 1) with (b0 + (m + 1)) by lia.
    destruct (IH (m + 1) (fold_left (fun b i => upd b (si * i + (42 + 128 * m)) (u32 (b0 + m))) (zseq (a_files a)) buf)) as (buf' & E & H'); try lia.
    exists buf'. split; [exact E|]. intros d x Hd Hx. rewrite (H' d x Hd Hx).
    rewrite (fold_upd (fun i => si * i + (42 + 128 * m)) (u32 (b0 + m))).
    destruct (Z.eqb_spec (x mod 128) 42) as [Ex|Ex]; cbn [andb].
    + destruct (Z.leb_spec (m + 1) (x / 128)); destruct (Z.leb_spec m (x / 128)); try lia; try reflexivity.
      * assert (E1 : x = 42 + 128 * m) by lia.
        destruct (existsb _ _) eqn:X; [f_equal; f_equal; lia|]. exfalso.
        assert (Y : existsb (fun i => si * d + x =? si * i + (42 + 128 * m)) (zseq (a_files a)) = true).
        { apply existsb_exists. exists d. split; [apply zseq_in; lia|]. apply Z.eqb_eq. rewrite E1. reflexivity. }
        congruence.
      * destruct (existsb _ _) eqn:X; [|reflexivity]. exfalso. apply existsb_exists in X. destruct X as (i & _ & X).
        apply Z.eqb_eq in X. apply split_inj in X; [|lia|lia]. lia.
    + destruct (existsb _ _) eqn:X; [|reflexivity]. exfalso. apply existsb_exists in X. destruct X as (i & _ & X).
      apply Z.eqb_eq in X. apply split_inj in X; [|lia|lia]. lia.
  - exists buf. split; [reflexivity|]. intros d x Hd Hx.
    destruct (Z.eqb_spec (x mod 128) 42); cbn [andb]; [|reflexivity]. destruct (Z.leb_spec m (x / 128)); [lia|reflexivity].
Qed.

Lemma mark_spec : forall a off buf, plain a -> more a off = true -> exists buf', mark a off buf = Some buf' /\
  forall d x, 0 <= d < a_files a -> 0 <= x < step_size a / 4 ->
    buf' (step_size a / 4 * d + x) = if x mod 128 =? 42 then u32 (off / 512 + x / 128) else buf (step_size a / 4 * d + x).
Proof.
  intros a off buf P M. unfold mark. rewrite (cur_eq _ _ M). pose proof (step_pos _ P).
  destruct (marks_spec a (step_size a / 4) (off / 512) (S (Z.to_nat (step_size a / 4))) 0 buf) as (buf' & E & H'); try lia.
  rewrite Z.mul_0_r, !Z.add_0_r in E. exists buf'. split; [exact E|]. intros d x Hd Hx. rewrite (H' d x Hd Hx).
  destruct (Z.leb_spec 0 (x / 128)); [|lia]. rewrite andb_true_r. reflexivity.
Qed.

(** Checking. *)
Definition check1 (a : args) (bf : (Z -> Z) * bool) (e : Z * Z) : (Z -> Z) * bool :=
  (upd (fst bf) (fst e) (u32 (pattern a (fst e))), snd bf || negb (fst bf (fst e) =? snd e)).

Lemma check1_fold : forall a l buf failed, NoDup (map fst l) ->
  snd (fold_left (check1 a) l (buf, failed)) = failed || existsb (fun e => negb (buf (fst e) =? snd e)) l /\
  forall k, fst (fold_left (check1 a) l (buf, failed)) k = if existsb (fun e => k =? fst e) l then u32 (pattern a k) else buf k.
Proof.
  intros a. induction l as [|[i b] l IH]; intros buf failed N.
  { cbn. rewrite orb_false_r. auto. }
  cbn [map fst] in N. inversion N as [|y m N1 N2]; subst. cbn [fold_left existsb fst snd].
  destruct (IH (upd buf i (u32 (pattern a i))) (failed || negb (buf i =? b)) N2) as [H1 H2].
  change (check1 a (buf, failed) (i, b)) with (upd buf i (u32 (pattern a i)), failed || negb (buf i =? b)).
  split.
  - rewrite H1, <- orb_assoc. f_equal. f_equal.
    assert (Q : forall m, ~ In i (map fst m) ->
      existsb (fun e => negb (upd buf i (u32 (pattern a i)) (fst e) =? snd e)) m = existsb (fun e => negb (buf (fst e) =? snd e)) m).
    { induction m as [|[j c] m IHm]; intros Nm; [reflexivity|]. cbn [existsb fst snd map] in *. rewrite IHm by (intros Q; apply Nm; right; auto).
      f_equal. f_equal. unfold upd. destruct (Z.eqb_spec j i) as [->|]; [|reflexivity]. destruct Nm. left. reflexivity. }
    apply Q. exact N1.
  - intros k. rewrite H2. unfold upd. destruct (Z.eqb_spec k i) as [->|]; cbn [orb]; [destruct (existsb (fun e => i =? fst e) l); reflexivity|reflexivity].
Qed.

Lemma check_flat : forall a off si (L D : list Z) bf,
  fold_left (fun bf d => fold_left (check_sector a off si d) L bf) D bf =
  fold_left (check1 a) (flat_map (fun d => map (fun s => (d * si + s * 128 + 42, off / 512 + s)) L) D) bf.
Proof.
  intros a off si L. induction D as [|d D IH]; intros bf; [reflexivity|]. cbn [fold_left flat_map]. rewrite fold_left_app, IH. f_equal.
  clear. revert bf. induction L as [|s L IH]; intros bf; [reflexivity|]. cbn [fold_left map]. rewrite <- IH. reflexivity.
Qed.

Lemma nodup_flat : forall (D L : list Z) (g : Z -> Z -> Z),
  NoDup D -> NoDup L ->
  (forall d s d' s', In d D -> In s L -> In d' D -> In s' L -> g d s = g d' s' -> d = d' /\ s = s') ->
  NoDup (flat_map (fun d => map (g d) L) D).
Proof.
  induction D as [|d D IH]; intros L g N NL Inj; cbn [flat_map]; [constructor|]. inversion N as [|y m N1 N2]; subst.
  assert (A : NoDup (map (g d) L)).
  { apply nodup_map; auto. intros x y Hx Hy E. apply (Inj d x d y) in E; auto; try (left; reflexivity). tauto. }
  assert (B : NoDup (flat_map (fun d => map (g d) L) D)).
  { apply IH; auto. intros d1 s1 d2 s2 H1 H2 H3 H4. apply Inj; auto; right; auto. }
  assert (C : forall x, In x (map (g d) L) -> ~ In x (flat_map (fun d => map (g d) L) D)).
  { intros x Hx Hy. apply in_map_iff in Hx. destruct Hx as (s & <- & Hs). apply in_flat_map in Hy. destruct Hy as (d' & Hd' & Hy).
    apply in_map_iff in Hy. destruct Hy as (s' & E & Hs'). apply (Inj d' s' d s) in E; auto; try (left; reflexivity); try (right; auto).
    destruct E as [-> _]. contradiction. }
  revert A C. generalize (map (g d) L). induction l as [|x l IHl]; intros A C; cbn [app]; [exact B|].
  inversion A as [|y m A1 A2]; subst. constructor.
  - rewrite in_app_iff. intros [H|H]; [contradiction|]. apply (C x (or_introl eq_refl) H).
  - apply IHl; auto. intros y Hy. apply C. right. auto.
Qed.

Lemma scan_spec : forall a si buf fuel i failed, 0 < si -> 0 <= i -> a_files a * si - i < Z.of_nat fuel -> (0 < fuel)%nat ->
  exists r, scan fuel a si i buf failed = Some r /\
    (r = false <-> failed = false /\ forall k, i <= k < a_files a * si -> buf k = pattern a k).
Proof.
  intros a si buf. induction fuel as [|fuel IH]; intros i failed Hs Hi Hf Hp; [lia|]. cbn [scan].
  destruct (Z.ltb_spec i (a_files a * si)).
  - destruct (Z.eqb_spec (buf i) (pattern a i)) as [E|E].
    + destruct (IH (i + 1) failed) as (r & R & Hr); try lia. exists r. split; [exact R|]. rewrite Hr. split; intros (A & B); split; auto.
      * intros k Hk. destruct (Z.eq_dec k i) as [->|]; [exact E|]. apply B. lia.
      * intros k Hk. apply B. lia.
    + assert (J : i < (i / si + 1) * si + 1) by (pose proof (Z.mul_succ_div_gt i si Hs); nia).
      destruct (IH ((i / si + 1) * si + 1) true) as (r & R & Hr); try lia.
      exists r. split; [exact R|]. rewrite Hr. split; [intros [A _]; discriminate|]. intros [_ A]. destruct E. apply A. lia.
  - exists failed. split; [reflexivity|]. split; [intros ->; split; auto; intros; lia|tauto].
Qed.

Definition wanted (a : args) (off d x : Z) : Z :=
  if x mod 128 =? 42 then off / 512 + x / 128 else pattern a (step_size a / 4 * d + x).

Lemma check_sectors_spec : forall a off buf failed, suits a -> more a off = true ->
  (snd (check_sectors a off (buf, failed)) = false <->
   failed = false /\ forall d x, 0 <= d < a_files a -> 0 <= x < step_size a / 4 -> x mod 128 = 42 ->
     buf (step_size a / 4 * d + x) = off / 512 + x / 128) /\
  forall d x, 0 <= d < a_files a -> 0 <= x < step_size a / 4 ->
    fst (check_sectors a off (buf, failed)) (step_size a / 4 * d + x) =
    if x mod 128 =? 42 then u32 (pattern a (step_size a / 4 * d + x)) else buf (step_size a / 4 * d + x).
Proof.
  intros a off buf failed (P & M5) M. unfold check_sectors. rewrite (cur_eq _ _ M). pose proof (step_pos _ P) as Sp.
  set (si := step_size a / 4) in *.
  assert (S5 : step_size a / 512 * 128 = si) by (unfold si; lia).
  rewrite check_flat. set (l := flat_map _ _).
  assert (N : NoDup (map fst l)).
  { unfold l. rewrite flat_map_concat_map, concat_map, map_map.
    replace (map (fun x => map fst (map (fun s => (x * si + s * 128 + 42, off / 512 + s)) (zseq (step_size a / 512)))) (zseq (a_files a)))
      with (map (fun d => map (fun s => d * si + s * 128 + 42) (zseq (step_size a / 512))) (zseq (a_files a))).
    2:{ apply map_ext. intros d. rewrite map_map. reflexivity. }
    rewrite <- flat_map_concat_map. apply (nodup_flat _ _ (fun d s => d * si + s * 128 + 42)); try apply zseq_nodup.
    intros d s d' s' Hd Hs Hd' Hs' E. apply zseq_in in Hs, Hs'.
    destruct (split_inj si d (s * 128 + 42) d' (s' * 128 + 42)); lia. }
  assert (In_l : forall i b, In (i, b) l <-> exists d s, 0 <= d < a_files a /\ 0 <= s < step_size a / 512 /\ i = si * d + (s * 128 + 42) /\ b = off / 512 + s).
  { intros i b. unfold l. rewrite in_flat_map. split.
    - intros (d & Hd & H). apply in_map_iff in H. destruct H as (s & E & Hs). apply zseq_in in Hd, Hs. injection E as <- <-. exists d, s. lia.
    - intros (d & s & Hd & Hs & -> & ->). exists d. split; [apply zseq_in; auto|]. apply in_map_iff. exists s. split; [f_equal; lia|apply zseq_in; auto]. }
  destruct (check1_fold a l buf failed N) as [H1 H2]. split.
  - rewrite H1, orb_false_iff. split; intros (A & B); split; auto.
    + intros d x Hd Hx Hm. destruct (Z.eqb_spec (buf (si * d + x)) (off / 512 + x / 128)) as [|Hn]; auto. exfalso.
      assert (C : existsb (fun e => negb (buf (fst e) =? snd e)) l = true); [|congruence].
      apply existsb_exists. exists (si * d + x, off / 512 + x / 128). split.
      * apply In_l. exists d, (x / 128). lia.
      * cbn [fst snd]. destruct (Z.eqb_spec (buf (si * d + x)) (off / 512 + x / 128)); [contradiction|reflexivity].
    + destruct (existsb _ l) eqn:C; auto. exfalso. apply existsb_exists in C. destruct C as ([i b] & Hin & C). cbn [fst snd] in C.
      apply In_l in Hin. destruct Hin as (d & s & Hd & Hs & -> & ->).
      rewrite (B d (s * 128 + 42)) in C by lia. apply negb_true_iff, Z.eqb_neq in C. lia.
  - intros d x Hd Hx. rewrite H2. destruct (Z.eqb_spec (x mod 128) 42) as [Hm|Hm].
    + destruct (existsb (fun e => si * d + x =? fst e) l) eqn:C; auto. exfalso.
      assert (D : existsb (fun e => si * d + x =? fst e) l = true); [|congruence].
      apply existsb_exists. exists (si * d + x, off / 512 + x / 128). split; [apply In_l; exists d, (x / 128); lia|apply Z.eqb_eq; reflexivity].
    + destruct (existsb (fun e => si * d + x =? fst e) l) eqn:C; auto. exfalso. apply existsb_exists in C. destruct C as ([i b] & Hin & C). cbn [fst] in C.
      apply Z.eqb_eq in C. apply In_l in Hin. destruct Hin as (d' & s & Hd' & Hs & E & _). subst i.
      apply split_inj in C; lia.
Qed.

Lemma verify_spec : forall a off buf failed, suits a -> more a off = true -> exists buf' failed',
  verify a off buf failed = Some (buf', failed') /\
  (failed' = false <-> failed = false /\ forall d x, 0 <= d < a_files a -> 0 <= x < step_size a / 4 ->
     buf (step_size a / 4 * d + x) = (if x mod 128 =? 42 then off / 512 + x / 128 else pattern a (step_size a / 4 * d + x))
     /\ (x mod 128 = 42 -> u32 (pattern a (step_size a / 4 * d + x)) = pattern a (step_size a / 4 * d + x))) /\
  forall d x, 0 <= d < a_files a -> 0 <= x < step_size a / 4 ->
    buf' (step_size a / 4 * d + x) =
    if x mod 128 =? 42 then u32 (pattern a (step_size a / 4 * d + x)) else buf (step_size a / 4 * d + x).
Proof.
  intros a off buf failed S M. pose proof S as (P & M5). unfold verify. rewrite (cur_eq _ _ M). pose proof (step_pos _ P) as Sp.
  destruct (check_sectors_spec a off buf failed S M) as [H1 H2]. set (bf := check_sectors a off (buf, failed)) in *.
  assert (Si : 0 < step_size a / 4) by (destruct (step_int a P); lia).
  assert (Fn : 0 <= a_files a) by apply P.
  destruct (scan_spec a (step_size a / 4) (fst bf) (Datatypes.S (Z.to_nat (a_files a * (step_size a / 4)))) 0 (snd bf)) as (r & R & Hr); try lia.
  rewrite R. exists (fst bf), r. split; [reflexivity|]. split; [|exact H2].
  set (si := step_size a / 4) in *.
  rewrite Hr, H1. split.
  - intros ((A & B) & C). split; auto. intros d x Hd Hx. pose proof (C (si * d + x) ltac:(nia)) as Ck. rewrite (H2 d x Hd Hx) in Ck.
    destruct (Z.eqb_spec (x mod 128) 42) as [E|E]; [split; [apply B; auto|auto]|split; [auto|contradiction]].
  - intros (A & B). split; [split; auto|].
    + intros d x Hd Hx E. destruct (B d x Hd Hx) as [Q _]. rewrite E in Q. exact Q.
    + intros k Hk. assert (Ek : k = si * (k / si) + k mod si) by (apply Z.div_mod; lia).
      assert (Hd : 0 <= k / si < a_files a). { split; [apply Z.div_pos; lia|]. apply Z.div_lt_upper_bound; lia. }
      assert (Hx : 0 <= k mod si < si) by (apply Z.mod_pos_bound; lia).
      rewrite Ek at 1. rewrite (H2 _ _ Hd Hx). destruct (B _ _ Hd Hx) as [Q1 Q2]. rewrite <- Ek in *.
      destruct (Z.eqb_spec (k mod si mod 128) 42); auto.
Qed.
