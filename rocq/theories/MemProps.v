(** C109: the memory of blocks. *)

From Coq Require Import ZArith List Bool Lia Permutation.
From Verif Require Import MemModel MemSpec MemProofs.
Import ListNotations.
Local Open Scope Z_scope.

Section Props.
Variables A raw : Z.
Hypothesis HA : 1 <= A.
Hypothesis Hraw : 1 <= raw.

(** A program that keeps the rules is safe: nothing is written outside of buffers and
    nothing is freed but buffers. *)
Theorem C109_safe : forall l h own o, uses A raw l h own -> legal A raw own o -> mstep A raw h o <> Ub.
Proof.
  intros l h own o U L E. destruct (uses_inv A raw HA Hraw _ _ _ U) as (gs & lost & I & _).
  pose proof (step_ok A raw HA Hraw h own gs lost o I L) as T. rewrite E in T. exact T.
Qed.

(** What the program has is in a buffer, and the first block (after the part in front that
    is no whole block) is aligned. *)
Theorem C109_owned : forall l h own p bytes, uses A raw l h own -> In (p, bytes) own ->
  0 < p /\ (p + bytes mod raw) mod A = 0 /\
  exists b n, In (b, n) (live h) /\ b + 8 <= p /\ p + bytes <= b + n /\ b + n <= 2 ^ 64.
Proof.
  intros l h own p bytes U H. destruct (uses_inv A raw HA Hraw _ _ _ U) as (gs & lost & I & _).
  destruct (own_split A raw _ _ _ _ _ _ I H) as (l1 & g & l2 & Eg & <- & <-).
  assert (Hg : In g gs) by (rewrite Eg; apply in_or_app; right; left; auto).
  pose proof (v_good _ _ _ _ _ _ I) as G. rewrite Forall_forall in G.
  destruct (G g Hg) as (a0 & a1 & a2 & a3 & a4 & a5 & a6).
  split; [lia|]. split; auto. exists (g_b g), (g_n g). split; [exact (in_live A raw _ _ _ _ _ I Hg)|]. auto.
Qed.

(** Every block of an array is aligned if raw_size is a multiple of the alignment.  [cookie]
    are the bytes a compiler puts in front of an array. *)
Theorem C109_blocks : forall l h own p cookie k i, uses A raw l h own -> In (p, cookie + k * raw) own ->
  0 <= cookie < raw -> (A | raw) -> 0 <= i < k ->
  (p + cookie + i * raw) mod A = 0 /\ p <= p + cookie + i * raw /\
  p + cookie + i * raw + raw <= p + (cookie + k * raw).
Proof.
  intros l h own p cookie k i U H C D Hi.
  destruct (C109_owned _ _ _ _ _ U H) as (_ & Al & _).
  rewrite (Z.mod_add cookie k raw), (Z.mod_small cookie raw) in Al by lia. split; [|nia].
  destruct D as (q & Eq). replace (p + cookie + i * raw) with (p + cookie + i * q * A) by (rewrite Eq; lia). rewrite Z.mod_add by lia. exact Al.
Qed.

(** Two things the program has do not overlap, nor do the eight bytes in front of them. *)
Theorem C109_disjoint : forall l h own, uses A raw l h own ->
  ForallOrdPairs (fun x y => disjoint (fst x - 8) (snd x + 8) (fst y - 8) (snd y + 8)) own.
Proof.
  intros l h own U. destruct (uses_inv A raw HA Hraw _ _ _ U) as (gs & lost & I & _).
  rewrite (v_own _ _ _ _ _ _ I). pose proof (v_good _ _ _ _ _ _ I) as G.
  pose proof (fop_perm _ _ (v_live _ _ _ _ _ _ I) (v_apart _ _ _ _ _ _ I)) as F. clear I U.
  induction gs as [|g gs IH]; cbn [map]; [constructor|]. inversion G; subst. cbn [map app] in F. inversion F; subst.
  constructor; auto. rewrite Forall_forall in *. intros x Hx. apply in_map_iff in Hx. destruct Hx as (g' & <- & Hg').
  assert (Ap : apart (buffer g) (buffer g')) by (apply H3, in_or_app; left; apply in_map; auto).
  destruct H1 as (a0 & a1 & a2 & a3 & a4 & _). destruct (H2 g' Hg') as (b0 & b1 & b2 & b3 & b4 & _).
  unfold apart, buffer in Ap. unfold disjoint, piece. cbn in *. lia.
Qed.

(** delete frees exactly the buffer of what is deleted. *)
Theorem C109_delete : forall l h own p bytes, uses A raw l h own -> In (p, bytes) own ->
  exists h' b n, mstep A raw h (ODelete p) = Ok (h', None) /\ Permutation (live h) ((b, n) :: live h') /\
    b + 8 <= p /\ p + bytes <= b + n /\ mem h' = mem h.
Proof.
  intros l h own p bytes U H. destruct (uses_inv A raw HA Hraw _ _ _ U) as (gs & lost & I & _).
  destruct (own_split A raw _ _ _ _ _ _ I H) as (l1 & g & l2 & Eg & <- & <-). subst gs.
  pose proof (v_good _ _ _ _ _ _ I) as G. rewrite Forall_forall in G.
  destruct (G g ltac:(apply in_or_app; right; left; auto)) as (a0 & a1 & a2 & a3 & a4 & a5 & a6).
  destruct (delete_ok A raw _ _ _ _ _ _ I) as (h' & E & _ & P & M).
  exists h', (g_b g), (g_n g). cbn [mstep]. rewrite E. auto.
Qed.

(** Nobody else changes what the program has: a step changes only the piece it writes to. *)
Theorem C109_private : forall l h own o h' p bytes x, uses A raw l h own -> legal A raw own o ->
  (exists res, mstep A raw h o = Ok (h', res)) \/ mstep A raw h o = BadAlloc h' ->
  In (p, bytes) own -> p <= x -> x + 8 <= p + bytes ->
  (forall off v, o <> OPoke p off v) -> mem h' x = mem h x.
Proof.
  intros l h own o h' p bytes x U L St H X1 X2 N. destruct (uses_inv A raw HA Hraw _ _ _ U) as (gs & lost & I & _).
  destruct (own_split A raw _ _ _ _ _ _ I H) as (l1 & g & l2 & Eg & <- & <-).
  assert (Hg : In g gs) by (rewrite Eg; apply in_or_app; right; left; auto).
  pose proof (v_good _ _ _ _ _ _ I) as G. rewrite Forall_forall in G.
  destruct (G g Hg) as (a0 & a1 & a2 & a3 & a4 & a5 & a6).
  assert (T : forall by_ m1 r m2, 0 <= by_ -> A + 8 + by_ < 2 ^ 64 ->
    (exists q, block_new A raw by_ m1 r m2 h = Ok (h', q)) \/ block_new A raw by_ m1 r m2 h = BadAlloc h' -> mem h' x = mem h x).
  { intros by_ m1 r m2 B1 B2 E. pose proof (take_ok A raw HA Hraw h own gs lost by_ m1 r m2 I B1 B2) as T.
    destruct E as [(q & E)|E]; rewrite E in T.
    - destruct T as (lost' & (b & n & _ & K) & _). apply (K g); auto; lia.
    - destruct T as (_ & _ & _ & _ & ->). auto. }
  destruct o as [by_ m1 r m2|num m1 r m2|q|q off v]; cbn [legal] in L; cbn [mstep] in St.
  - apply (T by_ m1 r m2); try tauto. destruct (block_new A raw by_ m1 r m2 h) as [(h1 & q)|h1| |];
      destruct St as [(res & St)|St]; inversion St; subst; eauto.
  - destruct L as (L1 & L2). unfold allocate in St.
    replace (w64 (num * raw)) with (num * raw) in St by (unfold w64; rewrite Z.mod_small; nia).
    apply (T (num * raw) m1 r m2); [nia|auto|]. destruct (block_new A raw (num * raw) m1 r m2 h) as [(h1 & q)|h1| |];
      destruct St as [(res & St)|St]; inversion St; subst; eauto.
  - unfold aligned_dealloc in St. destruct (q =? 0); [|destruct (mem h (q - 8)) as [b|]; [destruct (existsb _ _)|]];
      destruct St as [(res & St)|St]; inversion St; subst; reflexivity.
  - destruct L as (by_ & L & L1 & L2).
    destruct (own_split A raw _ _ _ _ _ _ I L) as (k1 & g' & k2 & Eg' & <- & <-). subst gs.
    rewrite Eg' in I. destruct (poke_ok A raw _ _ _ _ _ _ off v I L1 L2) as (h2 & E & _ & _ & _ & K).
    cbn [mstep] in E. rewrite E in St. destruct St as [(res & St)|St]; inversion St; subst h2.
    apply (K g); [|lia|lia]. rewrite Eg' in Hg. apply in_app_or in Hg. apply in_or_app.
    destruct Hg as [Hg|[Hg|Hg]]; auto. subst g'. exfalso. eapply N. reflexivity.
Qed.

(** And it finds there what it wrote. *)
Theorem C109_write : forall l h own p bytes off v, uses A raw l h own -> In (p, bytes) own ->
  0 <= off -> off + 8 <= bytes ->
  exists h', mstep A raw h (OPoke p off v) = Ok (h', None) /\ mem h' (p + off) = Some v.
Proof.
  intros l h own p bytes off v U H L1 L2. destruct (uses_inv A raw HA Hraw _ _ _ U) as (gs & lost & I & _).
  destruct (own_split A raw _ _ _ _ _ _ I H) as (l1 & g & l2 & -> & <- & <-).
  destruct (poke_ok A raw _ _ _ _ _ _ off v I L1 L2) as (h' & E & _ & M & _). eauto.
Qed.

(** One buffer for each thing the program has; when it has deleted everything, none is left,
    whether or not calls threw. *)
Theorem C109_none_left : forall l h own, uses A raw l h own -> Forall realloc_works l ->
  length (live h) = length own /\ (own = [] -> live h = []).
Proof.
  intros l h own U R. destruct (uses_inv A raw HA Hraw _ _ _ U) as (gs & lost & I & W). rewrite (W R) in I.
  pose proof (Permutation_length (v_live _ _ _ _ _ _ I)) as P. rewrite app_nil_r, map_length in P.
  assert (E : length (live h) = length own) by (rewrite P, (v_own _ _ _ _ _ _ I), map_length; auto).
  split; auto. intros ->. destruct (live h); auto. discriminate.
Qed.

(** max_size is the largest number whose size is below 2^64. *)
Theorem C109_max_size : forall num, 0 <= num -> (num <= max_size raw <-> num * raw < 2 ^ 64).
Proof.
  intros num Hn. unfold max_size. split; intros H.
  - pose proof (Z.mul_div_le (2 ^ 64 - 1) raw ltac:(lia)). nia.
  - apply Z.div_le_lower_bound; lia.
Qed.

End Props.
Print Assumptions C109_safe.
Print Assumptions C109_owned.
Print Assumptions C109_blocks.
Print Assumptions C109_disjoint.
Print Assumptions C109_delete.
Print Assumptions C109_private.
Print Assumptions C109_write.
Print Assumptions C109_none_left.
Print Assumptions C109_max_size.

(** *** Cases *)

Local Notation AL := 4096.

(** A block, an array of two blocks with a cookie of eight bytes whose buffer realloc moves,
    a write, and everything deleted. *)
Definition run109 : list mop :=
  [ONew 4096 (Some 4000) RKeep None; ONew 8200 (Some 100000) RMove (Some 200000); OPoke 4096 0 77;
   OAlloc 2 (Some 300000) RKeep None; ODelete 4096; ODelete 0].


Example C109_case : exists h, uses AL 4096 (rev run109) h [(303104, 8192); (200696, 8200)] /\
  length (live h) = 2%nat /\ Forall realloc_works run109 /\ In (200696, 8 + 2 * 4096) [(303104, 8192); (200696, 8 + 2 * 4096)] /\
  (200696 + 8 + 1 * 4096) mod AL = 0.
Proof.
  eexists. split.
  - unfold run109. cbn [rev app]. eapply (UStep AL 4096 _ _ [(303104, 8192); (200696, 8200)] (ODelete 0) _ None);
    [eapply (UStep AL 4096 _ _ [(303104, 8192); (200696, 8200); (4096, 4096)] (ODelete 4096) _ None);
     [eapply (UStep AL 4096 _ _ [(200696, 8200); (4096, 4096)] (OAlloc 2 _ _ _) _ (Some 303104));
      [eapply (UStep AL 4096 _ _ [(200696, 8200); (4096, 4096)] (OPoke 4096 0 77) _ None);
       [eapply (UStep AL 4096 _ _ [(4096, 4096)] (ONew 8200 _ _ _) _ (Some 200696));
        [eapply (UStep AL 4096 _ _ [] (ONew 4096 _ _ _) _ (Some 4096));
         [apply UStart|cbn; lia|reflexivity]|cbn; lia|reflexivity]|exists 4096; cbn; split; [auto|lia]|reflexivity]|cbn; lia|reflexivity]|right; exists 4096; cbn; auto|reflexivity]|left; reflexivity|reflexivity].
  - split; [reflexivity|]. split; [repeat constructor; cbn; discriminate|]. split; [cbn; auto|reflexivity].
Qed.

(** For a number of blocks that max_size allows, allocate may write outside of its buffer:
    the size of the buffer wraps around. *)
Theorem C109_max_size_safe_refuted : ~ (forall raw num m1 r m2, 4096 <= raw -> 0 <= num <= max_size raw ->
  mstep AL raw heap0 (OAlloc num m1 r m2) <> Ub).
Proof.
  intros H. apply (H 4096 (max_size 4096) (Some 4096) RKeep None ltac:(lia)).
  - vm_compute. split; discriminate.
  - vm_compute. reflexivity.
Qed.
Print Assumptions C109_max_size_safe_refuted.

(** For more blocks allocate does not fail but gives less memory. *)
Theorem C109_too_many_refuted : ~ (forall raw num m1 r m2 h p, 4096 <= raw -> max_size raw < num < 2 ^ 64 ->
  mstep AL raw heap0 (OAlloc num m1 r m2) = Ok (h, Some p) ->
  exists b n, In (b, n) (live h) /\ b <= p /\ p + num * raw <= b + n).
Proof.
  intros H. destruct (H 4096 (2 ^ 52) (Some 4096) RKeep None _ _ ltac:(lia) ltac:(vm_compute; auto) eq_refl)
    as (b & n & Hl & B1 & B2).
  vm_compute in Hl. destruct Hl as [E|[]]. inversion E; subst. vm_compute in B2. apply B2. reflexivity.
Qed.
Print Assumptions C109_too_many_refuted.

(** If raw_size is no multiple of the alignment, only the first block of an array is aligned. *)
Theorem C109_second_block_refuted : ~ (forall A raw l h own p k i, 1 <= A -> A <= raw -> uses A raw l h own ->
  In (p, k * raw) own -> 0 <= i < k -> (p + i * raw) mod A = 0).
Proof.
  intros H.
  assert (U : exists h, uses AL 6144 [OAlloc 2 (Some 4000) RKeep None] h [(4096, 2 * 6144)]).
  { eexists. eapply (UStep AL 6144 _ _ [] (OAlloc 2 _ _ _) _ (Some 4096)); [constructor|cbn; lia|reflexivity]. }
  destruct U as (h & U). specialize (H AL 6144 _ _ _ 4096 2 1 ltac:(lia) ltac:(lia) U (or_introl eq_refl) ltac:(lia)).
  vm_compute in H. discriminate.
Qed.
Print Assumptions C109_second_block_refuted.

(** If realloc gives the null pointer, a buffer is never freed. *)
Theorem C109_none_left_refuted : ~ (forall A raw l h, 1 <= A -> 1 <= raw -> uses A raw l h [] -> live h = []).
Proof.
  intros H.
  assert (U : exists h, uses AL 4096 [ODelete 53248; ONew 4096 (Some 4000) RNull (Some 50000)] h [] /\ live h = [(4000, 8200)]).
  { eexists. split.
    - eapply (UStep AL 4096 _ _ [(53248, 4096)] (ODelete 53248) _ None);
        [eapply (UStep AL 4096 _ _ [] (ONew 4096 _ _ _) _ (Some 53248)); [constructor|cbn; lia|reflexivity]
        |right; exists 4096; cbn; auto|reflexivity].
    - reflexivity. }
  destruct U as (h & U & E). rewrite (H 4096 4096 _ _ ltac:(lia) ltac:(lia) U) in E. discriminate.
Qed.
Print Assumptions C109_none_left_refuted.
