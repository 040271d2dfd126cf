(** C99: what the file benchmark writes, and what its verification says. *)

From Coq Require Import ZArith List Bool Permutation Lia ZifyBool.
From Verif Require Import BenchModel BenchSpec BenchProofs BenchMain.
Import ListNotations.
Local Open Scope Z_scope.
Ltac Zify.zify_post_hook ::= Z.to_euclidean_division_equations.

(** ** Preparation *)

Lemma start_at : forall a fs, plain a -> at_round a (s_files (start a fs)) 0 (start a fs).
Proof.
  intros a fs P. split; [lia|]. split; [cbn [start s_offset]; lia|]. intros d x Hd Hx Hn. reflexivity.
Qed.

Lemma start_files : forall a fs, plain a -> files_at a (s_files (start a fs)) 0 (start a fs).
Proof.
  intros a fs P. split; [intros d p (_ & Hp & _); lia|]. split; [reflexivity|]. cbn. lia.
Qed.

Lemma start_word : forall a fs d p, p < f_size (fs d) -> f_word (s_files (start a fs) d) p = f_word (fs d) p.
Proof.
  intros a fs d p H. unfold start. cbn [s_files]. destruct (a_resize a); [|reflexivity].
  destruct ((0 <=? d) && (d <? a_files a)); [|reflexivity]. cbn [f_word]. destruct (Z.ltb_spec p (f_size (fs d))); [reflexivity|lia].
Qed.

Lemma rounds : forall a t, plain a -> 0 <= t -> more a (a_offset a + t * step_size a) = false ->
  (forall u, 0 <= u < t -> more a (a_offset a + u * step_size a) = true) -> 0 < a_length a /\ t * step_size a = covered a.
Proof.
  intros a t P Ht E H. pose proof (step_pos a P) as Sp. assert (L0 : 0 <= a_length a) by apply P.
  unfold more in E. apply orb_false_iff in E. destruct E as [E1 E2]. apply Z.eqb_neq in E2. apply Z.leb_gt in E1. split; [lia|].
  unfold covered. f_equal. unfold endpos in *. apply (Z.div_unique (a_length a) (step_size a) t (a_length a - t * step_size a)); [|ring].
  left. destruct (Z.eq_dec t 0) as [->|]; [lia|]. specialize (H (t - 1) ltac:(lia)). unfold more in H.
  apply orb_true_iff in H. destruct H as [H|H]; [apply Z.leb_le in H; unfold endpos in H; nia|apply Z.eqb_eq in H; lia].
Qed.

Lemma passes_fits : forall a t, suits a -> 0 < a_files a -> 0 < t ->
  ((forall u, 0 <= u < t -> passes a u) <-> fits a (t * step_size a)).
Proof.
  intros a t (P & M5) Hn Ht. pose proof (step_pos a P) as Sp. destruct (step_int a P) as (S4 & _).
  assert (O0 : 0 <= a_offset a) by apply P.
  set (q := step_size a / 512). assert (Eq : step_size a = q * 512) by (unfold q; lia). assert (Ei : step_size a / 4 = q * 128) by (unfold q; lia).
  assert (Q : 0 < q) by lia.
  assert (Do : forall u, (a_offset a + u * step_size a) / 512 = a_offset a / 512 + u * q).
  { intros u. rewrite Eq. replace (a_offset a + u * (q * 512)) with (a_offset a + (u * q) * 512) by ring. apply Z.div_add. lia. }
  assert (Dt : t * step_size a / 512 = t * q).
  { rewrite Eq. replace (t * (q * 512)) with (t * q * 512) by ring. apply Z.div_mul. lia. }
  unfold fits, passes. rewrite Dt. split.
  - intros H. split.
    + destruct (H (t - 1) ltac:(lia) 0 (q * 128 - 128 + 42)) as [H1 _]; [lia|lia|]. specialize (H1 ltac:(lia)). rewrite Do in H1.
      replace ((q * 128 - 128 + 42) / 128) with (q - 1) in H1 by lia. nia.
    + intros Hp. destruct (Z.le_gt_cases (a_files a * (step_size a / 4)) (2 ^ 32)) as [|G]; auto. exfalso.
      set (si := step_size a / 4) in *. assert (Si : 0 < si) by lia.
      destruct (H 0 ltac:(lia) (2 ^ 32 / si) (2 ^ 32 mod si)) as [_ H2].
      * split; [apply Z.div_pos; lia|]. apply Z.div_lt_upper_bound; lia.
      * apply Z.mod_pos_bound. lia.
      * rewrite <- Z.div_mod in H2 by lia. unfold u32, pattern in H2. rewrite Hp in H2. cbn in H2. discriminate.
  - intros (H1 & H2) u Hu d x Hd Hx. split.
    + intros Hm. rewrite Do. assert (x / 128 <= q - 1) by lia. nia.
    + unfold u32, pattern. destruct (Z.eqb_spec (a_pattern a) 0) as [E|E].
      * apply Z.mod_small. specialize (H2 E). nia.
      * apply Z.mod_small. apply P.
Qed.

(** ** What is written *)

(** Whatever fails: the bytes counted as written hold the pattern, and nothing beyond the
    round that failed is changed; if nothing fails these are all whole rounds. *)
Theorem C99_write : forall a fs th code fs' w r, suits a -> a_write a = true -> tool a fs th code fs' w r ->
  holds_pattern a w fs' /\
  (forall d p, p < f_size (fs d) -> ~ (0 <= d < a_files a /\ a_offset a <= p < a_offset a + w + step_size a) ->
     f_word (fs' d) p = f_word (fs d) p) /\
  (th = false -> 0 < a_length a /\ w = covered a /\ (a_read a || a_verify a = true -> r = covered a) /\
     forall d p, p < f_size (fs d) -> ~ (0 <= d < a_files a /\ a_offset a <= p < a_offset a + w) ->
       f_word (fs' d) p = f_word (fs d) p).
Proof.
  intros a fs th code fs' w r S W (s & R & _ & -> & -> & ->). pose proof S as (P & _).
  destruct (run_written a (s_files (start a fs)) S W _ _ _ R 0 (start_at a fs P) (start_files a fs P)) as (t & Ht & A1 & A2 & A3 & A4 & A5 & _).
  rewrite A1. split; [exact A2|]. split.
  - intros d p Hs Hn. rewrite A3; [apply start_word; auto|]. intros (B1 & B2). apply Hn. split; [auto|lia].
  - intros E. destruct (A4 E) as ((F1 & F2 & F3) & M & Rb). destruct (rounds a t P Ht M A5) as (L & Ec). split; [auto|]. split; [auto|]. split.
    + intros Q. rewrite Q in Rb. cbn [start s_readb] in Rb. rewrite <- Ec. lia.
    + intros d p Hs Hn. rewrite F2; [apply start_word; auto|]. exact Hn.
Qed.
Print Assumptions C99_write.

(** ** What the verification says *)

(** Writing and verifying in one run, on files that keep what is written: success,
    exactly as long as no number is cut to 32 bits. *)
Theorem C99_verdict : forall a fs th code fs' w r, suits a -> 0 < a_files a -> a_write a = true -> a_verify a = true ->
  tool a fs th code fs' w r -> (code = 0 <-> (0 < r -> fits a r)).
Proof.
  intros a fs th code fs' w r S Hn W V (s & R & -> & -> & -> & ->). pose proof S as (P & _). pose proof (step_pos a P) as Sp.
  destruct (run_written a (s_files (start a fs)) S W _ _ _ R 0 (start_at a fs P) (start_files a fs P)) as (t & Ht & _ & _ & _ & _ & _ & A6).
  rewrite V in A6. destruct A6 as (t1 & B1 & B2 & B3 & B4 & B5). cbn [start s_readb s_failed] in *.
  assert (Er : s_readb s = t1 * step_size a) by lia. rewrite Er.
  assert (X : (if s_failed s then 1 else 0) = 0 <-> s_failed s = false) by (destruct (s_failed s); split; auto; discriminate).
  rewrite X, B5. split.
  - intros (_ & H) Hr. apply passes_fits; auto. nia.
  - intros H. split; auto. intros u Hu. destruct (Z.eq_dec t1 0) as [->|]; [lia|].
    apply (proj2 (passes_fits a t1 S Hn ltac:(lia))); auto. apply H. nia.
Qed.
Print Assumptions C99_verdict.

(** Verifying alone changes nothing, and succeeds exactly if the files hold the pattern
    as far as they were read. *)
Theorem C99_check : forall a fs th code fs' w r, suits a -> a_write a = false -> a_verify a = true -> a_resize a = false ->
  tool a fs th code fs' w r ->
  fs' = fs /\ w = 0 /\ (fits a r -> (code = 0 <-> holds_pattern a r fs)) /\ (th = false -> 0 < a_length a /\ r = covered a).
Proof.
  intros a fs th code fs' w r S W V Z0 (s & R & -> & -> & -> & ->). pose proof S as (P & _). pose proof (step_pos a P) as Sp.
  destruct (step_int a P) as (S4 & _).
  assert (Sf : s_files (start a fs) = fs) by (unfold start; rewrite Z0; reflexivity).
  destruct (run_checked a S W V _ _ _ R 0 ltac:(lia)) as (t & Ht & A1 & A2 & A3 & A4 & A5 & A6); [cbn [start s_offset]; lia|reflexivity|].
  rewrite Sf in *. split; [auto|]. split; [auto|]. rewrite A1. split.
  2:{ intros E. destruct (rounds a t P Ht (A4 E) A5). auto. }
  intros Fi. assert (X : (if s_failed s then 1 else 0) = 0 <-> s_failed s = false) by (destruct (s_failed s); split; auto; discriminate).
  rewrite X, A6. cbn [start s_failed]. clear X A6.
  assert (Ps : forall u, 0 <= u < t -> passes a u \/ a_files a <= 0).
  { intros u Hu. destruct (Z.le_gt_cases (a_files a) 0); auto. left. apply (proj2 (passes_fits a t S ltac:(lia) ltac:(lia))); auto. }
  assert (Ex : forall u d x, 0 <= u < t -> 0 <= d < a_files a -> 0 <= x < step_size a / 4 ->
    expected a d (a_offset a + u * step_size a + 4 * x) =
    (if x mod 128 =? 42 then (a_offset a + u * step_size a) / 512 + x / 128 else pattern a (step_size a / 4 * d + x)) /\
    u32 (pattern a (step_size a / 4 * d + x)) = pattern a (step_size a / 4 * d + x)).
  { intros u d x Hu Hd Hx. destruct (Ps u Hu) as [Pu|]; [|lia]. destruct (Pu d x Hd Hx) as (B1 & B2). rewrite (expected_round a u d x S) by lia.
    split; [|exact B2]. destruct (Z.eqb_spec (x mod 128) 42); [|exact B2]. unfold u32. apply Z.mod_small. split; [|auto].
    assert (0 <= a_offset a) by apply P. apply Z.add_nonneg_nonneg; apply Z.div_pos; nia. }
  split.
  - intros (_ & H) d p (Hd & Hp & Hq).
    assert (Hx : exists u x, 0 <= u < t /\ 0 <= x < step_size a / 4 /\ p = a_offset a + u * step_size a + 4 * x).
    { set (k := (p - a_offset a) / 4). assert (Ek : p = a_offset a + 4 * k) by (unfold k; lia). set (si := step_size a / 4) in *.
      exists (k / si), (k mod si). pose proof (Z.div_mod k si ltac:(lia)). pose proof (Z.mod_pos_bound k si ltac:(lia)).
      split; [split; [apply Z.div_pos; lia|apply Z.div_lt_upper_bound; nia]|]. split; [lia|]. rewrite <- S4. nia. }
    destruct Hx as (u & x & Hu & Hx & ->). destruct (Ex u d x Hu Hd Hx) as (-> & _). apply H; auto.
  - intros H. split; auto. intros u Hu d x Hd Hx. destruct (Ex u d x Hu Hd Hx) as (E1 & E2). split; [|auto]. rewrite <- E1. apply H.
    split; [auto|]. split; [nia|].
    replace (a_offset a + u * step_size a + 4 * x - a_offset a) with ((u * (step_size a / 4) + x) * 4) by (rewrite <- S4 at 2; ring). apply Z.mod_mul. lia.
Qed.
Print Assumptions C99_check.

(** Later runs.  With a pattern of its own, what one run has written another run accepts,
    whatever its blocks, batches and range; with the default, if all sizes are the same. *)
Theorem C99_again : forall a b fs fs' fs2 wa ra thb codeb wb rb codea, suits a -> suits b ->
  a_write a = true -> a_write b = false -> a_verify b = true -> a_resize b = false ->
  tool a fs false codea fs' wa ra -> tool b fs' thb codeb fs2 wb rb -> fits b rb ->
  a_files b <= a_files a -> a_offset a <= a_offset b -> a_offset b + rb <= a_offset a + covered a ->
  (a_pattern a = a_pattern b /\ a_pattern a <> 0 /\ a_offset a mod 512 = 0 /\ a_offset b mod 512 = 0 \/
   a_pattern a = a_pattern b /\ a_offset a = a_offset b /\ step_size a = step_size b) ->
  codeb = 0.
Proof.
  intros a b fs fs' fs2 wa ra thb codeb wb rb codea Sa Sb Wa Wb Vb Zb Ra Rb Fb Nf Ho Hr Cs.
  destruct (C99_write a fs false codea fs' wa ra Sa Wa Ra) as (Hp & _ & Hf). destruct (Hf eq_refl) as (_ & -> & _).
  destruct (C99_check b fs' thb codeb fs2 wb rb Sb Wb Vb Zb Rb) as (_ & _ & Hc & _). apply (Hc Fb).
  intros d p (Hd & Hq & Hm). rewrite Hp.
  - unfold expected. cbv zeta. destruct Cs as [(E1 & E2 & E3 & E4)|(E1 & E2 & E3)].
    + rewrite <- E1. destruct (Z.eqb_spec (a_pattern a) 0); [contradiction|].
      replace (((p - a_offset a) / 4) mod 128) with (((p - a_offset b) / 4) mod 128) by lia.
      replace (a_offset a / 512 + (p - a_offset a) / 4 / 128) with (a_offset b / 512 + (p - a_offset b) / 4 / 128) by lia. reflexivity.
    + rewrite E1, E2, E3. reflexivity.
  - split; [lia|]. split; [lia|]. destruct Sa as ((_ & A & _) & _). destruct Sb as ((_ & B & _) & _). lia.
Qed.
Print Assumptions C99_again.

(** A wrong word anywhere in what was written is found by verifying again. *)
Theorem C99_found : forall a fs th code fs' w r d p, suits a -> a_write a = false -> a_verify a = true -> a_resize a = false ->
  tool a fs th code fs' w r -> fits a r -> place a r d p -> f_word (fs d) p <> expected a d p -> code = 1.
Proof.
  intros a fs th code fs' w r d p S W V Z0 T Fi Pl Hn. destruct (C99_check a fs th code fs' w r S W V Z0 T) as (_ & _ & Hc & _).
  destruct T as (s & _ & -> & _). destruct (s_failed s); [reflexivity|]. destruct Hn. apply (proj1 (Hc Fi) eq_refl). exact Pl.
Qed.
Print Assumptions C99_found.

(** Less than a whole round is not touched at all. *)
Theorem C99_short : forall a fs th code fs' w r, plain a -> 0 < a_length a < step_size a -> tool a fs th code fs' w r ->
  th = false /\ code = 0 /\ w = 0 /\ r = 0 /\ fs' = s_files (start a fs).
Proof.
  intros a fs th code fs' w r P L (s & R & -> & -> & -> & ->).
  assert (M : more a (s_offset (start a fs)) = false).
  { unfold more, endpos. cbn [start s_offset]. apply orb_false_iff. split; [apply Z.leb_gt; lia|apply Z.eqb_neq; lia]. }
  inversion R; subst; try congruence. auto.
Qed.
Print Assumptions C99_short.

(** The program reads into the buffer it wrote from: if the read requests leave it alone,
    the verification succeeds all the same, whatever is in the files. *)
Theorem C99_unread : forall a fs t s buf, suits a -> fits a ((t + 1) * step_size a) -> at_round a fs t s -> more a (s_offset s) = true ->
  mark a (s_offset s) (s_buffer s) = Some buf ->
  exists buf', verify a (s_offset s) buf false = Some (buf', false).
Proof.
  intros a fs t s buf S Fi (Ht & Ho & Hb) M E. pose proof S as (P & _). pose proof (step_pos a P) as Sp.
  destruct (mark_spec a (s_offset s) (s_buffer s) P M) as (b0 & E0 & Hm). rewrite E in E0. injection E0 as <-.
  destruct (verify_spec a (s_offset s) buf false S M) as (buf' & fl & Ev & Hf & _). exists buf'. rewrite Ev. f_equal. f_equal.
  apply Hf. split; [reflexivity|]. intros d x Hd Hx. assert (Hn : 0 < a_files a) by lia.
  destruct (proj2 (passes_fits a (t + 1) S Hn ltac:(lia)) Fi t ltac:(lia) d x Hd Hx) as (B1 & B2). split; [|auto].
  rewrite (Hm d x Hd Hx). destruct (Z.eqb_spec (x mod 128) 42) as [Ex|Ex].
  - rewrite Ho in *. unfold u32. apply Z.mod_small. split; [|auto]. assert (0 <= a_offset a) by apply P. apply Z.add_nonneg_nonneg; apply Z.div_pos; nia.
  - rewrite Hb by auto. exact B2.
Qed.
Print Assumptions C99_unread.

(** ** Runs without failures exist *)

Lemma size_keeps : forall buf l fs d, f_size (fs d) <= f_size (serve_writes buf l fs d).
Proof.
  intros buf. unfold serve_writes. induction l as [|r l IH]; intros fs d; cbn [fold_left]; [lia|].
  etransitivity; [|apply IH]. unfold serve_write, upd. destruct (Z.eqb_spec d (r_file r)) as [->|]; cbn [f_size]; lia.
Qed.

Lemma size_reaches : forall buf l fs r, In r l -> r_pos r + r_bytes r <= f_size (serve_writes buf l fs (r_file r)).
Proof.
  intros buf. induction l as [|q l IH]; intros fs r H; [destruct H|]. destruct H as [->|H]; unfold serve_writes; cbn [fold_left].
  - etransitivity; [|apply size_keeps]. unfold serve_write, upd. rewrite Z.eqb_refl. cbn [f_size]. lia.
  - apply IH. exact H.
Qed.

Theorem C99_ends : forall a fs, suits a -> 0 < a_length a ->
  a_write a = true \/ (forall d, 0 <= d < a_files a -> endpos a <= f_size (fs d)) \/ a_read a || a_verify a = false ->
  exists code fs' w r, tool a fs false code fs' w r.
Proof.
  intros a fs S L H. pose proof S as (P & _). pose proof (step_pos a P) as Sp.
  assert (G : forall n s, Z.of_nat n >= endpos a - s_offset s ->
    a_write a = true \/ (forall d, 0 <= d < a_files a -> endpos a <= f_size (s_files s d)) \/ a_read a || a_verify a = false ->
    exists s', run a s false s').
  { induction n as [|n IH]; intros s Hn Hs.
    { exists s. apply run_end. unfold more. apply orb_false_iff. split; [apply Z.leb_gt; lia|apply Z.eqb_neq; lia]. }
    destruct (more a (s_offset s)) eqn:M; [|exists s; apply run_end; auto].
    assert (Mo : s_offset s + step_size a <= endpos a).
    { unfold more in M. apply orb_true_iff in M. destruct M as [M|M]; [apply Z.leb_le; auto|apply Z.eqb_eq in M; lia]. }
    set (l := requests a (s_offset s)).
    assert (W1 : exists s1, write_phase a s l = Some s1 /\ s_offset s1 = s_offset s /\
      (a_write a = true \/ (forall d, 0 <= d < a_files a -> endpos a <= f_size (s_files s1 d)) \/ a_read a || a_verify a = false) /\
      (a_read a || a_verify a = true -> forallb (in_file (s_files s1)) l = true)).
    { unfold write_phase. destruct (a_write a) eqn:W.
      - destruct (mark_spec a (s_offset s) (s_buffer s) P M) as (buf & Em & _). rewrite Em. eexists. split; [reflexivity|]. cbn [s_offset s_files].
        split; [reflexivity|]. split; [auto|]. intros _. apply forallb_forall. intros r Hr. apply Z.leb_le. apply size_reaches. exact Hr.
      - exists s. split; [reflexivity|]. split; [reflexivity|]. split; [exact Hs|]. intros Q. destruct Hs as [Hs|[Hs|Hs]]; [discriminate| |congruence].
        apply forallb_forall. intros r Hr. apply Z.leb_le. apply requests_in in Hr; auto. destruct Hr as (i & j & Hi & Hj & ->).
        cbn [r_pos r_bytes r_file]. specialize (Hs i Hi). unfold step_size in *. nia. }
    destruct W1 as (s1 & E1 & O1 & H1 & I1).
    assert (R1 : exists s2, read_phase a s1 l = Some s2 /\ s_offset s2 = s_offset s1 /\ s_files s2 = s_files s1).
    { unfold read_phase. destruct (a_read a || a_verify a); [|exists s1; auto]. unfold serve_reads. rewrite (I1 eq_refl). eexists. split; [reflexivity|]. auto. }
    destruct R1 as (s2 & E2 & O2 & F2).
    assert (V1 : exists s3, verify_phase a s2 = Some s3 /\ s_offset s3 = s_offset s + step_size a /\ s_files s3 = s_files s2).
    { assert (M2 : more a (s_offset s2) = true) by (rewrite O2, O1; exact M).
      unfold verify_phase. rewrite (cur_eq _ _ M2). destruct (a_verify a).
      - destruct (verify_spec a (s_offset s2) (s_buffer s2) (s_failed s2) S M2) as (buf & fl & Ev & _). rewrite Ev. eexists. split; [reflexivity|].
        cbn [s_offset s_files]. split; [lia|reflexivity].
      - eexists. split; [reflexivity|]. cbn [s_offset s_files]. split; [lia|reflexivity]. }
    destruct V1 as (s3 & E3 & O3 & F3). destruct (IH s3) as (s' & R'); [lia|rewrite F3, F2; exact H1|].
    exists s'. apply (run_round a s l l s1 s2 s3 false s'); auto. }
  destruct (G (Z.to_nat (endpos a - s_offset (start a fs))) (start a fs)) as (s' & R'); [lia| |].
  - destruct H as [H|[H|H]]; auto. right. left. intros d Hd. unfold start. cbn [s_files]. destruct (a_resize a); [|auto].
    replace ((0 <=? d) && (d <? a_files a)) with true by lia. cbn [f_size]. lia.
  - do 4 eexists. exists s'. split; [exact R'|]. auto.
Qed.
Print Assumptions C99_ends.

(** ** Examples *)

Fixpoint exec (fuel : nat) (a : args) (s : state) : option (bool * state) :=
  match fuel with
  | O => None
  | S fuel' =>
      if more a (s_offset s) then
        match write_phase a s (requests a (s_offset s)) with
        | Some s1 =>
            match read_phase a s1 (rev (requests a (s_offset s))) with
            | Some s2 => match verify_phase a s2 with Some s3 => exec fuel' a s3 | None => None end
            | None => if a_read a || a_verify a then Some (true, s1) else None
            end
        | None => None
        end
      else Some (false, s)
  end.

Lemma exec_run : forall fuel a s th s', exec fuel a s = Some (th, s') -> run a s th s'.
Proof.
  induction fuel as [|fuel IH]; intros a s th s' E; cbn [exec] in E; [discriminate|]. destruct (more a (s_offset s)) eqn:M.
  - destruct (write_phase a s (requests a (s_offset s))) as [s1|] eqn:E1; [|discriminate].
    destruct (read_phase a s1 (rev (requests a (s_offset s)))) as [s2|] eqn:E2.
    + destruct (verify_phase a s2) as [s3|] eqn:E3; [|discriminate].
      apply (run_round a s (requests a (s_offset s)) (rev (requests a (s_offset s))) s1 s2 s3 th s'); auto.
      apply Permutation_sym. apply Permutation_rev.
    + destruct (a_read a || a_verify a) eqn:Q; [|discriminate]. injection E as <- <-. apply (run_read_error a s (requests a (s_offset s)) s1); auto.
  - injection E as <- <-. apply run_end. exact M.
Qed.

Definition brief (a : args) (fs : Z -> file) : option (bool * Z * Z * Z) :=
  match exec 9 a (start a fs) with
  | Some (th, s) => Some (th, (if s_failed s then 1 else 0), s_written s, s_readb s)
  | None => None
  end.
Definition after (a : args) (fs : Z -> file) : Z -> file :=
  match exec 9 a (start a fs) with Some (_, s) => s_files s | None => fs end.

Lemma brief_tool : forall a fs th code w r, brief a fs = Some (th, code, w, r) -> tool a fs th code (after a fs) w r.
Proof.
  intros a fs th code w r. unfold brief, after. destruct (exec 9 a (start a fs)) as [[th' s]|] eqn:X; [|discriminate].
  intros E. injection E as <- <- <- <-. exists s. split; [apply (exec_run 9); exact X|]. auto.
Qed.

Definition empty : Z -> file := fun _ => mk_file 0 (fun _ => 7).
(** Offset, length, block, batch, files, pattern. *)
Definition wv (o l b n f p : Z) : args := mk_args o l b n f p false true false true.
Definition only_w (o l b n f p : Z) : args := mk_args o l b n f p false true false false.
Definition only_v (o l b n f p : Z) : args := mk_args o l b n f p false false false true.

Ltac sizes := unfold suits, plain, fits; vm_compute; repeat split; congruence.

(** Two files, two rounds of two blocks of 512 bytes; 100 bytes are left over. *)
Example C99_case : suits (wv 512 2148 512 2 2 0) /\ fits (wv 512 2148 512 2 2 0) 2048 /\
  brief (wv 512 2148 512 2 2 0) empty = Some (false, 0, 2048, 2048) /\
  map (f_word (after (wv 512 2148 512 2 2 0) empty 1)) [508; 512; 516; 680; 1192; 1536; 2556; 2560] = [7; 256; 257; 1; 2; 256; 511; 7].
Proof.
  split; [sizes|]. split; [sizes|]. split; vm_compute; reflexivity.
Qed.

(** Written with one block size and verified with another: fine with a pattern, an error
    without. *)
Example C99_again_case : brief (only_w 0 2048 512 2 2 99) empty = Some (false, 0, 2048, 0) /\
  brief (only_v 512 1024 1024 1 1 99) (after (only_w 0 2048 512 2 2 99) empty) = Some (false, 0, 0, 1024).
Proof. split; vm_compute; reflexivity. Qed.

Theorem C99_default_pattern_refuted : ~ (forall a b fs fs' fs2 ca wa ra cb wb rb, suits a -> suits b -> fits a wa -> fits b rb ->
  a_write a = true -> a_write b = false -> a_verify b = true -> a_resize b = false -> a_pattern a = a_pattern b -> a_offset a = a_offset b ->
  a_files a = a_files b -> a_length a = a_length b ->
  tool a fs false ca fs' wa ra -> tool b fs' false cb fs2 wb rb -> cb = 0).
Proof.
  intros H.
  assert (Ta : tool (only_w 0 1024 512 1 1 0) empty false 0 (after (only_w 0 1024 512 1 1 0) empty) 1024 0).
  { apply brief_tool. vm_compute. reflexivity. }
  set (fs' := after (only_w 0 1024 512 1 1 0) empty) in *.
  assert (Tb : tool (only_v 0 1024 1024 1 1 0) fs' false 1 (after (only_v 0 1024 1024 1 1 0) fs') 0 1024).
  { apply brief_tool. vm_compute. reflexivity. }
  assert (X : 1 = 0); [|discriminate X].
  refine (H _ _ _ _ _ _ _ _ _ _ _ _ _ _ _ _ _ _ _ _ _ _ _ Ta Tb); try reflexivity; sizes.
Qed.
Print Assumptions C99_default_pattern_refuted.

(** Blocks of 768 bytes: the verification fails although everything is in order. *)
Theorem C99_odd_block_refuted : ~ (forall a fs code fs' w r, plain a -> fits a r -> a_write a = true -> a_verify a = true ->
  tool a fs false code fs' w r -> code = 0).
Proof.
  intros H.
  assert (T : tool (wv 0 768 768 1 1 0) empty false 1 (after (wv 0 768 768 1 1 0) empty) 768 768).
  { apply brief_tool. vm_compute. reflexivity. }
  assert (X : 1 = 0); [|discriminate X]. refine (H _ _ _ _ _ _ _ _ _ _ T); try reflexivity; sizes.
Qed.
Print Assumptions C99_odd_block_refuted.

(** From 2 TiB on the verification always fails. *)
Example C99_large_case : brief (wv (2 ^ 41 - 512) 1024 512 1 1 0) empty = Some (false, 1, 1024, 1024).
Proof. vm_compute. reflexivity. Qed.

(** Success is returned although nothing could be read. *)
Theorem C99_error_refuted : ~ (forall a fs th code fs' w r, suits a -> fits a (covered a) -> a_verify a = true ->
  tool a fs th code fs' w r -> code = 0 -> holds_pattern a (covered a) fs').
Proof.
  intros H.
  assert (T : tool (only_v 0 512 512 1 1 0) empty true 0 (after (only_v 0 512 512 1 1 0) empty) 0 0).
  { apply brief_tool. vm_compute. reflexivity. }
  assert (V : f_word (after (only_v 0 512 512 1 1 0) empty 0) 0 = 7) by (vm_compute; reflexivity).
  assert (Hp : holds_pattern (only_v 0 512 512 1 1 0) (covered (only_v 0 512 512 1 1 0)) (after (only_v 0 512 512 1 1 0) empty)).
  { refine (H _ _ _ _ _ _ _ _ _ _ T eq_refl); try reflexivity; sizes. }
  specialize (Hp 0 0). rewrite V in Hp. assert (Pl : place (only_v 0 512 512 1 1 0) (covered (only_v 0 512 512 1 1 0)) 0 0) by (vm_compute; repeat split; congruence).
  specialize (Hp Pl). vm_compute in Hp. discriminate Hp.
Qed.
Print Assumptions C99_error_refuted.
