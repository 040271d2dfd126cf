(** Runs of the file benchmark, for BenchProps.v. *)

From Coq Require Import ZArith List Bool Permutation Lia ZifyBool.
From Verif Require Import BenchModel BenchSpec BenchProofs.
Import ListNotations.
Local Open Scope Z_scope.
Ltac Zify.zify_post_hook ::= Z.to_euclidean_division_equations.

(** Requests. *)
Lemma blocks_eq : forall a, plain a -> div_ceil (step_size a) (block_size a) = batch_size a.
Proof.
  intros a (_ & _ & _ & B & _). unfold div_ceil, step_size. rewrite Z.mul_comm.
  rewrite Z.div_mul, Z.mod_mul by lia. cbn. lia.
Qed.

Lemma requests_in : forall a off r, plain a -> more a off = true ->
  (In r (requests a off) <-> exists i j, 0 <= i < a_files a /\ 0 <= j < batch_size a /\
     r = mk_req i (step_size a / 4 * i + j * block_int a) (off + j * block_size a) (block_size a)).
Proof.
  intros a off r P M. unfold requests. rewrite (cur_eq _ _ M), (blocks_eq _ P). rewrite in_flat_map. split.
  - intros (i & Hi & H). apply in_map_iff in H. destruct H as (j & <- & Hj). apply zseq_in in Hi, Hj. exists i, j. auto.
  - intros (i & j & Hi & Hj & ->). exists i. split; [apply zseq_in; auto|]. apply in_map_iff. exists j. split; [auto|apply zseq_in; auto].
Qed.

Definition covers (d p : Z) (r : req) : bool := (d =? r_file r) && ((r_pos r <=? p) && (p <? r_pos r + r_bytes r)).

Lemma writes_word : forall buf d p v l fs,
  (forall r, In r l -> covers d p r = true -> buf (r_index r + (p - r_pos r) / 4) = v) ->
  f_word (serve_writes buf l fs d) p = if existsb (covers d p) l then v else f_word (fs d) p.
Proof.
  intros buf d p v. unfold serve_writes. induction l as [|r l IH]; intros fs H; [reflexivity|]. cbn [fold_left existsb].
  rewrite IH by (intros; apply H; auto; right; auto). pose proof (H r (or_introl eq_refl)) as Hr. unfold covers in Hr at 1.
  destruct (existsb (covers d p) l); [rewrite orb_true_r; reflexivity|]. rewrite orb_false_r. unfold serve_write, upd, covers.
  destruct (Z.eqb_spec d (r_file r)) as [->|]; cbn [andb] in *; [|reflexivity]. cbn [f_word].
  destruct ((r_pos r <=? p) && (p <? r_pos r + r_bytes r)); auto.
Qed.

Lemma writes_frame : forall buf d p l fs, (forall r, In r l -> covers d p r = false) ->
  f_word (serve_writes buf l fs d) p = f_word (fs d) p.
Proof.
  intros buf d p l fs H. rewrite (writes_word buf d p 0).
  - destruct (existsb (covers d p) l) eqn:E; [|reflexivity]. apply existsb_exists in E. destruct E as (r & Hr & E). rewrite (H r Hr) in E. discriminate.
  - intros r Hr E. rewrite (H r Hr) in E. discriminate.
Qed.

Lemma request_value : forall a off r d p, plain a -> more a off = true -> In r (requests a off) -> covers d p r = true ->
  r_index r + (p - r_pos r) / 4 = step_size a / 4 * d + (p - off) / 4 /\ 0 <= d < a_files a /\ off <= p < off + step_size a.
Proof.
  intros a off r d p P M Hr C. apply requests_in in Hr; auto. destruct Hr as (i & j & Hi & Hj & ->).
  unfold covers in C. cbn [r_file r_index r_pos r_bytes] in *. destruct (step_int a P) as (_ & _ & B & Bp).
  assert (Hd : d = i /\ off + j * block_size a <= p < off + j * block_size a + block_size a) by lia. destruct Hd as (-> & Hp).
  split.
  - replace (p - (off + j * block_size a)) with (p - off + (- (j * block_int a)) * 4) by (rewrite <- B; ring).
    rewrite Z.div_add by lia. lia.
  - split; [lia|]. unfold step_size. nia.
Qed.

Lemma request_covers : forall a off l d p, plain a -> more a off = true -> Permutation l (requests a off) ->
  existsb (covers d p) l = ((0 <=? d) && (d <? a_files a) && ((off <=? p) && (p <? off + step_size a))).
Proof.
  intros a off l d p P M Pm. destruct (existsb (covers d p) l) eqn:E.
  - apply existsb_exists in E. destruct E as (r & Hr & E). apply (Permutation_in _ Pm) in Hr.
    destruct (request_value a off r d p P M Hr E) as (_ & A & B). lia.
  - symmetry. apply not_true_iff_false. intros C. assert (H : 0 <= d < a_files a /\ off <= p < off + step_size a) by lia. clear C.
    destruct H as (Hd & Hp). assert (Bp : 0 < block_size a) by apply P.
    set (r := mk_req d (step_size a / 4 * d + (p - off) / block_size a * block_int a) (off + (p - off) / block_size a * block_size a) (block_size a)).
    assert (Hr : In r (requests a off)).
    { apply requests_in; auto. exists d, ((p - off) / block_size a). split; [lia|]. split; [|reflexivity]. split; [apply Z.div_pos; lia|].
      apply Z.div_lt_upper_bound; [lia|]. unfold step_size in Hp. lia. }
    assert (C : covers d p r = true).
    { unfold covers. cbn [r_file r_pos r_bytes r]. rewrite Z.eqb_refl. cbn [andb].
      pose proof (Z.div_mod (p - off) (block_size a) ltac:(lia)). pose proof (Z.mod_pos_bound (p - off) (block_size a) Bp).
      apply andb_true_iff. split; [apply Z.leb_le; lia|apply Z.ltb_lt; lia]. }
    apply Permutation_sym in Pm. apply (Permutation_in _ Pm) in Hr.
    assert (existsb (covers d p) l = true); [|congruence]. apply existsb_exists. exists r. auto.
Qed.

Lemma writes_spec : forall a off buf l fs d p, plain a -> more a off = true -> Permutation l (requests a off) ->
  f_word (serve_writes buf l fs d) p =
  if (0 <=? d) && (d <? a_files a) && ((off <=? p) && (p <? off + step_size a))
  then buf (step_size a / 4 * d + (p - off) / 4) else f_word (fs d) p.
Proof.
  intros a off buf l fs d p P M Pm. rewrite (writes_word buf d p (buf (step_size a / 4 * d + (p - off) / 4))).
  - rewrite (request_covers a off l d p P M Pm). reflexivity.
  - intros r Hr C. apply (Permutation_in _ Pm) in Hr. destruct (request_value a off r d p P M Hr C) as (-> & _). reflexivity.
Qed.

Definition into (k : Z) (r : req) : bool := (r_index r <=? k) && (k <? r_index r + r_bytes r / 4).

Lemma reads_word : forall fs k v l buf,
  (forall r, In r l -> into k r = true -> f_word (fs (r_file r)) (r_pos r + 4 * (k - r_index r)) = v) ->
  fold_left (serve_read fs) l buf k = if existsb (into k) l then v else buf k.
Proof.
  intros fs k v. induction l as [|r l IH]; intros buf H; [reflexivity|]. cbn [fold_left existsb].
  rewrite IH by (intros; apply H; auto; right; auto). pose proof (H r (or_introl eq_refl)) as Hr.
  destruct (existsb (into k) l); [rewrite orb_true_r; reflexivity|]. rewrite orb_false_r. unfold serve_read.
  unfold into in *. destruct ((r_index r <=? k) && (k <? r_index r + r_bytes r / 4)); auto.
Qed.

Lemma reads_spec : forall a off fs l buf buf', plain a -> more a off = true -> Permutation l (requests a off) ->
  serve_reads fs l buf = Some buf' -> forall d x, 0 <= d < a_files a -> 0 <= x < step_size a / 4 ->
  buf' (step_size a / 4 * d + x) = f_word (fs d) (off + 4 * x).
Proof.
  intros a off fs l buf buf' P M Pm E d x Hd Hx. unfold serve_reads in E. destruct (forallb _ l); [|discriminate]. injection E as <-.
  destruct (step_int a P) as (S4 & Sb & B & Bp). set (si := step_size a / 4) in *.
  rewrite (reads_word fs _ (f_word (fs d) (off + 4 * x))).
  - destruct (existsb (into (si * d + x)) l) eqn:C; [reflexivity|]. exfalso.
    set (r := mk_req d (si * d + x / block_int a * block_int a) (off + x / block_int a * block_size a) (block_size a)).
    assert (Hr : In r (requests a off)).
    { apply requests_in; auto. exists d, (x / block_int a). split; [lia|]. split; [|reflexivity]. split; [apply Z.div_pos; lia|].
      apply Z.div_lt_upper_bound; lia. }
    assert (Cr : into (si * d + x) r = true).
    { unfold into. cbn [r_index r_bytes r]. fold (block_int a).
      pose proof (Z.div_mod x (block_int a) ltac:(lia)). pose proof (Z.mod_pos_bound x (block_int a) Bp).
      apply andb_true_iff. split; [apply Z.leb_le; lia|apply Z.ltb_lt; lia]. }
    apply Permutation_sym in Pm. apply (Permutation_in _ Pm) in Hr.
    assert (existsb (into (si * d + x)) l = true); [|congruence]. apply existsb_exists. exists r. auto.
  - intros r Hr C. apply (Permutation_in _ Pm) in Hr. apply requests_in in Hr; auto. destruct Hr as (i & j & Hi & Hj & ->).
    unfold into in C. cbn [r_file r_index r_pos r_bytes] in *. fold (block_int a) in C. fold si in C.
    assert (Hk : si * i + j * block_int a <= si * d + x < si * i + j * block_int a + block_int a) by lia.
    assert (Bj : j * block_int a + block_int a <= si) by nia.
    destruct (split_inj si d x i (si * d + x - si * i)) as [-> Ex]; [lia|split; nia|lia|]. fold si. f_equal. rewrite <- B. lia.
Qed.

(** The words that belong to a file, by round. *)
Lemma u32_pattern : forall a i, plain a -> u32 (pattern a i) = if a_pattern a =? 0 then u32 i else a_pattern a.
Proof.
  intros a i (_ & _ & _ & _ & _ & _ & Hp & _). unfold u32, pattern. destruct (a_pattern a =? 0); [reflexivity|]. apply Z.mod_small. exact Hp.
Qed.

Lemma expected_round : forall a t d x, suits a -> 0 <= t -> 0 <= x < step_size a / 4 ->
  expected a d (a_offset a + t * step_size a + 4 * x) =
  if x mod 128 =? 42 then u32 ((a_offset a + t * step_size a) / 512 + x / 128) else u32 (pattern a (step_size a / 4 * d + x)).
Proof.
  intros a t d x (P & M5) Ht Hx. rewrite (u32_pattern _ _ P). unfold expected. cbv zeta.
  destruct (step_int a P) as (S4 & _). set (si := step_size a / 4) in *.
  replace ((a_offset a + t * step_size a + 4 * x - a_offset a) / 4) with (si * t + x).
  2:{ rewrite <- S4. replace (a_offset a + t * (4 * si) + 4 * x - a_offset a) with ((si * t + x) * 4) by ring. rewrite Z.div_mul; lia. }
  destruct (split_index si t x Hx) as [_ ->].
  assert (E5 : step_size a = 512 * (step_size a / 512)) by lia. set (q := step_size a / 512) in *. assert (Eq : si = 128 * q) by lia.
  replace (si * t + x) with (x + (q * t) * 128) by (rewrite Eq; ring). rewrite Z.mod_add, Z.div_add by lia.
  replace (a_offset a + t * step_size a) with (a_offset a + (q * t) * 512) by (rewrite E5; ring). rewrite Z.div_add by lia.
  replace (a_offset a / 512 + (x / 128 + q * t)) with (a_offset a / 512 + q * t + x / 128) by ring.
  replace (d * si + x) with (si * d + x) by ring. reflexivity.
Qed.

(** The state after [t] rounds of writing. *)
Definition at_round (a : args) (fs0 : Z -> file) (t : Z) (s : state) : Prop :=
  0 <= t /\ s_offset s = a_offset a + t * step_size a /\
  (forall d x, 0 <= d < a_files a -> 0 <= x < step_size a / 4 -> x mod 128 <> 42 ->
     s_buffer s (step_size a / 4 * d + x) = u32 (pattern a (step_size a / 4 * d + x))).
Definition files_at (a : args) (fs0 : Z -> file) (t : Z) (s : state) : Prop :=
  holds_pattern a (t * step_size a) (s_files s) /\
  (forall d p, ~ (0 <= d < a_files a /\ a_offset a <= p < a_offset a + t * step_size a) -> f_word (s_files s d) p = f_word (fs0 d) p) /\
  s_written s = t * step_size a.

(** The new words are as expected, those of earlier rounds are kept. *)
Lemma write_round : forall a fs0 t s ws s1, suits a -> a_write a = true -> at_round a fs0 t s -> files_at a fs0 t s ->
  more a (s_offset s) = true -> Permutation ws (requests a (s_offset s)) -> write_phase a s ws = Some s1 ->
  at_round a fs0 t s1 /\ files_at a fs0 (t + 1) s1 /\ s_failed s1 = s_failed s /\ s_readb s1 = s_readb s.
Proof.
  intros a fs0 t s ws s1 S W (Ht & Ho & Hb) (F1 & F2 & F3) M Pm E. pose proof S as (P & _). unfold write_phase in E. rewrite W in E.
  destruct (mark_spec a (s_offset s) (s_buffer s) P M) as (buf & Em & Hm). rewrite Em in E. injection E as <-.
  pose proof (step_pos a P) as Sp. destruct (step_int a P) as (S4 & _). rewrite Ho in *. rewrite (cur_eq _ _ M).
  split; [|split; [|split; reflexivity]].
  - split; [auto|]. split; [reflexivity|]. cbn [s_buffer]. intros d x Hd Hx Hn. rewrite (Hm d x Hd Hx).
    destruct (Z.eqb_spec (x mod 128) 42); [contradiction|]. apply Hb; auto.
  - split; [|split]; cbn [s_files s_written].
    + intros d p (Hd & Hp & Hq). rewrite (writes_spec a _ buf ws (s_files s) d p P M Pm).
      destruct (Z.leb_spec (a_offset a + t * step_size a) p).
      * replace ((0 <=? d) && (d <? a_files a) && (true && (p <? a_offset a + t * step_size a + step_size a))) with true by lia.
        assert (Hx : exists x, 0 <= x < step_size a / 4 /\ p = a_offset a + t * step_size a + 4 * x).
        { assert (Hm4 : (p - (a_offset a + t * step_size a)) mod 4 = 0).
          { rewrite <- S4. replace (p - (a_offset a + t * (4 * (step_size a / 4)))) with (p - a_offset a + (- (t * (step_size a / 4))) * 4) by ring.
            rewrite Z.mod_add by lia. exact Hq. }
          exists ((p - (a_offset a + t * step_size a)) / 4). lia. }
        destruct Hx as (x & Hx & ->). rewrite (expected_round a t d x S Ht Hx).
        replace ((a_offset a + t * step_size a + 4 * x - (a_offset a + t * step_size a)) / 4) with x by lia. rewrite (Hm d x Hd Hx).
        destruct (Z.eqb_spec (x mod 128) 42); [reflexivity|]. apply Hb; auto.
      * replace ((0 <=? d) && (d <? a_files a) && (false && (p <? a_offset a + t * step_size a + step_size a))) with false by lia.
        apply F1. split; [auto|]. split; [lia|auto].
    + intros d p Hn. rewrite (writes_spec a _ buf ws (s_files s) d p P M Pm).
      replace ((0 <=? d) && (d <? a_files a) && ((a_offset a + t * step_size a <=? p) && (p <? a_offset a + t * step_size a + step_size a))) with false.
      * apply F2. intros (A & B). apply Hn. split; [auto|lia].
      * symmetry. apply not_true_iff_false. intros C. apply Hn. split; [lia|]. split; nia.
    + rewrite F3. ring.
Qed.

Lemma read_round : forall a s rs s1, plain a -> more a (s_offset s) = true -> Permutation rs (requests a (s_offset s)) ->
  read_phase a s rs = Some s1 ->
  s_offset s1 = s_offset s /\ s_files s1 = s_files s /\ s_failed s1 = s_failed s /\ s_written s1 = s_written s /\
  (if a_read a || a_verify a then
     s_readb s1 = s_readb s + step_size a /\
     forall d x, 0 <= d < a_files a -> 0 <= x < step_size a / 4 ->
       s_buffer s1 (step_size a / 4 * d + x) = f_word (s_files s d) (s_offset s + 4 * x)
   else s1 = s).
Proof.
  intros a s rs s1 P M Pm E. unfold read_phase in E. destruct (a_read a || a_verify a).
  - destruct (serve_reads (s_files s) rs (s_buffer s)) as [buf|] eqn:R; [|discriminate]. injection E as <-. cbn [s_offset s_files s_failed s_written s_readb s_buffer]. rewrite (cur_eq _ _ M).
    repeat (split; [reflexivity|]). exact (reads_spec a (s_offset s) (s_files s) rs (s_buffer s) buf P M Pm R).
  - injection E as <-. auto 10.
Qed.

Lemma verify_round : forall a s s1, suits a -> more a (s_offset s) = true -> verify_phase a s = Some s1 ->
  s_offset s1 = s_offset s + step_size a /\ s_files s1 = s_files s /\ s_written s1 = s_written s /\ s_readb s1 = s_readb s /\
  (forall d x, 0 <= d < a_files a -> 0 <= x < step_size a / 4 -> x mod 128 <> 42 ->
     s_buffer s1 (step_size a / 4 * d + x) = s_buffer s (step_size a / 4 * d + x)) /\
  (if a_verify a then
     (s_failed s1 = false <-> s_failed s = false /\ forall d x, 0 <= d < a_files a -> 0 <= x < step_size a / 4 ->
        s_buffer s (step_size a / 4 * d + x) = (if x mod 128 =? 42 then s_offset s / 512 + x / 128 else pattern a (step_size a / 4 * d + x))
        /\ (x mod 128 = 42 -> u32 (pattern a (step_size a / 4 * d + x)) = pattern a (step_size a / 4 * d + x)))
   else s_failed s1 = s_failed s).
Proof.
  intros a s s1 S M E. unfold verify_phase in E. rewrite (cur_eq _ _ M) in E. destruct (a_verify a).
  - destruct (verify_spec a (s_offset s) (s_buffer s) (s_failed s) S M) as (buf & fl & Ev & H1 & H2). rewrite Ev in E. injection E as <-. cbn [s_offset s_files s_failed s_written s_readb s_buffer].
    repeat (split; [reflexivity|]). split; [|exact H1]. intros d x Hd Hx Hn. rewrite (H2 d x Hd Hx).
    destruct (Z.eqb_spec (x mod 128) 42); [contradiction|reflexivity].
  - injection E as <-. cbn. auto 10.
Qed.

(** Whole runs that write. *)
Definition passes (a : args) (t : Z) : Prop :=
  forall d x, 0 <= d < a_files a -> 0 <= x < step_size a / 4 ->
    (x mod 128 = 42 -> (a_offset a + t * step_size a) / 512 + x / 128 < 2 ^ 32) /\
    u32 (pattern a (step_size a / 4 * d + x)) = pattern a (step_size a / 4 * d + x).

Lemma round_written : forall a fs0 t s ws rs s1 s2 s3, suits a -> a_write a = true -> at_round a fs0 t s -> files_at a fs0 t s ->
  more a (s_offset s) = true -> Permutation ws (requests a (s_offset s)) -> write_phase a s ws = Some s1 ->
  Permutation rs (requests a (s_offset s)) -> read_phase a s1 rs = Some s2 -> verify_phase a s2 = Some s3 ->
  at_round a fs0 (t + 1) s3 /\ files_at a fs0 (t + 1) s3 /\
  s_readb s3 = (if a_read a || a_verify a then s_readb s + step_size a else s_readb s) /\
  (if a_verify a then s_failed s3 = false <-> s_failed s = false /\ passes a t else s_failed s3 = s_failed s).
Proof.
  intros a fs0 t s ws rs s1 s2 s3 S W At Fi M Pw Ew Pr Er Ev. pose proof S as (P & _).
  destruct (write_round a fs0 t s ws s1 S W At Fi M Pw Ew) as ((Ht & Ho1 & Hb1) & F1 & Fl1 & R1).
  assert (Ho : s_offset s = a_offset a + t * step_size a) by apply At. rewrite Ho, <- Ho1 in M, Pr.
  destruct (read_round a s1 rs s2 P M Pr Er) as (Ho2 & Fs2 & Fl2 & W2 & H2). rewrite <- Ho2 in M.
  destruct (verify_round a s2 s3 S M Ev) as (Ho3 & Fs3 & W3 & R3 & B3 & H3).
  pose proof (step_pos a P) as Sp. destruct (step_int a P) as (S4 & _).
  assert (Buf2 : a_read a || a_verify a = true -> forall d x, 0 <= d < a_files a -> 0 <= x < step_size a / 4 ->
    s_buffer s2 (step_size a / 4 * d + x) =
    if x mod 128 =? 42 then u32 ((a_offset a + t * step_size a) / 512 + x / 128) else u32 (pattern a (step_size a / 4 * d + x))).
  { intros Q d x Hd Hx. rewrite Q in H2. destruct H2 as (_ & H2). rewrite (H2 d x Hd Hx), Ho1. destruct F1 as (F1 & _).
    rewrite F1; [apply expected_round; auto|]. split; [auto|]. split; [nia|].
    replace (a_offset a + t * step_size a + 4 * x - a_offset a) with ((t * (step_size a / 4) + x) * 4) by (rewrite <- S4 at 2; ring). apply Z.mod_mul. lia. }
  split; [|split; [|split]].
  - split; [lia|]. split; [rewrite Ho3, Ho2, Ho1; ring|]. intros d x Hd Hx Hn. rewrite B3 by auto.
    destruct (a_read a || a_verify a) eqn:Q.
    + rewrite (Buf2 eq_refl d x Hd Hx). destruct (Z.eqb_spec (x mod 128) 42); [contradiction|reflexivity].
    + subst s2. apply Hb1; auto.
  - unfold files_at in *. rewrite Fs3, Fs2, W3, W2. exact F1.
  - rewrite R3. destruct (a_read a || a_verify a); [destruct H2 as (-> & _); rewrite R1; reflexivity|subst s2; exact R1].
  - destruct (a_verify a) eqn:V; [|rewrite H3, Fl2, Fl1; reflexivity]. rewrite orb_true_r in Buf2. specialize (Buf2 eq_refl).
    rewrite H3, Fl2, Fl1. split; intros (A & B); split; auto.
    + intros d x Hd Hx. destruct (B d x Hd Hx) as (B1 & B2). rewrite (Buf2 d x Hd Hx), Ho2, Ho1 in B1.
      destruct (Z.eqb_spec (x mod 128) 42) as [E|E].
      * split; auto. intros _. unfold u32 in B1. assert (0 < 2 ^ 32) by lia. rewrite <- B1. apply Z.mod_pos_bound. lia.
      * split; [intros; contradiction|]. exact B1.
    + intros d x Hd Hx. destruct (B d x Hd Hx) as (B1 & B2). rewrite (Buf2 d x Hd Hx), Ho2, Ho1. split; auto.
      destruct (Z.eqb_spec (x mod 128) 42) as [E|E]; auto. unfold u32. apply Z.mod_small. split; [|apply B1; auto].
      destruct P as (P0 & _). apply Z.add_nonneg_nonneg; apply Z.div_pos; nia.
Qed.

Lemma run_written : forall a fs0, suits a -> a_write a = true -> forall s th s', run a s th s' ->
  forall t, at_round a fs0 t s -> files_at a fs0 t s -> exists t', t <= t' /\
    s_written s' = t' * step_size a /\ holds_pattern a (t' * step_size a) (s_files s') /\
    (forall d p, ~ (0 <= d < a_files a /\ a_offset a <= p < a_offset a + (t' + 1) * step_size a) -> f_word (s_files s' d) p = f_word (fs0 d) p) /\
    (th = false -> files_at a fs0 t' s' /\ more a (a_offset a + t' * step_size a) = false /\ s_readb s' = s_readb s + (if a_read a || a_verify a then (t' - t) * step_size a else 0)) /\
    (forall u, t <= u < t' -> more a (a_offset a + u * step_size a) = true) /\
    (if a_verify a then exists t1, t <= t1 <= t' /\ t' <= t1 + 1 /\ (th = false -> t1 = t') /\ s_readb s' = s_readb s + (t1 - t) * step_size a /\
       (s_failed s' = false <-> s_failed s = false /\ forall u, t <= u < t1 -> passes a u)
     else s_failed s' = s_failed s).
Proof.
  intros a fs0 S W s th s' R. pose proof S as (P & _). pose proof (step_pos a P) as Sp.
  induction R as [s M|s buf ws M _ Em Hi|s ws s1 M Q Pm Ew|s ws rs s1 s2 s3 th s4 M Pw Ew Pr Er Ev R IH]; intros t At Fi.
  - exists t. pose proof Fi as (F1 & F2 & F3). split; [lia|]. split; [auto|]. split; [auto|]. split.
    { intros d p Hn. apply F2. intros (A & B). apply Hn. split; [auto|nia]. }
    split. { intros _. split; [auto|]. pose proof At as (_ & Ho & _). rewrite <- Ho. split; [auto|]. rewrite Z.sub_diag. destruct (_ || _); lia. }
    split; [intros; lia|]. destruct (a_verify a); [|reflexivity]. exists t. split; [lia|]. split; [lia|]. split; [auto|]. split; [lia|].
    split; [intros ->; split; auto; intros; lia|tauto].
  - exists t. pose proof Fi as (F1 & F2 & F3). pose proof At as (Ht & Ho & Hb). cbn [s_written s_files s_failed s_readb].
    assert (Kp : forall d p, ~ (0 <= d < a_files a /\ s_offset s <= p < s_offset s + step_size a) ->
      f_word (serve_writes buf ws (s_files s) d) p = f_word (s_files s d) p).
    { intros d p Hn. apply writes_frame. intros r Hr. destruct (covers d p r) eqn:C; auto. destruct Hn.
      destruct (request_value a (s_offset s) r d p P M (Hi r Hr) C) as (_ & A & B). auto. }
    split; [lia|]. split; [auto|]. split.
    { intros d p (Hd & Hp & Hq). rewrite Kp; [apply F1; split; auto|]. intros (_ & A). lia. }
    split. { intros d p Hn. rewrite Kp; [apply F2|]; intros (A & B); apply Hn; (split; [auto|]); nia. }
    split; [discriminate|]. split; [intros; lia|]. destruct (a_verify a); [|reflexivity]. exists t. split; [lia|]. split; [lia|]. split; [discriminate|]. split; [lia|].
    split; [intros A; split; auto; intros; lia|tauto].
  - destruct (write_round a fs0 t s ws s1 S W At Fi M Pm Ew) as (At1 & (F1 & F2 & F3) & Fl1 & R1). pose proof At as (Ht & Ho & Hb).
    exists (t + 1). split; [lia|]. split; [auto|]. split; [auto|]. split.
    { intros d p Hn. apply F2. intros (A & B). apply Hn. split; [auto|nia]. }
    split; [discriminate|]. split. { intros u Hu. assert (u = t) by lia. subst u. rewrite <- Ho. exact M. }
    destruct (a_verify a); [|exact Fl1]. exists t. split; [lia|]. split; [lia|]. split; [discriminate|]. split; [lia|]. rewrite Fl1.
    split; [intros ->; split; auto; intros; lia|tauto].
  - destruct (round_written a fs0 t s ws rs s1 s2 s3 S W At Fi M Pw Ew Pr Er Ev) as (At3 & Fi3 & R3 & V3). pose proof At as (Ht & Ho & Hb).
    destruct (IH (t + 1) At3 Fi3) as (t' & Hle & A1 & A2 & A3 & A4 & A5 & A6). exists t'. split; [lia|]. split; [auto|]. split; [auto|]. split; [auto|].
    split. { intros Hth. destruct (A4 Hth) as (B1 & B2 & B3). split; [auto|]. split; [auto|]. rewrite B3, R3. destruct (a_read a || a_verify a); ring. }
    split. { intros u Hu. destruct (Z.eq_dec u t) as [->|]; [rewrite <- Ho; exact M|]. apply A5. lia. }
    destruct (a_verify a) eqn:V; [|congruence]. destruct A6 as (t1 & B1 & B2 & B3 & B4 & B5). exists t1. split; [lia|]. split; [lia|]. split; [auto|].
    rewrite orb_true_r in R3. split; [rewrite B4, R3; ring|]. rewrite B5, V3. split.
    + intros ((C1 & C2) & C3). split; auto. intros u Hu. destruct (Z.eq_dec u t) as [->|]; auto. apply C3. lia.
    + intros (C1 & C2). split; [split; auto; apply C2; lia|]. intros u Hu. apply C2. lia.
Qed.

(** Whole runs that only read. *)
Lemma run_checked : forall a, suits a -> a_write a = false -> a_verify a = true -> forall s th s', run a s th s' ->
  forall t, 0 <= t -> s_offset s = a_offset a + t * step_size a -> s_readb s = t * step_size a -> exists t', t <= t' /\ s_readb s' = t' * step_size a /\
    s_files s' = s_files s /\ s_written s' = s_written s /\
    (th = false -> more a (a_offset a + t' * step_size a) = false) /\
    (forall u, t <= u < t' -> more a (a_offset a + u * step_size a) = true) /\
    (s_failed s' = false <-> s_failed s = false /\ forall u, t <= u < t' -> forall d x, 0 <= d < a_files a -> 0 <= x < step_size a / 4 ->
       f_word (s_files s d) (a_offset a + u * step_size a + 4 * x) =
         (if x mod 128 =? 42 then (a_offset a + u * step_size a) / 512 + x / 128 else pattern a (step_size a / 4 * d + x)) /\
       (x mod 128 = 42 -> u32 (pattern a (step_size a / 4 * d + x)) = pattern a (step_size a / 4 * d + x))).
Proof.
  intros a S W V s th s' R. pose proof S as (P & _). pose proof (step_pos a P) as Sp.
  induction R as [s M|s buf ws M Q Em Hi|s ws s1 M Q Pm Ew|s ws rs s1 s2 s3 th s4 M Pw Ew Pr Er Ev R IH]; intros t Ht Ho Hr.
  - exists t. split; [lia|]. split; [auto|]. split; [auto|]. split; [auto|]. split; [intros _; rewrite <- Ho; auto|]. split; [intros; lia|].
    split; [intros ->; split; auto; intros; lia|tauto].
  - congruence.
  - unfold write_phase in Ew. rewrite W in Ew. injection Ew as <-.
    exists t. split; [lia|]. split; [auto|]. split; [auto|]. split; [auto|]. split; [discriminate|]. split; [intros; lia|].
    split; [intros ->; split; auto; intros; lia|tauto].
  - unfold write_phase in Ew. rewrite W in Ew. injection Ew as <-.
    destruct (read_round a s rs s2 P M Pr Er) as (Ho2 & Fs2 & Fl2 & W2 & H2). rewrite V, orb_true_r in H2. destruct H2 as (R2 & B2).
    pose proof M as M2. rewrite <- Ho2 in M2. destruct (verify_round a s2 s3 S M2 Ev) as (Ho3 & Fs3 & W3 & R3 & B3 & H3). rewrite V in H3.
    destruct (IH (t + 1)) as (t' & A0 & A1 & A2 & A3 & A4 & A5 & A6); [lia|rewrite Ho3, Ho2, Ho; ring|rewrite R3, R2, Hr; ring|].
    exists t'. split; [lia|]. split; [auto|]. split; [congruence|]. split; [congruence|]. split; [auto|].
    split. { intros u Hu. destruct (Z.eq_dec u t) as [->|]; [rewrite <- Ho; exact M|]. apply A5. lia. }
    rewrite A6, H3, Fl2, Fs3, Fs2. split.
    + intros ((C1 & C2) & C3). split; auto. intros u Hu d x Hd Hx. destruct (Z.eq_dec u t) as [->|].
      * destruct (C2 d x Hd Hx) as (D1 & D2). split; auto. rewrite (B2 d x Hd Hx), Ho2, Ho in D1. exact D1.
      * apply C3; auto; lia.
    + intros (C1 & C2). split; [split; auto|].
      * intros d x Hd Hx. destruct (C2 t ltac:(lia) d x Hd Hx) as (D1 & D2). split; auto. rewrite (B2 d x Hd Hx), Ho2, Ho. exact D1.
      * intros u Hu. apply C2. lia.
Qed.
