(** C74 and C75: mmap_file. *)
From Coq Require Import String Ascii List Arith Bool ZArith Lia.
From Verif Require Import FileModel FileSpec FileProofs FileProps MmapModel.
Import ListNotations.
Local Open Scope list_scope.
Local Open Scope nat_scope.

Ltac csplit := repeat match goal with |- _ /\ _ => split end.

Lemma mapped_ge : forall page n, 0 < page -> n <= mapped page n /\ (0 < n -> mapped page n < n + page).
Proof.
  intros page n P. unfold mapped.
  pose proof (Nat.div_mod (n + (page - 1)) page ltac:(lia)) as D.
  pose proof (Nat.mod_upper_bound (n + (page - 1)) page ltac:(lia)). split; nia.
Qed.

(** C74: what happens, exactly.  An exception for an empty range, an offset that is
    not a multiple of the page size, the wrong open mode or a failing mmap; else
    the process is killed iff a page after the end of the file is touched. *)
Theorem C74_outcome : forall page os a tail f off n d,
  0 < page ->
  (mm_read page os a tail f off n = MmThrow <->
     os = Fail \/ n = 0 \/ off mod page <> 0 \/ a = WrOnly) /\
  (mm_write page os a f off d = MmThrow <->
     os = Fail \/ length d = 0 \/ off mod page <> 0 \/ a <> RdWr) /\
  (mm_read page os a tail f off n = MmKilled ->
     exists k, off <= k < off + n /\ length f <= k / page * page) /\
  (mm_write page os a f off d = MmKilled ->
     exists k, off <= k < off + length d /\ length f <= k / page * page) /\
  (forall k b, mm_read page os a tail f off n = MmDone b -> off <= k < off + n -> k / page * page < length f) /\
  (forall k g, mm_write page os a f off d = MmDone g -> off <= k < off + length d -> k / page * page < length f).
Proof.
  intros page os a tail f off n d P.
  assert (E : forall w m, mmap_ok page os a w off m = false <->
            os = Fail \/ m = 0 \/ off mod page <> 0 \/ match a, w with RdOnly, false | RdWr, _ => False | _, _ => True end).
  { intros w m. unfold mmap_ok. destruct os; [tauto|].
    destruct (Nat.ltb_spec 0 m), (Nat.eqb_spec (off mod page) 0), a, w; cbn;
      (split; [intros; try discriminate; try tauto; try lia|
               intros K; try reflexivity; exfalso; destruct K as [K|[K|[K|K]]]; try discriminate; try lia; try tauto]). }
  assert (K : forall m, m <> 0 -> mapped page (length f) < off + m ->
            exists k, off <= k < off + m /\ length f <= k / page * page).
  { intros m M L. exists (off + m - 1). split; [lia|].
    unfold mapped in L.
    pose proof (Nat.div_mod (length f + (page - 1)) page ltac:(lia)) as D.
    pose proof (Nat.mod_upper_bound (length f + (page - 1)) page ltac:(lia)).
    assert (Q : (length f + (page - 1)) / page <= (off + m - 1) / page).
    { apply Nat.div_le_lower_bound; nia. }
    nia. }
  assert (G : forall m k, off + m <= mapped page (length f) -> off <= k < off + m -> k / page * page < length f).
  { intros m k L B. unfold mapped in L.
    pose proof (Nat.div_mod (length f + (page - 1)) page ltac:(lia)) as D.
    pose proof (Nat.mod_upper_bound (length f + (page - 1)) page ltac:(lia)).
    assert (Q : k / page < (length f + (page - 1)) / page).
    { apply Nat.div_lt_upper_bound; nia. }
    nia. }
  unfold mm_read, mm_write. csplit.
  - specialize (E false n). destruct (mmap_ok page os a false off n).
    + assert (Ef : ~ (os = Fail \/ n = 0 \/ off mod page <> 0 \/ a = WrOnly)).
      { intros X. assert (true = false); [|discriminate]. apply E. destruct a; intuition congruence. }
      destruct (off + n <=? mapped page (length f)); split; try discriminate; tauto.
    + split; auto. intros _. destruct (proj1 E eq_refl) as [?|[?|[?|X]]]; auto. destruct a; auto; tauto.
  - specialize (E true (length d)). destruct (mmap_ok page os a true off (length d)).
    + assert (Ef : ~ (os = Fail \/ length d = 0 \/ off mod page <> 0 \/ a <> RdWr)).
      { intros X. assert (true = false); [|discriminate]. apply E. destruct a; intuition congruence. }
      destruct (off + length d <=? mapped page (length f)); split; try discriminate; tauto.
    + split; auto. intros _. destruct (proj1 E eq_refl) as [?|[?|[?|X]]]; auto.
      do 3 right. destruct a; try discriminate. tauto.
  - specialize (E false n). destruct (mmap_ok page os a false off n); [|discriminate].
    destruct (Nat.leb_spec (off + n) (mapped page (length f))); [discriminate|]. intros _. apply K; auto.
    intros ->. assert (true = false); [|discriminate]. apply E. auto.
  - specialize (E true (length d)). destruct (mmap_ok page os a true off (length d)); [|discriminate].
    destruct (Nat.leb_spec (off + length d) (mapped page (length f))); [discriminate|]. intros _. apply K; auto.
    intros Z0. assert (true = false); [|discriminate]. apply E. auto.
  - intros k b. destruct (mmap_ok page os a false off n); [|discriminate].
    destruct (Nat.leb_spec (off + n) (mapped page (length f))); [|discriminate]. intros _. apply G; auto.
  - intros k g. destruct (mmap_ok page os a true off (length d)); [|discriminate].
    destruct (Nat.leb_spec (off + length d) (mapped page (length f))); [|discriminate]. intros _. apply G; auto.
Qed.
Print Assumptions C74_outcome.

(** The content: bytes of the file are read and written exactly, the file never
    changes its size, and bytes after the end are not stored. *)
Theorem C74_content : forall page os a tail f off n d,
  0 < page ->
  match mm_read page os a tail f off n with
  | MmDone b => length b = n /\ forall k, k < n -> off + k < length f -> nth k b 0%Z = byte_at f (off + k)
  | _ => True
  end /\
  match mm_write page os a f off d with
  | MmDone f' => length f' = length f /\
      forall k, k < length f -> byte_at f' k = if covers off (length d) k then nth (k - off) d 0%Z else byte_at f k
  | _ => True
  end.
Proof.
  intros page os a tail f off n d P. pose proof (mapped_ge page (length f) P) as (Ge & _). split.
  - unfold mm_read. destruct (mmap_ok page os a false off n); auto.
    destruct (Nat.leb_spec (off + n) (mapped page (length f))); auto.
    set (g := f ++ map tail (seq 0 (mapped page (length f) - length f))).
    assert (Lg : length g = mapped page (length f)).
    { subst g. rewrite app_length, map_length, seq_length. lia. }
    rewrite (get_map _ _ _ 0%Z) by lia. split; [rewrite map_length, seq_length; auto|].
    intros k K1 K2. rewrite (nth_indep _ 0%Z (nth 0 g 0%Z)) by (rewrite map_length, seq_length; auto).
    rewrite (map_nth (fun k => nth k g 0%Z)), seq_nth by auto. subst g. rewrite app_nth1 by auto. reflexivity.
  - unfold mm_write. destruct (mmap_ok page os a true off (length d)); auto.
    destruct (Nat.leb_spec (off + length d) (mapped page (length f))); auto.
    set (g := f ++ repeat 0%Z (mapped page (length f) - length f)).
    assert (Lg : length g = mapped page (length f)) by (subst g; rewrite app_length, repeat_length; lia).
    split; [rewrite firstn_length, put_length; lia|].
    intros k K. unfold byte_at. rewrite <- (firstn_skipn (length f) (put g off d)) at 1.
    assert (F : nth k (firstn (length f) (put g off d)) 0%Z = nth k (put g off d) 0%Z).
    { rewrite <- (firstn_skipn (length f) (put g off d)) at 2. rewrite app_nth1; auto.
      rewrite firstn_length, put_length; lia. }
    rewrite firstn_skipn. rewrite F, put_nth by lia. destruct (covers off (length d) k); auto.
    subst g. rewrite app_nth1 by auto. auto.
Qed.
Print Assumptions C74_content.

(** Inside the file it agrees with syscall_file. *)
Theorem C74_same_as_syscall : forall page os tail o p f off n d,
  0 < page -> off + n <= length f -> off + length d <= length f ->
  (forall b c, mm_read page os RdWr tail f off n = MmDone b -> fst (serve_read o f off n) = Done c -> b = c) /\
  (forall g h, mm_write page os RdWr f off d = MmDone g -> fst (serve_write p f off d) = Done h -> g = h).
Proof.
  intros page os tail o p f off n d P Ln Ld.
  pose proof (C74_content page os RdWr tail f off n d P) as (A & B). split.
  - intros b c E1 E2. rewrite E1 in A. pose proof (C30_read o f off n) as R. rewrite E2 in R. subst c.
    destruct A as (L & A). apply (nth_ext _ _ 0%Z (byte_at f 0)); [rewrite map_length, seq_length; auto|].
    intros k K. rewrite A by lia. rewrite map_nth, seq_nth by lia. auto.
  - intros g h E1 E2. rewrite E1 in B. pose proof (C30_write p f off d) as R. rewrite E2 in R.
    destruct B as (L & B). destruct R as (R1 & R2 & R3).
    assert (Lh : length h = length f).
    { destruct d; [rewrite R2; auto|]. rewrite R1 by discriminate. lia. }
    apply bytes_ext; [lia|]. intros k. destruct (Nat.lt_ge_cases k (length f)).
    + rewrite B, R3 by auto. auto.
    + unfold byte_at. rewrite !nth_overflow by lia. auto.
Qed.
Print Assumptions C74_same_as_syscall.

(** The size is that of the last resize, whatever is written. *)
Theorem C74_never_grows : forall page ops f f', 0 < page -> mm_run page f ops = Some f' ->
  length f' = fold_left (fun s op => match op with MmResize _ n => n | _ => s end) ops (length f).
Proof.
  intros page ops. induction ops as [|op ops IH]; cbn [mm_run fold_left]; intros f f' P H; [congruence|].
  destruct (mm_step page f op) as [g| |] eqn:E; try discriminate.
  rewrite (IH _ _ P H). f_equal. destruct op as [os off d|o n]; cbn [mm_step] in E.
  - pose proof (C74_content page os RdWr (fun _ => 0%Z) f off 0 d P) as (_ & B). rewrite E in B. tauto.
  - pose proof (set_size_spec o f n) as S. destruct (set_size o f n); try discriminate. injection E as <-.
    subst. apply truncate_spec.
Qed.
Print Assumptions C74_never_grows.

(** syscall_file grows the file when writing after its end and reads zeros there;
    mmap_file loses the data silently, or the process is killed. *)
Definition fine : nat -> answer := fun _ => Xfer 100.
Theorem C74_past_end_refuted :
  mm_write 4 (Xfer 0) RdWr [1; 2]%Z 0 [7; 8; 9]%Z = MmDone [7; 8]%Z /\
  fst (serve_write fine [1; 2]%Z 0 [7; 8; 9]%Z) = Done [7; 8; 9]%Z /\
  mm_write 4 (Xfer 0) RdWr [1; 2]%Z 4 [7]%Z = MmKilled /\
  fst (serve_write fine [1; 2]%Z 4 [7]%Z) = Done [1; 2; 0; 0; 7]%Z /\
  mm_read 4 (Xfer 0) RdWr (fun _ => 0%Z) [1; 2]%Z 0 5 = MmKilled /\
  fst (serve_read fine [1; 2]%Z 0 5) = Done [1; 2; 0; 0; 0]%Z.
Proof. cbv. auto 10. Qed.
Print Assumptions C74_past_end_refuted.

Example C74_case :
  mm_run 4 [] [MmResize fine 8; MmWrite (Xfer 0) 4 [5; 6; 7]%Z; MmWrite (Xfer 0) 0 [1; 2; 3; 4; 9]%Z] =
    Some [1; 2; 3; 4; 9; 6; 7; 0]%Z /\
  mm_read 4 (Xfer 0) RdWr (fun _ => 0%Z) [1; 2; 3; 4; 9; 6; 7; 0]%Z 4 2 = MmDone [9; 6]%Z /\
  mm_read 4 (Xfer 0) RdWr (fun _ => 0%Z) [1; 2; 3; 4; 9; 6; 7; 0]%Z 2 2 = MmThrow.
Proof. cbv. auto. Qed.

(** C75: one file per block on top of mmap is never killed, throws only if a call of
    the system fails or the block is empty, and behaves like one file per block on
    top of system calls. *)
Theorem C75_never_killed : forall page creat trunc prefix oo os ox tail d off n data,
  0 < page ->
  fst (pm_read page creat trunc prefix oo os ox tail d off n) <> MmKilled /\
  fst (pm_write page creat trunc prefix oo os ox d off data) <> MmKilled.
Proof.
  intros page creat trunc prefix oo os ox tail d off n data P. split.
  - unfold pm_read. destruct (oo 0); [discriminate|]. destruct (open_file creat trunc d (file_name prefix off)); [|discriminate].
    pose proof (set_size_spec os l n) as S. destruct (set_size os l n); cbn [fst]; try discriminate.
    subst. unfold mm_read. destruct (mmap_ok page ox RdWr false 0 n); [|discriminate].
    pose proof (truncate_spec l n) as (L & _). rewrite L. pose proof (mapped_ge page n P) as (G & _).
    destruct (Nat.leb_spec (0 + n) (mapped page n)); [discriminate|lia].
  - unfold pm_write. destruct (oo 0); [discriminate|]. destruct (open_file creat trunc d (file_name prefix off)); [|discriminate].
    pose proof (set_size_spec os l (length data)) as S. destruct (set_size os l (length data)); cbn [fst]; try discriminate.
    subst. unfold mm_write. destruct (mmap_ok page ox RdWr true 0 (length data)); [|discriminate].
    pose proof (truncate_spec l (length data)) as (L & _). rewrite L. pose proof (mapped_ge page (length data) P) as (G & _).
    destruct (Nat.leb_spec (0 + length data) (mapped page (length data))); [discriminate|lia].
Qed.
Print Assumptions C75_never_killed.

Theorem C75_content : forall page creat prefix oo os ox tail d off n data, 0 < page ->
  (forall b d', pm_read page creat false prefix oo os ox tail d off n = (MmDone b, d') ->
     b = fit n (stored d (file_name prefix off)) /\
     d' = upd_dir d (file_name prefix off) (Some (fit n (stored d (file_name prefix off))))) /\
  (forall d', pm_write page creat false prefix oo os ox d off data = (MmDone tt, d') ->
     d' = upd_dir d (file_name prefix off) (Some data)).
Proof.
  intros page creat prefix oo os ox tail d off n data P. split.
  - intros b d' H. unfold pm_read in H. destruct (oo 0); [discriminate|].
    destruct (open_file creat false d (file_name prefix off)) eqn:O; [|discriminate].
    apply open_stored in O. subst l. set (c := stored d (file_name prefix off)) in *.
    pose proof (set_size_spec os c n) as S. destruct (set_size os c n); try discriminate. subst x.
    injection H as H <-. rewrite fit_truncate in *. split; auto.
    pose proof (C74_content page ox RdWr tail (fit n c) 0 n [] P) as (A & _). rewrite H in A.
    destruct A as (L & A). pose proof (fit_len n c) as Lf.
    apply (nth_ext _ _ 0%Z 0%Z); [lia|]. intros i K. rewrite A by lia. auto.
  - intros d' H. unfold pm_write in H. destruct (oo 0); [discriminate|].
    destruct (open_file creat false d (file_name prefix off)) eqn:O; [|discriminate].
    apply open_stored in O. subst l. set (c := stored d (file_name prefix off)) in *.
    pose proof (set_size_spec os c (length data)) as S. destruct (set_size os c (length data)); try discriminate. subst x.
    rewrite fit_truncate in *. pose proof (fit_len (length data) c) as Lf.
    pose proof (C74_content page ox RdWr tail (fit (length data) c) 0 n data P) as (_ & B).
    destruct (mm_write page ox RdWr (fit (length data) c) 0 data) as [g| |] eqn:W; try discriminate.
    injection H as <-. do 2 f_equal. destruct B as (L & B). apply bytes_ext; [lia|]. intros i.
    destruct (Nat.lt_ge_cases i (length data)).
    + rewrite B by lia. replace (covers 0 (length data) i) with true by (symmetry; apply covers_true; lia).
      rewrite Nat.sub_0_r. auto.
    + unfold byte_at. rewrite !nth_overflow by lia. auto.
Qed.
Print Assumptions C75_content.

Theorem C75_returns : forall page prefix oo os ox tail d off n data, 0 < page ->
  oo 0 <> Fail -> (forall i, os i <> Fail) -> ox <> Fail ->
  (0 < n -> exists b d', pm_read page true false prefix oo os ox tail d off n = (MmDone b, d')) /\
  (data <> [] -> exists d', pm_write page true false prefix oo os ox d off data = (MmDone tt, d')) /\
  fst (pm_write page true false prefix oo os ox d off []) = MmThrow.
Proof.
  intros page prefix oo os ox tail d off n data P O S X.
  assert (Op : exists c, open_file true false d (file_name prefix off) = Some c).
  { unfold open_file. destruct (d (file_name prefix off)); eauto. }
  destruct Op as (c & Op).
  assert (Sz : forall m, set_size os c m = Done (os_truncate c m)).
  { intros m. pose proof (set_size_spec os c m) as Q. destruct (set_size os c m).
    - congruence. - destruct Q as (_ & i & _ & Q). destruct (S i Q). - tauto. }
  assert (M : forall w m, 0 < m -> mmap_ok page ox RdWr w 0 m = true).
  { intros w m Hm. unfold mmap_ok. destruct ox; [congruence|].
    rewrite (proj2 (Nat.ltb_lt 0 m) Hm), Nat.mod_0_l by lia. auto. }
  csplit.
  - intros N. unfold pm_read. rewrite Op, Sz. destruct (oo 0); [congruence|].
    unfold mm_read. rewrite M by auto. pose proof (truncate_spec c n) as (L & _). rewrite L.
    pose proof (mapped_ge page n P) as (G & _). rewrite (proj2 (Nat.leb_le (0 + n) (mapped page n))) by lia. eauto.
  - intros N. unfold pm_write. rewrite Op, Sz. destruct (oo 0); [congruence|].
    unfold mm_write. rewrite M by (destruct data; cbn; [congruence|lia]).
    pose proof (truncate_spec c (length data)) as (L & _). rewrite L.
    pose proof (mapped_ge page (length data) P) as (G & _).
    rewrite (proj2 (Nat.leb_le (0 + length data) (mapped page (length data)))) by lia. eauto.
  - unfold pm_write. rewrite Op, Sz. destruct (oo 0); [congruence|]. unfold mm_write, mmap_ok.
    destruct ox; [congruence|]. reflexivity.
Qed.
Print Assumptions C75_returns.

Example C75_case :
  let d0 : dir := fun _ => None in
  let w := pm_write 4 true false "b" fine fine (Xfer 0) d0 8192 [1; 2; 3; 4; 5]%Z in
  fst w = MmDone tt /\
  fst (pm_read 4 true false "b" fine fine (Xfer 0) (fun _ => 9%Z) (snd w) 8192 7) = MmDone [1; 2; 3; 4; 5; 0; 0]%Z.
Proof. vm_compute. auto. Qed.
