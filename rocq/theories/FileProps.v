(** C29 - C31: files. *)

From Coq Require Import String Ascii List Arith Bool ZArith NArith Lia.
From Verif Require Import FileModel FileSpec FileProofs.
Import ListNotations.

(** ** C29: memory files *)

(** Any range inside of the file reads as what was last written to each byte;
    [None] for bytes never written, cut off by a smaller size, or discarded
    since. *)
Theorem C29_reads_last_written : forall ba ops f off n,
  1 <= ba -> m_run ba m_init ops = Some f -> off + n <= length f ->
  m_read f off n = Some (map (m_byte (rev ops)) (seq off n)).
Proof.
  intros ba ops f off n Hba H L.
  destruct (m_run_spec ba Hba ops m_init [] f) as (_ & N); auto.
  { intros k. destruct k; auto. }
  rewrite app_nil_r in N. unfold m_read.
  destruct (Nat.leb_spec (off + n) (length f)); [|lia].
  rewrite (get_map f off n None) by auto. f_equal. apply map_ext. auto.
Qed.
Print Assumptions C29_reads_last_written.

(** The size is that of the last resize; every operation that stays inside of
    the file is carried out, every other one accesses memory outside of it
    (nothing is checked). *)
Theorem C29_bounds : forall ba ops f,
  1 <= ba -> m_run ba m_init ops = Some f ->
  length f = m_size (rev ops) /\
  (forall o, m_step ba f o <> None <-> m_inside (length f) o) /\
  (forall off n, m_read f off n <> None <-> off + n <= length f).
Proof.
  intros ba ops f Hba H.
  destruct (m_run_spec ba Hba ops m_init [] f) as (L & N); auto.
  { intros k. destruct k; auto. }
  rewrite app_nil_r in L, N. split; auto. split.
  - intros o. pose proof (m_step_spec ba Hba f o (rev ops) L N) as S.
    destruct (m_step ba f o).
    + destruct S as (S & _). rewrite L. split; auto. intros _ Q. discriminate.
    + rewrite L. split; [congruence|]. intros Q. contradiction.
  - intros off n. unfold m_read. destruct (Nat.leb_spec (off + n) (length f)); split; auto; try congruence; lia.
Qed.
Print Assumptions C29_bounds.

(** A file of 6 bytes; two overlapping writes; grown, and a part discarded in
    steps of two bytes. *)
Example C29_case :
  m_run 2 m_init [MResize 6; MWrite 0 (map Some [1; 2; 3; 4]%Z); MWrite 2 (map Some [7; 8; 9]%Z);
                  MResize 8; MDiscard 1 3]
  = Some [Some 1; None; None; None; Some 9; None; None; None]%Z /\
  m_read [Some 1; None; None; None; Some 9; None; None; None]%Z 3 3 = Some [None; Some 9; None]%Z /\
  m_read [Some 1; None]%Z 1 2 = None.
Proof. repeat split. Qed.

(** ** C30: syscall files *)

(** Whatever the system answers: a write ends; if it returns normally the
    bytes are in the file and nothing else has changed; if it throws, a proper
    prefix has been written. *)
Theorem C30_write : forall o f off d,
  match fst (serve_write o f off d) with
  | Done f' =>
      (d <> [] -> length f' = max (length f) (off + length d)) /\ (d = [] -> f' = f) /\
      forall k, byte_at f' k = if covers off (length d) k then nth (k - off) d 0%Z else byte_at f k
  | IoError f' => exists m, m < length d /\
      (forall k, byte_at f' k = if covers off m k then nth (k - off) d 0%Z else byte_at f k)
  | Stuck => False
  end.
Proof.
  intros. unfold serve_write. pose proof (s_write_spec o (S (length d)) 0 f off d ltac:(lia)) as W.
  destruct (s_write (S (length d)) o 0 f off d) as ([f'|f'|] & c); cbn [fst]; auto.
  - destruct W as ([(-> & ->)|(W & ->)] & _).
    + split; [congruence|]. split; auto. intros k.
      replace (covers off (length []) k) with false; auto. symmetry. apply covers_false. cbn. lia.
    + split; [intros _; apply os_write_spec|]. split; [congruence|]. intros k. apply os_write_spec.
  - destruct W as ((m & M1 & M2) & _). exists m. split; auto. intros k.
    destruct M2 as [(-> & ->)|(M2 & ->)].
    + replace (covers off 0 k) with false; auto. symmetry. apply covers_false. cbn. lia.
    + rewrite (proj2 (os_write_spec _ _ _)). rewrite firstn_length, Nat.min_l by lia.
      destruct (covers off m k) eqn:C; auto. apply covers_true in C.
      rewrite <- (firstn_skipn m d) at 2. rewrite app_nth1; auto. rewrite firstn_length. lia.
Qed.
Print Assumptions C30_write.

(** A read ends; if it returns normally the whole buffer has been filled with
    the bytes of the file, zeros past its end. *)
Theorem C30_read : forall o f off n,
  match fst (serve_read o f off n) with
  | Done b => b = map (byte_at f) (seq off n)
  | IoError b => exists m, m < n /\ b = map (byte_at f) (seq off m)
  | Stuck => False
  end.
Proof.
  intros. unfold serve_read. pose proof (s_read_spec o f (S n) 0 off n [] ltac:(lia)) as W.
  destruct (s_read (S n) o 0 f off n []) as ([b|b|] & c); cbn [fst]; auto.
  - apply W.
  - destruct W as ((m & M1 & M2) & _). exists m. auto.
Qed.
Print Assumptions C30_read.

(** An error is raised exactly if the last call to the system failed or
    transferred nothing, and no call is made after such a call. *)
Theorem C30_errors : forall o f off d n,
  match serve_write o f off d with
  | (Done _, c) => forall i, i < c -> o i <> Fail
  | (_, c) => exists i, c = S i /\ (forall j, j < i -> o j <> Fail) /\ (o i = Fail \/ o i = Xfer 0)
  end /\
  match serve_read o f off n with
  | (Done _, c) => forall i, i < c -> o i <> Fail
  | (_, c) => exists i, c = S i /\ (forall j, j < i -> o j <> Fail) /\
                (o i = Fail \/ o i = Xfer 0 \/ (length f <= off /\ i = 1))
  end.
Proof.
  intros. split.
  - unfold serve_write. pose proof (s_write_spec o (S (length d)) 0 f off d ltac:(lia)) as W.
    destruct (s_write (S (length d)) o 0 f off d) as ([f'|f'|] & c); [| |tauto].
    + destruct W as (_ & _ & W). intros i Hi. apply W. lia.
    + destruct W as (_ & i & W1 & _ & W2 & W3). exists i. split; auto. split; auto.
      intros j Hj. apply W2. lia.
  - unfold serve_read. pose proof (s_read_spec o f (S n) 0 off n [] ltac:(lia)) as W.
    destruct (s_read (S n) o 0 f off n []) as ([f'|f'|] & c); [| |tauto].
    + destruct W as (_ & _ & _ & W). intros i Hi. apply W. lia.
    + destruct W as (_ & i & W1 & _ & W2 & W3). exists i. split; auto. split; auto.
      intros j Hj. apply W2. lia.
Qed.
Print Assumptions C30_errors.

(** If no call fails or transfers nothing, writes and all reads that start
    before the end of the file succeed, however small the transfers are. *)
Theorem C30_short_transfers_succeed : forall o f off d n,
  (forall i, exists k, o i = Xfer (S k)) ->
  (exists f', fst (serve_write o f off d) = Done f') /\
  (off < length f -> exists b, fst (serve_read o f off n) = Done b).
Proof.
  intros o f off d n Ho. split.
  - destruct (s_write_good o Ho (S (length d)) 0 f off d ltac:(lia)) as (f' & c & E).
    exists f'. unfold serve_write. rewrite E. auto.
  - intros L. destruct (s_read_good o f Ho (S n) 0 off n [] ltac:(lia)) as (b & c & E); auto.
    exists b. unfold serve_read. rewrite E. auto.
Qed.
Print Assumptions C30_short_transfers_succeed.

(** A read that starts at or after the end of the file always throws. *)
Theorem C30_read_past_end : forall o f off n, length f <= off -> 0 < n ->
  fst (serve_read o f off n) = IoError [].
Proof.
  intros o f off n L Hn. unfold serve_read. pose proof (s_read_spec o f (S n) 0 off n [] ltac:(lia)) as W.
  destruct (s_read (S n) o 0 f off n []) as ([b|b|] & c) eqn:E; cbn [fst]; [|f_equal|tauto].
  - destruct W as (_ & [W|W] & _); lia.
  - cbn [s_read] in E. destruct (Nat.eqb_spec n 0); [lia|].
    destruct (o 0); [inversion E; auto|]. destruct (o 1) as [|kk]; [inversion E; auto|].
    replace (min kk (min n (length f - off))) with 0 in E by lia. inversion E; auto.
Qed.
Print Assumptions C30_read_past_end.

(** After any operations that returned normally each byte is the one last
    written to it; bytes between the old and the new end are zero. *)
Theorem C30_history : forall f0 ops f o off n b,
  s_run f0 ops = Some f -> fst (serve_read o f off n) = Done b ->
  b = map (s_byte f0 (rev ops)) (seq off n) /\ length f = s_size f0 (rev ops).
Proof.
  intros f0 ops f o off n b H E.
  destruct (s_run_spec f0 ops f0 [] f) as (L & N); auto.
  rewrite app_nil_r in L, N. split; auto.
  pose proof (C30_read o f off n) as Rd. rewrite E in Rd. rewrite Rd. apply map_ext; auto.
Qed.
Print Assumptions C30_history.

(** A write of five bytes behind the end in transfers of two bytes; a read over
    the end in transfers of three; a failing call. *)
Example C30_case :
  serve_write (fun _ => Xfer 2) [9]%Z 2 [1; 2; 3; 4; 5]%Z = (Done [9; 0; 1; 2; 3; 4; 5]%Z, 6) /\
  serve_read (fun _ => Xfer 3) [9; 0; 1; 2; 3; 4; 5]%Z 3 6 = (Done [2; 3; 4; 5; 0; 0]%Z, 6) /\
  serve_read (fun i => if i =? 4 then Fail else Xfer 3) [9; 0; 1; 2; 3; 4; 5]%Z 2 6 = (IoError [1; 2; 3]%Z, 5) /\
  serve_write (fun i => if i =? 3 then Xfer 0 else Xfer 2) [9]%Z 2 [1; 2; 3; 4; 5]%Z = (IoError [9; 0; 1; 2]%Z, 4).
Proof. repeat split. Qed.

(** ** C31: one file per block *)

(** Different blocks have different files. *)
Theorem C31_names_distinct : forall prefix off off',
  file_name prefix off = file_name prefix off' -> off = off'.
Proof. exact file_name_inj. Qed.
Print Assumptions C31_names_distinct.

Lemma upd_dir_other : forall d n c m, m <> n -> upd_dir d n c m = d m.
Proof. intros. unfold upd_dir. destruct (list_eq_dec ascii_dec m n); congruence. Qed.

Lemma upd_dir_same : forall d n c, upd_dir d n c n = c.
Proof. intros. unfold upd_dir. destruct (list_eq_dec ascii_dec n n); congruence. Qed.

(** Whether it succeeds or not, an operation changes at most the file of its
    own block. *)
Theorem C31_isolation : forall creat trunc prefix d op ok d',
  p_step creat trunc prefix d op = (ok, d') ->
  (forall name, name <> file_name prefix (op_offset op) -> d' name = d name) /\
  (forall off, off <> op_offset op -> d' (file_name prefix off) = d (file_name prefix off)).
Proof.
  intros creat trunc prefix d op ok d' H.
  assert (G : forall name, name <> file_name prefix (op_offset op) -> d' name = d name).
  { intros name Hn. destruct op as [oo os ox off data|oo os ox off n|o off]; cbn [p_step op_offset] in *.
    - unfold p_write in H. destruct (oo 0); [inversion H; auto|].
      destruct (open_file creat trunc d (file_name prefix off)); [|inversion H; auto].
      destruct (set_size os l (length data)); [|inversion H; subst; apply upd_dir_other; auto|inversion H; auto].
      destruct (fst (serve_write ox x 0 data)); inversion H; subst; auto; apply upd_dir_other; auto.
    - unfold p_read in H. destruct (oo 0); [inversion H; auto|].
      destruct (open_file creat trunc d (file_name prefix off)); [|inversion H; auto].
      destruct (set_size os l n); [|inversion H; subst; apply upd_dir_other; auto|inversion H; auto].
      destruct (fst (serve_read ox x 0 n)); inversion H; subst; auto; apply upd_dir_other; auto.
    - unfold p_discard in H. destruct (o 0); inversion H; subst; auto. apply upd_dir_other; auto. }
  split; auto. intros off Ho. apply G. intros Q. apply Ho. eapply file_name_inj; eauto.
Qed.
Print Assumptions C31_isolation.

Lemma fit_truncate : forall c n, os_truncate c n = fit n c.
Proof.
  intros c n. unfold os_truncate, fit. rewrite firstn_app. f_equal.
  destruct (le_lt_dec n (length c)).
  - replace (n - length c) with 0 by lia. reflexivity.
  - assert (G : forall m k, m <= k -> firstn m (repeat 0%Z k) = repeat 0%Z m).
    { induction m; intros [|k] Hk; cbn; auto; [lia|]. f_equal. apply IHm. lia. }
    symmetry. apply G. lia.
Qed.

Lemma write_over : forall c data, os_write (os_truncate c (length data)) 0 data = data.
Proof.
  intros. destruct (truncate_spec c (length data)) as (L & _). apply bytes_ext.
  - rewrite (proj1 (os_write_spec _ _ _)), L. lia.
  - intros k. rewrite (proj2 (os_write_spec _ _ _)). destruct (covers 0 (length data) k) eqn:C.
    + rewrite Nat.sub_0_r. auto.
    + apply covers_false in C. unfold byte_at. rewrite !nth_overflow; auto; lia.
Qed.

Lemma fit_len : forall n c, length (fit n c) = n.
Proof. intros. rewrite <- fit_truncate. apply truncate_spec. Qed.

Lemma map_all : forall c, map (byte_at c) (seq 0 (length c)) = c.
Proof.
  intros c. apply (nth_ext _ _ (byte_at c 0) 0%Z); [rewrite map_length, seq_length; auto|].
  intros k Hk. rewrite map_length, seq_length in Hk. rewrite map_nth, seq_nth by auto. auto.
Qed.

Lemma open_stored : forall creat d name c, open_file creat false d name = Some c -> c = stored d name.
Proof.
  intros creat d name c H. unfold open_file, stored in *. destruct (d name); [congruence|].
  destruct creat; congruence.
Qed.

Lemma p_read_done : forall creat prefix oo os ox d off n b d',
  p_read creat false prefix oo os ox d off n = (Done b, d') ->
  b = fit n (stored d (file_name prefix off)) /\
  d' = upd_dir d (file_name prefix off) (Some (fit n (stored d (file_name prefix off)))).
Proof.
  intros creat prefix oo os ox d off n b d' H. unfold p_read in H.
  destruct (oo 0); [discriminate|].
  destruct (open_file creat false d (file_name prefix off)) as [c|] eqn:O; [|discriminate].
  apply open_stored in O. subst c.
  pose proof (set_size_spec os (stored d (file_name prefix off)) n) as S.
  destruct (set_size os (stored d (file_name prefix off)) n) as [c'|c'|]; try discriminate.
  subst c'. rewrite fit_truncate in H.
  pose proof (C30_read ox (fit n (stored d (file_name prefix off))) 0 n) as Rd.
  inversion H as [[E1 E2]]. rewrite E1 in Rd. split; [|auto]. rewrite Rd.
  rewrite <- (fit_len n (stored d (file_name prefix off))) at 2. apply map_all.
Qed.

Lemma p_write_done : forall creat prefix oo os ox d off data d',
  p_write creat false prefix oo os ox d off data = (Done tt, d') ->
  d' = upd_dir d (file_name prefix off) (Some data).
Proof.
  intros creat prefix oo os ox d off data d' H. unfold p_write in H.
  destruct (oo 0); [discriminate|].
  destruct (open_file creat false d (file_name prefix off)) as [c|] eqn:O; [|discriminate].
  pose proof (set_size_spec os c (length data)) as S.
  destruct (set_size os c (length data)) as [c'|c'|]; try discriminate. subst c'.
  unfold serve_write in H.
  pose proof (s_write_spec ox (S (length data)) 0 (os_truncate c (length data)) 0 data ltac:(lia)) as W.
  destruct (s_write (S (length data)) ox 0 (os_truncate c (length data)) 0 data) as ([f'|f'|] & x);
    cbn [fst] in H; try discriminate. inversion H; subst. f_equal. f_equal.
  destruct W as ([(-> & ->)|(W & ->)] & _); [reflexivity|apply write_over].
Qed.

Lemma p_run_stored : forall creat prefix off c0 ops d older d',
  stored d (file_name prefix off) = block_content c0 older off ->
  p_run creat false prefix d ops = Some d' ->
  stored d' (file_name prefix off) = block_content c0 (rev ops ++ older) off.
Proof.
  intros creat prefix off c0. induction ops as [|op ops IH]; intros d older d' H R; cbn [p_run] in R.
  - inversion R; subst. auto.
  - destruct (p_step creat false prefix d op) as ([|] & d1) eqn:St; [|discriminate].
    cbn [rev]. rewrite <- app_assoc. cbn [app]. apply (IH d1); auto. clear R IH.
    destruct (C31_isolation _ _ _ _ _ _ _ St) as (_ & Iso).
    assert (Other : op_offset op <> off -> stored d1 (file_name prefix off) = block_content c0 older off).
    { intros N. unfold stored. rewrite Iso by auto. exact H. }
    destruct op as [oo os ox off' data|oo os ox off' n|o off']; cbn [p_step op_offset block_content] in *;
      destruct (Nat.eqb_spec off' off) as [->|N]; auto.
    + destruct (p_write creat false prefix oo os ox d off data) as ([[]|[]|] & d2) eqn:P; inversion St; subst.
      rewrite (p_write_done _ _ _ _ _ _ _ _ _ P). unfold stored. rewrite upd_dir_same. auto.
    + destruct (p_read creat false prefix oo os ox d off n) as ([b|b|] & d2) eqn:P; inversion St; subst.
      destruct (p_read_done _ _ _ _ _ _ _ _ _ _ P) as (_ & ->).
      unfold stored at 1. rewrite upd_dir_same. rewrite H. auto.
    + unfold p_discard in St. destruct (o 0); [discriminate|]. inversion St; subst.
      unfold stored. rewrite upd_dir_same. auto.
Qed.

(** A read returns the content its block was given by the operations on this
    block, cut or extended with zeros to the length read. *)
Theorem C31_reads_own_block : forall creat prefix d0 ops d oo os ox off n b d',
  p_run creat false prefix d0 ops = Some d ->
  p_read creat false prefix oo os ox d off n = (Done b, d') ->
  b = fit n (block_content (stored d0 (file_name prefix off)) (rev ops) off).
Proof.
  intros * R P. apply p_read_done in P. destruct P as (-> & _). f_equal.
  rewrite <- (app_nil_r (rev ops)). eapply p_run_stored; [|exact R]. reflexivity.
Qed.
Print Assumptions C31_reads_own_block.

(** In particular, what was written comes back as long as the block is only
    read with the same length. *)
Theorem C31_write_then_read : forall creat prefix d0 ops1 wo ws wx off data ops2 d oo os ox b d',
  p_run creat false prefix d0 (ops1 ++ PWrite wo ws wx off data :: ops2) = Some d ->
  (forall op, In op ops2 -> op_offset op = off ->
     exists ro rs rx, op = PRead ro rs rx off (length data)) ->
  p_read creat false prefix oo os ox d off (length data) = (Done b, d') -> b = data.
Proof.
  intros * R H P. rewrite (C31_reads_own_block _ _ _ _ _ _ _ _ _ _ _ _ R P).
  rewrite rev_app_distr. cbn [rev]. rewrite <- app_assoc. cbn [app].
  set (c0 := stored d0 (file_name prefix off)). clearbody c0. clear R P.
  assert (Fd : fit (length data) data = data).
  { unfold fit. rewrite firstn_app, firstn_all, Nat.sub_diag. cbn. apply app_nil_r. }
  assert (G : block_content c0 (rev ops2 ++ PWrite wo ws wx off data :: rev ops1) off = data).
  { assert (H' : forall op, In op (rev ops2) -> op_offset op = off ->
       exists ro rs rx, op = PRead ro rs rx off (length data)) by (intros op Q; apply H, in_rev; auto).
    clear H. induction (rev ops2) as [|op l IH]; cbn [app block_content].
    - rewrite Nat.eqb_refl. auto.
    - assert (IH' := IH (fun op Q => H' op (or_intror Q))).
      specialize (H' op (or_introl eq_refl)).
      destruct op as [o1 o2 o3 off' data'|o1 o2 o3 off' n|o1 off']; cbn [op_offset] in *;
        destruct (Nat.eqb_spec off' off) as [E|E]; auto;
        destruct (H' E) as (ro & rs & rx & Q); inversion Q; subst.
      rewrite IH'. auto. }
  rewrite G. auto.
Qed.
Print Assumptions C31_write_then_read.

(** With a working system and the flag CREAT every operation succeeds. *)
Theorem C31_succeeds : forall trunc prefix d oo os ox off n data,
  (forall i, exists k, oo i = Xfer (S k)) -> (forall i, exists k, os i = Xfer (S k)) ->
  (forall i, exists k, ox i = Xfer (S k)) ->
  fst (p_step true trunc prefix d (PRead oo os ox off n)) = true /\
  fst (p_step true trunc prefix d (PWrite oo os ox off data)) = true.
Proof.
  intros trunc prefix d oo os ox off n data H1 H2 H3.
  assert (O : exists c, open_file true trunc d (file_name prefix off) = Some c).
  { unfold open_file. destruct (d (file_name prefix off)); eauto. }
  destruct O as (c & O). destruct (H1 0) as (k1 & E1).
  assert (Ss : forall m, set_size os c m = Done (os_truncate c m)).
  { intros m. unfold set_size. destruct (H2 0) as (? & ->). destruct (H2 1) as (? & ->).
    destruct (H2 2) as (? & ->). destruct (length c <? m); auto. }
  split; cbn [p_step].
  - unfold p_read. rewrite E1, O, Ss. destruct n as [|n].
    + unfold serve_read. cbn. auto.
    + destruct (C30_short_transfers_succeed ox (os_truncate c (S n)) 0 [] (S n) H3) as (_ & X).
      destruct X as (b & ->); auto. rewrite (proj1 (truncate_spec c (S n))). lia.
  - unfold p_write. rewrite E1, O, Ss.
    destruct (C30_short_transfers_succeed ox (os_truncate c (length data)) 0 data 0 H3) as ((f' & ->) & _). auto.
Qed.
Print Assumptions C31_succeeds.

(** Reading is not harmless: a read that is shorter than the block destroys the
    rest of the block. *)
Theorem C31_short_read_destroys_refuted :
  ~ (forall creat prefix d oo os ox off n d' name,
       fst (p_read creat false prefix oo os ox d off n) = Done d' ->
       stored (snd (p_read creat false prefix oo os ox d off n)) name = stored d name).
Proof.
  intros H.
  specialize (H true ""%string (fun _ => Some [1; 2; 3]%Z) (fun _ => Xfer 9) (fun _ => Xfer 9) (fun _ => Xfer 9)
    0 2 [1; 2]%Z (file_name "" 0) eq_refl). cbn in H. discriminate.
Qed.
Print Assumptions C31_short_read_destroys_refuted.

(** With the flag TRUNC the file of the block is emptied at every access: a
    read returns only zeros, whatever was written. *)
Theorem C31_trunc_reads_zeros : forall creat prefix oo os ox d off n b d',
  p_read creat true prefix oo os ox d off n = (Done b, d') -> b = repeat 0%Z n.
Proof.
  intros * H. unfold p_read in H. destruct (oo 0); [discriminate|].
  destruct (open_file creat true d (file_name prefix off)) as [c|] eqn:O; [|discriminate].
  assert (c = []).
  { unfold open_file in O. destruct (d (file_name prefix off)); [congruence|]. destruct creat; congruence. }
  subst c. pose proof (set_size_spec os [] n) as S. destruct (set_size os [] n) as [c'|c'|]; try discriminate.
  subst c'. pose proof (C30_read ox (os_truncate [] n) 0 n) as Rd. inversion H as [[E1 E2]]. rewrite E1 in Rd.
  rewrite Rd. rewrite <- (proj1 (truncate_spec [] n)) at 2. rewrite map_all.
  unfold os_truncate. rewrite firstn_nil. cbn. rewrite Nat.sub_0_r. auto.
Qed.
Print Assumptions C31_trunc_reads_zeros.

(** Two blocks whose offsets differ in length; transfers of single bytes. *)
Example C31_case :
  let ok := fun _ : nat => Xfer 1 in
  file_name "d" 42 = list_ascii_of_string "d_fpb_00000000000000000042" /\
  match p_run true false "d" (fun _ => None)
          [PWrite ok ok ok 0 [1; 2]%Z; PWrite ok ok ok 100 [3; 4]%Z; PRead ok ok ok 0 2; PDiscard ok 100] with
  | Some d =>
      fst (p_read true false "d" ok ok ok d 0 2) = Done [1; 2]%Z /\
      fst (p_read true false "d" ok ok ok d 100 2) = Done [0; 0]%Z /\
      fst (p_read false false "d" ok ok ok d 100 2) = IoError []
  | None => False
  end.
Proof. vm_compute. repeat split. Qed.
