(** Files: proofs. *)

From Coq Require Import String Ascii List Arith Bool ZArith NArith DecimalN DecimalPos Lia.
From Verif Require Import FileModel FileSpec.
Import ListNotations.

(** ** put and get *)

Lemma put_length : forall {X} (l : list X) off d, off + length d <= length l ->
  length (put l off d) = length l.
Proof.
  intros. unfold put. rewrite !app_length, firstn_length, skipn_length. lia.
Qed.

Lemma put_nth : forall {X} (l : list X) off d k def, off + length d <= length l ->
  nth k (put l off d) def = if covers off (length d) k then nth (k - off) d def else nth k l def.
Proof.
  intros X l off d k def H. unfold put, covers.
  assert (Lf : length (firstn off l) = off) by (rewrite firstn_length; lia).
  destruct (Nat.leb_spec off k); cbn [andb].
  - rewrite app_nth2 by lia. rewrite Lf. destruct (Nat.ltb_spec k (off + length d)).
    + rewrite app_nth1 by lia. auto.
    + rewrite app_nth2 by lia.
      rewrite <- (firstn_skipn (off + length d) l) at 2. rewrite app_nth2; rewrite firstn_length; [|lia].
      f_equal. lia.
  - rewrite app_nth1 by lia. rewrite <- (firstn_skipn off l) at 2. rewrite app_nth1; auto. lia.
Qed.

Lemma get_map : forall {X} (l : list X) off n def, off + n <= length l ->
  get l off n = map (fun k => nth k l def) (seq off n).
Proof.
  intros X l off n def H. unfold get. apply (nth_ext _ _ def (nth 0 l def)).
  - rewrite firstn_length, skipn_length, map_length, seq_length. lia.
  - intros k Hk. rewrite firstn_length, skipn_length in Hk.
    rewrite (map_nth (fun k => nth k l def)), seq_nth by lia.
    rewrite <- (firstn_skipn off l) at 2. rewrite app_nth2; rewrite firstn_length; [|lia].
    replace (off + k - min off (length l)) with k by lia.
    rewrite <- (firstn_skipn n (skipn off l)) at 2. rewrite app_nth1; auto.
    rewrite firstn_length, skipn_length. lia.
Qed.

Lemma nth_repeat' : forall {X} (x : X) n k, nth k (repeat x n) x = x.
Proof. induction n; destruct k; cbn; auto. Qed.

Lemma covers_true : forall off n k, covers off n k = true <-> off <= k < off + n.
Proof.
  intros. unfold covers. rewrite andb_true_iff, Nat.leb_le, Nat.ltb_lt. lia.
Qed.

Lemma covers_false : forall off n k, covers off n k = false <-> ~ (off <= k < off + n).
Proof.
  intros. rewrite <- covers_true. destruct (covers off n k); split; congruence.
Qed.

(** ** Memory files *)

Lemma m_write_spec : forall f off d,
  match m_write f off d with
  | Some f' => off + length d <= length f /\ length f' = length f /\
      forall k, nth k f' None = if covers off (length d) k then nth (k - off) d None else nth k f None
  | None => length f < off + length d
  end.
Proof.
  intros. unfold m_write. destruct (Nat.leb_spec (off + length d) (length f)); auto.
  split; auto. split; [apply put_length; auto|]. intros. apply put_nth; auto.
Qed.

Lemma m_resize_spec : forall f n,
  length (m_set_size f n) = n /\
  forall k, nth k (m_set_size f n) None = if k <? n then nth k f None else None.
Proof.
  intros f n. unfold m_set_size. split.
  - rewrite app_length, firstn_length, repeat_length. lia.
  - intros k. destruct (Nat.ltb_spec k n).
    + destruct (le_lt_dec (length f) k).
      * rewrite app_nth2 by (rewrite firstn_length; lia). rewrite nth_repeat'.
        symmetry. apply nth_overflow; auto.
      * rewrite app_nth1 by (rewrite firstn_length; lia).
        rewrite <- (firstn_skipn n f) at 2. rewrite app_nth1; auto. rewrite firstn_length; lia.
    + apply nth_overflow. rewrite app_length, firstn_length, repeat_length. lia.
Qed.

Lemma m_discard_spec : forall ba, 1 <= ba -> forall fuel f off n, n < fuel ->
  match m_discard fuel ba f off n with
  | Some f' => (n = 0 \/ off + n <= length f) /\ length f' = length f /\
      forall k, nth k f' None = if covers off n k then None else nth k f None
  | None => n <> 0 /\ length f < off + n
  end.
Proof.
  intros ba Hba. induction fuel; intros f off n Hn; [lia|]. cbn [m_discard].
  destruct (Nat.leb_spec ba n).
  - pose proof (m_write_spec f off (repeat None ba)) as W. rewrite repeat_length in W.
    destruct (m_write f off (repeat None ba)) as [f'|]; [|lia].
    destruct W as (W1 & W2 & W3). specialize (IHfuel f' (off + ba) (n - ba) ltac:(lia)).
    destruct (m_discard fuel ba f' (off + ba) (n - ba)) as [f''|]; [|lia].
    destruct IHfuel as (I1 & I2 & I3). split; [|split; [lia|]].
    + right. lia.
    + intros k. rewrite I3, W3. rewrite nth_repeat'.
      destruct (covers (off + ba) (n - ba) k) eqn:C1; destruct (covers off n k) eqn:C2;
      destruct (covers off ba k) eqn:C3; auto;
      rewrite ?covers_true, ?covers_false in *; lia.
  - destruct (Nat.ltb_spec 0 n).
    + pose proof (m_write_spec f off (repeat None n)) as W. rewrite repeat_length in W.
      destruct (m_write f off (repeat None n)) as [f'|]; [|lia].
      destruct W as (W1 & W2 & W3). split; [right; auto|split; auto].
      intros k. rewrite W3, nth_repeat'. auto.
    + assert (n = 0) by lia. subst n. split; [auto|split; auto]. intros k.
      replace (covers off 0 k) with false; auto. symmetry. apply covers_false. lia.
Qed.

Lemma m_step_spec : forall ba, 1 <= ba -> forall f o older,
  length f = m_size older -> (forall k, nth k f None = m_byte older k) ->
  match m_step ba f o with
  | Some f' => m_inside (m_size older) o /\ length f' = m_size (o :: older) /\
               forall k, nth k f' None = m_byte (o :: older) k
  | None => ~ m_inside (m_size older) o
  end.
Proof.
  intros ba Hba f o older L N. destruct o as [off d|n|off n]; cbn [m_step m_size m_byte m_inside].
  - pose proof (m_write_spec f off d) as W. destruct (m_write f off d) as [f'|]; [|lia].
    destruct W as (W1 & W2 & W3). split; [lia|split; [lia|]]. intros k. rewrite W3, N. auto.
  - destruct (m_resize_spec f n) as (R1 & R2). split; auto. split; auto. intros k. rewrite R2, N. auto.
  - pose proof (m_discard_spec ba Hba (S n) f off n ltac:(lia)) as W.
    destruct (m_discard (S n) ba f off n) as [f'|]; [|lia].
    destruct W as (W1 & W2 & W3). split; [lia|split; [lia|]]. intros k. rewrite W3, N. auto.
Qed.

Lemma m_run_spec : forall ba, 1 <= ba -> forall ops f older f',
  length f = m_size older -> (forall k, nth k f None = m_byte older k) ->
  m_run ba f ops = Some f' ->
  length f' = m_size (rev ops ++ older) /\ forall k, nth k f' None = m_byte (rev ops ++ older) k.
Proof.
  intros ba Hba. induction ops as [|o ops IH]; intros f older f' L N H; cbn [m_run] in H.
  - inversion H; subst. auto.
  - pose proof (m_step_spec ba Hba f o older L N) as S.
    destruct (m_step ba f o) as [f1|]; [|discriminate]. destruct S as (_ & S1 & S2).
    destruct (IH f1 (o :: older) f' S1 S2 H) as (I1 & I2).
    cbn [rev]. rewrite <- app_assoc. auto.
Qed.

(** ** Files of the operating system *)

Lemma byte_at_app : forall l1 l2 k,
  byte_at (l1 ++ l2) k = if k <? length l1 then byte_at l1 k else byte_at l2 (k - length l1).
Proof.
  intros. unfold byte_at. destruct (Nat.ltb_spec k (length l1)).
  - apply app_nth1; auto.
  - apply app_nth2; auto.
Qed.

Lemma pad_byte : forall f m k, byte_at (f ++ repeat 0%Z m) k = byte_at f k.
Proof.
  intros. rewrite byte_at_app. destruct (Nat.ltb_spec k (length f)); auto.
  unfold byte_at. rewrite nth_repeat'. symmetry. apply nth_overflow; auto.
Qed.

Lemma os_write_spec : forall f off d,
  length (os_write f off d) = max (length f) (off + length d) /\
  forall k, byte_at (os_write f off d) k = if covers off (length d) k then nth (k - off) d 0%Z else byte_at f k.
Proof.
  intros f off d. unfold os_write.
  destruct (le_lt_dec (off + length d) (length (f ++ repeat 0%Z (off - length f)))) as [L|L].
  - split.
    + rewrite put_length by auto. rewrite app_length, repeat_length in *. lia.
    + intros k. unfold byte_at at 1. rewrite put_nth by auto.
      destruct (covers off (length d) k); auto. apply pad_byte.
  - rewrite app_length, repeat_length in L.
    assert (E : put (f ++ repeat 0%Z (off - length f)) off d = firstn off (f ++ repeat 0%Z (off - length f)) ++ d).
    { unfold put. rewrite skipn_all2, app_nil_r; auto. rewrite app_length, repeat_length. lia. }
    assert (Lf : length (firstn off (f ++ repeat 0%Z (off - length f))) = off).
    { rewrite firstn_length, app_length, repeat_length. lia. }
    rewrite E. split.
    + rewrite app_length, Lf. lia.
    + intros k. rewrite byte_at_app, Lf. destruct (Nat.ltb_spec k off).
      * replace (covers off (length d) k) with false by (symmetry; apply covers_false; lia).
        rewrite <- (pad_byte f (off - length f) k).
        rewrite <- (firstn_skipn off (f ++ repeat 0%Z (off - length f))) at 2.
        rewrite byte_at_app, Lf. destruct (Nat.ltb_spec k off); auto. lia.
      * destruct (covers off (length d) k) eqn:C; auto.
        unfold byte_at. apply covers_false in C. rewrite nth_overflow by lia.
        symmetry. apply nth_overflow. lia.
Qed.

Lemma bytes_ext : forall f g, length f = length g -> (forall k, byte_at f k = byte_at g k) -> f = g.
Proof. intros f g L H. apply (nth_ext _ _ 0%Z 0%Z); auto. intros k _. apply H. Qed.

Lemma os_write_two : forall f off d rc, rc <= length d ->
  os_write (os_write f off (firstn rc d)) (off + rc) (skipn rc d) = os_write f off d.
Proof.
  intros f off d rc H.
  assert (L1 : length (firstn rc d) = rc) by (rewrite firstn_length; lia).
  assert (L2 : length (skipn rc d) = length d - rc) by (apply skipn_length).
  apply bytes_ext.
  - rewrite !(proj1 (os_write_spec _ _ _)), L1, L2. lia.
  - intros k. rewrite !(proj2 (os_write_spec _ _ _)), L1, L2.
    destruct (covers (off + rc) (length d - rc) k) eqn:C1; destruct (covers off (length d) k) eqn:C2;
    destruct (covers off rc k) eqn:C3; auto; rewrite ?covers_true, ?covers_false in *; try lia.
    + rewrite <- (firstn_skipn rc d) at 2. rewrite app_nth2 by lia. rewrite L1. f_equal. lia.
    + rewrite <- (firstn_skipn rc d) at 2. rewrite app_nth1 by lia. auto.
Qed.

Lemma get_bytes : forall f off n, off + n <= length f -> get f off n = map (byte_at f) (seq off n).
Proof. intros. apply get_map; auto. Qed.

Lemma zeros_map : forall f off n, length f <= off -> repeat 0%Z n = map (byte_at f) (seq off n).
Proof.
  intros f off n. revert off. induction n; intros off H; auto. cbn [repeat seq map].
  rewrite <- IHn by lia. f_equal. unfold byte_at. rewrite nth_overflow; auto.
Qed.

(** What a finished s_read says about the answers it got. *)
Lemma s_read_spec : forall o f fuel p off n acc, n < fuel ->
  match s_read fuel o p f off n acc with
  | (Done b, c) => b = acc ++ map (byte_at f) (seq off n) /\ (n = 0 \/ off < length f) /\
      p <= c /\ (forall i, p <= i < c -> o i <> Fail)
  | (IoError b, c) => (exists m, m < n /\ b = acc ++ map (byte_at f) (seq off m)) /\
      exists i, c = S i /\ p <= i /\ (forall j, p <= j < i -> o j <> Fail) /\
        (o i = Fail \/ o i = Xfer 0 \/ (length f <= off /\ i = S p))
  | (Stuck, _) => False
  end.
Proof.
  intros o f. induction fuel; intros p off n acc Hn; [lia|]. cbn [s_read].
  destruct (Nat.eqb_spec n 0) as [->|Nn].
  { cbn [seq map]. rewrite app_nil_r. repeat split; auto. lia. }
  assert (E0 : exists m, m < n /\ acc = acc ++ map (byte_at f) (seq off m)).
  { exists 0. split; [lia|]. cbn. rewrite app_nil_r; auto. }
  destruct (o p) as [|k0] eqn:O0.
  { split; auto. exists p. repeat split; auto. intros; lia. }
  destruct (o (S p)) as [|k] eqn:O1.
  { split; auto. exists (S p). repeat split; auto. intros j Hj. replace j with p by lia. congruence. }
  set (rc := min k (min n (length f - off))).
  destruct (Nat.eqb_spec rc 0) as [Z|NZ].
  { split; auto. exists (S p). repeat split; auto.
    - intros j Hj. replace j with p by lia. congruence.
    - destruct (le_lt_dec (length f) off); [right; right; auto|]. right; left.
      unfold rc in Z. replace k with 0 in O1 by lia. auto. }
  assert (Lrc : off + rc <= length f) by (unfold rc; lia).
  assert (Lrn : rc <= n) by (unfold rc; lia).
  rewrite (get_bytes f off rc Lrc).
  assert (Sq : forall m, map (byte_at f) (seq off (rc + m)) =
                         map (byte_at f) (seq off rc) ++ map (byte_at f) (seq (off + rc) m)).
  { intros m. rewrite seq_app, map_app. auto. }
  assert (Sn : map (byte_at f) (seq off n) =
               map (byte_at f) (seq off rc) ++ map (byte_at f) (seq (off + rc) (n - rc))).
  { rewrite <- Sq. f_equal. f_equal. lia. }
  assert (OK2 : forall j, p <= j < S (S p) -> o j <> Fail).
  { intros j Hj. assert (j = p \/ j = S p) by lia. destruct H as [->| ->]; congruence. }
  clearbody rc.
  assert (Rec : forall q, (q = S (S p) \/ (q = S (S (S p)) /\ o (S (S p)) <> Fail /\ off + rc < length f)) ->
    (q = S (S p) -> n - rc = 0) ->
    match s_read fuel o q f (off + rc) (n - rc) (acc ++ map (byte_at f) (seq off rc)) with
    | (Done b, c) => b = acc ++ map (byte_at f) (seq off n) /\ (n = 0 \/ off < length f) /\
        p <= c /\ (forall i, p <= i < c -> o i <> Fail)
    | (IoError b, c) => (exists m, m < n /\ b = acc ++ map (byte_at f) (seq off m)) /\
        exists i, c = S i /\ p <= i /\ (forall j, p <= j < i -> o j <> Fail) /\
          (o i = Fail \/ o i = Xfer 0 \/ (length f <= off /\ i = S p))
    | (Stuck, _) => False
    end).
  { intros q Hq Hz. specialize (IHfuel q (off + rc) (n - rc) (acc ++ map (byte_at f) (seq off rc)) ltac:(lia)).
    assert (Hq' : S (S p) <= q /\ forall j, p <= j < q -> o j <> Fail).
    { destruct Hq as [->|(-> & Hq & _)]; split; auto. intros j Hj.
      assert (J : j < S (S p) \/ j = S (S p)) by lia. destruct J as [J| ->]; auto. apply OK2; lia. }
    destruct Hq' as (Hq1 & Hq2).
    destruct (s_read fuel o q f (off + rc) (n - rc) (acc ++ map (byte_at f) (seq off rc))) as ([b|b|] & c); auto.
    - destruct IHfuel as (I1 & I2 & I3 & I4). split; [|split; [lia|split; [lia|]]].
      + rewrite I1, Sn, app_assoc. auto.
      + intros i Hi. destruct (le_lt_dec q i); [apply I4; lia|apply Hq2; lia].
    - destruct IHfuel as ((m & M1 & M2) & i & I1 & I2 & I3 & I4). split.
      + exists (rc + m). split; [lia|]. rewrite M2, Sq, app_assoc. auto.
      + exists i. split; auto. split; [lia|]. split.
        * intros j Hj. destruct (le_lt_dec q j); [apply I3; lia|apply Hq2; lia].
        * destruct I4 as [I4|[I4|(I4 & _)]]; auto. exfalso.
          destruct Hq as [->|(-> & _ & Hq)]; [specialize (Hz eq_refl); lia|lia]. }
  destruct (Nat.ltb_spec 0 (n - rc)) as [Lz|Lz].
  - destruct (o (S (S p))) as [|k2] eqn:O2.
    { split.
      - exists rc. split; [lia|auto].
      - exists (S (S p)). repeat split; auto. }
    destruct (Nat.eqb_spec (off + rc) (length f)) as [E|E].
    + repeat split.
      * rewrite Sn, app_assoc. f_equal. apply zeros_map. lia.
      * right. lia.
      * lia.
      * intros i Hi. assert (J : i < S (S p) \/ i = S (S p)) by lia. destruct J as [J| ->]; [apply OK2; lia|congruence].
    + apply Rec; [right; repeat split; [congruence|lia]|lia].
  - apply Rec; [auto|lia].
Qed.

Lemma s_read_good : forall o f, (forall i, exists k, o i = Xfer (S k)) ->
  forall fuel p off n acc, n < fuel -> n = 0 \/ off < length f ->
  exists b c, s_read fuel o p f off n acc = (Done b, c).
Proof.
  intros o f Ho. induction fuel; intros p off n acc Hn Hoff; [lia|]. cbn [s_read].
  destruct (Nat.eqb_spec n 0) as [->|Nn]; [eauto|].
  destruct (Ho p) as (k0 & ->). destruct (Ho (S p)) as (k & ->). destruct (Ho (S (S p))) as (k2 & ->).
  set (rc := min (S k) (min n (length f - off))).
  assert (0 < rc) by (unfold rc; lia).
  destruct (Nat.eqb_spec rc 0); [lia|].
  assert (off + rc <= length f) by (unfold rc; lia). clearbody rc.
  destruct (Nat.ltb_spec 0 (n - rc)).
  - destruct (Nat.eqb_spec (off + rc) (length f)); [eauto|]. apply IHfuel; lia.
  - apply IHfuel; lia.
Qed.

Lemma s_write_spec : forall o fuel p f off d, length d < fuel ->
  match s_write fuel o p f off d with
  | (Done f', c) => (d = [] /\ f' = f \/ d <> [] /\ f' = os_write f off d) /\
      p <= c /\ (forall i, p <= i < c -> o i <> Fail)
  | (IoError f', c) =>
      (exists m, m < length d /\ (m = 0 /\ f' = f \/ 0 < m /\ f' = os_write f off (firstn m d))) /\
      exists i, c = S i /\ p <= i /\ (forall j, p <= j < i -> o j <> Fail) /\
        (o i = Fail \/ o i = Xfer 0)
  | (Stuck, _) => False
  end.
Proof.
  intros o. induction fuel; intros p f off d Hn; [lia|]. cbn [s_write].
  destruct (Nat.eqb_spec (length d) 0) as [E|Nn].
  { apply length_zero_iff_nil in E. subst d. split; [auto|]. split; auto. intros; lia. }
  assert (E0 : exists m, m < length d /\ (m = 0 /\ f = f \/ 0 < m /\ f = os_write f off (firstn m d))).
  { exists 0. split; [lia|auto]. }
  destruct (o p) as [|k0] eqn:O0.
  { split; auto. exists p. repeat split; auto. intros; lia. }
  destruct (o (S p)) as [|k] eqn:O1.
  { split; auto. exists (S p). repeat split; auto. intros j Hj. replace j with p by lia. congruence. }
  set (rc := min k (length d)).
  destruct (Nat.eqb_spec rc 0) as [Z|NZ].
  { split; auto. exists (S p). repeat split; auto.
    - intros j Hj. replace j with p by lia. congruence.
    - right. unfold rc in Z. replace k with 0 in O1 by lia. auto. }
  assert (Lrc : rc <= length d) by (unfold rc; lia). clearbody rc.
  specialize (IHfuel (S (S p)) (os_write f off (firstn rc d)) (off + rc) (skipn rc d)).
  rewrite skipn_length in IHfuel. specialize (IHfuel ltac:(lia)).
  assert (OK2 : forall j, p <= j < S (S p) -> o j <> Fail).
  { intros j Hj. assert (H : j = p \/ j = S p) by lia. destruct H as [->| ->]; congruence. }
  destruct (s_write fuel o (S (S p)) (os_write f off (firstn rc d)) (off + rc) (skipn rc d)) as ([f'|f'|] & c); auto.
  - destruct IHfuel as (I1 & I2 & I3). split; [|split; [lia|]].
    + right. split; [intros ->; cbn in *; lia|]. destruct I1 as [(I1 & ->)|(_ & ->)].
      * f_equal. apply (f_equal (@length _)) in I1. rewrite skipn_length in I1. cbn in I1.
        apply firstn_all2. lia.
      * apply os_write_two; auto.
    + intros i Hi. destruct (le_lt_dec (S (S p)) i); [apply I3; lia|apply OK2; lia].
  - destruct IHfuel as ((m & M1 & M2) & i & I1 & I2 & I3 & I4). split.
    + exists (rc + m). split; [lia|]. right. split; [lia|]. destruct M2 as [(-> & ->)|(M2 & ->)].
      * rewrite Nat.add_0_r. auto.
      * rewrite <- (os_write_two f off (firstn (rc + m) d) rc) by (rewrite firstn_length; lia).
        rewrite firstn_firstn, Nat.min_l by lia. f_equal.
        rewrite firstn_skipn_comm. auto.
    + exists i. split; auto. split; [lia|]. split; auto.
      intros j Hj. destruct (le_lt_dec (S (S p)) j); [apply I3; lia|apply OK2; lia].
Qed.

Lemma s_write_good : forall o, (forall i, exists k, o i = Xfer (S k)) ->
  forall fuel p f off d, length d < fuel -> exists f' c, s_write fuel o p f off d = (Done f', c).
Proof.
  intros o Ho. induction fuel; intros p f off d Hn; [lia|]. cbn [s_write].
  destruct (Nat.eqb_spec (length d) 0) as [E|Nn]; [eauto|].
  destruct (Ho p) as (k0 & ->). destruct (Ho (S p)) as (k & ->).
  destruct (Nat.eqb_spec (min (S k) (length d)) 0); [lia|].
  apply IHfuel. rewrite skipn_length. lia.
Qed.

Lemma truncate_spec : forall f n, length (os_truncate f n) = n /\
  forall k, byte_at (os_truncate f n) k = if k <? n then byte_at f k else 0%Z.
Proof.
  intros f n. unfold os_truncate. split.
  - rewrite app_length, firstn_length, repeat_length. lia.
  - intros k. rewrite pad_byte. destruct (Nat.ltb_spec k n).
    + rewrite <- (firstn_skipn n f) at 2. rewrite byte_at_app, firstn_length.
      destruct (Nat.ltb_spec k (min n (length f))); auto.
      unfold byte_at. rewrite nth_overflow by (rewrite firstn_length; lia).
      symmetry. apply nth_overflow. rewrite skipn_length. lia.
    + unfold byte_at. apply nth_overflow. rewrite firstn_length. lia.
Qed.

Lemma set_size_spec : forall o f n,
  match set_size o f n with
  | Done f' => f' = os_truncate f n
  | IoError f' => (f' = f \/ f' = os_truncate f n) /\ exists i, i < 3 /\ o i = Fail
  | Stuck => False
  end.
Proof.
  intros. unfold set_size. destruct (o 0) eqn:O0; [split; [auto|exists 0; auto]|].
  destruct (o 1) eqn:O1; [split; [auto|exists 1; auto]|].
  destruct (length f <? n); auto. destruct (o 2) eqn:O2; auto. split; auto. exists 2; auto.
Qed.

Lemma s_run_spec : forall f0 ops f older f',
  length f = s_size f0 older -> (forall k, byte_at f k = s_byte f0 older k) ->
  s_run f ops = Some f' ->
  length f' = s_size f0 (rev ops ++ older) /\ forall k, byte_at f' k = s_byte f0 (rev ops ++ older) k.
Proof.
  intros f0. induction ops as [|op ops IH]; intros f older f' L N H; cbn [s_run] in H.
  - inversion H; subst. auto.
  - destruct (s_step f op) as [f1|f1|] eqn:St; try discriminate.
    cbn [rev]. rewrite <- app_assoc. cbn [app]. apply (IH f1); auto; destruct op as [o off d|o n]; cbn [s_step] in St.
    + unfold serve_write in St. pose proof (s_write_spec o (S (length d)) 0 f off d ltac:(lia)) as W.
      destruct (s_write (S (length d)) o 0 f off d) as (r & c). cbn in St. subst r.
      destruct W as (W & _). cbn [s_size]. destruct W as [(-> & ->)|(W & ->)].
      * auto.
      * destruct (Nat.eqb_spec (length d) 0) as [E|E]; [apply length_zero_iff_nil in E; congruence|].
        rewrite (proj1 (os_write_spec _ _ _)). lia.
    + pose proof (set_size_spec o f n) as W. rewrite St in W. subst f1. apply truncate_spec.
    + unfold serve_write in St. pose proof (s_write_spec o (S (length d)) 0 f off d ltac:(lia)) as W.
      destruct (s_write (S (length d)) o 0 f off d) as (r & c). cbn in St. subst r.
      destruct W as (W & _). intros k. cbn [s_byte]. destruct W as [(-> & ->)|(W & ->)].
      * replace (covers off (length []) k) with false; auto. symmetry. apply covers_false. cbn. lia.
      * rewrite (proj2 (os_write_spec _ _ _)), N. auto.
    + pose proof (set_size_spec o f n) as W. rewrite St in W. subst f1. intros k.
      rewrite (proj2 (truncate_spec _ _)), N. auto.
Qed.

(** ** File names *)

Fixpoint undigits (l : list ascii) : Decimal.uint :=
  match l with
  | [] => Decimal.Nil
  | c :: l =>
      let u := undigits l in
      if (c =? "0")%char then Decimal.D0 u else if (c =? "1")%char then Decimal.D1 u
      else if (c =? "2")%char then Decimal.D2 u else if (c =? "3")%char then Decimal.D3 u
      else if (c =? "4")%char then Decimal.D4 u else if (c =? "5")%char then Decimal.D5 u
      else if (c =? "6")%char then Decimal.D6 u else if (c =? "7")%char then Decimal.D7 u
      else if (c =? "8")%char then Decimal.D8 u else Decimal.D9 u
  end.

Lemma undigits_digits : forall u, undigits (digits u) = u.
Proof. induction u; cbn [digits undigits]; cbn [Ascii.eqb Bool.eqb]; rewrite ?IHu; auto. Qed.

Lemma undigits_pad : forall n l, N.of_uint (undigits (repeat "0"%char n ++ l)) = N.of_uint (undigits l).
Proof. induction n; intros; auto. cbn [repeat app undigits Ascii.eqb Bool.eqb]. apply IHn. Qed.

Lemma file_name_inj : forall prefix off off', file_name prefix off = file_name prefix off' -> off = off'.
Proof.
  intros prefix off off' H. unfold file_name in H. apply app_inv_head in H. apply app_inv_head in H.
  apply (f_equal (fun l => N.of_uint (undigits l))) in H. rewrite !undigits_pad in H.
  unfold decimal in H. rewrite !undigits_digits, !DecimalN.Unsigned.of_to in H. lia.
Qed.
