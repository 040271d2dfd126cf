(** C100: which bytes and blocks the tools transfer. *)

From Coq Require Import ZArith List Bool Lia ZifyBool.
From Verif Require Import ToolModel ToolSpec.
Import ListNotations.
Local Open Scope Z_scope.

(** ** Preparation *)

Lemma zseq_in : forall n i, In i (zseq n) <-> 0 <= i < n.
Proof.
  intros n i. unfold zseq. rewrite in_map_iff. split.
  - intros (x & <- & Hx). apply in_seq in Hx. lia.
  - intros H. exists (Z.to_nat i). split; [lia|]. apply in_seq. lia.
Qed.

Lemma zseq_nodup : forall n, NoDup (zseq n).
Proof.
  intros n. unfold zseq. generalize (seq_NoDup (Z.to_nat n) 0). generalize (seq 0 (Z.to_nat n)). induction l as [|x l IH]; intros N; cbn; [constructor|].
  inversion N as [|y m N1 N2]; subst. constructor; auto. intros H. apply in_map_iff in H. destruct H as (y & E & Hy). apply N1. replace x with y by lia. exact Hy.
Qed.

Lemma range_app : forall a b c, a <= b <= c -> range a b ++ range b c = range a c.
Proof.
  intros a b c H. unfold range. replace (Z.to_nat (c - a)) with (Z.to_nat (b - a) + Z.to_nat (c - b))%nat by lia.
  rewrite seq_app, map_app. f_equal. cbn [plus].
  assert (G : forall n m, map (fun j => b + Z.of_nat j) (seq m n) = map (fun j => a + Z.of_nat j) (seq (Z.to_nat (b - a) + m) n)).
  { induction n as [|n IH]; intros m; cbn [seq map]; [reflexivity|]. f_equal; [lia|]. rewrite IH. f_equal. f_equal. lia. }
  rewrite (G _ 0%nat). f_equal. f_equal. lia.
Qed.

Lemma div_ceil_spec : forall n d, 0 < d -> div_ceil n d = Done (ceil n d).
Proof.
  intros n d H. unfold div_ceil, ceil. destruct (Z.eqb_spec d 0); [lia|]. f_equal.
  pose proof (Z.div_mod n d ltac:(lia)). pose proof (Z.mod_pos_bound n d H). destruct (Z.eqb_spec (n mod d) 0) as [E|E].
  - apply (Z.div_unique _ _ _ (d - 1)); lia.
  - apply (Z.div_unique _ _ _ (n mod d - 1)); lia.
Qed.

Lemma ceil_spec : forall n d, 0 < d -> d * (ceil n d - 1) < n <= d * ceil n d.
Proof.
  intros n d H. unfold ceil. pose proof (Z.div_mod (n + d - 1) d ltac:(lia)). pose proof (Z.mod_pos_bound (n + d - 1) d H). nia.
Qed.

Lemma ceil_unique : forall n d q, 0 < d -> d * (q - 1) < n <= d * q -> ceil n d = q.
Proof. intros n d q H Hq. pose proof (ceil_spec n d H). nia. Qed.

(** ** create_files *)

Lemma times_flat : forall d p (f : Z -> list wreq) L, NoDup L -> (forall i r, In r (f i) -> w_disk r = i) ->
  times d p (flat_map f L) = if existsb (Z.eqb d) L then times d p (f d) else 0%nat.
Proof.
  intros d p f. unfold times. induction L as [|i L IH]; intros N H; [reflexivity|]. cbn [flat_map existsb]. inversion N as [|y m N1 N2]; subst.
  rewrite filter_app, app_length, IH by auto. destruct (Z.eqb_spec d i) as [->|Hn]; cbn [orb].
  - destruct (existsb (Z.eqb i) L) eqn:E; [|lia]. apply existsb_exists in E. destruct E as (j & Hj & E). apply Z.eqb_eq in E. subst j. contradiction.
  - assert (E : filter (hits d p) (f i) = []).
    { specialize (H i). induction (f i) as [|r l IHl]; [reflexivity|]. cbn [filter]. unfold hits at 1. rewrite (H r (or_introl eq_refl)).
      destruct (Z.eqb_spec i d); [congruence|]. cbn [andb]. apply IHl. intros q Hq. apply H. right. exact Hq. }
    rewrite E. reflexivity.
Qed.

Lemma round_times : forall bs nd offset cur d p, 0 <= cur ->
  times d p (create_round bs nd offset cur) =
  if (0 <=? d) && (d <? nd) && ((offset <=? p) && (p <? offset + 2 * (cur / 2))) then 1%nat else 0%nat.
Proof.
  intros bs nd offset cur d p Hc. unfold create_round. rewrite times_flat.
  2:{ apply zseq_nodup. } 2:{ intros i r H. apply in_map_iff in H. destruct H as (j & <- & _). reflexivity. }
  replace (existsb (Z.eqb d) (zseq nd)) with ((0 <=? d) && (d <? nd)).
  2:{ destruct (existsb (Z.eqb d) (zseq nd)) eqn:E.
      - apply existsb_exists in E. destruct E as (j & Hj & E). apply Z.eqb_eq in E. subst j. apply zseq_in in Hj. lia.
      - apply not_true_iff_false. intros C. assert (In d (zseq nd)) by (apply zseq_in; lia).
        assert (existsb (Z.eqb d) (zseq nd) = true); [|congruence]. apply existsb_exists. exists d. split; auto. apply Z.eqb_refl. }
  destruct ((0 <=? d) && (d <? nd)); [|reflexivity]. cbn [andb].
  change (zseq chunks) with [0; 1]. change chunks with 2. cbn [map]. unfold times, hits. cbn [filter w_disk w_pos w_bytes].
  rewrite Z.eqb_refl. cbn [andb]. assert (0 <= cur / 2) by (apply Z.div_pos; lia). set (h := cur / 2) in *.
  rewrite Z.mul_0_l, Z.mul_1_l, Z.add_0_r.
  destruct (Z.leb_spec offset p); destruct (Z.ltb_spec p (offset + h)); destruct (Z.leb_spec (offset + h) p); destruct (Z.ltb_spec p (offset + h + h));
    destruct (Z.ltb_spec p (offset + 2 * h)); try lia; reflexivity.
Qed.

Lemma create_spec : forall bs nd len, 0 < bs -> bs mod 8 = 0 -> 0 <= nd -> 0 <= len ->
  forall fuel k, 0 <= k -> len - k * bs < Z.of_nat fuel -> (0 < fuel)%nat ->
  exists rounds, create_loop fuel bs nd len (k * bs) = Done rounds /\
    (forall d p, times d p (concat rounds) =
       if (0 <=? d) && (d <? nd) && ((k * bs <=? p) && (p <? len - len mod 2)) then 1%nat else 0%nat) /\
    (forall r, In r (concat rounds) ->
       0 <= w_disk r < nd /\ 0 <= w_bytes r /\ bs * w_disk r <= 4 * w_index r /\ 4 * w_index r + w_bytes r <= bs * (w_disk r + 1) /\
       (forall d p, hits d p r = true -> w_index r + (p - w_pos r) / 4 = source bs len d p) /\
       (len mod 8192 = 0 -> bs mod 8192 = 0 -> w_pos r mod 4096 = 0 /\ w_bytes r mod 4096 = 0 /\ (4 * w_index r) mod 4096 = 0)).
Proof.
  intros bs nd len Hb Hm Hn Hl. induction fuel as [|fuel IH]; intros k Hk Hf Hp; [lia|]. cbn [create_loop].
  destruct (Z.ltb_spec (k * bs) len).
  2:{ exists []. split; [reflexivity|]. split; [|intros r []]. intros d p. cbn.
      destruct ((0 <=? d) && (d <? nd)); cbn [andb]; [|reflexivity]. pose proof (Z.mod_pos_bound len 2 ltac:(lia)).
      destruct (Z.leb_spec (k * bs) p); destruct (Z.ltb_spec p (len - len mod 2)); try lia; reflexivity. }
  destruct (Z.eqb_spec len 0); [nia|]. set (cur := Z.min bs (len - k * bs)). assert (Hc : 0 < cur <= bs) by lia.
  assert (N : exists rounds, create_loop fuel bs nd len (k * bs + cur) = Done rounds /\
    (forall d p, times d p (concat rounds) =
       if (0 <=? d) && (d <? nd) && ((k * bs + cur <=? p) && (p <? len - len mod 2)) then 1%nat else 0%nat) /\
    (forall r, In r (concat rounds) ->
       0 <= w_disk r < nd /\ 0 <= w_bytes r /\ bs * w_disk r <= 4 * w_index r /\ 4 * w_index r + w_bytes r <= bs * (w_disk r + 1) /\
       (forall d p, hits d p r = true -> w_index r + (p - w_pos r) / 4 = source bs len d p) /\
       (len mod 8192 = 0 -> bs mod 8192 = 0 -> w_pos r mod 4096 = 0 /\ w_bytes r mod 4096 = 0 /\ (4 * w_index r) mod 4096 = 0))).
  { destruct (Z.le_gt_cases bs (len - k * bs)) as [G|G].
    - replace (k * bs + cur) with ((k + 1) * bs) by (unfold cur; lia). apply IH; lia.
    - assert (Ec : cur = len - k * bs) by (unfold cur; lia). exists []. split.
      + destruct fuel as [|fuel']; [lia|]. cbn [create_loop]. rewrite Ec. destruct (Z.ltb_spec (k * bs + (len - k * bs)) len); [lia|reflexivity].
      + split; [|intros r []]. intros d p. cbn. destruct ((0 <=? d) && (d <? nd)); cbn [andb]; [|reflexivity]. pose proof (Z.mod_pos_bound len 2 ltac:(lia)).
        destruct (Z.leb_spec (k * bs + cur) p); destruct (Z.ltb_spec p (len - len mod 2)); try lia; reflexivity. }
  destruct N as (rounds & E & Ht & Hr). rewrite E. exists (create_round bs nd (k * bs) cur :: rounds). split; [reflexivity|].
  assert (B8 : bs = 8 * (bs / 8)) by (pose proof (Z.div_mod bs 8 ltac:(lia)); lia). set (e := bs / 8) in *.
  assert (C2 : 0 <= cur / 2 /\ 2 * (cur / 2) <= cur < 2 * (cur / 2) + 2).
  { pose proof (Z.div_mod cur 2 ltac:(lia)). pose proof (Z.mod_pos_bound cur 2 ltac:(lia)). lia. }
  split.
  - intros d p. cbn [concat]. unfold times. rewrite filter_app, app_length. fold (times d p (create_round bs nd (k * bs) cur)).
    fold (times d p (concat rounds)). rewrite Ht, round_times by lia. destruct ((0 <=? d) && (d <? nd)); cbn [andb]; [|reflexivity].
    pose proof (Z.div_mod len 2 ltac:(lia)). pose proof (Z.mod_pos_bound len 2 ltac:(lia)).
    destruct (Z.le_gt_cases bs (len - k * bs)) as [G|G].
    + assert (Ec : cur = bs) by (unfold cur; lia). assert (E2 : 2 * (cur / 2) = bs) by lia. rewrite E2, Ec.
      destruct (Z.leb_spec (k * bs) p); destruct (Z.ltb_spec p (k * bs + bs)); destruct (Z.leb_spec (k * bs + bs) p); destruct (Z.ltb_spec p (len - len mod 2)); try lia; reflexivity.
    + assert (Ec : cur = len - k * bs) by (unfold cur; lia). rewrite B8 in *. assert (E2 : k * (8 * e) + 2 * (cur / 2) = len - len mod 2) by lia. rewrite E2.
      destruct (Z.leb_spec (k * (8 * e)) p); destruct (Z.leb_spec (k * (8 * e) + cur) p); destruct (Z.ltb_spec p (len - len mod 2)); try lia; reflexivity.
  - intros r Hin. cbn [concat] in Hin. apply in_app_iff in Hin. destruct Hin as [Hin|Hin]; [|apply Hr; exact Hin].
    unfold create_round in Hin. apply in_flat_map in Hin. destruct Hin as (i & Hi & Hin). apply zseq_in in Hi. apply in_map_iff in Hin.
    destruct Hin as (j & <- & Hj). apply zseq_in in Hj. change chunks with 2 in *. cbn [w_disk w_index w_pos w_bytes].
    assert (D4 : bs / 4 = 2 * e) by (rewrite B8; replace (8 * e) with (2 * e * 4) by ring; apply Z.div_mul; lia).
    assert (D8 : bs / 2 / 4 = e) by (rewrite B8; replace (8 * e) with (4 * e * 2) by ring; rewrite Z.div_mul by lia; replace (4 * e) with (e * 4) by ring; apply Z.div_mul; lia).
    rewrite D4, D8. assert (Hj2 : j = 0 \/ j = 1) by lia. split; [lia|]. split; [lia|]. split; [destruct Hj2; subst j; lia|].
    split; [destruct Hj2; subst j; lia|]. split.
    + intros d p Hh. unfold hits in Hh. cbn [w_disk w_pos w_bytes] in Hh. assert (Hd : d = i /\ k * bs + j * (cur / 2) <= p < k * bs + j * (cur / 2) + cur / 2) by lia.
      destruct Hd as (-> & Hp2). unfold source. cbv zeta.
      assert (Ep : p mod bs = p - k * bs). { symmetry. apply (Z.mod_unique p bs k); [left; destruct Hj2; subst j; lia|ring]. }
      rewrite Ep. replace (p - (p - k * bs)) with (k * bs) by ring. fold cur. rewrite D4. fold e.
      destruct Hj2 as [-> | ->].
      * destruct (Z.ltb_spec (p - k * bs) (cur / 2)); [|lia]. replace (p - (k * bs + 0 * (cur / 2))) with (p - k * bs) by ring. ring.
      * destruct (Z.ltb_spec (p - k * bs) (cur / 2)); [lia|]. replace (p - (k * bs + 1 * (cur / 2))) with (p - k * bs - cur / 2) by ring. lia.
    + intros L8 S8. assert (Em : cur mod 8192 = 0).
      { destruct (Z.min_spec bs (len - k * bs)) as [[_ Q]|[_ Q]]; fold cur in Q; rewrite Q; [exact S8|].
        pose proof (Z.div_mod len 8192 ltac:(lia)). pose proof (Z.div_mod bs 8192 ltac:(lia)).
        replace (len - k * bs) with ((len / 8192 - k * (bs / 8192)) * 8192) by lia. apply Z.mod_mul. lia. }
      pose proof (Z.div_mod cur 8192 ltac:(lia)) as Q1. pose proof (Z.div_mod bs 8192 ltac:(lia)) as Q2. rewrite Em in Q1. rewrite S8 in Q2.
      assert (H2 : cur / 2 = 4096 * (cur / 8192)) by lia. assert (He : 2 * e = 2048 * (bs / 8192)) by lia.
      split; [|split].
      * rewrite H2, Q2. replace (k * (8192 * (bs / 8192) + 0) + j * (4096 * (cur / 8192))) with ((2 * k * (bs / 8192) + j * (cur / 8192)) * 4096) by ring. apply Z.mod_mul. lia.
      * rewrite H2, Z.mul_comm. apply Z.mod_mul. lia.
      * replace (4 * (2 * e * i + j * e)) with ((2 * (bs / 8192) * i + j * (bs / 8192)) * 4096) by (replace (4 * (2 * e * i + j * e)) with (4 * (2 * e) * i + 2 * (2 * e) * j) by ring; rewrite He; ring). apply Z.mod_mul. lia.
Qed.

(** create_files ends; every byte but the last one of an odd length is written exactly
    once, from inside the part of the buffer that belongs to its disk. *)
Theorem C100_create : forall windows nd len, 0 <= nd -> 0 <= len -> exists fuel0, forall fuel, (fuel0 <= fuel)%nat ->
  exists rounds, create_loop fuel (buffer_size windows) nd len 0 = Done rounds /\
    (forall d p, times d p (concat rounds) = if (0 <=? d) && (d <? nd) && ((0 <=? p) && (p <? len - len mod 2)) then 1%nat else 0%nat) /\
    (forall r, In r (concat rounds) -> 0 <= w_disk r < nd /\ 0 <= w_bytes r /\
       buffer_size windows * w_disk r <= 4 * w_index r /\ 4 * w_index r + w_bytes r <= buffer_size windows * (w_disk r + 1)) /\
    (forall r d p, In r (concat rounds) -> hits d p r = true ->
       buffer_word (w_index r + (p - w_pos r) / 4) = buffer_word (source (buffer_size windows) len d p)) /\
    (len mod 8192 = 0 -> forall r, In r (concat rounds) ->
       w_pos r mod 4096 = 0 /\ w_bytes r mod 4096 = 0 /\ (4 * w_index r) mod 4096 = 0).
Proof.
  intros windows nd len Hn Hl. exists (S (Z.to_nat len)). intros fuel Hf.
  assert (Hb : 0 < buffer_size windows /\ buffer_size windows mod 8 = 0 /\ buffer_size windows mod 8192 = 0) by (destruct windows; vm_compute; auto).
  destruct Hb as (B1 & B2 & B3).
  destruct (create_spec (buffer_size windows) nd len B1 B2 Hn Hl fuel 0) as (rounds & E & Ht & Hr); try lia.
  rewrite Z.mul_0_l in *. exists rounds. split; [exact E|]. split; [exact Ht|]. split; [|split].
  - intros r Hin. destruct (Hr r Hin) as (A1 & A2 & A3 & A4 & _). auto.
  - intros r d p Hin Hh. destruct (Hr r Hin) as (_ & _ & _ & _ & A5 & _). rewrite (A5 d p Hh). reflexivity.
  - intros L r Hin. destruct (Hr r Hin) as (_ & _ & _ & _ & _ & A6). auto.
Qed.
Print Assumptions C100_create.

Theorem C100_create_all_refuted : ~ (forall nd len fuel rounds d p, 0 <= d < nd -> 0 <= p < len ->
  create_loop fuel (buffer_size false) nd len 0 = Done rounds -> times d p (concat rounds) <> 0%nat).
Proof.
  intros H. apply (H 1 5 9%nat [create_round (buffer_size false) 1 0 5] 0 4); [lia|lia| |]; vm_compute; reflexivity.
Qed.
Print Assumptions C100_create_all_refuted.

(** ** benchmark_disks *)

Lemma disks_spec : forall raw nb start endpos, 0 < raw -> 0 < nb -> 0 <= start -> 0 <= endpos ->
  forall fuel k, 0 <= k -> endpos - k * (nb * raw) < Z.of_nat fuel -> (0 < fuel)%nat -> k * (nb * raw) < endpos ->
  exists l, disks_loop fuel raw (nb * raw) start endpos (k * (nb * raw)) (k * nb) = Done l /\
    blocks_of l = range (k * nb) (ceil endpos raw) /\
    blocks_of (filter b_active l) = range (Z.max (k * nb) (Z.min (ceil endpos raw) (ceil start (nb * raw) * nb))) (ceil endpos raw) /\
    counted (filter b_active l) = endpos - Z.max (k * (nb * raw)) (Z.min endpos (ceil start (nb * raw) * (nb * raw))) /\
    (forall r, In r l -> 0 < b_count r <= nb).
Proof.
  intros raw nb start endpos Hr Hn Hs He. set (B := nb * raw). assert (HB : 0 < B) by (unfold B; nia).
  pose proof (ceil_spec endpos raw Hr) as Ce. pose proof (ceil_spec start B HB) as Cs.
  induction fuel as [|fuel IH]; intros k Hk Hf Hp Hlt; [lia|]. cbn [disks_loop].
  destruct (Z.ltb_spec (k * B) endpos); [|lia]. rewrite div_ceil_spec by lia.
  assert (Act : negb (k * B <? start) = true <-> ceil start B <= k).
  { rewrite negb_true_iff, Z.ltb_ge. split; intros; nia. }
  destruct (Z.le_gt_cases endpos ((k + 1) * B)) as [G|G].
  - assert (Ec : Z.min B (endpos - k * B) = endpos - k * B) by lia. rewrite Ec.
    assert (En : ceil (endpos - k * B) raw = ceil endpos raw - k * nb). { apply ceil_unique; auto. unfold B. nia. }
    rewrite En. destruct fuel as [|fuel']; [lia|]. cbn [disks_loop]. destruct (Z.ltb_spec (k * B + (endpos - k * B)) endpos); [lia|].
    exists [mk_round (k * nb) (ceil endpos raw - k * nb) (negb (k * B <? start)) (endpos - k * B)]. split; [reflexivity|].
    assert (Nk : k * nb < ceil endpos raw <= (k + 1) * nb) by (unfold B in *; nia).
    split. { unfold blocks_of. cbn [flat_map b_first b_count]. rewrite app_nil_r. f_equal. lia. }
    cbn [filter b_active]. destruct (negb (k * B <? start)) eqn:A.
    + assert (Q : ceil start B <= k) by (apply Act; reflexivity). split.
      { unfold blocks_of. cbn [flat_map b_first b_count]. rewrite app_nil_r. f_equal; nia. }
      split. { unfold counted. cbn [fold_right b_counted]. nia. }
      intros r [<-|[]]. cbn [b_count]. lia.
    + assert (Q : k < ceil start B) by (destruct (Z.le_gt_cases (ceil start B) k) as [X|X]; auto; apply Act in X; discriminate). split.
      { unfold blocks_of. cbn [flat_map]. replace (Z.max (k * nb) (Z.min (ceil endpos raw) (ceil start B * nb))) with (ceil endpos raw) by nia.
        unfold range. rewrite Z.sub_diag. reflexivity. }
      split. { unfold counted. cbn [fold_right]. nia. }
      intros r [<-|[]]. cbn [b_count]. lia.
  - assert (Ec : Z.min B (endpos - k * B) = B) by lia. rewrite Ec.
    assert (En : ceil B raw = nb). { apply ceil_unique; auto. unfold B. nia. }
    rewrite En. replace (k * B + B) with ((k + 1) * B) by ring. replace (k * nb + nb) with ((k + 1) * nb) by ring.
    destruct (IH (k + 1)) as (l & E & H1 & H2 & H3 & H4); try lia. rewrite E.
    exists (mk_round (k * nb) nb (negb (k * B <? start)) B :: l). split; [reflexivity|].
    assert (Nk : (k + 1) * nb <= ceil endpos raw) by (unfold B in *; nia).
    split. { change (blocks_of (mk_round (k * nb) nb (negb (k * B <? start)) B :: l)) with (range (k * nb) (k * nb + nb) ++ blocks_of l).
             rewrite H1. replace (k * nb + nb) with ((k + 1) * nb) by ring. apply range_app. nia. }
    cbn [filter b_active]. destruct (negb (k * B <? start)) eqn:A.
    + assert (Q : ceil start B <= k) by (apply Act; reflexivity). split.
      { change (range (k * nb) (k * nb + nb) ++ blocks_of (filter b_active l) = range (Z.max (k * nb) (Z.min (ceil endpos raw) (ceil start B * nb))) (ceil endpos raw)).
        rewrite H2. replace (Z.max ((k + 1) * nb) (Z.min (ceil endpos raw) (ceil start B * nb))) with (k * nb + nb) by nia.
        replace (Z.max (k * nb) (Z.min (ceil endpos raw) (ceil start B * nb))) with (k * nb) by nia. apply range_app. nia. }
      split. { change (B + counted (filter b_active l) = endpos - Z.max (k * B) (Z.min endpos (ceil start B * B))). rewrite H3. nia. }
      intros r [<-|Hin]; [cbn [b_count]; lia|apply H4; exact Hin].
    + assert (Q : k < ceil start B) by (destruct (Z.le_gt_cases (ceil start B) k) as [X|X]; auto; apply Act in X; discriminate). split.
      { rewrite H2. f_equal. nia. }
      split. { rewrite H3. nia. }
      intros r [<-|Hin]; [cbn [b_count]; lia|apply H4; exact Hin].
Qed.

(** benchmark_disks ends; it allocates the blocks up to the end of the range, and
    writes and reads each of those from the first whole batch on exactly once. *)
Theorem C100_disks : forall size start bb raw ndisks, 0 < size -> 0 <= start -> 0 <= bb -> 0 < raw -> 0 < ndisks ->
  let nb := if bb =? 0 then ndisks else bb in
  let first := ceil start (nb * raw) in
  exists fuel0, forall fuel, (fuel0 <= fuel)%nat -> exists l, disks fuel size start bb raw ndisks = Done (nb, l) /\
    blocks_of l = range 0 (ceil (start + size) raw) /\
    blocks_of (filter b_active l) = range (Z.min (ceil (start + size) raw) (first * nb)) (ceil (start + size) raw) /\
    counted (filter b_active l) = start + size - Z.min (start + size) (first * (nb * raw)) /\
    (counted (filter b_active l) = size <-> start mod (nb * raw) = 0) /\
    (forall r, In r l -> 0 < b_count r <= nb).
Proof.
  intros size start bb raw ndisks Hz Hs Hb Hr Hd nb first. assert (Hn : 0 < nb) by (unfold nb; destruct (Z.eqb_spec bb 0); lia).
  exists (Datatypes.S (Z.to_nat (start + size))). intros fuel Hf. unfold disks. fold nb. rewrite div_ceil_spec by lia.
  assert (En : ceil (raw * nb) raw = nb) by (apply ceil_unique; nia). rewrite En.
  destruct (disks_spec raw nb start (start + size) Hr Hn Hs ltac:(lia) fuel 0) as (l & E & H1 & H2 & H3 & H4); try lia.
  rewrite !Z.mul_0_l in *. rewrite E. exists l. split; [reflexivity|]. split; [exact H1|]. fold first in H2, H3.
  assert (HB : 0 < nb * raw) by nia. pose proof (ceil_spec start (nb * raw) HB) as Cs. fold first in Cs.
  pose proof (ceil_spec (start + size) raw Hr) as Ce. assert (F0 : 0 <= first) by nia.
  assert (Mf : 0 <= first * nb) by nia. assert (Mg : 0 <= first * (nb * raw)) by nia.
  split. { rewrite H2. f_equal. nia. }
  split. { rewrite H3. lia. }
  split; [|exact H4]. rewrite H3. split.
  - intros Q. assert (Ef : start = first * (nb * raw)) by lia. rewrite Ef. apply Z.mod_mul. lia.
  - intros Q. pose proof (Z.div_mod start (nb * raw) ltac:(lia)) as X. rewrite Q in X.
    assert (Ef : first = start / (nb * raw)) by (apply ceil_unique; lia). rewrite Ef. lia.
Qed.
Print Assumptions C100_disks.

Theorem C100_disks_undefined : forall fuel size start bb ndisks, disks fuel size start bb 0 ndisks = Undefined.
Proof. reflexivity. Qed.
Print Assumptions C100_disks_undefined.

(** ** benchmark_disks_random *)

Lemma firstn_plus : forall a b (w : list Z), firstn (a + b) w = firstn a w ++ firstn b (skipn a w).
Proof.
  induction a as [|a IH]; intros b w; [reflexivity|]. destruct w as [|x w]; cbn [plus firstn skipn app]; [rewrite firstn_nil; reflexivity|]. f_equal. apply IH.
Qed.

Lemma skipn_plus : forall a b (w : list Z), skipn a (skipn b w) = skipn (b + a) w.
Proof. intros a b. induction b as [|b IH]; intros w; [reflexivity|]. destruct w as [|x w]; cbn [plus skipn]; [apply skipn_nil|apply IH]. Qed.

Lemma random_spec : forall ib (v : list Z), 0 < ib -> forall fuel off rem, 0 <= off -> 0 <= rem -> off + rem <= Z.of_nat (length v) ->
  rem < Z.of_nat fuel ->
  exists l, random_loop fuel ib off rem = Done l /\
    concat (map (map (fun p => nth (Z.to_nat p) v (-1))) l) = firstn (Z.to_nat rem) (skipn (Z.to_nat off) v) /\
    (forall b, In b l -> (0 < length b)%nat /\ Z.of_nat (length b) <= ib /\ Z.of_nat (length b) <= rem).
Proof.
  intros ib v Hi. induction fuel as [|fuel IH]; intros off rem Ho Hr Hv Hf; [lia|]. cbn [random_loop].
  destruct (Z.eqb_spec rem 0) as [->|Hn]; [exists []; split; [reflexivity|split; [reflexivity|intros b []]]|].
  set (this := Z.min ib rem). assert (Ht : 0 < this <= ib /\ this <= rem) by lia.
  destruct (IH (off + this) (rem - this)) as (l & E & H1 & H2); try lia. rewrite E.
  exists (map (fun j => j + off) (zseq this) :: l). split; [reflexivity|]. split.
  - cbn [map concat]. rewrite H1. replace (Z.to_nat rem) with (Z.to_nat this + Z.to_nat (rem - this))%nat by lia.
    rewrite firstn_plus. f_equal.
    + rewrite map_map. unfold zseq. rewrite map_map.
      transitivity (map (fun j => nth j (skipn (Z.to_nat off) v) (-1)) (seq 0 (Z.to_nat this))).
      * apply map_ext_in. intros j Hj. apply in_seq in Hj. rewrite <- (firstn_skipn (Z.to_nat off) v) at 1.
        rewrite app_nth2; rewrite firstn_length; [f_equal; lia|lia].
      * assert (G : forall n (w : list Z), (n <= length w)%nat -> map (fun j => nth j w (-1)) (seq 0 n) = firstn n w).
        { induction n as [|n IHn]; intros w Hw; [reflexivity|]. destruct w as [|x w]; [cbn in Hw; lia|]. cbn [seq map firstn nth]. f_equal.
          rewrite <- seq_shift, map_map. apply IHn. cbn in Hw. lia. }
        apply G. rewrite skipn_length. lia.
    + rewrite skipn_plus. f_equal. f_equal. lia.
  - intros b [<-|Hin].
    + rewrite map_length. unfold zseq. rewrite map_length, seq_length. lia.
    + destruct (H2 b Hin) as (A & B & C). lia.
Qed.

(** benchmark_disks_random, each of writing and reading: ends; the first blocks of the
    shuffled vector are used, each once, and no batch exceeds the arrays. *)
Theorem C100_random : forall span block work batch v, 0 < span -> 0 < block <= 128 * MiB -> 0 <= work -> 0 <= batch ->
  Z.of_nat (length v) = ceil span block -> exists fuel0, forall fuel, (fuel0 <= fuel)%nat ->
  exists nb batches, random fuel span block work batch v = Done (Ran (ceil span block) nb batches) /\
    nb = (if work =? 0 then ceil span block else Z.min (ceil work block) (ceil span block)) /\ 0 < nb /\
    concat batches = firstn (Z.to_nat nb) v /\
    (forall b, In b batches -> (0 < length b)%nat /\ Z.of_nat (length b) <= ceil span block /\
       (batch <> 0 -> Z.of_nat (length b) <= ceil batch block)).
Proof.
  intros span block work batch v Hs Hb Hw Ht Hv. pose proof (ceil_spec span block ltac:(lia)) as Cs. pose proof (ceil_spec work block ltac:(lia)) as Cw.
  assert (Ns : 0 < ceil span block) by nia. assert (Nw : 0 <= ceil work block) by nia.
  exists (S (length v)). intros fuel Hf. unfold random. destruct (Z.ltb_spec (128 * MiB) block); [lia|]. rewrite !div_ceil_spec by lia. cbv zeta.
  set (nb := if Z.min (ceil work block) (ceil span block) =? 0 then ceil span block else Z.min (ceil work block) (ceil span block)).
  assert (Hn : nb = (if work =? 0 then ceil span block else Z.min (ceil work block) (ceil span block)) /\ 0 < nb <= ceil span block).
  { unfold nb. destruct (Z.eqb_spec work 0) as [->|Hw0].
    - assert (Ez : ceil 0 block = 0) by (apply ceil_unique; lia). rewrite Ez in *. rewrite Z.min_l by lia. cbn. lia.
    - assert (0 < ceil work block) by nia. destruct (Z.eqb_spec (Z.min (ceil work block) (ceil span block)) 0); lia. }
  destruct Hn as (Hn1 & Hn2). set (batch' := if batch =? 0 then nb * block else batch).
  assert (Hb' : 0 < batch') by (unfold batch'; destruct (Z.eqb_spec batch 0); nia). pose proof (ceil_spec batch' block ltac:(lia)) as Cb.
  assert (Ib : 0 < ceil batch' block) by nia. rewrite div_ceil_spec by lia.
  destruct (random_spec (ceil batch' block) v Ib fuel 0 nb) as (l & E & H1 & H2); try lia. rewrite E.
  exists nb. eexists. split; [reflexivity|]. split; [exact Hn1|]. split; [lia|]. split; [exact H1|].
  intros b Hin. apply in_map_iff in Hin. destruct Hin as (b0 & <- & Hin). rewrite map_length. destruct (H2 b0 Hin) as (A & B & C).
  split; [exact A|]. split; [lia|]. intros Hz. unfold batch' in B. destruct (Z.eqb_spec batch 0); [contradiction|exact B].
Qed.
Print Assumptions C100_random.

(** Nothing to do is a division by zero, unless a batch size is given. *)
Theorem C100_random_undefined : forall fuel span block work batch v, 0 <= block <= 128 * MiB -> 0 <= work ->
  block = 0 \/ span = 0 /\ batch = 0 -> random fuel span block work batch v = Undefined.
Proof.
  intros fuel span block work batch v Hb Hw H. unfold random. destruct (Z.ltb_spec (128 * MiB) block); [lia|].
  destruct (Z.eq_dec block 0) as [->|Hn]; [reflexivity|]. destruct H as [|(-> & ->)]; [contradiction|]. rewrite !(fun n => div_ceil_spec n block) by lia. cbv zeta.
  assert (Ez : ceil 0 block = 0) by (apply ceil_unique; lia). rewrite Ez. pose proof (ceil_spec work block ltac:(lia)) as Cw.
  assert (0 <= ceil work block) by nia. rewrite Z.min_r by lia. rewrite !Z.eqb_refl. rewrite Z.mul_0_l, Ez. reflexivity.
Qed.
Print Assumptions C100_random_undefined.

Theorem C100_random_refused : forall fuel span block work batch v, 0 < block ->
  (random fuel span block work batch v = Done Refused <-> 128 * MiB < block).
Proof.
  intros fuel span block work batch v Hb. unfold random. destruct (Z.ltb_spec (128 * MiB) block); [split; auto|]. split; [|lia].
  intros E. exfalso. rewrite !div_ceil_spec in E by lia. cbv zeta in E.
  repeat match type of E with context [match ?x with Done _ => _ | Undefined => _ | Fuel => _ end] => destruct x; try discriminate E end.
Qed.
Print Assumptions C100_random_refused.

(** ** Cases *)

(** Two disks of 256 MiB and 10 bytes: the second round writes 5 bytes and 5 bytes. *)
Example C100_create_case :
  create_loop 9 (buffer_size false) 2 (256 * MiB + 10) 0 =
    Done [ [ mk_wreq 0 0 0 134217728; mk_wreq 0 33554432 134217728 134217728;
             mk_wreq 1 67108864 0 134217728; mk_wreq 1 100663296 134217728 134217728 ];
           [ mk_wreq 0 0 268435456 5; mk_wreq 0 33554432 268435461 5;
             mk_wreq 1 67108864 268435456 5; mk_wreq 1 100663296 268435461 5 ] ].
Proof. vm_compute. reflexivity. Qed.

(** From 10 for 30 with batches of two blocks of four bytes: the first two batches are
    only allocated, and 24 of the 30 bytes are counted. *)
Example C100_disks_case :
  disks 20 30 10 0 4 2 =
    Done (2, [ mk_round 0 2 false 8; mk_round 2 2 false 8; mk_round 4 2 true 8; mk_round 6 2 true 8; mk_round 8 2 true 8 ]) /\
  ceil 10 (2 * 4) * 2 = 4.
Proof. vm_compute. auto. Qed.

Theorem C100_disks_size_refuted : ~ (forall fuel size start bb raw ndisks n l, 0 < size -> 0 <= start -> 0 < bb -> 0 < raw -> 0 < ndisks ->
  disks fuel size start bb raw ndisks = Done (n, l) -> counted (filter b_active l) = size).
Proof.
  intros H. specialize (H 20%nat 30 10 2 4 2 2 _ ltac:(lia) ltac:(lia) ltac:(lia) ltac:(lia) ltac:(lia) eq_refl).
  vm_compute in H. discriminate H.
Qed.
Print Assumptions C100_disks_size_refuted.

(** Five blocks in the span, three to be used, batches of two. *)
Example C100_random_case :
  random 20 20 4 11 8 [3; 0; 4; 1; 2] = Done (Ran 5 3 [[3; 0]; [4]]) /\
  random 20 20 4 0 0 [3; 0; 4; 1; 2] = Done (Ran 5 5 [[3; 0; 4; 1; 2]]) /\
  random 20 0 4 0 0 [] = Undefined /\ random 20 0 4 0 8 [] = Done (Ran 0 0 []).
Proof. vm_compute. auto. Qed.
