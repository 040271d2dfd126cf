(** Lemmas about printing and parsing of disk options. *)

From Coq Require DecimalPos.
From Coq Require Import String Ascii List Arith Bool ZArith Lia.
From Verif Require Import FileModel ConfigModel ConfigSpec.
Import ListNotations.
Local Open Scope list_scope.

Lemma seq_true a b : seq a b = true <-> a = b.
Proof. unfold seq. destruct (list_eq_dec ascii_dec a b); split; congruence. Qed.

Lemma seq_refl a : seq a a = true.
Proof. apply seq_true; reflexivity. Qed.

Lemma seq_false a b : seq a b = false <-> a <> b.
Proof. unfold seq. destruct (list_eq_dec ascii_dec a b); split; congruence. Qed.

(** ** split *)

Lemma split_go_nosep sep lim cur s :
  ~ In sep s -> split_go sep lim cur s = [cur ++ s].
Proof.
  revert cur; induction s as [|c s IH]; intros cur H; cbn.
  - rewrite app_nil_r. reflexivity.
  - destruct (ascii_dec c sep) as [->|Hn].
    + exfalso; apply H; left; reflexivity.
    + rewrite IH by (intro; apply H; right; assumption).
      rewrite <- app_assoc. reflexivity.
Qed.

Lemma split_go_sep sep lim cur a b :
  ~ In sep a -> match lim with Some n => (2 <= n)%nat | None => True end ->
  split_go sep lim cur (a ++ sep :: b) =
  (cur ++ a) :: split_go sep (option_map (fun n => n - 1)%nat lim) [] b.
Proof.
  revert cur; induction a as [|c a IH]; intros cur H Hl; cbn.
  - destruct (ascii_dec sep sep) as [_|]; [|congruence].
    rewrite app_nil_r. destruct lim as [n|]; cbn; [|reflexivity].
    replace (n <=? 1)%nat with false by (symmetry; apply Nat.leb_gt; lia). reflexivity.
  - destruct (ascii_dec c sep) as [->|Hn].
    + exfalso; apply H; left; reflexivity.
    + rewrite IH; [|intro; apply H; right; assumption|assumption].
      rewrite <- app_assoc. reflexivity.
Qed.

Lemma split_go_last sep cur s : split_go sep (Some 1%nat) cur s = [cur ++ s].
Proof.
  revert cur; induction s as [|c s IH]; intros cur; cbn.
  - rewrite app_nil_r. reflexivity.
  - destruct (ascii_dec c sep) as [->|Hn]; [reflexivity|].
    rewrite IH, <- app_assoc. reflexivity.
Qed.

Lemma split2_eq sep k v :
  ~ In sep k -> split_min sep (k ++ sep :: v) 2 2 = [k; v].
Proof.
  intros H. unfold split_min. rewrite split_go_sep by (auto; cbn; lia).
  cbn [option_map]. change (2 - 1)%nat with 1%nat. rewrite split_go_last. reflexivity.
Qed.

Lemma split2_none sep s : ~ In sep s -> split_min sep s 2 2 = [s; []].
Proof. intros H. unfold split_min. rewrite split_go_nosep by assumption. reflexivity. Qed.

Lemma split_join sep ts t :
  Forall (fun x => ~ In sep x) (ts ++ [t]) ->
  split sep (concat (map (fun x => x ++ [sep]) ts) ++ t) = ts ++ [t].
Proof.
  unfold split. induction ts as [|a ts IH]; intros H; cbn.
  - rewrite split_go_nosep; [reflexivity|]. inversion H; assumption.
  - inversion H; subst. rewrite <- !app_assoc. cbn [app].
    rewrite split_go_sep by auto. cbn [app option_map]. rewrite IH by assumption. reflexivity.
Qed.

(** ** Numbers *)


Fixpoint uval (acc : Z) (u : Decimal.uint) : Z :=
  match u with
  | Decimal.Nil => acc
  | Decimal.D0 u => uval (10 * acc + 0) u
  | Decimal.D1 u => uval (10 * acc + 1) u
  | Decimal.D2 u => uval (10 * acc + 2) u
  | Decimal.D3 u => uval (10 * acc + 3) u
  | Decimal.D4 u => uval (10 * acc + 4) u
  | Decimal.D5 u => uval (10 * acc + 5) u
  | Decimal.D6 u => uval (10 * acc + 6) u
  | Decimal.D7 u => uval (10 * acc + 7) u
  | Decimal.D8 u => uval (10 * acc + 8) u
  | Decimal.D9 u => uval (10 * acc + 9) u
  end%Z.

Lemma read_digits_uval u : forall acc, read_digits acc (digits u) = (uval acc u, []).
Proof.
  induction u; intros acc; cbn [digits read_digits uval]; auto;
    match goal with |- context[digit_value ?c] =>
      let v := eval vm_compute in (digit_value c) in change (digit_value c) with v end;
    cbv iota beta; apply IHu.
Qed.

Lemma pos_of_uint_acc_uval u :
  forall acc, Zpos (Pos.of_uint_acc u acc) = uval (Zpos acc) u.
Proof.
  induction u; intros acc; cbn [Pos.of_uint_acc uval]; auto; rewrite IHu; f_equal; lia.
Qed.

Lemma of_uint_uval u : Z.of_N (Pos.of_uint u) = uval 0 u.
Proof.
  induction u; cbn [Pos.of_uint uval]; auto;
    try (rewrite <- pos_of_uint_acc_uval || idtac); cbn [Z.of_N];
    rewrite ?pos_of_uint_acc_uval; auto.
Qed.

Lemma uval_to_uint p : uval 0 (Pos.to_uint p) = Zpos p.
Proof. rewrite <- of_uint_uval, DecimalPos.Unsigned.of_to. reflexivity. Qed.

Lemma digits_digit u c : In c (digits u) -> exists v, digit_value c = Some v.
Proof.
  induction u; cbn; intros H; try tauto;
    (destruct H as [<-|H]; [eexists; vm_compute; reflexivity|auto]).
Qed.

Lemma to_uint_nonempty p : exists c t, digits (Pos.to_uint p) = c :: t.
Proof.
  destruct (Pos.to_uint p) eqn:E; cbn; eauto.
  pose proof (DecimalPos.Unsigned.of_to p) as H. rewrite E in H. discriminate.
Qed.

(** strtoul of a text consisting of digits only. *)
Lemma strtoul_digits u c t (neg : bool) :
  digits u = c :: t -> (uval 0 u <= ULONG_MAX)%Z ->
  strtoul (if neg then "-"%char :: digits u else digits u) =
  ((if neg then (- uval 0 u) mod 2 ^ 64 else uval 0 u)%Z, []).
Proof.
  intros E Hb.
  assert (Hd : exists v, digit_value c = Some v)
    by (apply (digits_digit u); rewrite E; left; reflexivity).
  destruct Hd as (v & Hv).
  assert (Hns : is_space c = false).
  { unfold digit_value in Hv. unfold is_space.
    destruct ((48 <=? nat_of_ascii c) && (nat_of_ascii c <=? 57))%nat eqn:E2; [|discriminate].
    apply andb_prop in E2. destruct E2 as (A & B).
    apply Nat.leb_le in A, B. apply orb_false_intro.
    - apply Nat.eqb_neq; lia.
    - apply andb_false_iff. right. apply Nat.leb_gt; lia. }
  assert (Hm : c <> "-"%char) by (intros ->; vm_compute in Hv; discriminate).
  assert (Hp : c <> "+"%char) by (intros ->; vm_compute in Hv; discriminate).
  pose proof (read_digits_uval u 0) as R. rewrite E in *.
  unfold strtoul. destruct neg.
  - cbn [skip_space]. change (is_space "-") with false. cbv iota beta.
    destruct (ascii_dec "-" "-"); [|congruence].
    rewrite Hv, R. replace (ULONG_MAX <? uval 0 u)%Z with false; [reflexivity|].
    symmetry; apply Z.ltb_ge; assumption.
  - cbn [skip_space]. rewrite Hns.
    destruct (ascii_dec c "-"); [congruence|]. destruct (ascii_dec c "+"); [congruence|].
    rewrite Hv, R. replace (ULONG_MAX <? uval 0 u)%Z with false; [reflexivity|].
    symmetry; apply Z.ltb_ge; assumption.
Qed.

Lemma number_print z :
  (- 2 ^ 63 <= z < 2 ^ 63)%Z -> number (print_int z) = Some (z mod 2 ^ 64)%Z.
Proof.
  intros H. unfold number, print_int. destruct z as [|p|p]; cbn [Z.to_int].
  - reflexivity.
  - destruct (to_uint_nonempty p) as (c & t & E).
    pose proof (strtoul_digits _ _ _ false E) as S0. cbv iota in S0.
    rewrite uval_to_uint in S0. rewrite S0 by (unfold ULONG_MAX; lia).
    cbn [at_end]. rewrite Z.mod_small by lia. reflexivity.
  - destruct (to_uint_nonempty p) as (c & t & E).
    pose proof (strtoul_digits _ _ _ true E) as S0. cbv iota in S0.
    rewrite uval_to_uint in S0. rewrite S0 by (unfold ULONG_MAX; lia).
    cbn [at_end]. reflexivity.
Qed.

Lemma to_int_mod z : (- 2 ^ 31 <= z < 2 ^ 31)%Z -> to_int (z mod 2 ^ 64) = z.
Proof.
  intros H. unfold to_int.
  assert (E : ((z mod 2 ^ 64 + 2 ^ 31) mod 2 ^ 32 = (z + 2 ^ 31) mod 2 ^ 32)%Z).
  { rewrite (Z.mod_eq z) by lia.
    replace (z - 2 ^ 64 * (z / 2 ^ 64) + 2 ^ 31)%Z
      with (z + 2 ^ 31 + (- 2 ^ 32 * (z / 2 ^ 64)) * 2 ^ 32)%Z by lia.
    apply Z.mod_add. lia. }
  rewrite E, Z.mod_small by lia. lia.
Qed.

Lemma to_uint_mod z : (0 <= z < 2 ^ 32)%Z -> to_uint (to_int (z mod 2 ^ 64)) = z.
Proof.
  intros H. unfold to_uint, to_int. rewrite (Z.mod_small z) by lia.
  rewrite Z.mod_eq with (a := (z + 2 ^ 31)%Z) by lia.
  replace (z + 2 ^ 31 - 2 ^ 32 * ((z + 2 ^ 31) / 2 ^ 32) - 2 ^ 31)%Z
    with (z + (- ((z + 2 ^ 31) / 2 ^ 32)) * 2 ^ 32)%Z by lia.
  rewrite Z.mod_add by lia. apply Z.mod_small; lia.
Qed.

Lemma to_int_range z : (- 2 ^ 31 <= to_int z < 2 ^ 31)%Z.
Proof. unfold to_int. pose proof (Z.mod_pos_bound (z + 2 ^ 31) (2 ^ 32)). lia. Qed.

Lemma to_uint_range z : (0 <= to_uint z < 2 ^ 32)%Z.
Proof. unfold to_uint. apply Z.mod_pos_bound. lia. Qed.

Lemma print_int_chars z c : In c (print_int z) -> c <> " "%char /\ c <> "="%char.
Proof.
  unfold print_int. intros H.
  assert (D : forall u, In c (digits u) -> c <> " "%char /\ c <> "="%char).
  { intros u Hu. destruct (digits_digit _ _ Hu) as (v & Hv).
    split; intros ->; vm_compute in Hv; discriminate. }
  destruct (Z.to_int z); [eauto|]. destruct H as [<-|H]; [split; discriminate|eauto].
Qed.
