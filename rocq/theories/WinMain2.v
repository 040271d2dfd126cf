(** Transfers, opening, sizes. *)
From Coq Require Import ZArith NArith List Bool Lia PeanoNat.
From Verif Require Import OpenModel WinModel WinSpec WinProofs WinMain.
Import ListNotations.
Local Open Scope Z_scope.

(** * Transfers of one object *)

Lemma last_cons : forall wr ws x, last_byte (wr :: ws) x =
  match last_byte ws x with
  | Some v => Some v
  | None => if covers x wr then Some (nth (Z.to_nat (x - fst wr)) (snd wr) 0) else None
  end.
Proof.
  intros wr ws x. unfold last_byte. simpl rev.
  assert (G : forall l, find (covers x) (l ++ [wr]) = match find (covers x) l with Some y => Some y | None => if covers x wr then Some wr else None end).
  { induction l as [|y l IH]; simpl; [destruct (covers x wr); auto|]. destruct (covers x y); auto. }
  rewrite G. destruct (find (covers x) (rev ws)) as [[off d]|]; auto. destruct (covers x wr); auto. destruct wr; auto.
Qed.

(** A ready object: its handle and file. *)
Definition view (w : world) (o : nat) (ob : wobj) (h : nat) (r : whandle) (f : wfile) : Prop :=
  ready w o ob h /\ find_handle (w_k w) h = Some r /\ h_path r = o_path ob /\ h_foreign r = false /\
  k_files (w_k w) (o_path ob) = Some f.

Lemma ready_view : forall w o ob h, winv w -> ready w o ob h -> exists r f, view w o ob h r f.
Proof.
  intros w o ob h W (E & P & D). destruct (wi_objs _ W o ob E h D) as (_ & r & F & Hp & Hf).
  destruct (ki_ours _ (wi_k _ W) h r F Hf) as [_ Hn]. rewrite Hp in Hn.
  destruct (k_files (w_k w) (o_path ob)) as [f|] eqn:Ef; [|congruence]. exists r, f. split; [split; auto|auto].
Qed.

Definition same_rights (r r' : whandle) : Prop :=
  h_read r' = h_read r /\ h_write r' = h_write r /\ h_nobuf r' = h_nobuf r.

Lemma pointer_spec : forall k h n k', set_pointer k h n = Some k' ->
  n < 2 ^ 63 /\ k_files k' = k_files k /\ forall r, find_handle k h = Some r ->
    find_handle k' h = Some (mk_whandle (h_path r) (h_read r) (h_write r) (h_nobuf r) (h_foreign r) (h_share r) (h_locked r) n).
Proof.
  intros k h n k' E. unfold set_pointer in E. destruct (find_handle k h) as [r0|] eqn:F; [|discriminate].
  destruct (Z.ltb_spec n (2 ^ 63)); [|discriminate]. injection E as <-. split; auto. split; auto.
  intros r Fr. injection Fr as <-. rewrite find_set by congruence. rewrite Nat.eqb_refl. reflexivity.
Qed.

Lemma view_kernel : forall w o ob h r f k' r' f', view w o ob h r f -> find_handle k' h = Some r' ->
  h_path r' = h_path r -> h_foreign r' = h_foreign r -> k_files k' (o_path ob) = Some f' ->
  view (mk_world k' (w_objs w)) o ob h r' f'.
Proof.
  intros w o ob h r f k' r' f' (Rd & F & Hp & Hf & Ef) F' Hp' Hf' Ef'.
  split; [exact Rd|]. cbn [w_k]. split; auto. split; [congruence|]. split; [congruence|auto].
Qed.

Lemma firstn_all_eq : forall (A : Type) n (l : list A), length (firstn n l) = length l -> firstn n l = l.
Proof.
  intros A n l H. rewrite firstn_length in H. apply firstn_all2. lia.
Qed.

Lemma step_own : forall b w o ob h r f a ev w', view w o ob h r f -> step b w a = Step w' ev ->
  actor a = Some o ->
  match a with
  | ASize _ => w' = w /\ ev = EvSize (f_size f)
  | ALock _ _ => exists ob' r', view w' o ob' h r' f /\ o_path ob' = o_path ob /\ same_rights r r' /\
      (ev = EvDone -> o_locked ob = false -> h_locked r' = true)
  | AServe _ buf off (READ n) _ => exists r', view w' o ob h r' f /\ same_rights r r' /\
      (forall l, ev = EvRead l -> off < 2 ^ 63 /\ 0 <= n < 2 ^ 32 /\ h_read r = true /\ l = bytes_at f off n /\ (n = 0 \/ off + n <= f_size f))
  | AServe _ buf off (WRITE d) e => exists r' f', view w' o ob h r' f' /\ same_rights r r' /\
      (ev = EvDone -> 0 <= off /\ Z.of_nat (length d) < 2 ^ 32 /\ h_write r = true /\ f' = match d with [] => f | _ => overwrite f off d (e_junk e) end)
  | _ => True
  end.
Proof.
  intros b w o ob h r f a ev w' V E A. pose proof V as ((Eo & P & D) & F & Hp & Hf & Ef).
  assert (Id : idle w o = Some ob) by (unfold idle; rewrite Eo, P; reflexivity).
  destruct a as [o1 p mode e|o1 e|o1|o1 n e|o1 e|o1 e|o1 buf off t e|o1 e|o1 e|p rd wr sh|h1|p f1]; cbn [actor] in A;
    try discriminate A; injection A as ->; cbn [step] in E; try exact I; rewrite ?Id in E.
  - unfold lock_step in E. rewrite D in E. destruct (o_locked ob) eqn:Lk.
    { injection E as <- <-. exists ob, r. split; auto. split; auto. split; [split; auto|]. congruence. }
    unfold lock_file in E. rewrite F in E. destruct (e_lock e).
    + injection E as <- <-. eexists. eexists. split; [|split; [|split]].
      * split; [split; [unfold put, upd; cbn [w_objs]; rewrite Nat.eqb_refl; reflexivity|split; auto]|].
        cbn [w_k put]. rewrite find_set by congruence. rewrite Nat.eqb_refl. auto.
      * reflexivity.
      * split; auto.
      * auto.
    + injection E as <- <-. exists ob, r. split; auto. split; auto. split; [split; auto|]. discriminate.
  - unfold file_size in E. rewrite D, F, Hp, Ef in E. injection E as <- <-. auto.
  - destruct (Z.leb_spec 0 off) as [H0|H0]; [|discriminate]. unfold serve_step in E. rewrite D in E.
    destruct (set_pointer (w_k w) h off) as [k1|] eqn:Sp.
    2:{ injection E as <- <-. destruct t as [n|d].
        - exists r. split; auto. split; [split; auto|]. discriminate.
        - exists r, f. split; auto. split; [split; auto|]. discriminate. }
    destruct (pointer_spec _ _ _ _ Sp) as (Hoff & Fk & Fp). specialize (Fp r F). set (r1 := mk_whandle _ _ _ _ _ _ _ off) in Fp.
    assert (V1 : view (mk_world k1 (w_objs w)) o ob h r1 f) by (eapply view_kernel; eauto; congruence).
    assert (Sr : same_rights r r1) by (split; auto).
    destruct t as [n|d].
    + exists r1. unfold read_file in E. rewrite Fp in E. rewrite Fk in E.
      change (h_path r1) with (h_path r) in E. rewrite Hp, Ef in E.
      change (h_read r1) with (h_read r) in E. change (h_pos r1) with off in E.
      destruct (h_read r && aligned b r1 buf (n mod 2 ^ 32)) eqn:Ra; injection E as <- <-; (split; [auto|]; split; [auto|]);
        [|discriminate].
      intros l El. match type of El with (if ?c then _ else _) = _ => destruct c eqn:El2; [|discriminate El] end.
      injection El as <-. apply Z.eqb_eq in El2. apply andb_true_iff in Ra. destruct Ra as [Ra _].
      pose proof (Z.mod_pos_bound n (2 ^ 32) ltac:(reflexivity)) as M. set (m := n mod 2 ^ 32) in *.
      assert (Len : forall g p z, 0 <= z -> Z.of_nat (length (bytes_at g p z)) = z).
      { intros g p z Hz. unfold bytes_at. rewrite map_length, seq_length. lia. }
      rewrite Len in El2 by lia. split; auto.
      assert (Hn : n = m) by (unfold m in *; destruct (Z.eq_dec n (n mod 2 ^ 32)); auto;
        assert (0 <= n < 2 ^ 32) by lia; symmetry; apply Z.mod_small; auto).
      split; [lia|]. split; auto. split; [f_equal; lia|]. lia.
    + cbv zeta in E. unfold write_file in E. rewrite Fp in E. rewrite Fk in E.
      change (h_path r1) with (h_path r) in E. rewrite Hp, Ef in E. change (h_write r1) with (h_write r) in E.
      change (h_pos r1) with off in E.
      match type of E with context [if ?c then _ else None] => destruct c eqn:Wa end.
      2:{ injection E as <- <-. exists r1, f. split; auto. split; auto. discriminate. }
      apply andb_true_iff in Wa. destruct Wa as [Wa _].
      set (len := Z.of_nat (length d)) in *. pose proof (Z.mod_pos_bound len (2 ^ 32) ltac:(reflexivity)) as M.
      set (d1 := firstn (Z.to_nat (len mod 2 ^ 32)) d) in *. set (d2 := firstn (Z.to_nat (e_room e)) d1) in *.
      assert (L1 : (length d1 <= length d)%nat) by (unfold d1; rewrite firstn_length; lia).
      assert (L2 : (length d2 <= length d1)%nat) by (unfold d2; rewrite firstn_length; lia).
      assert (All : Z.of_nat (length d2) = len -> d2 = d /\ len < 2 ^ 32).
      { intros Hl. unfold len in Hl. assert (Q1 : length d1 = length d) by lia. assert (Q2 : length d2 = length d1) by lia.
        unfold d2 in Q2. apply firstn_all_eq in Q2. unfold d1 in Q1. pose proof Q1 as Q1'. apply firstn_all_eq in Q1.
        split; [unfold d2; rewrite Q2; exact Q1|]. rewrite firstn_length in Q1'.
        assert (len <= len mod 2 ^ 32) by (unfold len in *; lia). lia. }
      destruct d2 as [|z l] eqn:E2.
      * revert E. destruct (Z.eqb_spec 0 len) as [Hl|Hl]; intros E; injection E as <- <-; exists r1, f;
          (split; [auto|]; split; [auto|]); [|discriminate].
        intros _. destruct All as [Hd Hlt]; [exact Hl|]. subst d. auto.
      * rewrite <- E2 in *. revert E. destruct (Z.eqb_spec (Z.of_nat (length d2)) len) as [Hl|Hl]; intros E; injection E as <- <-;
          eexists; eexists; (split; [eapply view_kernel; [exact V|exact Fp|auto|auto|]; rewrite file_file, Nat.eqb_refl; reflexivity|];
          split; [exact Sr|]); [|discriminate].
        intros _. destruct (All Hl) as [Hd Hlt]. split; auto. split; auto. split; auto. rewrite <- Hd. rewrite E2. reflexivity.
Qed.

Lemma view_other : forall b w o ob h r f a ev w', winv w -> view w o ob h r f -> step b w a = Step w' ev ->
  actor a <> Some o -> view w' o ob h r f.
Proof.
  intros b w o ob h r f a ev w' W ((Eo & P & D) & F & Hp & Hf & Ef) E A.
  destruct (step_keeps _ _ _ _ _ W E) as [_ K]. destruct (K o ob A Eo) as [Eo' S].
  destruct (S h D r F Hf) as [F' Ef']. split; [split; auto|]. split; auto. split; auto. split; auto. congruence.
Qed.

Lemma written_other : forall o a ev tr, actor a <> Some o -> written o ((a, ev) :: tr) = written o tr.
Proof.
  intros o a ev tr H. destruct a as [o1 p mode e|o1 e|o1|o1 n e|o1 e|o1 e|o1 buf off t e|o1 e|o1 e|p rd wr sh|h1|p f1]; auto.
  destruct t; auto. simpl. destruct (Nat.eqb_spec o1 o); auto. simpl in H. congruence.
Qed.

Lemma transfers : forall b tr w w' o ob h r f, winv w -> view w o ob h r f -> wrun b w tr w' -> only_transfers o tr ->
  exists ob' r' f', view w' o ob' h r' f' /\ o_path ob' = o_path ob /\ same_rights r r' /\
    f_size f' = end_of (f_size f) (written o tr) /\
    forall x, match last_byte (written o tr) x with
              | Some v => f_data f' x = v
              | None => x < f_size f -> f_data f' x = f_data f x
              end.
Proof.
  induction tr as [|[a ev] tr IH]; intros w w' o ob h r f W V R T; inversion R as [|w0 a0 ev0 w1 tr0 w2 E R']; subst.
  - exists ob, r, f. split; auto. split; auto. split; [split; auto|]. split; auto. intros x. simpl. auto.
  - assert (W1 : winv w1) by (eapply step_keeps; eauto).
    assert (T' : only_transfers o tr) by (intros a1 ev1 Hin; apply T; simpl; auto).
    assert (Dec : actor a = Some o \/ actor a <> Some o).
    { destruct (actor a) as [n|]; [|right; discriminate]. destruct (Nat.eq_dec n o); [subst; auto|right; congruence]. }
    destruct Dec as [A|A].
    2:{ rewrite written_other by auto. apply (IH w1 w' o ob h r f); auto. exact (view_other _ _ _ _ _ _ _ _ _ _ W V E A). }
    pose proof (T a ev (or_introl eq_refl) A) as Ta. pose proof (step_own _ _ _ _ _ _ _ _ _ _ V E A) as So.
    destruct a as [o1 p mode e|o1 e|o1|o1 n e|o1 e|o1 e|o1 buf off t e|o1 e|o1 e|p rd wr sh|h1|p f1]; try contradiction Ta.
    + destruct So as (ob1 & r1 & V1 & P1 & S1 & _). destruct (IH _ _ _ _ _ _ _ W1 V1 R' T') as (ob2 & r2 & f2 & V2 & P2 & S2 & Q1 & Q2).
      exists ob2, r2, f2. split; auto. split; [congruence|]. split; [unfold same_rights in *; intuition congruence|]. split; auto.
    + destruct So as [-> _]. exact (IH _ _ _ _ _ _ _ W1 V R' T').
    + destruct t as [n|d].
      * destruct So as (r1 & V1 & S1 & _). destruct (IH _ _ _ _ _ _ _ W1 V1 R' T') as (ob2 & r2 & f2 & V2 & P2 & S2 & Q1 & Q2).
        exists ob2, r2, f2. split; auto. split; [congruence|]. split; [unfold same_rights in *; intuition congruence|]. split; auto.
      * destruct So as (r1 & f1 & V1 & S1 & Ev). destruct (Ev Ta) as (H0 & _ & _ & Ef1).
        destruct (IH _ _ _ _ _ _ _ W1 V1 R' T') as (ob2 & r2 & f2 & V2 & P2 & S2 & Q1 & Q2).
        exists ob2, r2, f2. split; auto. split; [congruence|]. split; [unfold same_rights in *; intuition congruence|].
        cbn [actor] in A. injection A as ->. cbn [written]. rewrite Nat.eqb_refl. split.
        -- rewrite Q1. unfold end_of. cbn [fold_left fst snd]. f_equal. rewrite Ef1. destruct d; auto.
        -- intros x. rewrite last_cons. specialize (Q2 x). destruct (last_byte (written o tr) x); auto.
           unfold covers. cbn [fst snd].
           assert (Data : d <> [] -> f1 = overwrite f off d (e_junk e)) by (intros; destruct d; congruence).
           destruct ((off <=? x) && (x <? off + Z.of_nat (length d))) eqn:C.
           ++ assert (Hd : d <> []) by (intros ->; simpl in C; apply andb_true_iff in C; destruct C as [C1 C2];
                apply Z.leb_le in C1; apply Z.ltb_lt in C2; lia).
              rewrite (Data Hd) in Q2. unfold overwrite in Q2; cbn [f_size f_data] in Q2. rewrite C in Q2. apply Q2.
              apply andb_true_iff in C. destruct C as [C1 C2]. apply Z.ltb_lt in C2. lia.
           ++ intros Hx. destruct d as [|z d'] eqn:Ed; [subst f1; auto|]. rewrite <- Ed in *.
              assert (Hd : d <> []) by congruence. rewrite (Data Hd) in Q2. unfold overwrite in Q2; cbn [f_size f_data] in Q2.
              rewrite C in Q2. destruct (Z.ltb_spec x (f_size f)); [|lia]. apply Q2. lia.
Qed.

(** * Opening *)

Lemma has_and : forall a b c d : bool, a && b && c && d = true -> a = true /\ b = true /\ c = true /\ d = true.
Proof. destruct a, b, c, d; simpl; auto. Qed.

Lemma create_complete : forall k p rd wr trunc nobuf ro sup, in_use k p false = false ->
  (nobuf = true -> sup = true) ->
  match k_files k p with
  | None => trunc = false
  | Some f => (trunc = true -> wr = true) /\ (wr = true -> f_ro f = false)
  end ->
  exists k' h, create_file k p rd wr trunc nobuf ro sup false = Some (k', h).
Proof.
  intros k p rd wr trunc nobuf ro sup U S Hf. unfold create_file. rewrite U.
  destruct (nobuf && negb sup) eqn:B. { destruct nobuf, sup; simpl in B; try discriminate; discriminate (S eq_refl). }
  cbv zeta. destruct (k_files k p) as [f|].
  - destruct Hf as [H1 H2]. destruct (f_ro f && wr) eqn:C.
    { destruct wr; [rewrite H2 in C by auto; discriminate|destruct (f_ro f); discriminate]. }
    destruct trunc; [rewrite H1 by auto|]; rewrite new_handle_eq; eauto.
  - rewrite Hf. rewrite new_handle_eq. eauto.
Qed.

Lemma nobody_iff : forall w p, winv w -> (nobody w p <-> in_use (w_k w) p false = false).
Proof.
  intros w p W. split.
  - intros H. destruct (in_use (w_k w) p false) eqn:U; auto. destruct (in_use_true _ _ _ (wi_k _ W) U) as (i & r & F & Hp).
    apply find_in in F; [|apply W]. destruct (H i r F Hp).
  - intros U i r Hin Hp. apply find_in in Hin; [|apply W]. destruct (in_use_false _ _ _ (wi_k _ W) U i r Hin Hp). discriminate.
Qed.

(** An object keeps its mode and its member bytes_per_sector_. *)
Lemma step_const : forall b w a ev w' o ob, step b w a = Step w' ev -> w_objs w o = Some ob ->
  (forall e, a <> ADestroy o e) ->
  exists ob', w_objs w' o = Some ob' /\ o_mode ob' = o_mode ob /\ o_sector ob' = o_sector ob /\ o_path ob' = o_path ob.
Proof.
  intros b w a ev w' o ob E Eo Nd.
  assert (P : forall w1 k o1 ob1, w_objs w1 = w_objs w ->
    (o1 = o -> o_mode ob1 = o_mode ob /\ o_sector ob1 = o_sector ob /\ o_path ob1 = o_path ob) ->
    exists ob', w_objs (put w1 k o1 (Some ob1)) o = Some ob' /\ o_mode ob' = o_mode ob /\ o_sector ob' = o_sector ob /\ o_path ob' = o_path ob).
  { intros w1 k o1 ob1 Ew H. unfold put, upd; cbn [w_objs]. rewrite Ew. destruct (Nat.eqb_spec o o1) as [->|Hn].
    - exists ob1. auto.
    - exists ob. auto. }
  assert (Q : forall k, exists ob', w_objs (mk_world k (w_objs w)) o = Some ob' /\ o_mode ob' = o_mode ob /\ o_sector ob' = o_sector ob /\ o_path ob' = o_path ob)
    by (intros k; exists ob; auto).
  assert (R : exists ob', w_objs w o = Some ob' /\ o_mode ob' = o_mode ob /\ o_sector ob' = o_sector ob /\ o_path ob' = o_path ob)
    by (exists ob; auto).
  assert (Fn : forall o1 ob1, w_objs w o1 = Some ob1 -> o1 = o -> ob1 = ob) by (intros o1 ob1 H ->; congruence).
  destruct a as [o1 p mode e|o1 e|o1|o1 n e|o1 e|o1 e|o1 buf off t e|o1 e|o1 e|p rd wr sh|h1|p f1]; cbn [step] in E.
  - destruct (w_objs w o1) as [ob1|] eqn:E1; [discriminate|]. destruct (has mode RDONLY || _ || _); [|discriminate].
    destruct (construct b (w_k w) p mode e) as [k1 ob1|k1]; injection E as <- <-; auto. apply P; auto. congruence.
  - destruct (idle w o1) as [ob1|] eqn:E1; [|discriminate]. apply idle_some in E1. destruct E1 as [E1 _]. specialize (Fn _ _ E1).
    unfold lock_step in E. destruct (o_locked ob1); [injection E as <- <-; auto|].
    destruct (o_des ob1); [|injection E as <- <-; auto]. destruct (lock_file _ _ _); injection E as <- <-; auto.
    apply P; auto. intros H. rewrite (Fn H). auto.
  - destruct (idle w o1); [|discriminate]. injection E as <- <-. auto.
  - destruct (idle w o1) as [ob1|] eqn:E1; [|discriminate]. apply idle_some in E1. destruct E1 as [E1 _]. specialize (Fn _ _ E1).
    destruct (0 <=? n); [|discriminate]. unfold set_size_step in E. destruct (o_des ob1); [|injection E as <- <-; auto].
    destruct (file_size (w_k w) ob1); [|injection E as <- <-; auto]. destruct (has (o_mode ob1) RDONLY); [injection E as <- <-; auto|].
    cbv zeta in E. destruct (resize b (w_k w) n0 n e); destruct (has (o_mode ob1) DIRECT);
      try (injection E as <- <-; auto; fail); destruct (o_sector ob1) as [s|] eqn:Es; try discriminate;
      destruct (n mod s =? 0); try (injection E as <- <-; auto; fail); destruct (e_close e); injection E as <- <-; auto;
      apply P; auto; intros H; rewrite <- (Fn H); auto.
  - destruct (w_objs w o1) as [ob1|] eqn:E1; [|discriminate]. specialize (Fn _ _ E1). destruct (o_phase ob1); try discriminate.
    unfold resize_step in E. destruct (open_file_impl _ _ _ _ _); [destruct (resize _ _ _ _ _); [destruct (e_close e)|]|..];
      injection E as <- <-; apply P; auto; intros H; rewrite <- (Fn H); auto.
  - destruct (w_objs w o1) as [ob1|] eqn:E1; [|discriminate]. specialize (Fn _ _ E1). destruct (o_phase ob1); try discriminate.
    unfold reopen_step in E. destruct (open_file_impl _ _ _ _ _);
      injection E as <- <-; apply P; auto; intros H; rewrite <- (Fn H); auto.
  - destruct (idle w o1) as [ob1|]; [|discriminate]. destruct (0 <=? off); [|discriminate]. unfold serve_step in E.
    destruct (o_des ob1); [|injection E as <- <-; auto]. destruct (set_pointer _ _ _); [|injection E as <- <-; auto].
    destruct t; [destruct (read_file _ _ _ _ _)|cbv zeta in E; destruct (write_file _ _ _ _ _ _) as [[k2 n2]|]]; injection E as <- <-; auto.
  - destruct (idle w o1) as [ob1|]; [|discriminate]. destruct (close_handle _ _ _) as [k ok]. destruct ok; [|discriminate].
    injection E as <- <-. unfold put, upd; cbn [w_objs]. destruct (Nat.eqb_spec o o1) as [->|Hn]; auto. destruct (Nd e); auto.
  - destruct (idle w o1) as [ob1|] eqn:E1; [|discriminate]. apply idle_some in E1. destruct E1 as [E1 _]. specialize (Fn _ _ E1).
    destruct (close_handle _ _ _) as [k ok]. destruct ok; injection E as <- <-; auto. apply P; auto. intros H. rewrite <- (Fn H). auto.
  - destruct (in_use _ _ _); [discriminate|]. injection E as <- <-. auto.
  - destruct (find_handle _ _) as [r|]; [|discriminate]. destruct (h_foreign r); [|discriminate]. injection E as <- <-. auto.
  - destruct (existsb _ _); [discriminate|]. injection E as <- <-. auto.
Qed.

Lemma run_const : forall b tr w w' o ob, wrun b w tr w' -> w_objs w o = Some ob ->
  (forall e ev, ~ In (ADestroy o e, ev) tr) ->
  exists ob', w_objs w' o = Some ob' /\ o_mode ob' = o_mode ob /\ o_sector ob' = o_sector ob /\ o_path ob' = o_path ob.
Proof.
  intros b tr w w' o ob R. revert ob. induction R as [w|w a ev w1 tr w2 E R IH]; intros ob Eo N.
  - exists ob. auto.
  - destruct (step_const _ _ _ _ _ _ _ E Eo) as (ob1 & E1 & A1 & A2 & A3).
    { intros e ->. apply (N e ev). simpl. auto. }
    destruct (IH ob1 E1) as (ob2 & E2 & B1 & B2 & B3).
    { intros e ev' Hin. apply (N e ev'). simpl. auto. }
    exists ob2. intuition congruence.
Qed.
