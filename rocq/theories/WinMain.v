(** Every step keeps the invariant and leaves the files of other objects alone. *)
From Coq Require Import ZArith NArith List Bool Lia PeanoNat.
From Verif Require Import OpenModel WinModel WinSpec WinProofs.
Import ListNotations.
Local Open Scope Z_scope.

Lemma open_spec : forall b k p mode e k' h, kinv k -> open_file_impl b k p mode e = Opened k' h ->
  exists nobuf supported deny,
    create_file k p (has mode RDONLY || has mode RDWR) (has mode WRONLY || has mode RDWR) (has mode TRUNC)
      nobuf (has mode RDONLY) supported deny = Some (k', h) /\
    (nobuf = true -> has mode DIRECT = true /\ direct_off b = false) /\
    (has mode DIRECT = true -> has mode REQUIRE_DIRECT = true -> nobuf = true).
Proof.
  intros b k p mode e k' h K E. unfold open_file_impl in E. cbv zeta in E.
  destruct (has mode DIRECT && direct_off b && has mode REQUIRE_DIRECT) eqn:B; [discriminate|].
  destruct (create_file k p _ _ _ (has mode DIRECT && negb (direct_off b)) _ _ _) as [[k1 h1]|] eqn:C.
  - injection E as <- <-. do 3 eexists. split; [exact C|].
    destruct (has mode DIRECT), (direct_off b), (has mode REQUIRE_DIRECT); simpl in *; split; intros; auto; discriminate.
  - destruct (negb (direct_off b) && has mode DIRECT && negb (has mode REQUIRE_DIRECT)) eqn:D; [|discriminate].
    destruct (create_file k p _ _ _ false _ _ _) as [[k1 h1]|] eqn:C2; [|discriminate].
    injection E as <- <-. do 3 eexists. split; [exact C2|]. split; [discriminate|].
    intros H1 H2. rewrite H1, H2 in D. destruct (direct_off b); discriminate.
Qed.

Lemma open_keeps : forall b k p mode e k' h, kinv k -> open_file_impl b k p mode e = Opened k' h ->
  kinv k' /\ find_handle k h = None /\ (forall x, same_for k k' x) /\
  exists r, find_handle k' h = Some r /\ h_path r = p /\ h_foreign r = false.
Proof.
  intros b k p mode e k' h K E. destruct (open_spec _ _ _ _ _ _ _ K E) as (nb & sup & d & C & _).
  destruct (create_spec _ _ _ _ _ _ _ _ _ _ _ K C) as (A1 & A2 & A3 & A4 & _).
  split; auto. split; auto. split; auto. eexists. split; [exact A4|]. auto.
Qed.

Lemma construct_keeps : forall b k p mode e, kinv k ->
  match construct b k p mode e with
  | Built k' ob => kinv k' /\ (forall x, find_handle k x <> None -> same_for k k' x) /\ obj_ok k' ob /\
      o_path ob = p /\ o_mode ob = mode /\ (forall h, o_des ob = Some h -> find_handle k h = None)
  | NotBuilt k' => kinv k' /\ forall x, same_for k k' x
  end.
Proof.
  intros b k p mode e K. unfold construct. cbv zeta.
  destruct (open_file_impl b k p mode e) as [k1 h| |] eqn:E.
  - destruct (open_keeps _ _ _ _ _ _ _ K E) as (A1 & A2 & A3 & r & A4 & A5 & A6).
    destruct (has mode NO_LOCK).
    + split; auto. split; auto. cbn. split; [|split; auto; split; auto; intros h' D; injection D as <-; auto].
      intros h' D. injection D as <-. split; auto. exists r. auto.
    + destruct (lock_file k1 h (e_lock e)) as [k2|] eqn:L; [|auto].
      destruct (lock_on _ _ _ _ A1 L) as (B1 & B2 & B3). split; auto. split.
      { intros x Hx. eapply same_trans; [apply A3|]. apply B2. intros ->. auto. }
      cbn. split; [|split; auto; split; auto; intros h' D; injection D as <-; auto].
      intros h' D. injection D as <-. split; auto. destruct (B3 r A4) as (r' & F' & P' & Q' & _). exists r'.
      rewrite P', Q'. cbn. auto.
  - destruct (has mode NO_LOCK).
    + split; auto. split; [intros; apply same_refl|]. cbn. split; [intros h D; discriminate|]. split; auto. split; auto. discriminate.
    + split; auto. intros; apply same_refl.
  - split; auto. intros; apply same_refl.
Qed.

Lemma delete_keeps : forall k p, kinv k -> kinv (delete_file k p) /\ forall x, same_for k (delete_file k p) x.
Proof.
  intros k p K. unfold delete_file. destruct (k_files k p) as [f|]; [|split; auto; intros; apply same_refl].
  destruct (f_ro f || existsb _ (k_handles k)) eqn:E; [split; auto; intros; apply same_refl|].
  apply orb_false_iff in E. destruct E as [_ E].
  assert (N : forall i r, find_handle k i = Some r -> h_path r <> p).
  { intros i r F Hp. apply find_in in F; [|apply K].
    assert (existsb (fun e => Nat.eqb (h_path (snd e)) p) (k_handles k) = true); [|congruence].
    apply existsb_exists. exists (i, r). split; auto. simpl. apply Nat.eqb_eq. auto. }
  split.
  - apply kinv_file; auto. intros _ i r F Hp. destruct (N i r F Hp).
  - intros x s Fs Hf. split; auto. rewrite file_file. destruct (Nat.eqb_spec (h_path s) p) as [E1|E1]; auto.
    destruct (N x s Fs E1).
Qed.

(** What other objects and programs do does not concern a handle of object o. *)
Definition others_kept (w w' : world) (who : option nat) : Prop :=
  forall o ob, who <> Some o -> w_objs w o = Some ob ->
    w_objs w' o = Some ob /\ forall h, o_des ob = Some h -> same_for (w_k w) (w_k w') h.

Lemma kept_put : forall w k' o ob', winv w ->
  (forall x, (forall ob, w_objs w o = Some ob -> o_des ob <> Some x) -> find_handle (w_k w) x <> None ->
     same_for (w_k w) k' x) -> others_kept w (put w k' o ob') (Some o).
Proof.
  intros w k' o ob' W S o1 ob1 Hn E. assert (H1 : o1 <> o) by congruence. split.
  - unfold put, upd; cbn [w_objs]. destruct (Nat.eqb_spec o1 o); congruence.
  - intros h D. apply S.
    + intros ob Eo Do. apply H1. eapply (wi_own _ W); eauto.
    + destruct (wi_objs _ W o1 ob1 E h D) as (_ & r & F & _). congruence.
Qed.

Lemma kept_kernel : forall w k' who, (forall x, same_for (w_k w) k' x) -> others_kept w (mk_world k' (w_objs w)) who.
Proof. intros w k' who S o ob _ E. split; auto. Qed.

Lemma kept_on : forall w k' o ob h, winv w -> w_objs w o = Some ob -> o_des ob = Some h ->
  on_handle (w_k w) k' h ->
  others_kept w (mk_world k' (w_objs w)) (Some o) /\ forall ob', others_kept w (put w k' o ob') (Some o).
Proof.
  intros w k' o ob h W E D (K & S & _). split.
  - intros o1 ob1 Hn E1. split; auto. intros h1 D1. apply S. intros ->. apply Hn. f_equal. eapply (wi_own _ W); eauto.
  - intros ob'. apply kept_put; auto. intros x Hx _. apply S. intros ->. apply (Hx ob); auto.
Qed.

Lemma kept_refl : forall w who, others_kept w w who.
Proof. intros w who o ob _ E. split; auto. intros; apply same_refl. Qed.

Lemma idle_some : forall w o ob, idle w o = Some ob -> w_objs w o = Some ob /\ o_phase ob = Idle.
Proof.
  intros w o ob E. unfold idle in E. destruct (w_objs w o) as [ob1|]; [|discriminate].
  destruct (o_phase ob1) eqn:P; try discriminate. injection E as ->. auto.
Qed.

Theorem step_keeps : forall b w a w' ev, winv w -> step b w a = Step w' ev ->
  winv w' /\ others_kept w w' (actor a).
Proof.
  intros b w a w' ev W E. destruct a as [o p mode e|o e|o|o n e|o e|o e|o buf off t e|o e|o e|p rd wr sh|h|p f];
    cbn [step actor] in *.
  - (* open *)
    destruct (w_objs w o) as [ob0|] eqn:Eo; [discriminate|].
    destruct (has mode RDONLY || has mode WRONLY || has mode RDWR); [|discriminate].
    pose proof (construct_keeps b (w_k w) p mode e (wi_k _ W)) as C.
    destruct (construct b (w_k w) p mode e) as [k' ob|k'].
    + destruct C as (C1 & C2 & C3 & C4 & C5 & C6). injection E as <- <-. split.
      * apply winv_put; auto.
        -- intros ob1 E1. injection E1 as <-. auto.
        -- intros ob1 h E1 D. injection E1 as <-. auto.
      * apply kept_put; auto.
    + destruct C as [C1 C2]. injection E as <- <-. split; [apply winv_kernel; auto|apply kept_kernel; auto].
  - (* lock *)
    destruct (idle w o) as [ob|] eqn:I; [|discriminate]. apply idle_some in I. destruct I as [Eo P].
    unfold lock_step in E. destruct (o_locked ob).
    { injection E as <- <-. split; auto. apply kept_refl. }
    destruct (o_des ob) as [h|] eqn:D.
    + destruct (lock_file (w_k w) h (e_lock e)) as [k|] eqn:L.
      * injection E as <- <-. pose proof (lock_on _ _ _ _ (wi_k _ W) L) as Q. split.
        -- destruct (winv_on _ _ _ _ _ W Eo D Q) as [_ G]. apply G; auto.
        -- apply (proj2 (kept_on _ _ _ _ _ W Eo D Q)).
      * injection E as <- <-. split; auto. apply kept_refl.
    + injection E as <- <-. split; auto. apply kept_refl.
  - (* size *)
    destruct (idle w o) as [ob|]; [|discriminate]. injection E as <- <-. split; auto. apply kept_refl.
  - (* set_size *)
    destruct (idle w o) as [ob|] eqn:I; [|discriminate]. apply idle_some in I. destruct I as [Eo P].
    destruct (0 <=? n); [|discriminate]. unfold set_size_step in E.
    destruct (o_des ob) as [h|] eqn:D; [|injection E as <- <-; split; auto; apply kept_refl].
    destruct (file_size (w_k w) ob); [|injection E as <- <-; split; auto; apply kept_refl].
    destruct (has (o_mode ob) RDONLY); [injection E as <- <-; split; auto; apply kept_refl|]. cbv zeta in E.
    assert (Plain : match resize b (w_k w) h n e with
                    | Some k => Step (mk_world k (w_objs w)) EvDone
                    | None => Step w EvThrow
                    end = Step w' ev -> winv w' /\ others_kept w w' (Some o)).
    { intros E1. destruct (resize b (w_k w) h n e) as [k|] eqn:R; injection E1 as <- <-; [|split; auto; apply kept_refl].
      pose proof (resize_on _ _ _ _ _ _ (wi_k _ W) R) as Q. split.
      - apply (proj1 (winv_on _ _ _ _ _ W Eo D Q)).
      - apply (proj1 (kept_on _ _ _ _ _ W Eo D Q)). }
    destruct (has (o_mode ob) DIRECT); [|auto]. destruct (o_sector ob) as [s|]; [|discriminate].
    destruct (n mod s =? 0); [auto|]. destruct (e_close e); injection E as <- <-; [|split; auto; apply kept_refl].
    assert (X : forall x, (forall ob1, w_objs w o = Some ob1 -> o_des ob1 <> Some x) -> find_handle (w_k w) x <> None ->
      same_for (w_k w) (drop_handle (w_k w) h) x).
    { intros x Hx _. apply same_drop. intros ->. apply (Hx ob); auto. }
    split; [|apply kept_put; auto]. apply winv_put; auto.
    + apply kinv_drop. apply W.
    + intros ob1 E1. injection E1 as <-. intros h1 D1. discriminate D1.
    + intros ob1 h1 E1 D1. injection E1 as <-. discriminate D1.
  - (* resizing *)
    destruct (w_objs w o) as [ob|] eqn:Eo; [|discriminate]. destruct (o_phase ob) as [|n|] eqn:P; try discriminate.
    assert (Dn : o_des ob = None).
    { destruct (o_des ob) as [h|] eqn:D; auto. destruct (wi_objs _ W o ob Eo h D) as [X _]. congruence. }
    unfold resize_step in E.
    assert (Fail : winv (put w (w_k w) o (Some (with_des ob None Idle))) /\
      others_kept w (put w (w_k w) o (Some (with_des ob None Idle))) (Some o)).
    { split; [|apply kept_put; auto; intros; apply same_refl]. apply winv_put; auto.
      - apply W.
      - intros; apply same_refl.
      - intros ob1 E1. injection E1 as <-. intros h1 D1. discriminate D1.
      - intros ob1 h1 E1 D1. injection E1 as <-. discriminate D1. }
    destruct (open_file_impl b (w_k w) (o_path ob) WRONLY e) as [k1 h| |] eqn:Op;
      [|injection E as <- <-; auto|injection E as <- <-; auto].
    destruct (open_keeps _ _ _ _ _ _ _ (wi_k _ W) Op) as (A1 & A2 & A3 & r & A4 & A5 & A6).
    assert (G : forall k', kinv k' -> (forall x, x <> h -> same_for k1 k' x) ->
      (exists r', find_handle k' h = Some r' /\ h_path r' = o_path ob /\ h_foreign r' = false) ->
      winv (put w k' o (Some (with_des ob (Some h) Idle))) /\ others_kept w (put w k' o (Some (with_des ob (Some h) Idle))) (Some o)).
    { intros k' K' S' (r' & F' & P' & Q').
      assert (X : forall x, (forall ob1, w_objs w o = Some ob1 -> o_des ob1 <> Some x) -> find_handle (w_k w) x <> None ->
        same_for (w_k w) k' x).
      { intros x _ Hx. eapply same_trans; [apply A3|]. apply S'. intros ->. auto. }
      split; [|apply kept_put; auto]. apply winv_put; auto.
      - intros ob1 E1. injection E1 as <-. intros h1 D1. injection D1 as <-. split; auto. exists r'. auto.
      - intros ob1 h1 E1 D1. injection E1 as <-. injection D1 as <-. auto. }
    destruct (resize b k1 h n e) as [k2|] eqn:R.
    + destruct (resize_on _ _ _ _ _ _ A1 R) as (B1 & B2 & B3). destruct (B3 r A4) as (r' & F' & P' & Q' & _).
      destruct (e_close e); injection E as <- <-.
      * assert (X : forall x, (forall ob1, w_objs w o = Some ob1 -> o_des ob1 <> Some x) -> find_handle (w_k w) x <> None ->
          same_for (w_k w) (drop_handle k2 h) x).
        { intros x _ Hx. assert (x <> h) by congruence. eapply same_trans; [apply A3|].
          eapply same_trans; [apply B2; auto|]. apply same_drop; auto. }
        split; [|apply kept_put; auto]. apply winv_put; auto.
        -- apply kinv_drop; auto.
        -- intros ob1 E1. injection E1 as <-. intros h1 D1. discriminate D1.
        -- intros ob1 h1 E1 D1. injection E1 as <-. discriminate D1.
      * apply G; auto. exists r'. intuition congruence.
    + injection E as <- <-. apply G; auto.
      * intros; apply same_refl.
      * exists r. auto.
  - (* reopening *)
    destruct (w_objs w o) as [ob|] eqn:Eo; [|discriminate]. destruct (o_phase ob) as [|n|] eqn:P; try discriminate.
    unfold reopen_step in E.
    assert (Fail : winv (put w (w_k w) o (Some (with_des ob None Idle))) /\
      others_kept w (put w (w_k w) o (Some (with_des ob None Idle))) (Some o)).
    { split; [|apply kept_put; auto; intros; apply same_refl]. apply winv_put; auto.
      - apply W.
      - intros; apply same_refl.
      - intros ob1 E1. injection E1 as <-. intros h1 D1. discriminate D1.
      - intros ob1 h1 E1 D1. injection E1 as <-. discriminate D1. }
    destruct (open_file_impl b (w_k w) (o_path ob) _ e) as [k1 h| |] eqn:Op;
      [|injection E as <- <-; auto|injection E as <- <-; auto].
    destruct (open_keeps _ _ _ _ _ _ _ (wi_k _ W) Op) as (A1 & A2 & A3 & r & A4 & A5 & A6). injection E as <- <-.
    split; [|apply kept_put; auto]. apply winv_put; auto.
    + intros ob1 E1. injection E1 as <-. intros h1 D1. injection D1 as <-. split; auto. exists r. auto.
    + intros ob1 h1 E1 D1. injection E1 as <-. injection D1 as <-. auto.
  - (* serve *)
    destruct (idle w o) as [ob|] eqn:I; [|discriminate]. apply idle_some in I. destruct I as [Eo P].
    destruct (0 <=? off); [|discriminate]. unfold serve_step in E.
    destruct (o_des ob) as [h|] eqn:D; [|injection E as <- <-; split; auto; apply kept_refl].
    destruct (set_pointer (w_k w) h off) as [k1|] eqn:Sp; [|injection E as <- <-; split; auto; apply kept_refl].
    pose proof (pointer_on _ _ _ _ (wi_k _ W) Sp) as Q.
    assert (G : forall k', on_handle (w_k w) k' h -> winv (mk_world k' (w_objs w)) /\ others_kept w (mk_world k' (w_objs w)) (Some o)).
    { intros k' Q'. split; [apply (proj1 (winv_on _ _ _ _ _ W Eo D Q'))|apply (proj1 (kept_on _ _ _ _ _ W Eo D Q'))]. }
    destruct t as [bytes|data].
    + destruct (read_file b k1 h buf _); injection E as <- <-; apply G; auto.
    + cbv zeta in E. destruct (write_file b k1 h buf _ e) as [[k2 n]|] eqn:Wr; injection E as <- <-; apply G; auto.
      eapply on_trans; [exact Q|]. eapply write_on; eauto. apply Q.
  - (* destroy *)
    destruct (idle w o) as [ob|] eqn:I; [|discriminate]. apply idle_some in I. destruct I as [Eo P].
    unfold close_handle in E. 
    assert (G : forall k', kinv k' -> (forall x, (forall ob1, w_objs w o = Some ob1 -> o_des ob1 <> Some x) ->
        find_handle (w_k w) x <> None -> same_for (w_k w) k' x) ->
      winv (put w k' o None) /\ others_kept w (put w k' o None) (Some o)).
    { intros k' K' S'. split; [|apply kept_put; auto]. apply winv_put; auto; discriminate. }
    destruct (o_des ob) as [h|] eqn:D.
    + destruct (e_close e); [|discriminate]. injection E as <- <-. apply G; [apply kinv_drop; apply W|].
      intros x Hx _. apply same_drop. intros ->. apply (Hx ob); auto.
    + injection E as <- <-. apply G; [apply W|]. intros; apply same_refl.
  - (* remove *)
    destruct (idle w o) as [ob|] eqn:I; [|discriminate]. apply idle_some in I. destruct I as [Eo P].
    unfold close_handle in E.
    assert (G : forall k', kinv k' -> (forall x, (forall ob1, w_objs w o = Some ob1 -> o_des ob1 <> Some x) ->
        find_handle (w_k w) x <> None -> same_for (w_k w) k' x) ->
      winv (put w (delete_file k' (o_path ob)) o (Some (with_des ob None Idle))) /\
      others_kept w (put w (delete_file k' (o_path ob)) o (Some (with_des ob None Idle))) (Some o)).
    { intros k' K' S'. destruct (delete_keeps k' (o_path ob) K') as [B1 B2].
      assert (S2 : forall x, (forall ob1, w_objs w o = Some ob1 -> o_des ob1 <> Some x) ->
        find_handle (w_k w) x <> None -> same_for (w_k w) (delete_file k' (o_path ob)) x).
      { intros x Hx Hx2. eapply same_trans; [apply S'; auto|apply B2]. }
      split; [|apply kept_put; auto]. apply winv_put; auto.
      - intros ob1 E1. injection E1 as <-. intros h1 D1. discriminate D1.
      - intros ob1 h1 E1 D1. injection E1 as <-. discriminate D1. }
    destruct (o_des ob) as [h|] eqn:D.
    + destruct (e_close e).
      * injection E as <- <-. apply G; [apply kinv_drop; apply W|].
        intros x Hx _. apply same_drop. intros ->. apply (Hx ob); auto.
      * injection E as <- <-. split; auto. apply kept_refl.
    + injection E as <- <-. apply G; [apply W|]. intros; apply same_refl.
  - (* foreign open *)
    destruct (in_use (w_k w) p sh) eqn:U; [discriminate|]. injection E as E1 <-.
    assert (E2 : w' = mk_world (fst (new_handle (w_k w) (mk_whandle p rd wr false true sh false 0))) (w_objs w)) by exact (eq_sym E1).
    rewrite E2. split; [apply winv_kernel; auto|apply kept_kernel].
    + apply kinv_new; auto; [apply W|]. discriminate.
    + intros x. apply same_new. apply W.
    + intros x. apply same_new. apply W.
  - (* foreign close *)
    destruct (find_handle (w_k w) h) as [r|] eqn:F; [|discriminate]. destruct (h_foreign r) eqn:Hf; [|discriminate].
    injection E as <- <-.
    assert (S : forall x, same_for (w_k w) (drop_handle (w_k w) h) x).
    { intros x s Fs Hs. apply same_drop; auto. intros ->. congruence. }
    split; [apply winv_kernel; auto; apply kinv_drop; apply W|apply kept_kernel; auto].
  - (* foreign change *)
    destruct (existsb _ (k_handles (w_k w))) eqn:X; [discriminate|]. injection E as <- <-.
    assert (N : forall i r, find_handle (w_k w) i = Some r -> h_path r = p -> h_foreign r = true).
    { intros i r F Hp. apply find_in in F; [|apply W]. destruct (h_foreign r) eqn:Hf; auto.
      assert (existsb (fun e => Nat.eqb (h_path (snd e)) p && negb (h_foreign (snd e))) (k_handles (w_k w)) = true); [|congruence].
      apply existsb_exists. exists (i, r). split; auto. simpl. rewrite Hf. apply Nat.eqb_eq in Hp. rewrite Hp. auto. }
    assert (S : forall x, same_for (w_k w) (set_file (w_k w) p f) x).
    { intros x s Fs Hs. split; auto. rewrite file_file. destruct (Nat.eqb_spec (h_path s) p) as [Hp|Hp]; auto.
      rewrite (N x s Fs Hp) in Hs. discriminate. }
    split; [apply winv_kernel; auto|apply kept_kernel; auto]. apply kinv_file; auto. apply W.
Qed.

Lemma start_winv : forall files, winv (wstart files).
Proof.
  intros files. constructor; [constructor|discriminate|discriminate]; simpl; try (intros; discriminate). constructor.
Qed.

Lemma run_winv : forall b w tr w', winv w -> wrun b w tr w' -> winv w'.
Proof. intros b w tr w' W R. induction R; auto. apply IHR. eapply step_keeps; eauto. Qed.

Lemma reachable_winv : forall b w, wreachable b w -> winv w.
Proof. intros b w (files & tr & R). eapply run_winv; [apply start_winv|exact R]. Qed.
