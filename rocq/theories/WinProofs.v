(** Invariant of the Windows file classes: an open handle of ours is alone. *)
From Coq Require Import ZArith NArith List Bool Lia PeanoNat.
From Verif Require Import OpenModel WinModel WinSpec.
Import ListNotations.
Local Open Scope Z_scope.

Record kinv (k : kernel) : Prop := mk_kinv {
  ki_nodup : NoDup (map fst (k_handles k));
  ki_next  : forall i r, find_handle k i = Some r -> (i < k_next k)%nat;
  ki_alone : forall i j ri rj, i <> j -> find_handle k i = Some ri -> find_handle k j = Some rj ->
               h_path ri = h_path rj -> h_share ri = true /\ h_share rj = true;
  ki_ours  : forall i r, find_handle k i = Some r -> h_foreign r = false ->
               h_share r = false /\ k_files k (h_path r) <> None
}.

Lemma find_in : forall k i r, NoDup (map fst (k_handles k)) ->
  (find_handle k i = Some r <-> In (i, r) (k_handles k)).
Proof.
  intros k i r. unfold find_handle. induction (k_handles k) as [|[j s] l IH]; simpl; intros N.
  - split; [discriminate|tauto].
  - inversion N as [|x y N1 N2]; subst. destruct (Nat.eqb_spec j i) as [->|Hn].
    + split; [injection 1 as ->; auto|]. intros [E|E]; [injection E as ->; auto|].
      exfalso. apply N1. apply in_map_iff. exists (i, r). auto.
    + rewrite IH by auto. split; auto. intros [E|E]; auto. injection E as -> ->. congruence.
Qed.

Lemma find_new : forall k r x, (k_next k <> x -> True) ->
  find_handle (fst (new_handle k r)) x = if Nat.eqb (k_next k) x then Some r else find_handle k x.
Proof. intros k r x _. unfold find_handle, new_handle. simpl. destruct (Nat.eqb (k_next k) x); auto. Qed.

Lemma find_drop : forall k h x, find_handle (drop_handle k h) x = if Nat.eqb x h then None else find_handle k x.
Proof.
  intros k h x. unfold find_handle, drop_handle; simpl. induction (k_handles k) as [|[j s] l IH]; simpl.
  - destruct (Nat.eqb x h); auto.
  - destruct (Nat.eqb_spec j h) as [->|Hn]; simpl.
    + destruct (Nat.eqb_spec h x) as [->|Hx]; simpl; auto. rewrite Nat.eqb_refl in *. auto.
    + destruct (Nat.eqb_spec j x) as [->|Hx]; simpl; auto. destruct (Nat.eqb_spec x h); congruence.
Qed.

Lemma find_set : forall k h r x, find_handle k h <> None ->
  find_handle (set_handle k h r) x = if Nat.eqb x h then Some r else find_handle k x.
Proof.
  intros k h r x. unfold find_handle, set_handle; simpl. induction (k_handles k) as [|[j s] l IH]; simpl; intros H.
  - congruence.
  - destruct (Nat.eqb_spec j h) as [->|Hn]; simpl.
    + rewrite (Nat.eqb_sym h x). destruct (Nat.eqb_spec x h) as [->|Hx]; auto.
      clear IH H. induction l as [|[j t] l IH]; simpl; auto.
      destruct (Nat.eqb_spec j h) as [->|Hj]; simpl.
      * destruct (Nat.eqb_spec h x); [congruence|auto].
      * destruct (Nat.eqb j x); auto.
    + destruct (Nat.eqb_spec j x) as [->|Hx]; auto. destruct (Nat.eqb_spec x h); congruence.
Qed.

Lemma find_file : forall k p f x, find_handle (set_file k p f) x = find_handle k x.
Proof. reflexivity. Qed.

Lemma file_file : forall k p f q, k_files (set_file k p f) q = if Nat.eqb q p then f else k_files k q.
Proof. reflexivity. Qed.

Lemma in_use_false : forall k p share, kinv k -> in_use k p share = false ->
  forall i r, find_handle k i = Some r -> h_path r = p -> h_share r = true /\ share = true.
Proof.
  intros k p share K E i r F Hp. apply find_in in F; [|apply K]. unfold in_use in E.
  assert (X : Nat.eqb (h_path r) p && negb (h_share r && share) = false).
  { destruct (Nat.eqb (h_path r) p && negb (h_share r && share)) eqn:Y; auto.
    exfalso. assert (existsb (fun e => Nat.eqb (h_path (snd e)) p && negb (h_share (snd e) && share)) (k_handles k) = true);
      [|congruence]. apply existsb_exists. exists (i, r). auto. }
  rewrite Hp, Nat.eqb_refl in X. simpl in X. destruct (h_share r), share; auto; discriminate.
Qed.

Lemma in_use_true : forall k p share, kinv k -> in_use k p share = true ->
  exists i r, find_handle k i = Some r /\ h_path r = p.
Proof.
  intros k p share K E. apply existsb_exists in E. destruct E as ([i r] & Hin & E).
  apply andb_true_iff in E. destruct E as [E _]. apply Nat.eqb_eq in E. exists i, r. split; auto.
  apply find_in; auto. apply K.
Qed.

(** Handle h of ours and its file are the same. *)
Definition same_for (k k' : kernel) (h : nat) : Prop :=
  forall r, find_handle k h = Some r -> h_foreign r = false ->
    find_handle k' h = Some r /\ k_files k' (h_path r) = k_files k (h_path r).

Lemma same_refl : forall k h, same_for k k h.
Proof. intros k h r F _. auto. Qed.

Lemma same_trans : forall k1 k2 k3 h, same_for k1 k2 h -> same_for k2 k3 h -> same_for k1 k3 h.
Proof.
  intros k1 k2 k3 h A B r F Hf. destruct (A r F Hf) as [A1 A2]. destruct (B r A1 Hf) as [B1 B2]. split; congruence.
Qed.

Lemma kinv_new : forall k r, kinv k -> in_use k (h_path r) (h_share r) = false ->
  (h_foreign r = false -> h_share r = false /\ k_files k (h_path r) <> None) ->
  kinv (fst (new_handle k r)).
Proof.
  intros k r K U Hr. destruct (K) as [K1 K2 K3 K4]. 
  assert (Fr : find_handle k (k_next k) = None).
  { destruct (find_handle k (k_next k)) eqn:E; auto. apply K2 in E. lia. }
  constructor.
  - simpl. constructor; auto. intros Hin. apply in_map_iff in Hin. destruct Hin as ([i s] & E & Hin). simpl in E. subst i.
    apply find_in in Hin; auto. congruence.
  - intros i s. rewrite find_new by auto. simpl. destruct (Nat.eqb_spec (k_next k) i) as [<-|Hn]; [lia|].
    intros F. apply K2 in F. lia.
  - intros i j ri rj Hij. rewrite !find_new by auto.
    destruct (Nat.eqb_spec (k_next k) i) as [<-|Hi]; destruct (Nat.eqb_spec (k_next k) j) as [<-|Hj]; intros Ei Ej Hp.
    + congruence.
    + injection Ei as <-. destruct (in_use_false _ _ _ K U j rj Ej (eq_sym Hp)). auto.
    + injection Ej as <-. destruct (in_use_false _ _ _ K U i ri Ei Hp). auto.
    + apply (K3 i j); auto.
  - intros i s. rewrite find_new by auto. simpl. destruct (Nat.eqb (k_next k) i); intros E Hf; [injection E as <-; auto|].
    apply (K4 i s); auto.
Qed.

Lemma kinv_drop : forall k h, kinv k -> kinv (drop_handle k h).
Proof.
  intros k h [K1 K2 K3 K4]. constructor.
  - simpl. clear - K1. induction (k_handles k) as [|[j s] l IH]; simpl; auto.
    simpl in K1. inversion K1 as [|x y N1 N2]; subst. destruct (Nat.eqb j h); simpl; auto. constructor; auto.
    intros Hin. apply N1. apply in_map_iff in Hin. destruct Hin as (e & E & Hin). apply filter_In in Hin.
    apply in_map_iff. exists e. tauto.
  - intros i r. rewrite find_drop. destruct (Nat.eqb i h); [discriminate|]. intros F. apply (K2 _ _ F).
  - intros i j ri rj Hij. rewrite !find_drop. destruct (Nat.eqb i h); [discriminate|]. destruct (Nat.eqb j h); [discriminate|].
    intros. apply (K3 i j ri rj); auto.
  - intros i r. rewrite find_drop. destruct (Nat.eqb i h); [discriminate|]. intros. apply (K4 i r); auto.
Qed.

Lemma kinv_set : forall k h r r', kinv k -> find_handle k h = Some r ->
  h_path r' = h_path r -> h_foreign r' = h_foreign r -> h_share r' = h_share r -> kinv (set_handle k h r').
Proof.
  intros k h r r' [K1 K2 K3 K4] F Hp Hf Hs. assert (N : find_handle k h <> None) by congruence. constructor.
  - simpl. replace (map fst (map _ (k_handles k))) with (map fst (k_handles k)); auto.
    clear. induction (k_handles k) as [|[j s] l IH]; simpl; auto. f_equal; auto.
    destruct (Nat.eqb_spec j h); simpl; auto.
  - intros i s. rewrite find_set by auto. destruct (Nat.eqb_spec i h) as [->|Hi]; intros E; [apply (K2 _ _ F)|apply (K2 _ _ E)].
  - intros i j ri rj Hij. rewrite !find_set by auto.
    destruct (Nat.eqb_spec i h) as [->|Hi]; destruct (Nat.eqb_spec j h) as [->|Hj]; intros Ei Ej Hq; try congruence.
    + injection Ei as <-. rewrite Hs. apply (K3 h j r rj); auto; congruence.
    + injection Ej as <-. rewrite Hs. apply (K3 i h ri r); auto; congruence.
    + apply (K3 i j ri rj); auto.
  - intros i s. rewrite find_set by auto. simpl. destruct (Nat.eqb_spec i h) as [->|Hi]; intros E Hfs; [|apply (K4 i s); auto].
    injection E as <-. rewrite Hp, Hs. apply (K4 h r); auto. congruence.
Qed.

Lemma kinv_file : forall k p f, kinv k ->
  (f = None -> forall i r, find_handle k i = Some r -> h_path r = p -> h_foreign r = true) -> kinv (set_file k p f).
Proof.
  intros k p f [K1 K2 K3 K4] H. constructor; auto.
  intros i r F Hf. rewrite find_file in F. destruct (K4 i r F Hf) as [A B]. split; auto. rewrite file_file.
  destruct (Nat.eqb_spec (h_path r) p) as [E|E]; auto. intros ->. rewrite (H eq_refl i r F E) in Hf. discriminate.
Qed.

Lemma same_new : forall k r h, kinv k -> same_for k (fst (new_handle k r)) h.
Proof.
  intros k r h K s F Hf. rewrite find_new by auto. destruct (Nat.eqb_spec (k_next k) h) as [E|E]; [|auto].
  destruct K as [_ K2 _ _]. apply K2 in F. lia.
Qed.

Lemma same_drop : forall k h x, x <> h -> same_for k (drop_handle k h) x.
Proof.
  intros k h x H r F _. rewrite find_drop. destruct (Nat.eqb_spec x h); [congruence|auto].
Qed.

Lemma same_set : forall k h r x, x <> h -> find_handle k h <> None -> same_for k (set_handle k h r) x.
Proof.
  intros k h r x H Hn s F _. rewrite find_set by auto. destruct (Nat.eqb_spec x h); [congruence|auto].
Qed.

(** A change of the file of handle h does not concern the others of ours. *)
Lemma same_file : forall k h r x f, kinv k -> find_handle k h = Some r -> x <> h ->
  same_for k (set_file k (h_path r) f) x.
Proof.
  intros k h r x f K F Hx s Fs Hf. split; auto. rewrite file_file.
  destruct (Nat.eqb_spec (h_path s) (h_path r)) as [E|E]; auto.
  destruct (ki_alone _ K x h s r Hx Fs F E) as [A _]. destruct (ki_ours _ K x s Fs Hf). congruence.
Qed.

(** The same if nobody has the file open. *)
Lemma same_file_free : forall k p x f, kinv k -> in_use k p false = false -> same_for k (set_file k p f) x.
Proof.
  intros k p x f K U s Fs Hf. split; auto. rewrite file_file. destruct (Nat.eqb_spec (h_path s) p) as [E|E]; auto.
  destruct (in_use_false _ _ _ K U x s Fs E). congruence.
Qed.

Lemma new_handle_eq : forall k r, new_handle k r = (fst (new_handle k r), k_next k).
Proof. reflexivity. Qed.

Lemma in_use_file : forall k p f q s, in_use (set_file k p f) q s = in_use k q s.
Proof. reflexivity. Qed.

(** What CreateFileA does. *)
Lemma create_spec : forall k p rd wr trunc nobuf ro sup deny k' h, kinv k ->
  create_file k p rd wr trunc nobuf ro sup deny = Some (k', h) ->
  kinv k' /\ find_handle k h = None /\ (forall x, same_for k k' x) /\
  find_handle k' h = Some (mk_whandle p rd wr nobuf false false false 0) /\
  in_use k p false = false /\
  (forall q, q <> p -> k_files k' q = k_files k q) /\
  exists f', k_files k' p = Some f' /\
    match k_files k p with
    | None => trunc = false /\ f_size f' = 0 /\ f_ro f' = ro
    | Some f => (f_ro f && wr = false) /\ f_ro f' = f_ro f /\
                if trunc then wr = true /\ f_size f' = 0 else f' = f
    end.
Proof.
  intros k p rd wr trunc nobuf ro sup deny k' h K E. unfold create_file in E.
  destruct deny; [discriminate|]. destruct (in_use k p false) eqn:U; [discriminate|].
  destruct (nobuf && negb sup); [discriminate|]. cbv zeta in E.
  assert (N : find_handle k (k_next k) = None).
  { destruct (find_handle k (k_next k)) eqn:X; auto. apply (ki_next _ K) in X. lia. }
  set (r := mk_whandle p rd wr nobuf false false false 0) in *.
  assert (G : forall f, k' = fst (new_handle (set_file k p (Some f)) r) -> h = k_next k ->
    kinv k' /\ find_handle k h = None /\ (forall x, same_for k k' x) /\ find_handle k' h = Some r /\
    (forall q, q <> p -> k_files k' q = k_files k q) /\ k_files k' p = Some f).
  { intros f Hk ->.
    assert (K1 : kinv (set_file k p (Some f))) by (apply kinv_file; auto; discriminate).
    split; [|split; [auto|split; [|split; [|split]]]].
    - subst k'. apply kinv_new; auto. intros _. split; auto. rewrite file_file. simpl. rewrite Nat.eqb_refl. discriminate.
    - intros x. subst k'. eapply same_trans; [apply same_file_free; eauto|]. apply same_new; auto.
    - subst k'. rewrite find_new by auto. simpl. rewrite Nat.eqb_refl. reflexivity.
    - intros q Hq. subst k'. unfold new_handle. cbn [fst k_files]. rewrite file_file.
      destruct (Nat.eqb_spec q p); [congruence|auto].
    - subst k'. unfold new_handle. cbn [fst k_files]. rewrite file_file, Nat.eqb_refl. auto. }
  destruct (k_files k p) as [f|] eqn:Ef.
  - destruct (f_ro f && wr) eqn:Ero; [discriminate|]. destruct trunc.
    + destruct wr eqn:Ew; [|discriminate]. rewrite new_handle_eq in E. injection E as Ek Eh.
      destruct (G _ (eq_sym Ek) (eq_sym Eh)) as (G1 & G2 & G3 & G4 & G5 & G6).
      split; auto. split; auto. split; auto. split; auto. split; auto. split; auto. eexists. split; [exact G6|].
      simpl. auto.
    + rewrite new_handle_eq in E. injection E as Ek Eh.
      assert (Ek' : k' = fst (new_handle k r)) by exact (eq_sym Ek). rewrite Ek'. clear Ek Ek'. subst h.
      split; [|split; [auto|split; [|split; [|split; [auto|split]]]]].
      * apply kinv_new; auto. intros _. simpl. split; auto. congruence.
      * intros x. apply same_new; auto.
      * rewrite find_new by auto. rewrite Nat.eqb_refl. reflexivity.
      * auto.
      * exists f. auto.
  - destruct trunc; [discriminate|]. rewrite new_handle_eq in E. injection E as Ek Eh.
    destruct (G _ (eq_sym Ek) (eq_sym Eh)) as (G1 & G2 & G3 & G4 & G5 & G6).
    split; auto. split; auto. split; auto. split; auto. split; auto. split; auto. eexists. split; [exact G6|].
    simpl. auto.
Qed.

(** Operations on a handle h of ours. *)
Definition on_handle (k k' : kernel) (h : nat) : Prop :=
  kinv k' /\ (forall x, x <> h -> same_for k k' x) /\
  forall r, find_handle k h = Some r -> exists r', find_handle k' h = Some r' /\ h_path r' = h_path r /\
    h_foreign r' = h_foreign r /\ h_read r' = h_read r /\ h_write r' = h_write r /\ h_nobuf r' = h_nobuf r.

Lemma on_set : forall k h r r', kinv k -> find_handle k h = Some r ->
  h_path r' = h_path r -> h_foreign r' = h_foreign r -> h_share r' = h_share r ->
  h_read r' = h_read r -> h_write r' = h_write r -> h_nobuf r' = h_nobuf r -> on_handle k (set_handle k h r') h.
Proof.
  intros k h r r' K F A B C D1 D2 D3. split; [eapply kinv_set; eauto|]. split.
  - intros x Hx. apply same_set; auto. congruence.
  - intros s Fs. rewrite F in Fs. injection Fs as <-. exists r'. rewrite find_set by congruence.
    rewrite Nat.eqb_refl. auto 10.
Qed.

Lemma on_file : forall k h r f, kinv k -> find_handle k h = Some r ->
  on_handle k (set_file k (h_path r) (Some f)) h.
Proof.
  intros k h r f K F. split; [apply kinv_file; auto; discriminate|]. split.
  - intros x Hx. eapply same_file; eauto.
  - intros s Fs. exists s. auto 10.
Qed.

Lemma on_trans : forall k1 k2 k3 h, on_handle k1 k2 h -> on_handle k2 k3 h -> on_handle k1 k3 h.
Proof.
  intros k1 k2 k3 h (A1 & A2 & A3) (B1 & B2 & B3). split; auto. split.
  - intros x Hx. eapply same_trans; eauto.
  - intros r F. destruct (A3 r F) as (r2 & F2 & P1 & P2 & P3 & P4 & P5).
    destruct (B3 r2 F2) as (r3 & F3 & Q1 & Q2 & Q3 & Q4 & Q5). exists r3. intuition congruence.
Qed.

Lemma on_refl : forall k h, kinv k -> on_handle k k h.
Proof.
  intros k h K. split; auto. split; [intros x _; apply same_refl|]. intros r F. exists r. auto 10.
Qed.

Lemma lock_on : forall k h ok k', kinv k -> lock_file k h ok = Some k' -> on_handle k k' h.
Proof.
  intros k h ok k' K E. unfold lock_file in E. destruct (find_handle k h) as [r|] eqn:F; [|discriminate].
  destruct ok; [|discriminate]. injection E as <-. eapply on_set; eauto.
Qed.

Lemma pointer_on : forall k h n k', kinv k -> set_pointer k h n = Some k' -> on_handle k k' h.
Proof.
  intros k h n k' K E. unfold set_pointer in E. destruct (find_handle k h) as [r|] eqn:F; [|discriminate].
  destruct (n <? 2 ^ 63); [|discriminate]. injection E as <-. eapply on_set; eauto.
Qed.

Lemma end_on : forall b k h e k', kinv k -> set_end b k h e = Some k' -> on_handle k k' h.
Proof.
  intros b k h e k' K E. unfold set_end in E. destruct (find_handle k h) as [r|] eqn:F; [|discriminate].
  destruct (k_files k (h_path r)) as [f|]; [|discriminate].
  destruct (h_write r && e_end e && _); [|discriminate]. injection E as <-. apply on_file; auto.
Qed.

Lemma resize_on : forall b k h n e k', kinv k -> resize b k h n e = Some k' -> on_handle k k' h.
Proof.
  intros b k h n e k' K E. unfold resize in E. destruct (set_pointer k h n) as [k1|] eqn:P; [|discriminate].
  pose proof (pointer_on _ _ _ _ K P) as Q. eapply on_trans; [exact Q|]. eapply end_on; eauto. apply Q.
Qed.

Lemma write_on : forall b k h buf data e k' n, kinv k -> write_file b k h buf data e = Some (k', n) -> on_handle k k' h.
Proof.
  intros b k h buf data e k' n K E. unfold write_file in E. destruct (find_handle k h) as [r|] eqn:F; [|discriminate].
  destruct (k_files k (h_path r)) as [f|]; [|discriminate]. destruct (h_write r && _); [|discriminate].
  cbv zeta in E. destruct (firstn _ data) as [|z l].
  - injection E as <- <-. apply on_refl; auto.
  - injection E as <- <-. apply on_file; auto.
Qed.

(** * Objects *)

Definition obj_ok (k : kernel) (ob : wobj) : Prop :=
  (forall h, o_des ob = Some h -> o_phase ob = Idle /\
     exists r, find_handle k h = Some r /\ h_path r = o_path ob /\ h_foreign r = false).

Record winv (w : world) : Prop := mk_winv {
  wi_k    : kinv (w_k w);
  wi_objs : forall o ob, w_objs w o = Some ob -> obj_ok (w_k w) ob;
  wi_own  : forall o1 o2 ob1 ob2 h, w_objs w o1 = Some ob1 -> w_objs w o2 = Some ob2 ->
              o_des ob1 = Some h -> o_des ob2 = Some h -> o1 = o2
}.

(** Changes of the kernel and of one object. *)
Lemma winv_put : forall w k' o ob', winv w -> kinv k' ->
  (forall x, (forall ob, w_objs w o = Some ob -> o_des ob <> Some x) -> find_handle (w_k w) x <> None ->
     same_for (w_k w) k' x) ->
  (forall ob, ob' = Some ob -> obj_ok k' ob) ->
  (forall ob h, ob' = Some ob -> o_des ob = Some h ->
     (exists ob0, w_objs w o = Some ob0 /\ o_des ob0 = Some h) \/ find_handle (w_k w) h = None) ->
  winv (put w k' o ob').
Proof.
  intros w k' o ob' [W1 W2 W3] K S Ok Own.
  assert (Other : forall o1 ob1 h, o1 <> o -> w_objs w o1 = Some ob1 -> o_des ob1 = Some h ->
    exists r, find_handle (w_k w) h = Some r /\ find_handle k' h = Some r /\ h_path r = o_path ob1 /\ h_foreign r = false).
  { intros o1 ob1 h Hn E D. destruct (W2 o1 ob1 E h D) as (_ & r & F & P & Q).
    assert (X : same_for (w_k w) k' h).
    { apply S; [|congruence]. intros ob Eo Do. apply Hn. eapply W3; eauto. }
    destruct (X r F Q). exists r. auto. }
  constructor; auto.
  - intros o1 ob1. unfold put, upd; cbn [w_objs w_k]. destruct (Nat.eqb_spec o1 o) as [->|Hn]; [apply Ok|].
    intros E h D. split; [apply (W2 o1 ob1 E h D)|]. destruct (Other o1 ob1 h Hn E D) as (r & F & F' & P & Q). exists r. auto.
  - intros o1 o2 ob1 ob2 h. unfold put, upd; cbn [w_objs w_k].
    assert (Z : forall oa obx oby, oa <> o -> ob' = Some obx -> o_des obx = Some h -> w_objs w oa = Some oby ->
      o_des oby = Some h -> oa = o).
    { intros oa obx oby Hn E D Ey Dy. destruct (Own obx h E D) as [(ob0 & E0 & D0)|Hnone].
      - eapply W3; eauto.
      - destruct (Other oa oby h Hn Ey Dy) as (r & F & _). congruence. }
    destruct (Nat.eqb_spec o1 o) as [->|H1]; destruct (Nat.eqb_spec o2 o) as [->|H2]; auto.
    + intros E1 E2 D1 D2. symmetry. eapply Z; eauto.
    + intros E1 E2 D1 D2. eapply Z; eauto.
    + intros. eapply W3; eauto.
Qed.

(** Changes of the kernel alone that leave all handles of ours. *)
Lemma winv_kernel : forall w k', winv w -> kinv k' -> (forall x, same_for (w_k w) k' x) ->
  winv (mk_world k' (w_objs w)).
Proof.
  intros w k' [W1 W2 W3] K S. constructor; auto. cbn [w_objs w_k].
  intros o ob E h D. destruct (W2 o ob E h D) as (A & r & F & P & Q). split; auto. exists r.
  destruct (S h r F Q). auto.
Qed.

(** An operation on the handle of object o. *)
Lemma winv_on : forall w k' o ob h, winv w -> w_objs w o = Some ob -> o_des ob = Some h ->
  on_handle (w_k w) k' h -> winv (mk_world k' (w_objs w)) /\
  forall ob', o_des ob' = Some h -> o_phase ob' = Idle -> o_path ob' = o_path ob -> winv (put w k' o (Some ob')).
Proof.
  intros w k' o ob h W E D (K & S & H).
  destruct (wi_objs _ W o ob E h D) as (A & r & F & P & Q). destruct (H r F) as (r' & F' & P' & Q' & _).
  assert (G : forall ob', o_des ob' = Some h -> o_phase ob' = Idle -> o_path ob' = o_path ob -> winv (put w k' o (Some ob'))).
  { intros ob' D' I' P''. apply winv_put; auto.
    - intros x Hx _. apply S. intros ->. apply (Hx ob); auto.
    - intros ob1 E1. injection E1 as <-. intros h1 D1. split; auto. exists r'. rewrite D' in D1. injection D1 as <-.
      intuition congruence.
    - intros ob1 h1 E1 D1. injection E1 as <-. left. exists ob. split; auto. congruence. }
  split; auto. destruct W as [W1 W2 W3]. constructor; auto. cbn [w_objs w_k].
  intros o1 ob1 E1 h1 D1. destruct (W2 o1 ob1 E1 h1 D1) as (A1 & r1 & F1 & P1 & Q1). split; auto.
  destruct (Nat.eq_dec h1 h) as [->|Hn].
  - exists r'. rewrite F1 in F. injection F as <-. intuition congruence.
  - destruct (S h1 Hn r1 F1 Q1). exists r1. auto.
Qed.
