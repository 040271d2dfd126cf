(** Construction and destruction order of several singletons. *)
From Coq Require Import List Arith Bool Lia.
From Verif Require Import SingletonModel SingletonSpec SingletonProofs.
Import ListNotations.

Section L.
Variable uses : nat -> list nat.

Record W (s : lstate) : Prop := {
  w_nodup : NoDup (l_stack s);
  w_alive : forall a, In a (l_stack s) <-> exists n, l_inst s a = Obj n;
  w_order : forall l1 a l2, l_stack s = l1 ++ a :: l2 -> forall u, In u (uses a) -> In u l2
}.

(** What a returning call of get does. *)
Definition grows (rl : bool) (locked : list nat) (s s' : lstate) : Prop :=
  W s' /\ exists new, l_stack s' = new ++ l_stack s /\
    l_trace s' = map Created new ++ l_trace s /\ (rl = true -> new = [] /\ s' = s) /\
    (forall x, l_inst s' x = Bomb <-> l_inst s x = Bomb) /\
    (forall x, In x locked -> l_inst s x = Null -> l_inst s' x = Null).

Lemma grows_refl : forall rl locked s, W s -> grows rl locked s s.
Proof. intros. split; auto. exists []. csplit; auto; tauto. Qed.

Lemma grows_trans : forall rl locked a b c, grows rl locked a b -> grows rl locked b c -> grows rl locked a c.
Proof.
  intros rl locked a b c (_ & n1 & A1 & A2 & A3 & A4 & A5) (W2 & n2 & B1 & B2 & B3 & B4 & B5).
  split; auto. exists (n2 ++ n1). csplit.
  - rewrite B1, A1. apply app_assoc.
  - rewrite B2, A2, map_app. apply app_assoc.
  - intros R. destruct (A3 R) as (-> & ->). destruct (B3 R) as (-> & ->). auto.
  - intros x. rewrite B4. auto.
  - auto.
Qed.

Lemma fold_grows : forall rl locked f l,
  (forall a s s', In a l -> f a s = LDone s' -> W s -> grows rl locked s s' /\ In a (l_stack s')) ->
  forall s s', lfold f l s = LDone s' -> W s ->
  grows rl locked s s' /\ forall a, In a l -> In a (l_stack s').
Proof.
  intros rl locked f l. induction l as [|a l IH]; cbn; intros F s s' H Ws.
  - injection H as <-. split; [apply grows_refl; auto|tauto].
  - destruct (f a s) as [s1| | |] eqn:E; cbn in H; try discriminate.
    destruct (F a s s1 (or_introl eq_refl) E Ws) as (G & Ia).
    destruct (IH (fun b x y Hb => F b x y (or_intror Hb)) s1 s' H (proj1 G)) as (G2 & A).
    split; [eapply grows_trans; eauto|]. intros b [<-|Hb]; auto.
    destruct G2 as (_ & n & -> & _). apply in_or_app; auto.
Qed.

Lemma get_grows : forall fuel rl locked a s s', get uses fuel rl locked a s = LDone s' -> W s ->
  grows rl locked s s' /\ In a (l_stack s').
Proof.
  induction fuel as [|fuel IH]; cbn; intros rl locked a s s' H Ws; [discriminate|].
  destruct (l_inst s a) as [|n|] eqn:E; [| |discriminate].
  - destruct (existsb (Nat.eqb a) locked) eqn:X; [discriminate|].
    destruct (lfold (get uses fuel rl (a :: locked)) (uses a) s) as [s1| | |] eqn:F; cbn in H; try discriminate.
    destruct rl; [discriminate|]. injection H as <-.
    destruct (fold_grows false (a :: locked) _ _ (fun b x y _ => IH false (a :: locked) b x y) s s1 F Ws) as (G & A).
    destruct G as (W1 & new & B1 & B2 & _ & B4 & B5).
    pose proof (B5 a (or_introl eq_refl) E) as Na.
    assert (Nin : ~ In a (l_stack s1)).
    { intros K. apply (w_alive _ W1) in K. destruct K as (n & K). congruence. }
    split; [|cbn; auto]. split.
    + constructor; cbn.
      * constructor; auto. apply (w_nodup _ W1).
      * intros x. destruct (Nat.eqb_spec x a) as [->|Ne].
        -- split; [eauto|auto].
        -- rewrite <- (w_alive _ W1 x). split; [intros [K|K]; [congruence|auto]|auto].
      * intros l1 b l2 K u U. destruct l1 as [|c l1]; cbn in K; injection K as <- K.
        -- subst l2. apply A; auto.
        -- eapply (w_order _ W1); eauto.
    + exists (a :: new). cbn. csplit; auto.
      * rewrite B1. auto.
      * rewrite B2. auto.
      * discriminate.
      * intros x. destruct (Nat.eqb_spec x a) as [->|Ne]; [|apply B4].
        split; [discriminate|congruence].
      * intros x Hx Nx. destruct (Nat.eqb_spec x a) as [->|Ne]; [|apply B5; cbn; auto].
        exfalso. assert (existsb (Nat.eqb a) locked = true); [|congruence].
        apply existsb_exists. exists a. split; auto. apply Nat.eqb_refl.
  - injection H as <-. split; [apply grows_refl; auto|]. apply (w_alive _ Ws). eauto.
Qed.

Lemma W_init : W l_init.
Proof.
  constructor; cbn.
  - constructor.
  - intros a. split; [tauto|intros (n & E); discriminate].
  - intros l1 a l2 E. destruct l1; discriminate.
Qed.

(** Everything a class needs lies deeper in the stack. *)
Lemma needs_deeper : forall s, W s -> forall a u, needs uses a u ->
  forall l1 l2, l_stack s = l1 ++ a :: l2 -> In u l2.
Proof.
  intros s Ws a u N. induction N as [a u U|a b u U N IH]; intros l1 l2 E.
  - eapply (w_order _ Ws); eauto.
  - pose proof (w_order _ Ws _ _ _ E _ U) as K. apply in_split in K. destruct K as (k1 & k2 & ->).
    assert (In u k2).
    { apply (IH (l1 ++ a :: k1) k2). rewrite E, <- app_assoc. auto. }
    apply in_or_app. right. right. auto.
Qed.

Lemma get_alive : forall fuel rl locked a s n, l_inst s a = Obj n ->
  get uses (S fuel) rl locked a s = LDone s.
Proof. intros. cbn. rewrite H. auto. Qed.

Lemma fold_alive : forall fuel rl locked l s, (forall u, In u l -> exists n, l_inst s u = Obj n) ->
  lfold (get uses (S fuel) rl locked) l s = LDone s.
Proof.
  induction l as [|a l IH]; intros s H; [reflexivity|]. cbn [lfold].
  destruct (H a (or_introl eq_refl)) as (n & E).
  rewrite (get_alive _ _ _ _ _ _ E). cbn [lbind]. apply IH. intros; apply H; right; auto.
Qed.

Variable d_uses : nat -> list nat.
Hypothesis D : forall a u, In u (d_uses a) -> needs uses a u.

Lemma destroy_top : forall fuel rl a r s st, W s -> l_stack s = a :: r ->
  destroy uses d_uses (S fuel) rl a (MkL (l_inst s) st (l_trace s)) =
  LDone (MkL (fun x => if x =? a then Bomb else l_inst s x) st (Destroyed a :: l_trace s)).
Proof.
  intros fuel rl a r s st Ws E. unfold destroy. cbn [l_inst l_stack l_trace].
  rewrite fold_alive; [reflexivity|].
  intros u U. apply D in U. pose proof (needs_deeper _ Ws _ _ U [] r E) as K.
  assert (u <> a).
  { intros ->. pose proof (w_nodup _ Ws) as N. rewrite E in N. inversion N; auto. }
  cbn. rewrite (proj2 (Nat.eqb_neq u a)) by auto. apply (w_alive _ Ws). rewrite E. right; auto.
Qed.

Lemma W_pop : forall a r s t, W s -> l_stack s = a :: r ->
  W (MkL (fun x => if x =? a then Bomb else l_inst s x) r t).
Proof.
  intros a r s t Ws E. pose proof (w_nodup _ Ws) as N. rewrite E in N. inversion N; subst.
  constructor; cbn.
  - auto.
  - intros x. destruct (Nat.eqb_spec x a) as [->|Ne].
    + split; [tauto|intros (n & K); discriminate].
    + rewrite <- (w_alive _ Ws x), E. cbn. split; [auto|intros [K|K]; [congruence|auto]].
  - intros l1 b l2 K u U. apply (w_order _ Ws (a :: l1) b l2); auto. rewrite E, K. auto.
Qed.

Lemma run_all : forall default st fuel s, W s -> l_stack s = st -> length st + 2 <= fuel ->
  exists s', run_handlers uses d_uses fuel default s = LDone s' /\
    l_trace s' = map Destroyed (rev st) ++ l_trace s.
Proof.
  intros default. induction st as [|a r IH]; intros fuel s Ws E F.
  - destruct fuel; [cbn in F; lia|]. exists s. cbn. rewrite E. auto.
  - destruct fuel as [|fuel]; [cbn in F; lia|]. cbn in F. cbn [run_handlers]. rewrite E.
    destruct fuel as [|fuel]; [lia|].
    set (t := Destroyed a :: l_trace s).
    destruct (IH (S fuel) _ (W_pop a r s t Ws E) eq_refl ltac:(lia)) as (s' & R & T).
    exists s'. cbn [l_trace] in T. split.
    + destruct default.
      * rewrite (destroy_top _ _ _ r) by auto. cbn [lbind]. exact R.
      * replace s with (MkL (l_inst s) (l_stack s) (l_trace s)) at 1 by (destruct s; auto).
        rewrite (destroy_top _ _ _ r) by auto. cbn [lbind l_stack l_inst l_trace]. rewrite E. exact R.
    + rewrite T. subst t. cbn. rewrite map_app, <- app_assoc. auto.
Qed.
End L.

(** With ranked classes the calls return. *)
Lemma get_done : forall uses rank, ranked uses rank -> forall fuel a locked s,
  rank a < fuel -> W uses s -> (forall x, l_inst s x <> Bomb) -> (forall x, In x locked -> rank a < rank x) ->
  exists s', get uses fuel false locked a s = LDone s'.
Proof.
  intros uses rank Rk. induction fuel as [|fuel IH]; intros a locked s F Ws B L; [lia|].
  cbn. destruct (l_inst s a) as [|n|] eqn:E; [|eauto|congruence].
  destruct (existsb (Nat.eqb a) locked) eqn:X.
  { apply existsb_exists in X. destruct X as (x & Hx & Ex). apply Nat.eqb_eq in Ex. subst.
    specialize (L _ Hx). lia. }
  assert (G : forall l s, (forall u, In u l -> rank u < rank a) -> W uses s -> (forall x, l_inst s x <> Bomb) ->
    exists s', lfold (get uses fuel false (a :: locked)) l s = LDone s').
  { induction l as [|u l IHl]; intros s0 U W0 B0; [cbn; eauto|]. cbn [lfold].
    pose proof (U u (or_introl eq_refl)) as Ru.
    destruct (IH u (a :: locked) s0) as (s1 & E1); auto.
    - lia.
    - intros x [<-|Hx]; auto. specialize (L _ Hx). lia.
    - rewrite E1. cbn [lbind]. destruct (get_grows uses _ _ _ _ _ _ E1 W0) as ((W1 & n & _ & _ & _ & B1 & _) & _).
      apply IHl; auto.
      + intros; apply U; right; auto.
      + intros x K. apply B1 in K. eapply B0; eauto. }
  destruct (G (uses a) s (Rk a) Ws B) as (s' & ->). cbn. eauto.
Qed.

Lemma gets_done : forall uses rank, ranked uses rank -> forall fuel gets s,
  (forall g, In g gets -> rank g < fuel) -> W uses s -> (forall x, l_inst s x <> Bomb) ->
  exists s', lfold (get uses fuel false []) gets s = LDone s'.
Proof.
  intros uses rank Rk fuel. induction gets as [|g gets IH]; intros s F Ws B; [cbn; eauto|].
  cbn [lfold]. destruct (get_done uses rank Rk fuel g [] s) as (s1 & E); auto.
  { apply F; left; auto. } { intros x []. }
  rewrite E. cbn [lbind].
  destruct (get_grows uses _ _ _ _ _ _ E Ws) as ((W1 & n & _ & _ & _ & B1 & _) & _).
  apply IH; auto. { intros; apply F; right; auto. }
  intros x K. apply B1 in K. eapply B; eauto.
Qed.

Lemma gets_grow : forall uses fuel gets s, lfold (get uses fuel false []) gets l_init = LDone s ->
  W uses s /\ l_trace s = map Created (l_stack s) /\ (forall g, In g gets -> In g (l_stack s)) /\
  (forall x, l_inst s x <> Bomb).
Proof.
  intros uses fuel gets s E.
  destruct (fold_grows uses false [] _ gets (fun b x y _ => get_grows uses fuel false [] b x y) _ _ E (W_init uses))
    as ((Ws & n & A1 & A2 & _ & A4 & _) & A).
  cbn in A1, A2. rewrite app_nil_r in *. csplit; auto.
  - congruence.
  - intros x K. apply A4 in K. discriminate.
Qed.
