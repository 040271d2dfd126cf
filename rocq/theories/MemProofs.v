(** Proofs about the memory of blocks. *)

From Coq Require Import ZArith List Bool Lia Permutation.
From Verif Require Import MemModel MemSpec.
Import ListNotations.
Local Open Scope Z_scope.

(** A buffer with the piece of it the program has. *)
Record hold := mk_hold { g_p : Z; g_bytes : Z; g_b : Z; g_n : Z }.
Definition piece (g : hold) : Z * Z := (g_p g, g_bytes g).
Definition buffer (g : hold) : Z * Z := (g_b g, g_n g).

Definition apart (x y : Z * Z) : Prop := fst x + snd x <= fst y \/ fst y + snd y <= fst x.

Section S.
Variables A raw : Z.
Hypothesis HA : 1 <= A.
Hypothesis Hraw : 1 <= raw.

Definition good (m : Z -> option Z) (g : hold) : Prop :=
  0 < g_b g /\ g_b g + 8 <= g_p g /\ 0 <= g_bytes g /\ g_p g + g_bytes g <= g_b g + g_n g /\
  g_b g + g_n g <= 2 ^ 64 /\
  m (g_p g - 8) = Some (g_b g) /\ (g_p g + g_bytes g mod raw) mod A = 0.

Record inv (h : heap) (own : has) (gs : list hold) (lost : list (Z * Z)) : Prop := {
  v_own : own = map piece gs;
  v_live : Permutation (live h) (map buffer gs ++ lost);
  v_size : Forall (fun x => 0 < snd x) (live h);
  v_apart : ForallOrdPairs apart (live h);
  v_good : Forall (good (mem h)) gs;
  v_lost : may h = true -> lost = []
}.

Lemma apart_sym : forall x y, apart x y -> apart y x.
Proof. unfold apart. intros. lia. Qed.

Lemma fop_perm : forall (l l' : list (Z * Z)), Permutation l l' -> ForallOrdPairs apart l -> ForallOrdPairs apart l'.
Proof.
  induction 1 as [|x l l' P IH|x y l|l l' l'' P1 IH1 P2 IH2]; intros F; auto.
  - inversion F; subst. constructor; auto. rewrite Forall_forall in *. intros z Hz. apply H1.
    eapply Permutation_in; [apply Permutation_sym|]; eauto.
  - inversion F as [|? ? F1 F2]; subst. inversion F2 as [|? ? F3 F4]; subst. inversion F1; subst.
    constructor; [constructor; auto using apart_sym|]. constructor; auto.
Qed.

Lemma forall_perm : forall (P : Z * Z -> Prop) l l', Permutation l l' -> Forall P l -> Forall P l'.
Proof.
  intros P l l' Pe F. rewrite Forall_forall in *. intros x Hx. apply F. eapply Permutation_in; [apply Permutation_sym|]; eauto.
Qed.

Lemma fop_two : forall l x y, ForallOrdPairs apart l -> In x l -> In y l -> x <> y -> apart x y.
Proof.
  induction l as [|z l IH]; intros x y F Hx Hy N; [destruct Hx|]. inversion F as [|? ? F1 F2]; subst.
  rewrite Forall_forall in F1. destruct Hx as [->|Hx], Hy as [->|Hy]; try congruence; auto.
  apply apart_sym. auto.
Qed.

Lemma fop_app_r : forall l1 l2, ForallOrdPairs apart (l1 ++ l2) -> ForallOrdPairs apart l2.
Proof. induction l1 as [|x l1 IH]; cbn; intros l2 F; auto. inversion F; auto. Qed.

Lemma in_live : forall h own gs lost g, inv h own gs lost -> In g gs -> In (buffer g) (live h).
Proof.
  intros h own gs lost g I Hg. eapply Permutation_in; [apply Permutation_sym, (v_live _ _ _ _ I)|].
  apply in_or_app. left. apply in_map. auto.
Qed.

(** ** Buffers taken *)

Lemma fits_spec : forall h a n, 0 < n -> fits h a n = true -> Forall (fun x => 0 < snd x) (live h) ->
  0 < a /\ a + n <= 2 ^ 64 /\ Forall (apart (a, n)) (live h).
Proof.
  intros h a n Hn F Z. unfold fits in F. apply andb_prop in F. destruct F as (F & F3). apply andb_prop in F.
  destruct F as (F1 & F2). apply Z.ltb_lt in F1. apply Z.leb_le in F2. split; auto. split; [lia|].
  rewrite forallb_forall in F3. rewrite Forall_forall in *. intros x Hx. specialize (F3 x Hx). specialize (Z x Hx).
  unfold apartb in F3. cbn [fst snd] in F3. apply orb_prop in F3. unfold apart. cbn [fst snd].
  destruct F3 as [Q|Q]; apply Z.leb_le in Q; lia.
Qed.

Lemma result_spec : forall b meta size, 0 < b -> 0 <= meta -> 0 <= size ->
  let r := result_of A b meta in
  b + 8 < r + 0 /\ r <= b + 8 + A /\ (r + meta) mod A = 0.
Proof.
  intros b meta size Hb Hm Hs. unfold result_of. cbv zeta.
  pose proof (Z.mod_pos_bound (b + 8 + meta) A ltac:(lia)) as B. split; [lia|]. split; [lia|].
  replace (b + 8 + meta + A - (b + 8 + meta) mod A - meta + meta) with (b + 8 + meta - (b + 8 + meta) mod A + 1 * A) by lia.
  rewrite Z.mod_add by lia. rewrite Zminus_mod, Z.mod_mod, Z.sub_diag by lia. apply Z.mod_0_l. lia.
Qed.

Lemma put_far : forall m a v x, 8 <= Z.abs (x - a) -> put m a v x = m x.
Proof.
  intros m a v x H. unfold put. destruct (Z.eqb_spec x a); [lia|]. destruct (Z.ltb_spec (Z.abs (x - a)) 8); auto. lia.
Qed.

(** Writing inside the buffer [x] does not concern the pieces of other buffers. *)
Lemma good_put : forall m g x a v, good m g -> apart x (buffer g) ->
  fst x <= a -> a + 8 <= fst x + snd x -> good (put m a v) g.
Proof.
  intros m g x a v (G0 & G1 & G2 & G3 & G4 & G5 & G6) Ap L R. unfold good. split; auto. split; auto. split; auto. split; auto. split; auto.
  split; auto. rewrite put_far; auto. unfold apart, buffer in Ap. cbn in Ap. lia.
Qed.

Lemma finish_ok : forall h own gs lost b n r bytes,
  inv h own gs lost -> 0 < b -> b + n <= 2 ^ 64 -> Forall (apart (b, n)) (live h) ->
  b + 8 <= r -> 0 <= bytes -> r + bytes <= b + n -> (r + bytes mod raw) mod A = 0 ->
  forall mm, (mm = true -> lost = []) ->
  exists h', finish (mk_heap ((b, n) :: live h) (mem h) mm) b r = Ok (h', r) /\
    inv h' ((r, bytes) :: own) (mk_hold r bytes b n :: gs) lost /\ live h' = (b, n) :: live h /\ may h' = mm /\
    (forall g x, In g gs -> g_b g <= x -> x + 8 <= g_b g + g_n g -> mem h' x = mem h x).
Proof.
  intros h own gs lost b n r bytes I Hb He Ap L0 L1 L2 Al mm Hm.
  unfold finish. cbn [live mem may].
  assert (W : within ((b, n) :: live h) (r - 8) 8 = true).
  { unfold within. cbn [existsb fst snd]. apply orb_true_intro. left. apply andb_true_intro.
    split; apply Z.leb_le; lia. }
  rewrite W. eexists. split; [reflexivity|]. split; [|split; [reflexivity|split; [reflexivity|]]].
  - constructor; cbn [live mem may].
    + cbn. rewrite (v_own _ _ _ _ I). reflexivity.
    + cbn. constructor. apply (v_live _ _ _ _ I).
    + constructor; [cbn; lia|apply (v_size _ _ _ _ I)].
    + constructor; auto. apply (v_apart _ _ _ _ I).
    + constructor.
      * unfold good. cbn. unfold put. rewrite Z.eqb_refl. repeat split; auto; lia.
      * pose proof (v_good _ _ _ _ I) as G. rewrite Forall_forall in *. intros g Hg.
        apply good_put with (x := (b, n)); auto; [|cbn; lia|cbn; lia]. apply Ap. eapply in_live; eauto.
    + auto.
  - intros g x Hg X1 X2. cbn [mem]. apply put_far. rewrite Forall_forall in Ap.
    specialize (Ap _ (in_live _ _ _ _ _ I Hg)). unfold apart, buffer in Ap. cbn in Ap. lia.
Qed.

Lemma inv_may : forall h own gs lost mm, inv h own gs lost -> (mm = true -> lost = []) ->
  inv (mk_heap (live h) (mem h) mm) own gs lost.
Proof. intros h own gs lost mm [] Q. constructor; auto. Qed.

(** What a successful call of aligned_alloc gives. *)
Definition given (h : heap) (own : has) (gs : list hold) (h' : heap) (r bytes : Z) (lost' : list (Z * Z)) : Prop :=
  exists b n, inv h' ((r, bytes) :: own) (mk_hold r bytes b n :: gs) lost' /\
    (forall g x, In g gs -> g_b g <= x -> x + 8 <= g_b g + g_n g -> mem h' x = mem h x).

Section Take.
Variables (h : heap) (own : has) (gs : list hold) (lost : list (Z * Z)) (bytes : Z).
Hypothesis I : inv h own gs lost.
Hypothesis Hb : 0 <= bytes.
Hypothesis Hs : A + 8 + bytes < 2 ^ 64.
Let meta := bytes mod raw.
Let size := bytes - meta.

Lemma meta_range : 0 <= meta /\ 0 <= size /\ meta <= bytes.
Proof.
  unfold size, meta. pose proof (Z.mod_pos_bound bytes raw ltac:(lia)). pose proof (Z.mod_le bytes raw ltac:(lia) ltac:(lia)). lia.
Qed.

Lemma alloc_bytes_is : alloc_bytes A size meta = A + 8 + bytes.
Proof.
  unfold alloc_bytes, w64. rewrite Z.mod_small; unfold size; pose proof meta_range; unfold size in *; lia.
Qed.

Lemma plain_ok : forall m, match alloc_plain A size meta m h with
  | Ok (h', r) => given h own gs h' r bytes lost
  | BadAlloc h' => h' = h
  | Ub => False
  | Impossible => True end.
Proof.
  intros [b|]; cbn [alloc_plain]; auto. unfold alloc_plain. rewrite alloc_bytes_is.
  destruct (fits h b (A + 8 + bytes)) eqn:F; auto. pose proof meta_range as R.
  destruct (fits_spec h b (A + 8 + bytes) ltac:(lia) F (v_size _ _ _ _ I)) as (F1 & F2 & F3).
  destruct (result_spec b meta size F1 ltac:(lia) ltac:(lia)) as (Q1 & Q2 & Q3).
  destruct (finish_ok h own gs lost b (A + 8 + bytes) (result_of A b meta) bytes I F1 F2 F3
    ltac:(lia) Hb ltac:(lia) Q3 (may h) (v_lost _ _ _ _ I)) as (h' & E & I' & _ & _ & K).
  rewrite E. exists b, (A + 8 + bytes). auto.
Qed.

End Take.

Lemma take_ok : forall h own gs lost bytes m1 r m2, inv h own gs lost -> 0 <= bytes -> A + 8 + bytes < 2 ^ 64 ->
  match block_new A raw bytes m1 r m2 h with
  | Ok (h', p) => exists lost', given h own gs h' p bytes lost' /\ (r <> RNull -> lost' = lost) /\ incl lost lost'
  | BadAlloc h' => exists lost', inv h' own gs lost' /\ (r <> RNull -> lost' = lost) /\ incl lost lost' /\ mem h' = mem h
  | Ub => False
  | Impossible => True end.
Proof.
  intros h own gs lost bytes m1 r m2 I Hb Hs. unfold block_new, aligned_alloc.
  rewrite (alloc_bytes_is bytes Hb Hs). pose proof (meta_range bytes Hb) as R.
  destruct m1 as [b|]; [|exists lost; auto using incl_refl].
  destruct (fits h b (A + 8 + bytes)) eqn:F; auto.
  destruct (fits_spec h b (A + 8 + bytes) ltac:(lia) F (v_size _ _ _ _ I)) as (F1 & F2 & F3).
  destruct (result_spec b (bytes mod raw) (bytes - bytes mod raw) F1 ltac:(lia) ltac:(lia)) as (Q1 & Q2 & Q3).
  set (res := result_of A b (bytes mod raw)) in *. cbv zeta.
  assert (RS : w64 (res - b + bytes mod raw + (bytes - bytes mod raw)) = res - b + bytes).
  { unfold w64. rewrite Z.mod_small; lia. }
  rewrite RS. destruct ((res - b + bytes <? A + 8 + bytes) && may h) eqn:C.
  2: { destruct (finish_ok h own gs lost b (A + 8 + bytes) res bytes I F1 F2 F3
         ltac:(lia) Hb ltac:(lia) Q3 (may h) (v_lost _ _ _ _ I)) as (h' & E & I' & _ & _ & K).
       rewrite E. exists lost. split; [exists b, (A + 8 + bytes); auto|]. auto using incl_refl. }
  apply andb_prop in C. destruct C as (C & Cm). apply Z.ltb_lt in C.
  pose proof (v_lost _ _ _ _ I Cm) as L0.
  destruct r.
  - assert (F3' : Forall (apart (b, res - b + bytes)) (live h)).
    { pose proof (v_size _ _ _ _ I) as Z. rewrite Forall_forall in *. intros x Hx. specialize (F3 x Hx). specialize (Z x Hx).
      unfold apart in *. cbn [fst snd] in *. lia. }
    destruct (finish_ok h own gs lost b (res - b + bytes) res bytes I F1 ltac:(lia) F3'
         ltac:(lia) Hb ltac:(lia) Q3 true (fun _ => L0)) as (h' & E & I' & _ & _ & K).
    rewrite E. exists lost. split; [exists b, (res - b + bytes); auto|]. auto using incl_refl.
  - pose proof (plain_ok (mk_heap (live h) (mem h) false) own gs lost bytes (inv_may _ _ _ _ false I (fun H => ltac:(discriminate H))) Hb Hs m2) as P.
    destruct (alloc_plain _ _ _ _ _) as [(h' & p)|h'| |]; auto.
    + exists lost. auto using incl_refl.
    + subst h'. exists lost. split; [apply inv_may; auto; discriminate|]. auto using incl_refl.
  - assert (I' : inv (mk_heap ((b, A + 8 + bytes) :: live h) (mem h) false) own gs ((b, A + 8 + bytes) :: lost)).
    { destruct I. constructor; cbn [live mem may]; auto; try discriminate.
      - apply Permutation_cons_app. auto.
      - constructor; auto. cbn. lia.
      - constructor; auto. }
    pose proof (plain_ok _ own gs _ bytes I' Hb Hs m2) as P.
    destruct (alloc_plain _ _ _ _ _) as [(h' & p)|h'| |]; auto.
    + exists ((b, A + 8 + bytes) :: lost). split; auto. split; [congruence|]. intros x Hx. right. auto.
    + subst h'. exists ((b, A + 8 + bytes) :: lost). split; auto. split; [congruence|]. split; [intros x Hx; right; auto|]. auto.
Qed.

(** ** Buffers given back *)

Lemma pieces_differ : forall h own gs1 g gs2 lost g', inv h own (gs1 ++ g :: gs2) lost ->
  In g' (gs1 ++ gs2) -> apart (buffer g) (buffer g') /\ g_p g <> g_p g' /\ g_b g <> g_b g'.
Proof.
  intros h own gs1 g gs2 lost g' I H.
  assert (F : ForallOrdPairs apart (buffer g :: map buffer (gs1 ++ gs2) ++ lost)).
  { eapply fop_perm; [|apply (v_apart _ _ _ _ I)]. eapply Permutation_trans; [apply (v_live _ _ _ _ I)|].
    rewrite !map_app. cbn. rewrite <- !app_assoc. cbn. apply Permutation_sym, Permutation_middle. }
  inversion F as [|? ? F1 F2]; subst. rewrite Forall_forall in F1.
  assert (Ap : apart (buffer g) (buffer g')) by (apply F1, in_or_app; left; apply in_map; auto).
  pose proof (v_good _ _ _ _ I) as G. rewrite Forall_forall in G.
  assert (G1 : good (mem h) g) by (apply G, in_or_app; right; left; auto).
  assert (G2 : good (mem h) g').
  { apply G. apply in_app_or in H. apply in_or_app. destruct H; auto. right. right. auto. }
  destruct G1 as (a0 & a1 & a2 & a3 & a4 & a5 & a6). destruct G2 as (b0 & b1 & b2 & b3 & b4 & b5 & b6).
  unfold apart, buffer in Ap. cbn in Ap. split; [exact Ap|]. lia.
Qed.

Lemma filter_id : forall (X : Type) (f : X -> bool) l, (forall x, In x l -> f x = true) -> filter f l = l.
Proof.
  induction l as [|x l IH]; cbn; intros H; auto. rewrite (H x) by auto. f_equal. apply IH. auto.
Qed.

Lemma filter_perm : forall (f : Z * Z -> bool) l l', Permutation l l' -> Permutation (filter f l) (filter f l').
Proof.
  induction 1; cbn; auto.
  - destruct (f x); auto.
  - destruct (f x), (f y); auto. apply perm_swap.
  - eapply Permutation_trans; eauto.
Qed.

Lemma fop_filter : forall (f : Z * Z -> bool) l, ForallOrdPairs apart l -> ForallOrdPairs apart (filter f l).
Proof.
  induction 1; cbn; [constructor|]. destruct (f a); auto. constructor; auto.
  rewrite Forall_forall in *. intros x Hx. apply filter_In in Hx. apply H. tauto.
Qed.

Lemma delete_ok : forall h own gs1 g gs2 lost, inv h own (gs1 ++ g :: gs2) lost ->
  exists h', aligned_dealloc (g_p g) h = Ok h' /\
    inv h' (filter (fun x => negb (fst x =? g_p g)) own) (gs1 ++ gs2) lost /\
    Permutation (live h) (buffer g :: live h') /\ mem h' = mem h.
Proof.
  intros h own gs1 g gs2 lost I.
  pose proof (v_good _ _ _ _ I) as G. pose proof G as Gall. rewrite Forall_forall in G.
  assert (G1 : good (mem h) g) by (apply G, in_or_app; right; left; auto).
  pose proof G1 as (a0 & a1 & a2 & a3 & a4 & a5 & a6).
  assert (P0 : Permutation (live h) (buffer g :: map buffer (gs1 ++ gs2) ++ lost)).
  { eapply Permutation_trans; [apply (v_live _ _ _ _ I)|].
    rewrite !map_app. cbn. rewrite <- !app_assoc. cbn. apply Permutation_sym, Permutation_middle. }
  assert (Ub : forall x, In x (map buffer (gs1 ++ gs2) ++ lost) -> negb (fst x =? g_b g) = true).
  { intros x Hx. destruct (Z.eqb_spec (fst x) (g_b g)) as [E|]; auto. exfalso.
    pose proof (fop_perm _ _ P0 (v_apart _ _ _ _ I)) as F. inversion F as [|? ? F1 F2]; subst.
    rewrite Forall_forall in F1. specialize (F1 x Hx).
    pose proof (forall_perm _ _ _ P0 (v_size _ _ _ _ I)) as Z. rewrite Forall_forall in Z.
    pose proof (Z x (or_intror Hx)). pose proof (Z (buffer g) (or_introl eq_refl)).
    unfold apart, buffer in *. cbn in *. lia. }
  unfold aligned_dealloc. destruct (Z.eqb_spec (g_p g) 0); [lia|]. rewrite a5.
  assert (Ex : existsb (fun x => fst x =? g_b g) (live h) = true).
  { apply existsb_exists. exists (buffer g). split; [|apply Z.eqb_refl].
    eapply Permutation_in; [apply Permutation_sym; eauto|]. left. auto. }
  rewrite Ex.
  assert (P1 : Permutation (without (g_b g) (live h)) (map buffer (gs1 ++ gs2) ++ lost)).
  { unfold without. eapply Permutation_trans; [apply filter_perm; eauto|]. cbn [filter].
    cbn [buffer fst]. rewrite Z.eqb_refl. cbn [negb]. rewrite filter_id; auto. }
  eexists. split; [reflexivity|]. split.
  - constructor; cbn [live mem may].
    + rewrite (v_own _ _ _ _ I). rewrite !map_app, filter_app. cbn [map filter piece fst].
      rewrite Z.eqb_refl. cbn [negb].
      assert (K : forall l, incl l (gs1 ++ gs2) -> filter (fun x => negb (fst x =? g_p g)) (map piece l) = map piece l).
      { intros l Hl. apply filter_id. intros x Hx. apply in_map_iff in Hx. destruct Hx as (g' & <- & Hg').
        destruct (pieces_differ _ _ _ _ _ _ _ I (Hl _ Hg')) as (_ & N & _). cbn. destruct (Z.eqb_spec (g_p g') (g_p g)); [congruence|auto]. }
      rewrite !K; auto; intros x Hx; apply in_or_app; auto.
    + exact P1.
    + pose proof (v_size _ _ _ _ I) as Z. unfold without. rewrite Forall_forall in *. intros x Hx. apply filter_In in Hx.
      apply Z. tauto.
    + apply fop_filter. apply (v_apart _ _ _ _ I).
    + rewrite Forall_forall. intros x Hx. apply G. apply in_app_or in Hx. apply in_or_app. destruct Hx; auto. right. right. auto.
    + apply (v_lost _ _ _ _ I).
  - split; auto. cbn [live]. eapply Permutation_trans; [exact P0|]. constructor. apply Permutation_sym. exact P1.
Qed.

(** ** Writes *)

Lemma poke_ok : forall h own gs1 g gs2 lost off v, inv h own (gs1 ++ g :: gs2) lost ->
  0 <= off -> off + 8 <= g_bytes g ->
  exists h', mstep A raw h (OPoke (g_p g) off v) = Ok (h', None) /\ inv h' own (gs1 ++ g :: gs2) lost /\
    mem h' (g_p g + off) = Some v /\ live h' = live h /\
    (forall g' x, In g' (gs1 ++ gs2) -> g_b g' <= x -> x + 8 <= g_b g' + g_n g' -> mem h' x = mem h x).
Proof.
  intros h own gs1 g gs2 lost off v I L0 L1.
  pose proof (v_good _ _ _ _ I) as G. rewrite Forall_forall in G.
  assert (Hg : In g (gs1 ++ g :: gs2)) by (apply in_or_app; right; left; auto).
  pose proof (G g Hg) as (a0 & a1 & a2 & a3 & a4 & a5 & a6).
  cbn [mstep].
  assert (W : within (live h) (g_p g + off) 8 = true).
  { unfold within. apply existsb_exists. exists (buffer g). split; [eapply in_live; eauto|].
    cbn. apply andb_true_intro. split; apply Z.leb_le; lia. }
  rewrite W. eexists. split; [reflexivity|]. split; [|split; [|split; [reflexivity|]]].
  - destruct I. constructor; cbn [live mem may]; auto. rewrite Forall_forall. intros g' Hg'.
    destruct (in_app_or _ _ _ Hg') as [H|[H|H]].
    + assert (H' : In g' (gs1 ++ gs2)) by (apply in_or_app; auto).
      apply good_put with (x := buffer g); [apply G; auto| |cbn; lia|cbn; lia].
      eapply pieces_differ; eauto. constructor; eauto.
    + subst g'. split; auto. split; auto. split; auto. split; auto. split; auto. split; auto. rewrite put_far; auto. lia.
    + assert (H' : In g' (gs1 ++ gs2)) by (apply in_or_app; auto).
      apply good_put with (x := buffer g); [apply G; auto| |cbn; lia|cbn; lia].
      eapply pieces_differ; eauto. constructor; eauto.
  - cbn. unfold put. rewrite Z.eqb_refl. auto.
  - intros g' x Hg' X1 X2. cbn [mem]. apply put_far.
    destruct (pieces_differ _ _ _ _ _ _ _ I Hg') as (Ap & _). unfold apart, buffer in Ap. cbn in Ap. lia.
Qed.

(** ** Runs *)

Lemma own_split : forall h own gs lost p bytes, inv h own gs lost -> In (p, bytes) own ->
  exists gs1 g gs2, gs = gs1 ++ g :: gs2 /\ g_p g = p /\ g_bytes g = bytes.
Proof.
  intros h own gs lost p bytes I H. rewrite (v_own _ _ _ _ I) in H. apply in_map_iff in H. destruct H as (g & E & Hg).
  apply in_split in Hg. destruct Hg as (l1 & l2 & ->). inversion E. exists l1, g, l2. auto.
Qed.

(** One step of a program that keeps the rules. *)
Lemma step_ok : forall h own gs lost o, inv h own gs lost -> legal A raw own o ->
  match mstep A raw h o with
  | Ok (h', res) => exists gs' lost', inv h' (after raw own o res) gs' lost' /\
      (realloc_works o -> lost' = lost) /\ incl lost lost'
  | BadAlloc h' => exists lost', inv h' own gs lost' /\ (realloc_works o -> lost' = lost) /\ incl lost lost'
  | Ub => False
  | Impossible => True
  end.
Proof.
  intros h own gs lost o I L. destruct o as [bytes m1 r m2|num m1 r m2|p|p off v]; cbn [legal] in L.
  - destruct L as (L1 & L2). pose proof (take_ok h own gs lost bytes m1 r m2 I L1 L2) as T.
    cbn [mstep]. destruct (block_new A raw bytes m1 r m2 h) as [(h' & p)|h'| |]; auto.
    + destruct T as (lost' & (b & n & I' & _) & T2 & T3). exists (mk_hold p bytes b n :: gs), lost'. auto.
    + destruct T as (lost' & I' & T2 & T3 & _). exists lost'. auto.
  - destruct L as (L1 & L2). cbn [mstep]. unfold allocate.
    assert (0 <= num * raw) by nia.
    replace (w64 (num * raw)) with (num * raw) by (unfold w64; rewrite Z.mod_small; lia).
    pose proof (take_ok h own gs lost (num * raw) m1 r m2 I ltac:(lia) L2) as T.
    destruct (block_new A raw (num * raw) m1 r m2 h) as [(h' & p)|h'| |]; auto.
    + destruct T as (lost' & (b & n & I' & _) & T2 & T3). exists (mk_hold p (num * raw) b n :: gs), lost'. auto.
    + destruct T as (lost' & I' & T2 & T3 & _). exists lost'. auto.
  - destruct (Z.eqb_spec p 0) as [->|Np].
    + cbn [mstep]. unfold aligned_dealloc. cbn [Z.eqb]. exists gs, lost. split; [|auto using incl_refl].
      cbn [after]. rewrite filter_id; auto. intros (q & by_) Hq.
      destruct (own_split _ _ _ _ _ _ I Hq) as (l1 & g & l2 & Eg & E1 & E2).
      pose proof (v_good _ _ _ _ I) as G. rewrite Forall_forall in G.
      destruct (G g ltac:(rewrite Eg; apply in_or_app; right; left; auto)) as (a0 & a1 & _).
      cbn. destruct (Z.eqb_spec q 0); auto. lia.
    + destruct L as [->|(bytes & L)]; [congruence|].
      destruct (own_split _ _ _ _ _ _ I L) as (l1 & g & l2 & -> & <- & E2).
      destruct (delete_ok _ _ _ _ _ _ I) as (h' & E & I' & _).
      cbn [mstep]. rewrite E. exists (l1 ++ l2), lost. cbn [after]. auto using incl_refl.
  - destruct L as (bytes & L & L1 & L2).
    destruct (own_split _ _ _ _ _ _ I L) as (l1 & g & l2 & -> & <- & E2). subst bytes.
    destruct (poke_ok _ _ _ _ _ _ off v I L1 L2) as (h' & E & I' & _).
    rewrite E. exists (l1 ++ g :: l2), lost. cbn [after]. auto using incl_refl.
Qed.

Lemma uses_inv : forall l h own, uses A raw l h own ->
  exists gs lost, inv h own gs lost /\ (Forall realloc_works l -> lost = []).
Proof.
  induction 1 as [|l h own o h' res U IH L St|l h own o h' U IH L St].
  - exists [], []. split; auto. constructor; cbn; auto; constructor.
  - destruct IH as (gs & lost & I & W). pose proof (step_ok h own gs lost o I L) as T. rewrite St in T.
    destruct T as (gs' & lost' & I' & T1 & _). exists gs', lost'. split; auto. intros F. inversion F; subst.
    rewrite T1; auto.
  - destruct IH as (gs & lost & I & W). pose proof (step_ok h own gs lost o I L) as T. rewrite St in T.
    destruct T as (lost' & I' & T1 & _). exists gs, lost'. split; auto. intros F. inversion F; subst.
    rewrite T1; auto.
Qed.

End S.
