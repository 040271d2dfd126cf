(** C122: which errors of the system are reported, and with which error code. *)
From Coq Require Import ZArith List Bool Lia.
From Verif Require Import ErrnoModel.
Import ListNotations.
Local Open Scope Z_scope.

(** The functions that make system calls; their results do not matter. *)
Definition drop {A} (m : prog A) : prog unit := bind m (fun _ => Done tt).
Inductive function : prog unit -> Prop :=
| F_open direct require : function (open_file direct require)
| F_close isopen : function (close_file isopen)
| F_lock : function lock_file
| F_size : function (drop file_size)
| F_set_size keep newsize : function (set_file_size keep newsize)
| F_close_remove isopen device : function (close_remove isopen device)
| F_unlink device : function (unlink_file device)
| F_serve fuel rd offset bytes : function (serve fuel rd offset bytes)
| F_mmap : function mmap_serve
| F_export : function export_files
| F_discard : function discard_file
| F_setup fuel max_events : function (drop (io_setup fuel max_events))
| F_post fuel n : function (io_post fuel n)
| F_wait fuel : function (drop (io_wait fuel)).

(** The system: calls that succeed return something not negative, error codes are positive. *)
Definition sane (o : nat -> answer) : Prop := forall p, match o p with Ret rc => 0 <= rc | Err e => 0 < e end.

(** Errors that do not stop a function: tried again (open without O_DIRECT, io_setup, io_submit,
    io_getevents), or logged (remove, rename). *)
Definition tolerated (nm : sys) (e : Z) : Prop :=
  (nm = SOpen /\ e = EINVAL) \/ ((nm = SSetup \/ nm = SSubmit) /\ e = EAGAIN) \/ (nm = SGetevents /\ e = EINTR) \/
  nm = SRemove \/ nm = SRename.
(** A call that was successful or failed with such an error. *)
Definition harmless (x : sys * answer) : Prop := match snd x with Ret _ => True | Err e => tolerated (fst x) e end.

(** Calls that are taken for failures although they returned no error: nothing read or written,
    no memory mapped, nothing submitted; a value other than 0 of calls that only return 0 (the system
    does not do this). *)
Definition odd (nm : sys) (rc : Z) : Prop :=
  ((nm = SRead \/ nm = SWrite \/ nm = SMmap \/ nm = SSubmit) /\ rc = 0) \/
  ((nm = SSetup \/ nm = SFstat \/ nm = SFtruncate \/ nm = SUnlink \/ nm = SMunmap \/ nm = STruncate) /\ rc <> 0).

(** The error of the latest call that failed, or what errno was at the beginning. *)
Fixpoint latest (en : Z) (t : list (sys * answer)) : Z :=
  match t with
  | [] => en
  | (_, Ret _) :: t => latest en t
  | (_, Err e) :: t => latest e t
  end.

(** Why an exception about a call shows [code]: the error of this call; what errno was before; or
    nothing, which happens for one call of lseek only. *)
Definition explains (before : Z) (nm : sys) (a : answer) (code : option Z) : Prop :=
  match code with
  | Some c => a = Err c \/ (exists rc, a = Ret rc /\ odd nm rc /\ c = before)
  | None => nm = SLseek /\ exists e, a = Err e
  end.

Definition post {A} (en : Z) (r : outcome A) (t : list (sys * answer)) : Prop :=
  match r with
  | OThrow nm code => exists t0 a, t = t0 ++ [(nm, a)] /\ Forall harmless t0 /\ explains (latest en t0) nm a code
  | _ => Forall harmless t
  end.
Definition good {A} (m : prog A) : Prop := forall en o p, sane o -> post en (fst (run m en o p)) (snd (run m en o p)).

Lemma post_cons : forall A en (r : outcome A) t nm a, harmless (nm, a) -> post (errno_of a en) r t -> post en r ((nm, a) :: t).
Proof.
  intros A en r t nm a Hh P. destruct r as [x|nm' code|]; cbn in *; try (constructor; auto; fail).
  destruct P as (t0 & a0 & E & F & X). exists ((nm, a) :: t0), a0. subst t. split; [auto|]. split; [constructor; auto|].
  cbn. destruct a; auto.
Qed.

(** A call that throws: its answer explains the code. *)
Lemma post_throw : forall A en nm a code, explains en nm a code -> post (A := A) en (OThrow nm code) [(nm, a)].
Proof. intros A en nm a code X. exists [], a. split; [auto|]. split; [constructor|]. auto. Qed.

Lemma good_call : forall A nm (k : Z -> prog A),
  (forall en o p, sane o -> (harmless (nm, o p) /\ post (errno_of (o p) en) (fst (run (k (rc_of (o p))) (errno_of (o p) en) o (S p)))
      (snd (run (k (rc_of (o p))) (errno_of (o p) en) o (S p)))) \/
    exists code, run (k (rc_of (o p))) (errno_of (o p) en) o (S p) = (OThrow nm code, []) /\ explains en nm (o p) code) ->
  good (Call nm k).
Proof.
  intros A nm k H en o p S. cbn [run fst snd]. destruct (H en o p S) as [(A1 & A2)|(code & E & X)].
  - apply post_cons; auto.
  - rewrite E. cbn [fst snd]. apply post_throw. auto.
Qed.

Lemma good_done : forall A (x : A), good (Done x).
Proof. intros A x en o p S. cbn. constructor. Qed.
Lemma good_fuel : forall A, good (A := A) Fuel.
Proof. intros A en o p S. cbn. constructor. Qed.

Lemma post_app : forall A en (r : outcome A) t1 t, Forall harmless t1 -> post (latest en t1) r t -> post en r (t1 ++ t).
Proof.
  intros A en r t1. revert en. induction t1 as [|(nm & a) t1 IH]; intros en t F P; auto. inversion F; subst. cbn [app].
  apply post_cons; auto. apply IH; auto. cbn in P. destruct a; auto.
Qed.

(** errno after a program. *)
Lemma run_bind : forall A B (m : prog A) (f : A -> prog B) en o p,
  match fst (run m en o p) with
  | ODone x => run (bind m f) en o p =
      (fst (run (f x) (latest en (snd (run m en o p))) o (p + length (snd (run m en o p)))),
       snd (run m en o p) ++ snd (run (f x) (latest en (snd (run m en o p))) o (p + length (snd (run m en o p)))))
  | OThrow nm code => run (bind m f) en o p = (OThrow nm code, snd (run m en o p))
  | OFuel => run (bind m f) en o p = (OFuel, snd (run m en o p))
  end.
Proof.
  intros A B m f. induction m as [x|sh nm|nm k IH|k IH|]; intros en o p; cbn [run fst snd bind]; auto.
  - cbn [latest length app]. rewrite Nat.add_0_r. destruct (run (f x) en o p); auto.
  - specialize (IH (rc_of (o p)) (errno_of (o p) en) o (S p)). destruct (fst (run (k (rc_of (o p))) _ _ _)) as [x|nm' code|] eqn:E; rewrite IH; cbn [fst snd]; auto.
    cbn [length app latest]. replace (p + S (length (snd (run (k (rc_of (o p))) (errno_of (o p) en) o (S p)))))%nat
      with (S p + length (snd (run (k (rc_of (o p))) (errno_of (o p) en) o (S p))))%nat by lia.
    destruct (o p); auto.
  - apply IH.
Qed.

Lemma good_bind : forall A B (m : prog A) (f : A -> prog B), good m -> (forall x, good (f x)) -> good (bind m f).
Proof.
  intros A B m f G H en o p S. pose proof (run_bind A B m f en o p) as R. specialize (G en o p S).
  destruct (fst (run m en o p)) as [x|nm code|]; rewrite R; cbn [fst snd].
  - apply post_app; [exact G|]. apply H. auto.
  - exact G.
  - exact G.
Qed.

Ltac ans o p S := let H := fresh "H" in let E := fresh "E" in pose proof (S p) as H; destruct (o p) as [rc|e] eqn:E; cbn [rc_of errno_of] in *.

Lemma good_lt_0 : forall nm, good (throw_lt_0 nm).
Proof.
  intros nm. apply good_call. intros en o p S. ans o p S.
  - left. split; [exact Logic.I|]. destruct (Z.ltb_spec rc 0); [lia|]. cbn. constructor.
  - right. cbn. eexists. split; [reflexivity|]. cbn. auto.
Qed.

Lemma good_ne_0 : forall nm, (nm = SSetup \/ nm = SFstat \/ nm = SFtruncate \/ nm = SUnlink \/ nm = SMunmap \/ nm = STruncate) -> good (throw_ne_0 nm).
Proof.
  intros nm Hn. apply good_call. intros en o p S. ans o p S.
  - destruct (Z.eqb_spec rc 0) as [Ez|Nz].
    + left. split; [exact Logic.I|]. cbn. constructor.
    + right. eexists. split; [reflexivity|]. cbn. right. exists rc. unfold odd. auto.
  - right. cbn. eexists. split; [reflexivity|]. cbn. auto.
Qed.

Lemma good_size : good file_size.
Proof.
  apply good_call. intros en o p S. ans o p S.
  - left. split; [exact Logic.I|]. destruct (Z.ltb_spec rc 0); [lia|]. cbn. constructor.
  - right. cbn. eexists. split; [reflexivity|]. cbn. auto.
Qed.

Lemma good_logged : forall A nm (m : prog A), nm = SRemove \/ nm = SRename -> good m -> good (Call nm (fun _ => m)).
Proof.
  intros A nm m Hn G. apply good_call. intros en o p S. left. split; [|apply G; auto].
  unfold harmless. cbn. destruct (o p); auto. unfold tolerated. tauto.
Qed.

Lemma good_open : forall direct require, good (open_file direct require).
Proof.
  intros direct require. apply good_call. intros en o p S. pose proof (good_ne_0 SFstat ltac:(auto)) as Gf. ans o p S.
  - left. split; [exact Logic.I|]. destruct (Z.leb_spec 0 rc); [|lia]. apply Gf. auto.
  - cbn [Z.leb Z.compare run]. destruct (direct && negb require && (e =? EINVAL))%bool eqn:B.
    + left. apply andb_true_iff in B. destruct B as (_ & B). apply Z.eqb_eq in B. subst e. split; [left; auto|].
      refine (good_call _ SOpen _ _ EINVAL o (Datatypes.S p) S). clear - Gf. intros en o p S. ans o p S.
      * left. split; [exact Logic.I|]. destruct (Z.leb_spec 0 rc); [|lia]. apply Gf. auto.
      * right. cbn. eexists. split; [reflexivity|]. cbn. auto.
    + right. eexists. split; [reflexivity|]. cbn. auto.
Qed.

Lemma good_set_size : forall keep newsize, good (set_file_size keep newsize).
Proof.
  intros keep newsize. apply good_bind; [exact good_size|]. intros cur. apply good_bind.
  - destruct keep; [apply good_done|apply good_ne_0; auto].
  - intros _. destruct (cur <? newsize); [|apply good_done]. apply good_call. intros en o p S. ans o p S.
    + left. split; [exact Logic.I|]. destruct (Z.ltb_spec rc 0); [lia|]. cbn. constructor.
    + right. cbn. eexists. split; [reflexivity|]. cbn. eauto.
Qed.

Lemma good_close : forall isopen, good (close_file isopen).
Proof. intros []; [apply good_lt_0|apply good_done]. Qed.

Lemma good_serve : forall fuel rd offset bytes, good (serve fuel rd offset bytes).
Proof.
  induction fuel as [|fuel IH]; intros rd offset bytes; cbn [serve]; (destruct (bytes <=? 0); [apply good_done|]); [apply good_fuel|].
  apply good_call. intros en o p S. ans o p S.
  2:{ right. cbn. eexists. split; [reflexivity|]. cbn. auto. }
  left. split; [exact Logic.I|]. destruct (Z.ltb_spec rc 0); [lia|]. clear H E H0 rc.
  match goal with |- post ?en _ _ => generalize en end. generalize (Datatypes.S p). clear p en. intros p en. revert en o p S.
  match goal with |- forall en o p, sane o -> post en (fst (run ?m en o p)) _ => change (good m) end.
  apply good_call. intros en o p S. ans o p S.
  - destruct (Z.leb_spec rc 0).
    + right. eexists. split; [reflexivity|]. cbn. right. exists rc. split; auto. split; auto. left. split; [destruct rd; auto|lia].
    + left. split; [exact Logic.I|]. destruct (rd && (0 <? bytes - rc))%bool; [|apply IH; auto].
      apply good_bind; auto; [exact good_size|]. intros sz. destruct (offset + rc =? sz); [apply good_done|apply IH].
  - right. cbn. eexists. split; [reflexivity|]. cbn. auto.
Qed.

Lemma good_mmap : good mmap_serve.
Proof.
  apply good_call. intros en o p S. ans o p S.
  - destruct (Z.eqb_spec rc (-1)); [lia|]. destruct (Z.eqb_spec rc 0).
    + right. eexists. split; [reflexivity|]. cbn. right. exists rc. split; auto. split; auto. left. auto.
    + left. split; [exact Logic.I|]. apply good_ne_0; auto 6.
  - right. cbn. eexists. split; [reflexivity|]. cbn. auto.
Qed.

Lemma good_setup : forall fuel max_events, good (io_setup fuel max_events).
Proof.
  induction fuel as [|fuel IH]; intros m; cbn [io_setup]; [apply good_fuel|]. apply good_call. intros en o p S. ans o p S.
  - cbn [run]. destruct (Z.eqb_spec rc (-1)); [lia|]. cbn [andb]. destruct (Z.eqb_spec rc 0).
    + left. split; [exact Logic.I|]. cbn. constructor.
    + right. eexists. split; [reflexivity|]. cbn. right. exists rc. split; auto. split; auto. right. auto.
  - cbn [run]. change (-1 =? -1) with true. change (-1 =? 0) with false. cbn [andb]. destruct (Z.eqb_spec e EAGAIN) as [Ee|Ne]; cbn [andb].
    + destruct (1 <? m).
      * left. split; [right; left; auto|]. apply IH; auto.
      * right. eexists. split; [reflexivity|]. cbn. auto.
    + right. eexists. split; [reflexivity|]. cbn. auto.
Qed.

Lemma good_post : forall fuel n, good (io_post fuel n).
Proof.
  induction fuel as [|fuel IH]; intros n; cbn [io_post]; (destruct (n <=? 0); [apply good_done|]); [apply good_fuel|]. apply good_call. intros en o p S.
  assert (Ge : forall m, good (Call SGetevents (fun g => if g <? 0 then Throw true SGetevents else io_post fuel m))).
  { intros m. apply good_call. clear en o p S. intros en o p S. ans o p S.
    - left. split; [exact Logic.I|]. destruct (Z.ltb_spec rc 0); [lia|]. apply IH; auto.
    - right. cbn. eexists. split; [reflexivity|]. cbn. auto. }
  ans o p S.
  - cbn [run]. destruct (Z.leb_spec rc 0).
    + cbn [andb]. destruct (Z.eqb_spec en EAGAIN) as [Ee|Ne]; cbn [negb].
      * destruct (Z.ltb_spec 0 rc); [lia|]. cbn [andb]. left. split; [exact Logic.I|]. apply Ge; auto.
      * right. eexists. split; [reflexivity|]. cbn. right. exists rc. split; auto. split; auto. left. split; auto. lia.
    + cbn [andb]. left. split; [exact Logic.I|]. destruct (Z.ltb_spec 0 rc); [|lia]. cbn [andb].
      destruct (n - rc =? 0); [cbn; constructor|apply Ge; auto].
  - cbn [run]. change (-1 <=? 0) with true. change (0 <? -1) with false. cbn [andb].
    destruct (Z.eqb_spec e EAGAIN) as [Ee|Ne]; cbn [negb].
    + left. split; [right; left; auto|]. apply Ge; auto.
    + right. eexists. split; [reflexivity|]. cbn. auto.
Qed.

Lemma good_wait : forall fuel, good (io_wait fuel).
Proof.
  induction fuel as [|fuel IH]; cbn [io_wait]; [apply good_fuel|]. apply good_call. intros en o p S. ans o p S.
  - left. split; [exact Logic.I|]. destruct (Z.ltb_spec rc 0); [lia|]. cbn. constructor.
  - cbn [Z.ltb Z.compare run]. destruct (Z.eqb_spec e EINTR) as [Ee|Ne].
    + left. split; [right; right; left; auto|]. apply IH; auto.
    + right. eexists. split; [reflexivity|]. cbn. auto.
Qed.

Lemma good_function : forall m, function m -> good m.
Proof.
  intros m F. destruct F.
  - apply good_open.
  - apply good_close.
  - apply good_lt_0.
  - apply good_bind; [exact good_size|intros; apply good_done].
  - apply good_set_size.
  - apply good_bind; [apply good_close|]. intros _. destruct device; [apply good_done|]. apply good_logged; auto. apply good_done.
  - destruct device; [apply good_done|]. apply good_ne_0; auto 6.
  - apply good_serve.
  - apply good_mmap.
  - apply good_logged; auto. apply good_logged; auto. apply good_ne_0; auto 7.
  - apply good_logged; auto. apply good_done.
  - apply good_bind; [apply good_setup|intros; apply good_done].
  - apply good_post.
  - apply good_bind; [apply good_wait|intros; apply good_done].
Qed.

(** C122: if a function returns, no call failed, except with an error that is tried again or
    logged.  If it throws, the exception is about the last call made; earlier calls did not fail,
    with the same exceptions; and the error shown is that of this call if the call failed. *)
Theorem C122_reported : forall m en o p, function m -> sane o ->
  match run m en o p with
  | (ODone _, t) => Forall harmless t
  | (OThrow nm code, t) => exists t0 a, t = t0 ++ [(nm, a)] /\ Forall harmless t0 /\
      match a with
      | Err e => code = Some e \/ (code = None /\ nm = SLseek)
      | Ret rc => odd nm rc /\ code = Some (latest en t0)
      end
  | (OFuel, _) => True
  end.
Proof.
  intros m en o p F S. pose proof (good_function m F en o p S) as G. destruct (run m en o p) as [[x|nm code|] t]; cbn [fst snd post] in G; auto.
  destruct G as (t0 & a & E & Hh & X). exists t0, a. split; [auto|]. split; [auto|]. destruct code as [c|]; cbn in X.
  - destruct X as [X|(rc & X & Y & Z)]; subst; auto.
  - destruct X as (X & e & Y). subst. auto.
Qed.
Print Assumptions C122_reported.

(** So an error that is neither tried again nor logged always ends in an exception that shows it. *)
Theorem C122_not_lost : forall m en o p nm e t1 t2 r, function m -> sane o -> run m en o p = (r, t1 ++ (nm, Err e) :: t2) ->
  ~ tolerated nm e -> r <> OFuel -> t2 = [] /\ (r = OThrow nm (Some e) \/ (r = OThrow nm None /\ nm = SLseek)).
Proof.
  intros m en o p nm e t1 t2 r F S R Nt Nf. pose proof (C122_reported m en o p F S) as G. rewrite R in G.
  destruct r as [x|nm' code|]; [| |congruence].
  - exfalso. apply Forall_app in G. destruct G as (_ & G). inversion G; subst. apply Nt. exact H1.
  - destruct G as (t0 & a & E & Hh & X).
    destruct t2 as [|y t2].
    + apply app_inj_tail in E. destruct E as (E1 & E2). inversion E2; subst. split; auto. destruct X as [X|(X & Y)]; subst; auto.
    + exfalso. apply Nt. assert (I : In (nm, Err e) t0).
      { destruct (exists_last (l := y :: t2)) as (l & z & El); [discriminate|]. rewrite El in E.
        change (t1 ++ (nm, Err e) :: l ++ [z]) with (t1 ++ ((nm, Err e) :: l) ++ [z]) in E. rewrite app_assoc in E.
        apply app_inj_tail in E. destruct E as (E1 & _). subst t0. apply in_app_iff. right. left. auto. }
      rewrite Forall_forall in Hh. exact (Hh _ I).
Qed.
Print Assumptions C122_not_lost.

(** When calls are tried again: open once, if DIRECT is wished for but not required, and the system
    does not support it; io_setup if the system has no room, with twice the number (the comment in the
    code says half); io_submit, after looking for finished requests; io_getevents only by the waiting
    thread. *)
Theorem C122_tried_again : forall o e t1 en, sane o -> o 0%nat = Err e ->
  (forall direct require, (direct = true /\ require = false /\ e = EINVAL) <->
     In SOpen (tl (map fst (snd (run (open_file direct require) en o 0))))) /\
  (forall fuel n, t1 = snd (run (io_setup (S (S fuel)) n) en o 0) -> ((1 < n /\ e = EAGAIN) <-> tl t1 <> [])) /\
  (forall fuel n, 1 < n -> e = EAGAIN -> o 1%nat = Ret 0 -> fst (run (io_setup (S (S fuel)) n) en o 0) = ODone (2 * n)) /\
  (forall fuel n, 0 < n -> t1 = snd (run (io_post (S fuel) n) en o 0) -> (e = EAGAIN <-> tl t1 <> [])) /\
  (forall fuel, t1 = snd (run (io_wait (S (S fuel))) en o 0) -> (e = EINTR <-> tl t1 <> [])).
Proof.
  intros o e t1 en S E0. pose proof (S 0%nat) as P0. rewrite E0 in P0. split; [|split; [|split; [|split]]].
  - intros direct require. unfold open_file. cbn [run fst snd map tl]. rewrite E0. cbn [rc_of errno_of Z.leb Z.compare run].
    destruct (Z.eqb_spec e EINVAL) as [Ee|Ne].
    + destruct direct, require; cbn [andb negb run fst snd map tl In]; split; try tauto; try (intros (A & B & C); congruence). 
    + rewrite andb_false_r. cbn. split; try tauto.
  - intros fuel n ->. cbn [io_setup run fst snd tl]. rewrite E0. cbn [rc_of errno_of]. change (-1 =? -1) with true. change (-1 =? 0) with false.
    cbn [andb]. destruct (Z.eqb_spec e EAGAIN) as [Ee|Ne]; cbn [andb].
    + destruct (Z.ltb_spec 1 n); cbn [run fst snd]; split; try discriminate; try tauto; intros; lia.
    + cbn. split; [tauto|congruence].
  - intros fuel n Hn Ee E1. subst e. cbn [io_setup run fst snd]. rewrite E0. cbn [rc_of errno_of]. change (-1 =? -1) with true.
    change (EAGAIN =? EAGAIN) with true. cbn [andb]. destruct (Z.ltb_spec 1 n); [|lia]. cbn [io_setup run fst snd]. rewrite E1. reflexivity.
  - intros fuel n Hn ->. cbn [io_post]. destruct (Z.leb_spec n 0); [lia|]. cbn [run fst snd tl]. rewrite E0. cbn [rc_of errno_of]. change (-1 <=? 0) with true. change (0 <? -1) with false.
    cbn [andb]. destruct (Z.eqb_spec e EAGAIN) as [Ee|Ne]; cbn [negb run fst snd]; split; try congruence; try discriminate; auto.
  - intros fuel ->. cbn [io_wait run fst snd tl]. rewrite E0. cbn [rc_of errno_of Z.ltb Z.compare run].
    destruct (Z.eqb_spec e EINTR) as [Ee|Ne]; cbn [run fst snd]; split; try congruence; try discriminate; auto.
Qed.
Print Assumptions C122_tried_again.

(** The transfer loop of syscall_file ends: each round transfers something or ends it. *)
Theorem C122_serve_ends : forall rd offset bytes en o p, sane o -> forall fuel, bytes <= Z.of_nat fuel ->
  fst (run (serve fuel rd offset bytes) en o p) <> OFuel.
Proof.
  intros rd offset bytes en o p S fuel. revert rd offset bytes en p.
  induction fuel as [|fuel IH]; intros rd offset bytes en p Le; cbn [serve]; (destruct (Z.leb_spec bytes 0); [discriminate|]); [lia|].
  cbn [run fst snd]. destruct (rc_of (o p) <? 0); [discriminate|]. cbn [run fst snd].
  destruct (Z.leb_spec (rc_of (o (Datatypes.S p))) 0); [discriminate|].
  destruct (rd && (0 <? bytes - rc_of (o (Datatypes.S p))))%bool.
  - cbn [file_size bind run fst snd]. destruct (rc_of (o (Datatypes.S (Datatypes.S p))) <? 0); [discriminate|]. cbn [bind].
    destruct (_ =? _); [discriminate|]. apply IH. lia.
  - apply IH. lia.
Qed.
Print Assumptions C122_serve_ends.

(** What the kernel said it took, and what it was offered: [offers n t], each io_submit took at most
    what was left of [n]. *)
Definition took (x : sys * answer) : Z := match x with (SSubmit, Ret r) => r | _ => 0 end.
Fixpoint taken (t : list (sys * answer)) : Z := match t with [] => 0 | x :: t => took x + taken t end.
Fixpoint offers (n : Z) (t : list (sys * answer)) : Prop :=
  match t with [] => True | x :: t => took x <= n /\ offers (n - took x) t end.

(** If the posting thread returns, the kernel has taken all requests, each once. *)
Theorem C122_all_posted : forall fuel n en o p t, sane o -> 0 <= n -> run (io_post fuel n) en o p = (ODone tt, t) ->
  n <= taken t /\ (offers n t -> taken t = n).
Proof.
  intros fuel n en o p t S. revert n en p t. induction fuel as [|fuel IH]; intros n en p t Hn R; cbn [io_post] in R.
  - destruct (Z.leb_spec n 0) as [Hz|Hz]; [|discriminate]. inversion R; subst. cbn. lia.
  - destruct (Z.leb_spec n 0) as [Hz|Hz]; [inversion R; subst; cbn; lia|].
    cbn [run fst snd] in R. pose proof (S p) as Sp. destruct (o p) as [r|e] eqn:Ep; cbn [rc_of errno_of] in R.
    + destruct ((r <=? 0) && negb (en =? EAGAIN))%bool; [discriminate|].
      destruct (Z.ltb_spec 0 r) as [Hr|Hr]; cbn [andb] in R.
      * destruct (Z.eqb_spec (n - r) 0) as [Hq|Hq].
        { cbn [run fst snd] in R. inversion R; subst. cbn. lia. }
        cbn [run fst snd] in R. destruct (rc_of (o (Datatypes.S p)) <? 0); [discriminate|].
        destruct (run (io_post fuel (n - r)) (errno_of (o (Datatypes.S p)) en) o (Datatypes.S (Datatypes.S p))) as [r0 t0] eqn:Er.
        cbn [fst snd] in R. inversion R; subst. cbn [taken took offers]. destruct (Z.ltb_spec (n - r) 0) as [Hl|Hl].
        { split; [|lia]. assert (T : 0 <= taken t0). { destruct fuel; cbn [io_post] in Er; (destruct (Z.leb_spec (n - r) 0); [|lia]); inversion Er; subst; cbn; lia. } lia. }
        destruct (IH _ _ _ _ Hl Er) as (A & B). split; [lia|]. intros (C & D & F). rewrite Z.sub_0_r in F. specialize (B F). lia.
      * cbn [run fst snd] in R. destruct (rc_of (o (Datatypes.S p)) <? 0); [discriminate|].
        destruct (run (io_post fuel n) (errno_of (o (Datatypes.S p)) en) o (Datatypes.S (Datatypes.S p))) as [r0 t0] eqn:Er.
        cbn [fst snd] in R. inversion R; subst. cbn [taken took offers]. destruct (IH _ _ _ _ Hn Er) as (A & B).
        assert (r = 0) by lia. subst r. split; [lia|]. intros (C & D & F). rewrite !Z.sub_0_r in F. specialize (B F). lia.
    + change (-1 <=? 0) with true in R. change (0 <? -1) with false in R. cbn [andb] in R. destruct (negb (e =? EAGAIN)); [discriminate|].
      cbn [run fst snd] in R. destruct (rc_of (o (Datatypes.S p)) <? 0); [discriminate|].
      destruct (run (io_post fuel n) (errno_of (o (Datatypes.S p)) e) o (Datatypes.S (Datatypes.S p))) as [r0 t0] eqn:Er.
      cbn [fst snd] in R. inversion R; subst. cbn [taken took offers]. destruct (IH _ _ _ _ Hn Er) as (A & B).
      split; [lia|]. intros (C & D & F). rewrite !Z.sub_0_r in F. specialize (B F). lia.
Qed.
Print Assumptions C122_all_posted.

(** Three requests: two taken, nothing for want of room, one taken. *)
Example C122_all_posted_case :
  let t := [(SSubmit, Ret 2); (SGetevents, Ret 0); (SSubmit, Err EAGAIN); (SGetevents, Ret 1); (SSubmit, Ret 1)] in
  run (io_post 9 3) 0 (fun p => nth p (map snd t) (Ret 0)) 0 = (ODone tt, t) /\ offers 3 t /\ taken t = 3.
Proof. cbv zeta. split; [reflexivity|]. split; [|reflexivity]. cbn. lia. Qed.

(** The bytes transferred according to the system. *)
Definition part (x : sys * answer) : Z := match x with (SRead, Ret r) => r | (SWrite, Ret r) => r | _ => 0 end.
Fixpoint moved (t : list (sys * answer)) : Z := match t with [] => 0 | x :: t => part x + moved t end.

(** If the transfer loop returns, all bytes were transferred, or it was a read and the last call said
    that the file ends where the read stopped. *)
Theorem C122_all_moved : forall fuel rd offset bytes en o p t, sane o -> run (serve fuel rd offset bytes) en o p = (ODone tt, t) ->
  bytes <= moved t \/ (rd = true /\ exists t0, t = t0 ++ [(SLseek, Ret (offset + moved t))]).
Proof.
  intros fuel rd offset bytes en o p t S. revert offset bytes en p t. induction fuel as [|fuel IH]; intros offset bytes en p t R; cbn [serve] in R.
  - destruct (Z.leb_spec bytes 0) as [Hz|Hz]; [|discriminate]. inversion R; subst. left. cbn. lia.
  - destruct (Z.leb_spec bytes 0) as [Hz|Hz]; [inversion R; subst; left; cbn; lia|].
    cbn [run fst snd] in R. destruct (o p) as [r|e] eqn:Ep; cbn [rc_of errno_of] in R; [|discriminate].
    destruct (r <? 0); [discriminate|]. cbn [run fst snd] in R.
    destruct (o (Datatypes.S p)) as [rc|e] eqn:Eq; cbn [rc_of errno_of] in R; [|discriminate].
    destruct (Z.leb_spec rc 0) as [Hr|Hr]; [discriminate|].
    assert (P : forall l, moved ((SLseek, Ret r) :: ((if rd then SRead else SWrite), Ret rc) :: l) = rc + moved l) by (intros l; destruct rd; cbn; lia).
    assert (X : forall en1 p1 l t0, run (serve fuel rd (offset + rc) (bytes - rc)) en1 o p1 = (ODone tt, l) -> moved t0 = 0 ->
      bytes <= rc + moved (t0 ++ l) \/ (rd = true /\ exists t1, l = t1 ++ [(SLseek, Ret (offset + (rc + moved (t0 ++ l))))])).
    { intros en1 p1 l t0 Rl Z0. assert (M : moved (t0 ++ l) = moved l).
      { assert (G : forall u v, moved (u ++ v) = moved u + moved v) by (induction u as [|x u IHu]; intros v; cbn [app moved]; [lia|rewrite IHu; lia]). rewrite G. lia. }
      rewrite M. destruct (IH _ _ _ _ _ Rl) as [Q|(Q & t1 & W)]; [left; lia|right]. split; auto. exists t1. rewrite Z.add_assoc. exact W. }
    destruct (rd && (0 <? bytes - rc))%bool eqn:B.
    + apply andb_true_iff in B. destruct B as (B & _). cbn [file_size bind run fst snd] in R.
      destruct (o (Datatypes.S (Datatypes.S p))) as [sz|e] eqn:Es; cbn [rc_of errno_of] in R; [|discriminate].
      destruct (sz <? 0); [discriminate|]. cbn [bind] in R. destruct (Z.eqb_spec (offset + rc) sz) as [Hs|Hs].
      * cbn [run fst snd] in R. inversion R; subst t. right. split; auto. rewrite P. cbn [moved part]. rewrite B. rewrite <- Hs.
        exists [(SLseek, Ret r); (SRead, Ret rc)]. replace (rc + (0 + 0)) with rc by lia. reflexivity.
      * match type of R with context [run ?m ?e1 o ?p1] => destruct (run m e1 o p1) as [r0 l] eqn:Er end.
        cbn [fst snd] in R. injection R as R1 R2. subst r0 t. rewrite P. destruct (X _ _ _ [(SLseek, Ret sz)] Er eq_refl) as [Q|(Q & t1 & W)]; [left; exact Q|right].
        split; auto. exists ((SLseek, Ret r) :: ((if rd then SRead else SWrite), Ret rc) :: (SLseek, Ret sz) :: t1). cbn [app] in *. rewrite W at 1. auto.
    + match type of R with context [run ?m ?e1 o ?p1] => destruct (run m e1 o p1) as [r0 l] eqn:Er end.
      cbn [fst snd] in R. injection R as R1 R2. subst r0 t. rewrite P. destruct (X _ _ _ [] Er eq_refl) as [Q|(Q & t1 & W)]; [left; exact Q|right].
      split; auto. exists ((SLseek, Ret r) :: ((if rd then SRead else SWrite), Ret rc) :: t1). cbn [app] in *. rewrite W at 1. auto.
Qed.
Print Assumptions C122_all_moved.

(** A read of 8 bytes at 4 of a file of 10 bytes, in two parts. *)
Example C122_all_moved_case :
  let t := [(SLseek, Ret 4); (SRead, Ret 2); (SLseek, Ret 10); (SLseek, Ret 6); (SRead, Ret 4); (SLseek, Ret 10)] in
  run (serve 8 true 4 8) 0 (fun p => nth p (map snd t) (Ret 0)) 0 = (ODone tt, t) /\ moved t = 6.
Proof. split; reflexivity. Qed.

(** Not true: the error shown is one that a call of the function returned.  Reading behind the end
    of a file throws, and shows whatever error the thread met before, here ENOENT (2) of some other
    call. *)
Theorem C122_end_of_file_refuted : ~ forall m en o p nm c t, function m -> sane o -> run m en o p = (OThrow nm (Some c), t) ->
  In (nm, Err c) t.
Proof.
  intros H. specialize (H (serve 9 true 100 8) 2 (fun p => Ret (if Nat.eqb p 0 then 100 else 0)) 0%nat SRead 2 [(SLseek, Ret 100); (SRead, Ret 0)]).
  destruct H as [X|[X|[]]]; try discriminate.
  - constructor.
  - intros p. destruct (Nat.eqb p 0); lia.
  - reflexivity.
Qed.
Print Assumptions C122_end_of_file_refuted.

(** Not true: an exception shows an error.  When the position behind the new end of a file cannot be
    set, the reason is not shown. *)
Theorem C122_code_shown_refuted : ~ forall m en o p nm code t, function m -> sane o -> run m en o p = (OThrow nm code, t) -> code <> None.
Proof.
  intros H. apply (H (set_file_size true 8) 0 (fun p => if Nat.eqb p 0 then Ret 4 else Err 22) 0%nat SLseek None [(SLseek, Ret 4); (SLseek, Err 22)]); auto.
  - constructor.
  - intros p. destruct (Nat.eqb p 0); lia.
Qed.
Print Assumptions C122_code_shown_refuted.

(** Not true: interrupted calls are repeated.  The waiting thread does so, the posting thread throws
    for the same call, and the transfer loop does for read. *)
Theorem C122_interrupted_refuted :
  (forall o, sane o -> o 0%nat = Err EINTR -> o 1%nat = Ret 1 -> fst (run (io_wait 2) 0 o 0) = ODone 1) /\
  (forall fuel n o, sane o -> 0 < n -> o 0%nat = Err EAGAIN -> o 1%nat = Err EINTR -> fst (run (io_post (S fuel) n) 0 o 0) = OThrow SGetevents (Some EINTR)) /\
  (forall fuel offset bytes o pos, sane o -> 0 < bytes -> o 0%nat = Ret pos -> o 1%nat = Err EINTR ->
     fst (run (serve (S fuel) true offset bytes) 0 o 0) = OThrow SRead (Some EINTR)).
Proof.
  split; [|split].
  - intros o S E0 E1. cbn. rewrite E0. cbn. rewrite E1. reflexivity.
  - intros fuel n o S Hn E0 E1. cbn [io_post]. destruct (Z.leb_spec n 0); [lia|]. cbn [run fst snd]. rewrite E0. cbn [rc_of errno_of]. cbn. rewrite E1. reflexivity.
  - intros fuel offset bytes o pos S Hb E0 E1. cbn [serve]. destruct (Z.leb_spec bytes 0); [lia|]. cbn [run fst snd].
    pose proof (S 0%nat) as P. rewrite E0 in *. cbn [rc_of]. destruct (Z.ltb_spec pos 0); [lia|]. cbn [run fst snd]. rewrite E1. reflexivity.
Qed.
Print Assumptions C122_interrupted_refuted.

(** Direct access is wished for: open fails with EINVAL, is tried without, and fails with EACCES (13);
    the size of a file is found, it is cut, and the lseek to the new end is not needed. *)
Example C122_open_case :
  run (open_file true false) 0 (fun p => nth p [Err EINVAL; Err 13] (Ret 0)) 0 = (OThrow SOpen (Some 13), [(SOpen, Err EINVAL); (SOpen, Err 13)]) /\
  run (open_file true true) 0 (fun p => nth p [Err EINVAL; Err 13] (Ret 0)) 0 = (OThrow SOpen (Some EINVAL), [(SOpen, Err EINVAL)]) /\
  run (set_file_size false 8) 0 (fun p => nth p [Ret 16; Ret 0] (Ret 0)) 0 = (ODone tt, [(SLseek, Ret 16); (SFtruncate, Ret 0)]).
Proof. split; [|split]; reflexivity. Qed.

(** The kernel takes two of three requests, is busy, then refuses with EIO (5). *)
Example C122_case :
  let o := fun p => nth p [Ret 2; Ret 0; Err EAGAIN; Ret 1; Err 5] (Ret 0) in
  sane o /\ function (io_post 9 3) /\
  run (io_post 9 3) 0 o 0 = (OThrow SSubmit (Some 5), [(SSubmit, Ret 2); (SGetevents, Ret 0); (SSubmit, Err EAGAIN); (SGetevents, Ret 1); (SSubmit, Err 5)]).
Proof.
  cbv zeta. split; [|split; [constructor|reflexivity]].
  intros p. do 5 (destruct p as [|p]; [cbn; unfold EAGAIN; lia|]). cbn. destruct p; lia.
Qed.
