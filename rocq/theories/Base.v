(** Common vocabulary of the model: the outcome of a Rust call, arrays as
    lists, `for` loops. Nothing here is specific to russell. *)
From Coq Require Export String.
From Coq Require Export Bool Arith ZArith Lia List.
Export ListNotations.
Open Scope nat_scope.
Close Scope string_scope.

(** Outcome of a Rust call: [Ok v] / [Err msg] are the two cases of
    `Result<T, StrError>`; [Panic] is an index out of range, an `unwrap` of
    an `Err`, a failed `assert!` or an unsigned subtraction below zero. *)
Inductive res (A : Type) : Type :=
| Ok (a : A)
| Err (msg : string)
| Panic.
Arguments Ok {A} a.
Arguments Err {A} msg.
Arguments Panic {A}.

Definition bind {A B} (x : res A) (k : A -> res B) : res B :=
  match x with
  | Ok a => k a
  | Err e => Err e
  | Panic => Panic
  end.

Declare Scope res_scope.
Delimit Scope res_scope with res.
Notation "x <- e ;; k" := (bind e (fun x => k))
  (at level 61, e at next level, right associativity) : res_scope.
Notation "' p <- e ;; k" := (bind e (fun p => k))
  (at level 61, p pattern, e at next level, right associativity) : res_scope.
Open Scope res_scope.

(** `Result::unwrap` *)
Definition unwrap {A} (x : res A) : res A :=
  match x with
  | Ok a => Ok a
  | _ => Panic
  end.

(** `assert!(b)` *)
Definition assert_ (b : bool) : res unit := if b then Ok tt else Panic.

(** checked subtraction of two `usize` values (debug-mode semantics: panic) *)
Definition usub (a b : nat) : res nat := if b <=? a then Ok (a - b) else Panic.

(** arrays *)
Definition vget {A} (l : list A) (i : nat) : res A :=
  match nth_error l i with
  | Some a => Ok a
  | None => Panic
  end.

Fixpoint upd {A} (l : list A) (i : nat) (x : A) : list A :=
  match l, i with
  | [], _ => []
  | _ :: t, 0 => x :: t
  | h :: t, S i' => h :: upd t i' x
  end.

Definition vset {A} (l : list A) (i : nat) (x : A) : res (list A) :=
  if i <? length l then Ok (upd l i x) else Panic.

(** `for i in lo..hi { body }`; the body returns the new state, or stops *)
Fixpoint for_n {S : Type} (n lo : nat) (f : nat -> S -> res S) (s : S) : res S :=
  match n with
  | 0 => Ok s
  | Datatypes.S n' => s' <- f lo s ;; for_n n' (Datatypes.S lo) f s'
  end.

Definition for_range {S : Type} (lo hi : nat) (f : nat -> S -> res S) (s : S) : res S :=
  for_n (hi - lo) lo f s.

(** `for x in list { body }` *)
Fixpoint for_each {A S : Type} (l : list A) (f : A -> S -> res S) (s : S) : res S :=
  match l with
  | [] => Ok s
  | a :: t => s' <- f a s ;; for_each t f s'
  end.

(* ------------------------------------------------------------------ *)
(** * Lemmas *)

(** split the visible conjunctions only (does not unfold definitions) *)
Ltac splits := repeat match goal with |- _ /\ _ => split end.

Lemma bind_ok {A B} (x : res A) (k : A -> res B) b :
  bind x k = Ok b -> exists a, x = Ok a /\ k a = Ok b.
Proof. destruct x; simpl; intros H; try discriminate; eauto. Qed.

Lemma bind_assoc {A B C} (x : res A) (f : A -> res B) (g : B -> res C) :
  bind (bind x f) g = bind x (fun a => bind (f a) g).
Proof. destruct x; reflexivity. Qed.

Lemma upd_length {A} (l : list A) i x : length (upd l i x) = length l.
Proof. revert i; induction l as [|h t IH]; intros [|i]; simpl; auto. Qed.

Lemma nth_upd_eq {A} (l : list A) i x d : i < length l -> nth i (upd l i x) d = x.
Proof.
  revert i; induction l as [|h t IH]; intros [|i] H; simpl in *; try lia; auto.
  apply IH; lia.
Qed.

Lemma nth_upd_ne {A} (l : list A) i j x d : i <> j -> nth j (upd l i x) d = nth j l d.
Proof.
  revert i j; induction l as [|h t IH]; intros [|i] [|j] H; simpl in *; try lia; auto.
Qed.

Lemma nth_upd {A} (l : list A) i j x d :
  i < length l -> nth j (upd l i x) d = if Nat.eqb j i then x else nth j l d.
Proof.
  intros H. destruct (Nat.eqb_spec j i) as [->|Hn].
  - now apply nth_upd_eq.
  - now apply nth_upd_ne; auto.
Qed.

Lemma upd_same {A} (l : list A) i d : upd l i (nth i l d) = l.
Proof. revert i; induction l as [|h t IH]; intros [|i]; simpl; auto. now rewrite IH. Qed.

Lemma upd_ge {A} (l : list A) i x : length l <= i -> upd l i x = l.
Proof.
  revert i; induction l as [|h t IH]; intros [|i] H; simpl in *; auto; try lia.
  now rewrite IH by lia.
Qed.

Lemma vget_ok {A} (l : list A) i d : i < length l -> vget l i = Ok (nth i l d).
Proof.
  intros H. unfold vget. destruct (nth_error l i) eqn:E.
  - now rewrite (nth_error_nth l i d E).
  - apply nth_error_None in E. lia.
Qed.

Lemma vget_ok_inv {A} (l : list A) i a d : vget l i = Ok a -> i < length l /\ nth i l d = a.
Proof.
  unfold vget. destruct (nth_error l i) eqn:E; intros H; inversion H; subst.
  split.
  - apply nth_error_Some. congruence.
  - now apply nth_error_nth.
Qed.

Lemma vget_panic {A} (l : list A) i : length l <= i -> vget l i = Panic.
Proof. intros H. unfold vget. now rewrite (proj2 (nth_error_None l i) H). Qed.

Lemma vset_ok {A} (l : list A) i x : i < length l -> vset l i x = Ok (upd l i x).
Proof. intros H. unfold vset. destruct (Nat.ltb_spec i (length l)); auto; lia. Qed.

Lemma vset_panic {A} (l : list A) i x : length l <= i -> vset l i x = Panic.
Proof. intros H. unfold vset. destruct (Nat.ltb_spec i (length l)); auto; lia. Qed.

Lemma usub_ok a b : b <= a -> usub a b = Ok (a - b).
Proof. intros H. unfold usub. destruct (Nat.leb_spec b a); auto; lia. Qed.

(** Loop rule: an invariant that holds at entry and that each iteration
    re-establishes without stopping holds at exit, and the loop does not stop. *)
Lemma for_n_inv {S} (P : nat -> S -> Prop) (f : nat -> S -> res S) n lo s :
  P lo s ->
  (forall i t, lo <= i < lo + n -> P i t -> exists t', f i t = Ok t' /\ P (Datatypes.S i) t') ->
  exists s', for_n n lo f s = Ok s' /\ P (lo + n) s'.
Proof.
  revert lo s; induction n as [|n IH]; intros lo s H0 Hs; simpl.
  - exists s. now rewrite Nat.add_0_r.
  - destruct (Hs lo s) as (t & Ht & HP); [lia|assumption|].
    rewrite Ht; simpl.
    destruct (IH (Datatypes.S lo) t HP) as (s' & Hs' & HP').
    + intros i u Hi Hu. apply Hs; [lia|assumption].
    + exists s'. split; auto. now replace (lo + Datatypes.S n) with (Datatypes.S lo + n) by lia.
Qed.

Lemma for_range_inv {S} (P : nat -> S -> Prop) (f : nat -> S -> res S) lo hi s :
  lo <= hi ->
  P lo s ->
  (forall i t, lo <= i < hi -> P i t -> exists t', f i t = Ok t' /\ P (Datatypes.S i) t') ->
  exists s', for_range lo hi f s = Ok s' /\ P hi s'.
Proof.
  intros Hle H0 Hs. unfold for_range.
  destruct (for_n_inv P f (hi - lo) lo s H0) as (s' & E & HP).
  - intros i t Hi. apply Hs. lia.
  - exists s'. split; auto. now replace (lo + (hi - lo)) with hi in HP by lia.
Qed.

(** the partial-correctness loop rule: no claim that the loop does not stop *)
Lemma for_n_partial {S} (P : nat -> S -> Prop) (f : nat -> S -> res S) n lo s s' :
  for_n n lo f s = Ok s' ->
  P lo s ->
  (forall i t t', lo <= i < lo + n -> P i t -> f i t = Ok t' -> P (Datatypes.S i) t') ->
  P (lo + n) s'.
Proof.
  revert lo s; induction n as [|n IH]; intros lo s E H0 Hs; simpl in E.
  - inversion E; subst. now rewrite Nat.add_0_r.
  - apply bind_ok in E. destruct E as (t & E1 & E2).
    replace (lo + Datatypes.S n) with (Datatypes.S lo + n) by lia.
    eapply IH; eauto.
    + eapply Hs; eauto. lia.
    + intros i u u' Hi. apply Hs. lia.
Qed.

Lemma for_range_partial {S} (P : nat -> S -> Prop) (f : nat -> S -> res S) lo hi s s' :
  lo <= hi ->
  for_range lo hi f s = Ok s' ->
  P lo s ->
  (forall i t t', lo <= i < hi -> P i t -> f i t = Ok t' -> P (Datatypes.S i) t') ->
  P hi s'.
Proof.
  intros Hle E H0 Hs. unfold for_range in E.
  assert (H := for_n_partial P f (hi - lo) lo s s' E H0).
  replace (lo + (hi - lo)) with hi in H by lia. apply H.
  intros i t t' Hi. apply Hs. lia.
Qed.

Lemma for_each_inv {A S} (P : list A -> S -> Prop) (f : A -> S -> res S) l s :
  P [] s ->
  (forall pre a post t, l = pre ++ a :: post -> P pre t ->
     exists t', f a t = Ok t' /\ P (pre ++ [a]) t') ->
  exists s', for_each l f s = Ok s' /\ P l s'.
Proof.
  intros H0 Hs.
  assert (G : forall post pre t, l = pre ++ post -> P pre t ->
            exists s', for_each post f t = Ok s' /\ P l s').
  { induction post as [|a post IH]; intros pre t E HP; simpl.
    - exists t. rewrite app_nil_r in E. subst. auto.
    - destruct (Hs pre a post t E HP) as (t' & Ht & HP').
      rewrite Ht; simpl. apply (IH (pre ++ [a])); auto.
      now rewrite <- app_assoc. }
  apply (G l [] s); auto.
Qed.

(** a `for k in 0..l.len()` loop that only reads [l] at [k] is a loop over [l] *)
Lemma for_n_vget {A S} (l : list A) (body : A -> S -> res S) (f : nat -> S -> res S) lo n s :
  lo + n <= length l ->
  (forall k t, lo <= k < lo + n -> f k t = (a <- vget l k ;; body a t)) ->
  for_n n lo f s = for_each (firstn n (skipn lo l)) body s.
Proof.
  revert lo s; induction n as [|n IH]; intros lo s Hlen Hf; simpl; auto.
  destruct (skipn lo l) as [|a tl] eqn:E.
  - exfalso. assert (length (skipn lo l) = 0) by now rewrite E. rewrite skipn_length in *. lia.
  - rewrite (Hf lo) by lia.
    assert (Hv : vget l lo = Ok a).
    { unfold vget. clear - E. revert lo E; induction l as [|x xs IHl]; intros [|lo] E; simpl in *;
        try discriminate; [now inversion E | now apply IHl]. }
    rewrite Hv; simpl. destruct (body a s); simpl; auto.
    rewrite IH; [|lia|intros k t Hk; apply Hf; lia].
    assert (Et : skipn (Datatypes.S lo) l = tl).
    { clear - E. revert lo E; induction l as [|x xs IHl]; intros [|lo] E; simpl in *;
        try discriminate; [now inversion E | now apply IHl]. }
    now rewrite Et.
Qed.

Lemma for_each_app {A S} (l1 l2 : list A) (f : A -> S -> res S) s :
  for_each (l1 ++ l2) f s = (t <- for_each l1 f s ;; for_each l2 f t).
Proof.
  revert s; induction l1 as [|a l1 IH]; intros s; simpl; auto.
  destruct (f a s); simpl; auto.
Qed.

Lemma for_range_vget {A S} (l : list A) (body : A -> S -> res S) (f : nat -> S -> res S) n s :
  n = length l ->
  (forall k t, k < n -> f k t = (a <- vget l k ;; body a t)) ->
  for_range 0 n f s = for_each l body s.
Proof.
  intros -> Hf. unfold for_range. rewrite Nat.sub_0_r.
  rewrite (for_n_vget l body) by (try (simpl; lia); intros; apply Hf; lia).
  simpl. now rewrite firstn_all.
Qed.

(** a loop whose body never stops is a fold *)
Lemma for_each_fold {A S} (l : list A) (g : S -> A -> S) s :
  for_each l (fun a t => Ok (g t a)) s = Ok (fold_left g l s).
Proof. revert s; induction l; intros; simpl; auto. Qed.

Lemma nth_repeat_d {A} (x : A) n i : nth i (repeat x n) x = x.
Proof. revert i; induction n; intros [|i]; simpl; auto. Qed.

Lemma nth_repeat_lt {A} (x d : A) n i : i < n -> nth i (repeat x n) d = x.
Proof. revert i; induction n; intros [|i] H; simpl; auto; try lia. apply IHn. lia. Qed.

Lemma nth_ext_d {A} (l l' : list A) d :
  length l = length l' -> (forall i, i < length l -> nth i l d = nth i l' d) -> l = l'.
Proof. intros H E. apply (nth_ext l l' d d); auto. Qed.

Lemma firstn_snoc {A} (l : list A) n d :
  n < length l -> firstn (S n) l = firstn n l ++ [nth n l d].
Proof.
  revert n; induction l as [|a l IH]; intros [|n] H; simpl in *; try lia; auto.
  f_equal. apply IH. lia.
Qed.

Lemma split_at_nth {A} (l : list A) n d :
  n < length l -> l = firstn n l ++ nth n l d :: skipn (S n) l.
Proof.
  revert n; induction l as [|a l IH]; intros [|n] H; simpl in *; try lia; auto.
  f_equal. apply IH. lia.
Qed.
