(** C16 for small vectors; C91 for the checks of vector derivatives *)
From Coq Require Import Reals Lra Lia List.
From Coquelicot Require Import Coquelicot.
From Verif Require Import Base RBase NumDeriv_Model NumDeriv_Proofs NumDeriv_Thm VecCheck_Model.
Import ListNotations.
Open Scope R_scope.

(* ------------------------------------------------------------------ *)
(** * Small vectors *)

Section Small.
Variable T : Type.
Variable add mul : T -> T -> T.
Variable d : T.

(** C16: with arrays of the same length N, the call panics exactly when n > N; otherwise
    the first n components are alpha u + beta v and the others are untouched *)
Theorem C16_small_add w alpha u beta v n : length u = length w -> length v = length w ->
  ((length w < n)%nat -> small_vec_add T add mul w alpha u beta v n = Panic) /\
  ((n <= length w)%nat -> exists w', small_vec_add T add mul w alpha u beta v n = Ok w' /\ length w' = length w /\
     forall i, nth i w' d = if (i <? n)%nat then add (mul alpha (nth i u d)) (mul beta (nth i v d)) else nth i w d).
Proof.
  intros Lu Lv. unfold small_vec_add. split; intros Hn.
  - destruct (Nat.leb_spec n (length w)); [lia|reflexivity].
  - destruct (Nat.leb_spec n (length w)); [|lia]. cbn [assert_ bind].
    destruct (for_range_inv (fun k w' => length w' = length w /\ forall i, nth i w' d = if (i <? k)%nat then add (mul alpha (nth i u d)) (mul beta (nth i v d)) else nth i w d)
      (fun i w => ui <- vget u i ;; vi <- vget v i ;; vset w i (add (mul alpha ui) (mul beta vi))) 0 n w) as (w' & E & L & K); [lia|split; auto| |exists w'; auto].
    intros k w1 Hk (L1 & K1). rewrite (vget_ok _ _ d), (vget_ok _ _ d) by lia. cbn [bind]. rewrite vset_ok by lia. eexists. split; [reflexivity|]. split; [now rewrite upd_length|].
    intros i. rewrite nth_upd by lia. destruct (Nat.eqb_spec i k) as [->|]; [destruct (Nat.ltb_spec k (S k)); [reflexivity|lia]|].
    rewrite K1. destruct (Nat.ltb_spec i k), (Nat.ltb_spec i (S k)); auto; lia.
Qed.

(** C16: the same for v := v + alpha u *)
Theorem C16_small_update v alpha u n : length u = length v ->
  ((length v < n)%nat -> small_vec_update T add mul v alpha u n = Panic) /\
  ((n <= length v)%nat -> exists v', small_vec_update T add mul v alpha u n = Ok v' /\ length v' = length v /\
     forall i, nth i v' d = if (i <? n)%nat then add (nth i v d) (mul alpha (nth i u d)) else nth i v d).
Proof.
  intros Lu. unfold small_vec_update. split; intros Hn.
  - destruct (Nat.leb_spec n (length v)); [lia|reflexivity].
  - destruct (Nat.leb_spec n (length v)); [|lia]. cbn [assert_ bind].
    destruct (for_range_inv (fun k v' => length v' = length v /\ forall i, nth i v' d = if (i <? k)%nat then add (nth i v d) (mul alpha (nth i u d)) else nth i v d)
      (fun i v => vi <- vget v i ;; ui <- vget u i ;; vset v i (add vi (mul alpha ui))) 0 n v) as (w' & E & L & K); [lia|split; auto| |exists w'; auto].
    intros k w1 Hk (L1 & K1). rewrite (vget_ok _ _ d), (vget_ok _ _ d) by lia. cbn [bind]. rewrite vset_ok by lia. eexists. split; [reflexivity|]. split; [now rewrite upd_length|].
    intros i. rewrite nth_upd by lia. destruct (Nat.eqb_spec i k) as [->|].
    + destruct (Nat.ltb_spec k (S k)); [|lia]. rewrite K1. destruct (Nat.ltb_spec k k); [lia|reflexivity].
    + rewrite K1. destruct (Nat.ltb_spec i k), (Nat.ltb_spec i (S k)); auto; lia.
Qed.
End Small.

(** non-vacuity: two of three components *)
Example small_add_two : small_vec_add nat Nat.add Nat.mul [7; 8; 9]%nat 2%nat [1; 2; 3]%nat 3%nat [4; 5; 6]%nat 2 = Ok [14; 19; 9]%nat.
Proof. reflexivity. Qed.

(* ------------------------------------------------------------------ *)
(** * Derivatives of vector functions *)

Section VecDeriv.
Variable A : Type.
Variable I : A -> Prop.
Variable f : list R -> R -> A -> list R * A * res unit.
Variable n : nat.

(** from every state satisfying [I] and whatever the vector held, the user function writes the
    values G 0 t, ..., G (n-1) t for t between lo and hi, and keeps [I] *)
Definition writes (G : nat -> R -> R) (lo hi : R) : Prop :=
  forall v a t, length v = n -> I a -> lo <= t <= hi ->
  exists v' a', f v t a = (v', a', Ok tt) /\ I a' /\ length v' = n /\ forall i, (i < n)%nat -> nth i v' 0 = G i t.

Definition Iv (st : A * list R) : Prop := I (fst st) /\ length (snd st) = n.

Lemma component_answers G lo hi i : writes G lo hi -> (i < n)%nat -> answers Iv (component A f i) (G i) lo hi.
Proof.
  intros Hw Hi [a v] t [Ha Hv] Ht. cbn [fst snd] in *. unfold component. destruct (Hw v a t Hv Ha Ht) as (v' & a' & -> & Ia & L & K).
  cbn [bind]. rewrite (vget_ok _ _ 0) by lia. rewrite K by auto. eexists. split; [reflexivity|]. split; auto.
Qed.

Lemma vec_check (num : (R -> M (A * list R) R) -> R -> M (A * list R) R) dv s0 tol (D : nat -> R) err a : length dv = n -> I a ->
  (forall i, (i < n)%nat -> within Iv (num (component A f i) s0) (D i) err) ->
  let r := snd (vec_check_with A f (fun g => approx_eq_with _ (num g)) dv s0 tol a) in
  ((forall i, (i < n)%nat -> Rabs (nth i dv 0 - D i) + err <= tol) -> r = Ok tt) /\
  ((exists i, (i < n)%nat /\ tol + err < Rabs (nth i dv 0 - D i)) -> r = Panic).
Proof.
  intros Ln Ha Hw r. subst r. unfold vec_check_with. rewrite Ln.
  set (body := fun (i : nat) (_ : unit) => d <~ mlift (vget dv i) ;; approx_eq_with _ (num (component A f i)) d s0 tol).
  assert (Step : forall i st, (i < n)%nat -> Iv st -> exists st', Iv st' /\ (body i tt st = (st', Ok tt) \/ body i tt st = (st', Panic)) /\
    (Rabs (nth i dv 0 - D i) + err <= tol -> body i tt st = (st', Ok tt)) /\ (tol + err < Rabs (nth i dv 0 - D i) -> body i tt st = (st', Panic))).
  { intros i st Hi Hs. unfold body, mbind, mlift. rewrite (vget_ok _ _ 0) by lia. unfold approx_eq_with.
    destruct (Hw i Hi st Hs) as (st' & v & E & Hs' & B). rewrite E. exists st'. split; [exact Hs'|].
    pose proof (Rabs_triang (nth i dv 0 - D i) (- (v - D i))). pose proof (Rabs_triang (nth i dv 0 - v) (v - D i)). rewrite Rabs_Ropp in *.
    replace (nth i dv 0 - D i + - (v - D i)) with (nth i dv 0 - v) in * by ring. replace (nth i dv 0 - v + (v - D i)) with (nth i dv 0 - D i) in * by ring.
    destruct (Rltb_spec tol (Rabs (nth i dv 0 - v))); splits; auto; intros; lra. }
  assert (Hi0 : Iv (a, repeat 0 n)) by (split; [exact Ha|apply repeat_length]). revert Hi0. generalize (a, repeat 0 n).
  assert (K : forall c k st, (k + c = n)%nat -> Iv st ->
    ((forall i, (k <= i < n)%nat -> Rabs (nth i dv 0 - D i) + err <= tol) -> snd (mfor c k body tt st) = Ok tt) /\
    ((exists i, (k <= i < n)%nat /\ tol + err < Rabs (nth i dv 0 - D i)) -> snd (mfor c k body tt st) = Panic)).
  { induction c as [|c IH]; intros k st Hk Hs.
    - cbn. split; [reflexivity|]. intros (i & Hi & _). lia.
    - cbn [mfor]. unfold mbind. destruct (Step k st ltac:(lia) Hs) as (st' & Hs' & Ho & H1 & H2). destruct (IH (k + 1)%nat st' ltac:(lia) Hs') as [J1 J2]. split.
      + intros H. rewrite H1 by (apply H; lia). apply J1. intros i Hi. apply H. lia.
      + intros (i & Hi & Hl). destruct (Nat.eq_dec i k) as [->|]; [now rewrite H2|]. destruct Ho as [->| ->]; [|reflexivity]. apply J2. exists i. split; [lia|exact Hl]. }
  intros st Hst. destruct (K n 0%nat st ltac:(lia) Hst) as [K1 K2]. split; [intros H; apply K1; intros; apply H; lia|intros (i & Hi & Hl); apply K2; exists i; split; [lia|exact Hl]].
Qed.

(** C91: the check of a vector of first derivatives accepts when every component is right to
    the tolerance less the accuracy of the formula, and panics when some component is wrong by
    more than the tolerance plus that accuracy *)
Theorem C91_vec_deriv1 G dv x tol lo hi B a : length dv = n -> I a -> writes G (x - 1 / 1000) (x + 1 / 1000) ->
  (forall i, (i < n)%nat -> smooth (G i) 5 lo hi /\ bounded (G i) 5 lo hi B) -> lo < x - 1 / 1000 -> x + 1 / 1000 < hi ->
  let err := 1 / 288 * (1 / 1000) ^ 4 * B in
  let r := snd (vec_deriv1_approx_eq A f dv x tol a) in
  ((forall i, (i < n)%nat -> Rabs (nth i dv 0 - Derive (G i) x) + err <= tol) -> r = Ok tt) /\
  ((exists i, (i < n)%nat /\ tol + err < Rabs (nth i dv 0 - Derive (G i) x)) -> r = Panic).
Proof.
  intros Ln Ha Hw Hs H1 H2. apply (vec_check (fun g => deriv1_central5 _ g)); auto. intros i Hi. destruct (Hs i Hi).
  apply C91_central5 with lo hi; auto. now apply component_answers.
Qed.

(** C91: the same for the second derivatives *)
Theorem C91_vec_deriv2 G dv x tol lo hi B a : length dv = n -> I a -> writes G (x - 4 / 1000) (x + 4 / 1000) ->
  (forall i, (i < n)%nat -> smooth (G i) 10 lo hi /\ bounded (G i) 10 lo hi B) -> lo < x - 4 / 1000 -> x + 4 / 1000 < hi ->
  let err := 1957 / 992250 * (1 / 1000) ^ 8 * B in
  let r := snd (vec_deriv2_approx_eq A f dv x tol a) in
  ((forall i, (i < n)%nat -> Rabs (nth i dv 0 - Derive_n (G i) 2 x) + err <= tol) -> r = Ok tt) /\
  ((exists i, (i < n)%nat /\ tol + err < Rabs (nth i dv 0 - Derive_n (G i) 2 x)) -> r = Panic).
Proof.
  intros Ln Ha Hw Hs H1 H2. apply (vec_check (fun g => deriv2_central9 _ g)); auto. intros i Hi. destruct (Hs i Hi).
  apply C91_central9 with lo hi; auto. now apply component_answers.
Qed.
End VecDeriv.

(** an empty vector of derivatives is accepted without asking the function *)
Example vec_empty A (f : list R -> R -> A -> list R * A * res unit) x tol a : vec_deriv1_approx_eq A f [] x tol a = ((a, []), Ok tt).
Proof. reflexivity. Qed.
(** non-vacuity: (t, t^2) at 1, where the derivatives are (1, 2) *)
Example vec_linear tol : 0 <= tol -> snd (vec_deriv1_approx_eq unit (fun _ t a => ([t; t * t], a, Ok tt)) [1; 2] 1 tol tt) = Ok tt.
Proof.
  intros Ht. pose (G := fun (i : nat) (t : R) => if (i =? 0)%nat then t else t * t).
  destruct (C91_vec_deriv1 unit (fun _ => True) (fun _ t a => ([t; t * t], a, Ok tt)) 2 G [1; 2] 1 tol 0 2 0 tt) as [K _]; auto; try lra.
  - intros v a t _ _ _. exists [t; t * t], a. splits; auto. intros [|[|i]] Hi; [reflexivity|reflexivity|lia].
  - intros i Hi. assert (P4 : polynomial 4 (G i)).
    { exists (fun k => if (k =? (if (i =? 0)%nat then 1 else 2))%nat then 1 else 0). intros t. unfold G. destruct (i =? 0)%nat; cbn; ring. }
    split; [eapply polynomial_smooth; eauto|eapply polynomial_flat; eauto].
  - apply K. intros i Hi. rewrite Rmult_0_r, Rplus_0_r. replace (nth i [1; 2] 0 - Derive (G i) 1) with 0; [now rewrite Rabs_R0|].
    destruct i as [|[|i]]; [| |lia]; unfold G; cbn [Nat.eqb nth].
    + rewrite Derive_id. ring.
    + assert (Q : is_derive (fun t : R => t * t) 1 2) by (auto_derive; [exact I|ring]). rewrite (is_derive_unique (fun t : R => t * t) 1 2 Q). ring.
Qed.

Print Assumptions C16_small_add.
Print Assumptions C91_vec_deriv1.
Print Assumptions C91_vec_deriv2.
