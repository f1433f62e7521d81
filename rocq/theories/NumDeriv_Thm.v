(** C91: the numerical derivatives of russell_lab (deriv1_central5, deriv1_forward7, deriv1_backward7, deriv2_central9,
    deriv2_forward8, deriv2_backward8), the checks deriv*_approx_eq built on them, and num_jacobian. *)
From Coq Require Import Reals List Lia Lra.
From Coquelicot Require Import Coquelicot.
From Verif Require Import Base RBase Search_Model Dense_Model Dense_Proofs NumDeriv_Model NumDeriv_Proofs.
Import ListNotations.
Local Open Scope R_scope.

(** ** specification *)

(** from every state satisfying [I], the user function gives the values of [g] between lo and hi (it may change its
    arguments, but keeps [I]); nothing is known about it elsewhere *)
Definition answers {S} (I : S -> Prop) (f : R -> M S R) (g : R -> R) (lo hi : R) : Prop :=
  forall s t, I s -> lo <= t <= hi -> exists s', f t s = (s', Ok (g t)) /\ I s'.
(** the call [num x] returns a number that differs from [d] by at most [err] *)
Definition within {S} (I : S -> Prop) (num : M S R) (d err : R) : Prop :=
  forall s, I s -> exists s' r, num s = (s', Ok r) /\ I s' /\ Rabs (r - d) <= err.
(** polynomials *)
Definition polynomial (n : nat) (g : R -> R) : Prop := exists a : nat -> R, forall t, g t = sum_f_R0 (fun k => a k * t ^ k) n.

(** ** polynomials are smooth and their high derivatives vanish *)
Definition P (a : nat -> R) (n : nat) (t : R) : R := sum_f_R0 (fun k => a k * t ^ k) n.
Definition dP (a : nat -> R) : nat -> R := fun k => INR (S k) * a (S k).
Lemma P_derive a n t : is_derive (P a (S n)) t (P (dP a) n t).
Proof.
  unfold P. induction n as [|n IH].
  - cbn [sum_f_R0]. unfold dP. auto_derive; auto. cbn. ring.
  - apply (is_derive_ext (fun t => sum_f_R0 (fun k => a k * t ^ k) (S n) + a (S (S n)) * t ^ S (S n))); [reflexivity|].
    rewrite tech5. refine (is_derive_plus (K := R_AbsRing) (V := R_NormedModule) _ _ t _ _ IH _).
    unfold dP. auto_derive; auto. cbn -[INR]. rewrite ?S_INR. destruct n; cbn; ring.
Qed.
Lemma Derive_n_next (g g' : R -> R) k t : (forall u, is_derive g u (g' u)) -> Derive_n g (S k) t = Derive_n g' k t.
Proof.
  intros H. replace (S k) with (k + 1)%nat by lia. rewrite <- (Derive_n_comp g k 1 t). apply Derive_n_ext. intros u. cbn. apply is_derive_unique, H.
Qed.
Lemma ex_derive_n_next (g g' : R -> R) k t : (forall u, is_derive g u (g' u)) -> ex_derive_n g' k t -> ex_derive_n g (S k) t.
Proof.
  intros H HD. destruct k as [|k].
  - cbn. exists (g' t). apply H.
  - cbn. apply ex_derive_ext with (Derive_n g' k); [|exact HD]. intros u. symmetry. exact (Derive_n_next g g' k u H).
Qed.
Lemma Derive_n_const_0 k t c : Derive_n (fun _ => c) (S k) t = 0.
Proof.
  rewrite (Derive_n_next _ (fun _ => 0)) by (intros; apply (is_derive_const (K := R_AbsRing) (V := R_NormedModule))).
  induction k as [|k IH]; [reflexivity|]. rewrite (Derive_n_next _ (fun _ => 0)); [exact IH|intros; apply (is_derive_const (K := R_AbsRing) (V := R_NormedModule))].
Qed.
Lemma P_vanish n : forall a t, Derive_n (P a n) (S n) t = 0.
Proof.
  induction n as [|n IH]; intros a t.
  - rewrite (Derive_n_ext (P a 0) (fun _ => a O)); [apply Derive_n_const_0|]. intros u. unfold P. cbn. ring.
  - rewrite (Derive_n_next _ (P (dP a) n)) by (intros; apply P_derive). apply IH.
Qed.
Lemma P_ex k : forall n a t, ex_derive_n (P a n) k t.
Proof.
  induction k as [|k IH]; intros n a t; [exact I|]. destruct n as [|n].
  - apply ex_derive_n_next with (fun _ => 0).
    + intros u. apply is_derive_ext with (fun _ => a O); [intros; unfold P; cbn; ring|apply (is_derive_const (K := R_AbsRing) (V := R_NormedModule))].
    + apply ex_derive_n_const.
  - apply ex_derive_n_next with (P (dP a) n); [intros; apply P_derive|apply IH].
Qed.
Lemma polynomial_smooth n g m lo hi : polynomial n g -> smooth g m lo hi.
Proof. intros (a & H) t _ k _. apply ex_derive_n_ext with (P a n); [intros; symmetry; apply H|apply P_ex]. Qed.
Lemma polynomial_flat n g lo hi : polynomial n g -> bounded g (S n) lo hi 0.
Proof.
  intros (a & H) t _. rewrite (Derive_n_ext g (P a n)) by exact H. rewrite P_vanish, Rabs_R0. lra.
Qed.
Lemma within_exact {S} (I : S -> Prop) num d c : within I num d (c * 0) -> forall s, I s -> exists s', num s = (s', Ok d) /\ I s'.
Proof.
  intros H s Hs. destruct (H s Hs) as (s' & r & E & HI & B). exists s'. rewrite Rmult_0_r in B. pose proof (Rabs_pos (r - d)).
  destruct (Req_dec (r - d) 0) as [Z|Z]; [|apply Rabs_no_R0 in Z; lra]. replace d with r by lra. auto.
Qed.

(** ** the formulas *)
Section Formulas.
Variable S : Type.
Variable I : S -> Prop.
Variable f : R -> M S R.
Variable g : R -> R.

Ltac ask HA Hs := match goal with |- context [mbind (f ?t) _ ?s] =>
  let E := fresh "E" in let s' := fresh "s" in let Hs' := fresh "Hs" in
  destruct (HA s t) as (s' & E & Hs'); [assumption|unfold STEPSIZE in *; lra|]; unfold mbind at 1; rewrite E; clear E end.

Lemma central5_step (x h lo hi B : R) : 0 < h <= STEPSIZE -> answers I f g (x - STEPSIZE) (x + STEPSIZE) ->
  smooth g 5 lo hi -> bounded g 5 lo hi B -> lo < x - STEPSIZE -> x + STEPSIZE < hi ->
  forall s, I s -> exists s' r err rerr, deriv1_and_errors_central5 S f x h s = (s', Ok (r, err, rerr)) /\ I s' /\
    Rabs (r - Derive g x) <= 1 / 288 * STEPSIZE ^ 4 * B /\ 0 <= err /\ 0 <= rerr.
Proof.
  intros Hh HA HS HB H1 H2 s Hs. unfold deriv1_and_errors_central5. repeat ask HA Hs. unfold mret.
  do 4 eexists. split; [reflexivity|]. split; [assumption|]. split; [|split].
  - eapply Rle_trans; [exact (central5_error g lo hi B x h ltac:(lra) HS HB ltac:(lra) ltac:(lra))|].
    assert (HP : h ^ 4 <= STEPSIZE ^ 4) by (apply pow_incr; lra).
    pose proof (B_nonneg g lo hi B x 5 ltac:(lra) HB). apply Rmult_le_compat_r; auto. lra.
  - apply Rabs_pos.
  - assert (0 <= FEPS) by (unfold FEPS; left; apply Rinv_0_lt_compat, pow_lt; lra).
    apply Rplus_le_le_0_compat; [apply Rabs_pos|]. repeat apply Rmult_le_pos; auto using Rabs_pos.
    + eapply Rle_trans; [apply Rabs_pos|apply Rmax_l].
    + left. apply Rinv_0_lt_compat. lra.
Qed.

(** the first derivative by central differences, whichever of the two steps the function chooses *)
Theorem C91_central5 (x lo hi B : R) : answers I f g (x - 1 / 1000) (x + 1 / 1000) ->
  smooth g 5 lo hi -> bounded g 5 lo hi B -> lo < x - 1 / 1000 -> x + 1 / 1000 < hi ->
  within I (deriv1_central5 S f x) (Derive g x) (1 / 288 * (1 / 1000) ^ 4 * B).
Proof.
  intros HA HS HB H1 H2 s Hs. unfold deriv1_central5.
  destruct (central5_step x STEPSIZE lo hi B ltac:(unfold STEPSIZE; lra) HA HS HB H1 H2 s Hs) as (s1 & r1 & e1 & q1 & E1 & I1 & K1 & P1 & P2).
  unfold mbind at 1. rewrite E1. unfold mret.
  destruct (Reqb_spec e1 0) as [|N1]; [cbn [orb]; eauto|]. destruct (Reqb_spec q1 0) as [|N2]; [cbn [orb]; eauto|]. cbn [orb].
  destruct (Rltb_spec e1 q1) as [|L]; [eauto|].
  assert (Hp : 0 < q1 / (2 * e1) <= 1 / 2).
  { split; [apply Rdiv_lt_0_compat; lra|]. apply Rmult_le_reg_r with (2 * e1); [lra|]. unfold Rdiv. rewrite Rmult_assoc, Rinv_l by lra. lra. }
  assert (HR : 0 < Rpower (q1 / (2 * e1)) (1 / 3) <= 1).
  { split; [apply exp_pos|]. apply Rle_trans with (Rpower 1 (1 / 3)); [apply Rle_Rpower_l; lra|]. unfold Rpower. rewrite ln_1, Rmult_0_r, exp_0. lra. }
  destruct (central5_step x (STEPSIZE * Rpower (q1 / (2 * e1)) (1 / 3)) lo hi B) with (s := s1) as (s2 & r2 & e2 & q2 & E2 & I2 & K2 & P3 & P4); auto.
  { assert (0 < STEPSIZE) by (unfold STEPSIZE; lra). split; [apply Rmult_lt_0_compat; lra|]. rewrite <- (Rmult_1_r STEPSIZE) at 2. apply Rmult_le_compat_l; lra. }
  unfold mbind at 1. rewrite E2. destruct (Rltb _ _); [eauto|]. destruct (Rltb _ _); eauto.
Qed.

Theorem C91_forward7 (x lo hi B : R) : answers I f g x (x + 6 / 1000) ->
  smooth g 7 lo hi -> bounded g 7 lo hi B -> lo < x -> x + 6 / 1000 < hi ->
  within I (deriv1_forward7 S f x) (Derive g x) (647 / 15 * (1 / 1000) ^ 6 * B).
Proof. intros HA HS HB H1 H2 s Hs. unfold deriv1_forward7. repeat ask HA Hs. unfold mret. do 2 eexists. split; [reflexivity|]. split; [assumption|]. apply (forward7_error g lo hi B x STEPSIZE); auto; unfold STEPSIZE; lra. Qed.
Theorem C91_backward7 (x lo hi B : R) : answers I f g (x - 6 / 1000) x ->
  smooth g 7 lo hi -> bounded g 7 lo hi B -> lo < x - 6 / 1000 -> x < hi ->
  within I (deriv1_backward7 S f x) (Derive g x) (647 / 15 * (1 / 1000) ^ 6 * B).
Proof. intros HA HS HB H1 H2 s Hs. unfold deriv1_backward7. repeat ask HA Hs. unfold mret. do 2 eexists. split; [reflexivity|]. split; [assumption|]. apply (backward7_error g lo hi B x STEPSIZE); auto; unfold STEPSIZE; lra. Qed.
Theorem C91_central9 (x lo hi B : R) : answers I f g (x - 4 / 1000) (x + 4 / 1000) ->
  smooth g 10 lo hi -> bounded g 10 lo hi B -> lo < x - 4 / 1000 -> x + 4 / 1000 < hi ->
  within I (deriv2_central9 S f x) (Derive_n g 2 x) (1957 / 992250 * (1 / 1000) ^ 8 * B).
Proof. intros HA HS HB H1 H2 s Hs. unfold deriv2_central9. repeat ask HA Hs. unfold mret. do 2 eexists. split; [reflexivity|]. split; [assumption|]. apply (central9_error g lo hi B x STEPSIZE); auto; unfold STEPSIZE; lra. Qed.
Theorem C91_forward8 (x lo hi B : R) : answers I f g x (x + 7 / 1000) ->
  smooth g 8 lo hi -> bounded g 8 lo hi B -> lo < x -> x + 7 / 1000 < hi ->
  within I (deriv2_forward8 S f x) (Derive_n g 2 x) (436421 / 720 * (1 / 1000) ^ 6 * B).
Proof. intros HA HS HB H1 H2 s Hs. unfold deriv2_forward8. repeat ask HA Hs. unfold mret. do 2 eexists. split; [reflexivity|]. split; [assumption|]. apply (forward8_error g lo hi B x STEPSIZE); auto; unfold STEPSIZE; lra. Qed.
Theorem C91_backward8 (x lo hi B : R) : answers I f g (x - 7 / 1000) x ->
  smooth g 8 lo hi -> bounded g 8 lo hi B -> lo < x - 7 / 1000 -> x < hi ->
  within I (deriv2_backward8 S f x) (Derive_n g 2 x) (436421 / 720 * (1 / 1000) ^ 6 * B).
Proof. intros HA HS HB H1 H2 s Hs. unfold deriv2_backward8. repeat ask HA Hs. unfold mret. do 2 eexists. split; [reflexivity|]. split; [assumption|]. apply (backward8_error g lo hi B x STEPSIZE); auto; unfold STEPSIZE; lra. Qed.

(** the formulas are exact for polynomials *)
Theorem C91_exact (x : R) :
  (polynomial 4 g -> answers I f g (x - 1 / 1000) (x + 1 / 1000) -> within I (deriv1_central5 S f x) (Derive g x) 0) /\
  (polynomial 6 g -> answers I f g x (x + 6 / 1000) -> within I (deriv1_forward7 S f x) (Derive g x) 0) /\
  (polynomial 6 g -> answers I f g (x - 6 / 1000) x -> within I (deriv1_backward7 S f x) (Derive g x) 0) /\
  (polynomial 9 g -> answers I f g (x - 4 / 1000) (x + 4 / 1000) -> within I (deriv2_central9 S f x) (Derive_n g 2 x) 0) /\
  (polynomial 7 g -> answers I f g x (x + 7 / 1000) -> within I (deriv2_forward8 S f x) (Derive_n g 2 x) 0) /\
  (polynomial 7 g -> answers I f g (x - 7 / 1000) x -> within I (deriv2_backward8 S f x) (Derive_n g 2 x) 0).
Proof.
  splits; intros HP HA.
  - rewrite <- (Rmult_0_r (1 / 288 * (1 / 1000) ^ 4)). apply C91_central5 with (x - 1) (x + 1); eauto using polynomial_smooth, polynomial_flat; lra.
  - rewrite <- (Rmult_0_r (647 / 15 * (1 / 1000) ^ 6)). apply C91_forward7 with (x - 1) (x + 1); eauto using polynomial_smooth, polynomial_flat; lra.
  - rewrite <- (Rmult_0_r (647 / 15 * (1 / 1000) ^ 6)). apply C91_backward7 with (x - 1) (x + 1); eauto using polynomial_smooth, polynomial_flat; lra.
  - rewrite <- (Rmult_0_r (1957 / 992250 * (1 / 1000) ^ 8)). apply C91_central9 with (x - 1) (x + 1); eauto using polynomial_smooth, polynomial_flat; lra.
  - rewrite <- (Rmult_0_r (436421 / 720 * (1 / 1000) ^ 6)). apply C91_forward8 with (x - 1) (x + 1); eauto using polynomial_smooth, polynomial_flat; lra.
  - rewrite <- (Rmult_0_r (436421 / 720 * (1 / 1000) ^ 6)). apply C91_backward8 with (x - 1) (x + 1); eauto using polynomial_smooth, polynomial_flat; lra.
Qed.

(** a check of a derivative with a formula of accuracy [err] accepts the right value when tol >= err, and panics for a
    value off by more than tol + err *)
Theorem C91_check (num : R -> M S R) (x d err tol deriv : R) : within I (num x) d err -> forall s, I s ->
  (Rabs (deriv - d) + err <= tol -> exists s', approx_eq_with S num deriv x tol s = (s', Ok tt)) /\
  (tol + err < Rabs (deriv - d) -> exists s', approx_eq_with S num deriv x tol s = (s', Panic)).
Proof.
  intros HW s Hs. destruct (HW s Hs) as (s' & r & E & _ & B). unfold approx_eq_with. rewrite E.
  pose proof (Rabs_triang (deriv - d) (- (r - d))). pose proof (Rabs_triang (deriv - r) (r - d)). rewrite Rabs_Ropp in *.
  replace (deriv - d + - (r - d)) with (deriv - r) in * by ring. replace (deriv - r + (r - d)) with (deriv - d) in * by ring.
  split; intros; exists s'; destruct (Rltb_spec tol (Rabs (deriv - r))); auto; lra.
Qed.

(** a check that a derivative is right succeeds only if the function could be evaluated: when it fails at every point, all
    six checks panic; and a successful check found a value within the tolerance *)
Theorem C91_check_failing (x tol deriv : R) : (forall t s, match snd (f t s) with Ok _ => False | _ => True end) -> forall s,
  snd (deriv1_approx_eq S f deriv x tol s) = Panic /\ snd (deriv1_approx_eq_fw S f deriv x tol s) = Panic /\ snd (deriv1_approx_eq_bw S f deriv x tol s) = Panic /\
  snd (deriv2_approx_eq S f deriv x tol s) = Panic /\ snd (deriv2_approx_eq_fw S f deriv x tol s) = Panic /\ snd (deriv2_approx_eq_bw S f deriv x tol s) = Panic.
Proof using.
  intros H s. splits; unfold deriv1_approx_eq, deriv1_approx_eq_fw, deriv1_approx_eq_bw, deriv2_approx_eq, deriv2_approx_eq_fw, deriv2_approx_eq_bw, approx_eq_with,
    deriv1_central5, deriv1_and_errors_central5, deriv1_forward7, deriv1_backward7, deriv2_central9, deriv2_forward8, deriv2_backward8; unfold mbind;
  match goal with |- context [f ?t s] => pose proof (H t s) as Q; destruct (f t s) as [s' [v| |]]; simpl in Q; simpl; try reflexivity; destruct Q end.
Qed.
Theorem C91_check_accepts (num : R -> M S R) (x tol deriv : R) s s' : approx_eq_with S num deriv x tol s = (s', Ok tt) ->
  exists v, num x s = (s', Ok v) /\ Rabs (deriv - v) <= tol.
Proof using.
  unfold approx_eq_with. destruct (num x s) as [t [v| |]]; intros E; try discriminate. destruct (Rltb_spec tol (Rabs (deriv - v))); [discriminate|]. injection E as ->. exists v. split; auto; lra.
Qed.

(** ** errors *)
(** an error returned by a computation is an error of the user function, and the computation panics only if the
    function does *)
Definition from_user {X} (m : M S X) : Prop :=
  forall s, match snd (m s) with
            | Ok _ => True
            | Err e => exists t u, snd (f t u) = Err e
            | Panic => exists t u, snd (f t u) = Panic
            end.
Lemma user_f t : from_user (f t).
Proof. intros s. destruct (snd (f t s)) eqn:E; eauto. Qed.
Lemma user_ret {X} (v : X) : from_user (mret v).
Proof. intros s. exact Logic.I. Qed.
Lemma user_bind {X Y} (m : M S X) (k : X -> M S Y) : from_user m -> (forall v, from_user (k v)) -> from_user (mbind m k).
Proof.
  intros Hm Hk s. unfold mbind. specialize (Hm s). destruct (m s) as [s' [v|e|]]; cbn in *; auto. apply Hk.
Qed.
Ltac user := repeat first [apply user_ret|apply user_bind; [apply user_f|intros]].
Lemma user_central5 x h : from_user (deriv1_and_errors_central5 S f x h).
Proof. unfold deriv1_and_errors_central5. user. Qed.
Theorem C91_errors x : from_user (deriv1_central5 S f x) /\ from_user (deriv1_forward7 S f x) /\ from_user (deriv1_backward7 S f x) /\
  from_user (deriv2_central9 S f x) /\ from_user (deriv2_forward8 S f x) /\ from_user (deriv2_backward8 S f x).
Proof.
  splits; try (cbv beta delta [deriv1_forward7 deriv1_backward7 deriv2_central9 deriv2_forward8 deriv2_backward8] zeta; user).
  unfold deriv1_central5. apply user_bind; [apply user_central5|]. intros [[? ?] ?].
  destruct (_ || _); [apply user_ret|]. destruct (Rltb _ _); [apply user_ret|].
  apply user_bind; [apply user_central5|]. intros [[? ?] ?]. destruct (Rltb _ _); [apply user_ret|]. destruct (Rltb _ _); apply user_ret.
Qed.
End Formulas.

(** ** the dense Jacobian *)
Lemma mfor_inv {S X} (Q : nat -> S -> X -> Prop) (body : nat -> X -> M S X) n : forall lo,
  (forall i s x, (lo <= i < lo + n)%nat -> Q i s x -> exists s' x', body i x s = (s', Ok x') /\ Q (i + 1)%nat s' x') ->
  forall s x, Q lo s x -> exists s' x', mfor n lo body x s = (s', Ok x') /\ Q (lo + n)%nat s' x'.
Proof.
  induction n as [|n IH]; intros lo Hb s x HQ.
  - exists s, x. rewrite Nat.add_0_r. auto.
  - destruct (Hb lo s x ltac:(lia) HQ) as (s1 & x1 & E & Q1). cbn [mfor]. unfold mbind. rewrite E.
    destruct (IH (lo + 1)%nat) with (s := s1) (x := x1) as (s2 & x2 & E2 & Q2); auto.
    + intros i s' x' Hi. apply Hb. lia.
    + exists s2, x2. split; auto. replace (lo + Datatypes.S n)%nat with (lo + 1 + n)%nat by lia. exact Q2.
Qed.

Section NumJacobian.
Variable A : Type.
Variable function : list R -> R -> list R -> A -> list R * A * res unit.
Variables (ndim : nat) (x_at : R) (y_at : list R) (F : list R -> nat -> R).

(** component i of F when the variable j is changed to t *)
Definition along (i j : nat) (t : R) : R := F (upd y_at j t) i.
(** near y_at the user function computes F; it may change its arguments *)
Definition evaluates : Prop := forall w j t a, length w = ndim -> (j < ndim)%nat -> Rabs (t - nth j y_at 0) <= 1 / 1000 ->
  exists w' a', function w x_at (upd y_at j t) a = (w', a', Ok tt) /\ length w' = ndim /\ forall i, (i < ndim)%nat -> nth i w' 0 = F (upd y_at j t) i.

Definition kept (s : extra A) : Prop := let '(y, w, _) := s in y = y_at /\ length w = ndim.
Lemma upd_twice {T} (l : list T) k (a b : T) : upd (upd l k a) k b = upd l k b.
Proof. revert k. induction l as [|c l IH]; intros [|k]; cbn; auto. now rewrite IH. Qed.
Lemma upd_same (l : list R) k : (k < length l)%nat -> upd l k (nth k l 0) = l.
Proof. revert k. induction l as [|c l IH]; intros [|k] H; cbn in *; try lia; auto. rewrite IH; auto; lia. Qed.
Lemma component_answers i j : evaluates -> (ndim <= length y_at)%nat -> (i < ndim)%nat -> (j < ndim)%nat ->
  answers kept (jac_component A function x_at i j) (along i j) (nth j y_at 0 - 1 / 1000) (nth j y_at 0 + 1 / 1000).
Proof.
  intros HE HL Hi Hj [[y w] a] t [-> Hw] Ht. unfold jac_component. rewrite (vget_ok y_at j 0) by lia.
  destruct (HE w j t a Hw Hj) as (w' & a' & E & Hw' & HF); [apply Rabs_le_between; lra|]. rewrite E.
  rewrite (vget_ok w' i 0) by lia. eexists. split; [rewrite HF by auto; reflexivity|]. cbn. split; auto. rewrite upd_twice. apply upd_same. lia.
Qed.

Lemma mfor_partial {S X} (Q : X -> Prop) (body : nat -> X -> M S X) n : (forall i s x s' x', body i x s = (s', Ok x') -> Q x -> Q x') ->
  forall lo s x s' x', mfor n lo body x s = (s', Ok x') -> Q x -> Q x'.
Proof.
  intros Hb. induction n as [|n IH]; intros lo s x s' x' E HQ; cbn [mfor] in E.
  - injection E as <- <-. exact HQ.
  - unfold mbind in E. destruct (body lo x s) as [s1 [x1|e|]] eqn:E1; try discriminate. eapply IH; [exact E|]. eapply Hb; eauto.
Qed.
Lemma num_jacobian_wf x y alpha args args' J : num_jacobian A function ndim x y alpha args = (args', Ok J) -> d_wf J.
Proof.
  unfold num_jacobian. match goal with |- context [mfor ?n ?l ?b ?J0 ?s0] => destruct (mfor n l b J0 s0) as [[[y' w'] a'] r] eqn:E end.
  intros H. injection H as -> ->. eapply (mfor_partial d_wf) in E; [exact E| |apply d_new_wf].
  clear. intros i s J s' J' E W. eapply (mfor_partial d_wf) in E; [exact E| |exact W].
  clear. intros j s J s' J' E W. unfold mbind, mlift in E. destruct (vget y j) as [yj| |]; try discriminate.
  destruct (deriv1_central5 _ _ yj s) as [s1 [r|e|]]; try discriminate. injection E as <- E.
  unfold d_set, vset in E. destruct (_ <? _)%nat; try discriminate. cbn [bind] in E. injection E as <-. unfold d_wf in *. cbn. now rewrite upd_length.
Qed.

(** every entry is alpha times the partial derivative, up to the error of the central difference *)
Theorem C91_num_jacobian (alpha B : R) (lo hi : nat -> R) args : evaluates -> (ndim <= length y_at)%nat ->
  (forall i j, (i < ndim)%nat -> (j < ndim)%nat -> smooth (along i j) 5 (lo j) (hi j) /\ bounded (along i j) 5 (lo j) (hi j) B) ->
  (forall j, (j < ndim)%nat -> lo j < nth j y_at 0 - 1 / 1000 /\ nth j y_at 0 + 1 / 1000 < hi j) ->
  exists args' J, num_jacobian A function ndim x_at y_at alpha args = (args', Ok J) /\ d_nrow J = ndim /\ d_ncol J = ndim /\
    forall i j, (i < ndim)%nat -> (j < ndim)%nat -> exists v, d_get J i j = Ok v /\
      Rabs (v - alpha * Derive (along i j) (nth j y_at 0)) <= Rabs alpha * (1 / 288 * (1 / 1000) ^ 4 * B).
Proof.
  intros HE HL HS HI. set (eps := 1 / 288 * (1 / 1000) ^ 4 * B).
  set (good := fun (J : dmat R) i j => Rabs (dval 0 J i j - alpha * Derive (along i j) (nth j y_at 0)) <= Rabs alpha * eps).
  set (shape := fun (J : dmat R) => d_wf J /\ d_nrow J = ndim /\ d_ncol J = ndim).
  unfold num_jacobian.
  match goal with |- context [mfor ?n ?l ?b ?J0 ?s0] =>
    destruct (mfor_inv (fun k s J => kept s /\ shape J /\ forall i j, (i < k)%nat -> (j < ndim)%nat -> good J i j) b n l) with (s := s0) (x := J0) as (s' & J & E & K & (W & R1 & R2) & G) end.
  - intros i s J Hi (K & Sh & G).
    match goal with |- context [mfor ?n ?l ?b ?J0 ?s0] =>
      destruct (mfor_inv (fun k s J => kept s /\ shape J /\ (forall i' j, (i' < i)%nat -> (j < ndim)%nat -> good J i' j) /\ forall j, (j < k)%nat -> good J i j) b n l) with (s := s0) (x := J0) as (s' & J' & E & K' & Sh' & G1 & G2) end.
    + intros j s1 J1 Hj (K1 & (W1 & N1 & M1) & Gp & Gr).
      unfold mbind at 1, mlift at 1. rewrite (vget_ok y_at j 0) by lia. destruct (HS i j) as [HS1 HS2]; try lia. destruct (HI j) as [HI1 HI2]; [lia|].
      destruct (C91_central5 (extra A) kept (jac_component A function x_at i j) (along i j) (nth j y_at 0) (lo j) (hi j) B) with (s := s1) as (s2 & r & Er & K2 & Hr); auto.
      { apply component_answers; auto; lia. }
      unfold mbind at 1. rewrite Er. unfold mlift.
      destruct (d_set_spec R 0 J1 i j (r * alpha) W1) as (J2 & E2 & W2 & N2 & M2 & V2); try lia. rewrite E2.
      exists s2, J2. split; [reflexivity|]. split; [exact K2|]. split; [unfold shape; splits; auto; lia|]. rewrite N1, M1 in V2. split.
      * intros i' j' Hi' Hj'. unfold good. rewrite V2 by lia. rewrite (proj2 (Nat.eqb_neq i' i)) by lia. cbn [andb]. now apply Gp.
      * intros j' Hj'. unfold good. rewrite V2 by lia. rewrite Nat.eqb_refl. cbn [andb]. destruct (Nat.eqb_spec j' j) as [->|].
        -- replace (r * alpha - alpha * Derive (along i j) (nth j y_at 0)) with (alpha * (r - Derive (along i j) (nth j y_at 0))) by ring. rewrite Rabs_mult. apply Rmult_le_compat_l; [apply Rabs_pos|exact Hr].
        -- apply Gr. lia.
    + split; [exact K|]. split; [exact Sh|]. split; [exact G|]. intros j Hj. lia.
    + exists s', J'. split; [exact E|]. split; [exact K'|]. split; [exact Sh'|]. intros i' j Hi' Hj. destruct (Nat.eq_dec i' i) as [->|]; [apply G2; lia|apply G1; lia].
  - split; [split; [reflexivity|apply repeat_length]|]. split; [split; [apply d_new_wf|split; reflexivity]|]. intros. lia.
  - rewrite E. destruct s' as [[y w] a]. exists a, J. splits; auto. intros i j Hi Hj. exists (dval 0 J i j). split; [apply d_get_val; auto; lia|]. apply G; lia.
Qed.
End NumJacobian.

(** ** the hypotheses are met *)
Lemma exp_smooth n lo hi : smooth exp n lo hi.
Proof. intros t _ [|k] _; [exact I|]. exists (exp t). exact (is_derive_n_exp (Datatypes.S k) t). Qed.
(** counts its calls, and knows nothing but [-1, 1] *)
Definition exp_near (t : R) (calls : nat) : nat * res R := (Datatypes.S calls, if Rleb (Rabs t) 1 then Ok (exp t) else Err "outside").
Example C91_example : within (fun _ => True) (deriv1_central5 nat exp_near (1 / 2)) (Derive exp (1 / 2)) (1 / 288 * (1 / 1000) ^ 4 * exp 1).
Proof.
  apply C91_central5 with (g := exp) (lo := -1) (hi := 1); try lra; auto using exp_smooth.
  - intros s t _ Ht. eexists. split; [|exact I]. unfold exp_near. destruct (Rleb_spec (Rabs t) 1) as [|H]; [reflexivity|]. rewrite Rabs_pos_eq in H; lra.
  - intros t Ht. rewrite (is_derive_n_unique exp 5 t (exp t)) by apply is_derive_n_exp. rewrite Rabs_pos_eq by (left; apply exp_pos). left. apply exp_increasing. lra.
Qed.
Print Assumptions C91_central5.
Print Assumptions C91_num_jacobian.
Print Assumptions C91_check_failing.
Print Assumptions C91_check_accepts.
