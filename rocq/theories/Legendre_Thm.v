(** C87: Legendre polynomials, their derivatives and the Gauss and Lobatto rules. *)
From Coquelicot Require Import Coquelicot.
From Verif Require Import Base RBase RSum Poly Legendre_Model Legendre_Proofs.
From Coq Require Import Reals Lra Lia Sorting.Permutation Sorting.Sorted.
Local Open Scope R_scope.

(** ** specification *)
(** the rule with points [xx] and weights [ww] gives the integral over [-1,1] of every polynomial of degree below [n] *)
Definition exact_rule (n : nat) (xx ww : list R) : Prop :=
  length xx = length ww /\
  forall f : R -> R, is_poly n f -> is_RInt f (-1) 1 (sumn (length xx) (fun k => nth k ww 0 * f (nth k xx 0))).

Definition distinct (xx : list R) : Prop := NoDup xx.

(** ** polynomials *)
(** [legendre_pn n] is the Legendre polynomial: a polynomial of degree at most n with value 1 at 1, orthogonal on [-1,1] to every
    polynomial of lower degree; its square integrates to 2/(2n+1) *)
Theorem C87_pn : forall n, is_poly (S n) (legendre_pn n) /\ legendre_pn n 1 = 1 /\
  (forall q : R -> R, is_poly n q -> is_RInt (fun x => q x * legendre_pn n x) (-1) 1 0) /\
  is_RInt (fun x => legendre_pn n x * legendre_pn n x) (-1) 1 (2 / (2 * INR n + 1)).
Proof. intros n. split; [apply Ppoly|]. split; [apply P_at_1|]. split; [intros q Hq; now apply ortho_low|]. apply ortho_sq. Qed.

(** and the only one *)
Theorem C87_pn_unique : forall n (p : R -> R), is_poly (S n) p -> p 1 = 1 ->
  (forall q : R -> R, is_poly n q -> is_RInt (fun x => q x * p x) (-1) 1 0) -> forall x, p x = legendre_pn n x.
Proof.
  intros n p Hp H1 Ho. destruct (Pspan (S n) p Hp) as (c & E).
  assert (Z : forall j, (j < n)%nat -> c j = 0).
  { intros j Hj. assert (A : I (fun x => legendre_pn j x * p x) 0) by (apply Ho; eapply is_poly_le; [apply Ppoly|lia]).
    assert (B : I (fun x => legendre_pn j x * p x) (sumn (S n) (fun k => c k * (if (k =? j)%nat then 2 / (2 * INR j + 1) else 0)))).
    { apply (I_ext (fun x => sumn (S n) (fun k => c k * (legendre_pn k x * legendre_pn j x)))).
      - apply I_sum. intros k Hk. apply I_scal. destruct (Nat.eqb_spec k j) as [->|]; [apply ortho_sq|now apply ortho_ne].
      - intros x. rewrite E, <- sumn_scal. apply sumn_ext. intros; ring. }
    rewrite (sumn_single _ _ j) in B by (try lia; intros k _ N; rewrite (proj2 (Nat.eqb_neq k j)) by auto; ring). rewrite Nat.eqb_refl in B.
    assert (Q := I_unique _ _ _ A B). assert (0 <= INR j) by apply pos_INR. assert (0 < 2 / (2 * INR j + 1)) by (apply Rdiv_lt_0_compat; lra).
    symmetry in Q. apply Rmult_integral in Q. destruct Q; lra. }
  assert (E' : forall x, p x = c n * legendre_pn n x).
  { intros x. rewrite E. cbn [sumn]. rewrite sumn_zero; [ring|]. intros i Hi. rewrite Z by auto. ring. }
  intros x. assert (Q := E' 1). rewrite H1, P_at_1 in Q. rewrite E', <- (Rmult_1_r (c n)), <- Q. ring.
Qed.

(** ** derivatives *)
(** at the points where the code does not round the position to an end *)
Definition not_near (x : R) : Prop := (/ 10 ^ 15 <= Rabs (x - 1) \/ x = 1) /\ (/ 10 ^ 15 <= Rabs (x + 1) \/ x = -1).

Lemma tiny : 0 < / 10 ^ 15 < 1. Proof. split; [apply Rinv_0_lt_compat; lra|]. rewrite <- Rinv_1. apply Rinv_lt_contravar; lra. Qed.
Lemma near_cases x : not_near x -> x = 1 \/ x = -1 \/
  Rltb (Rabs (x - 1)) (/ 10 ^ 15) = false /\ Rltb (Rabs (x + 1)) (/ 10 ^ 15) = false /\ x * x - 1 <> 0.
Proof.
  intros [[A|A] [B|B]]; auto. right; right. assert (T := tiny). splits.
  - apply Rltb_false. lra.
  - apply Rltb_false. lra.
  - intros E. assert (Q : (x - 1) * (x + 1) = 0) by lra. apply Rmult_integral in Q. destruct Q as [Q|Q]; rewrite Q, Rabs_R0 in *; lra.
Qed.

Lemma deriv1_D n x : not_near x -> legendre_pn_deriv1 n x = D n x.
Proof.
  intros H. unfold legendre_pn_deriv1. destruct n as [|n]; [cbn [Nat.eqb]; now rewrite D0|]. change (S n =? 0)%nat with false. cbv iota.
  assert (T := tiny). destruct (near_cases x H) as [->|[->|(A & B & C)]].
  - rewrite (proj2 (Rltb_true (Rabs (1 - 1)) _)) by (replace (1 - 1) with 0 by ring; rewrite Rabs_R0; lra). now rewrite D_at_1.
  - rewrite (proj2 (Rltb_false (Rabs (-1 - 1)) _)) by (rewrite Rabs_left by lra; lra).
    rewrite (proj2 (Rltb_true (Rabs (-1 + 1)) _)) by (replace (-1 + 1) with 0 by ring; rewrite Rabs_R0; lra). rewrite D_at_m1, pow_m1. destruct (Nat.even (S n)); ring.
  - rewrite A, B. replace (S n - 1)%nat with n by lia. apply Rmult_eq_reg_l with (x * x - 1); auto. rewrite dA, S_INR. field. auto.
Qed.
Lemma deriv2_D n x : not_near x -> legendre_pn_deriv2 n x = D2 n x.
Proof.
  intros H. unfold legendre_pn_deriv2. destruct (Nat.leb_spec n 1) as [L|L].
  - symmetry. destruct n as [|[|n]]; [| |lia].
    + apply is_derive_unique. apply is_derive_ext with (fun _ => 0); [intros; now rewrite D0|]. apply (is_derive_const (K := R_AbsRing) (V := R_NormedModule)).
    + apply is_derive_unique. apply is_derive_ext with (fun _ => 1); [intros; now rewrite D1|]. apply (is_derive_const (K := R_AbsRing) (V := R_NormedModule)).
  - rewrite (deriv1_D n x H). assert (T := tiny). destruct (near_cases x H) as [->|[->|(A & B & C)]].
    + rewrite (proj2 (Rltb_true (Rabs (1 - 1)) _)) by (replace (1 - 1) with 0 by ring; rewrite Rabs_R0; lra). now rewrite D2_at_1.
    + rewrite (proj2 (Rltb_false (Rabs (-1 - 1)) _)) by (rewrite Rabs_left by lra; lra).
      rewrite (proj2 (Rltb_true (Rabs (-1 + 1)) _)) by (replace (-1 + 1) with 0 by ring; rewrite Rabs_R0; lra). rewrite D2_at_m1, pow_m1. destruct (Nat.even n); ring.
    + rewrite A, B. apply Rmult_eq_reg_l with (1 - x * x); [|lra]. rewrite ode. field. lra.
Qed.

(** the derivative functions return the first and second derivatives *)
Theorem C87_derivatives : forall n x, not_near x ->
  is_derive (legendre_pn n) x (legendre_pn_deriv1 n x) /\
  (forall f1 : R -> R, (forall t, is_derive (legendre_pn n) t (f1 t)) -> is_derive f1 x (legendre_pn_deriv2 n x)).
Proof.
  intros n x H. rewrite deriv1_D, deriv2_D by auto. split; [apply dP|].
  intros f1 H1. apply is_derive_ext with (D n); [|apply dD]. intros t. unfold D. now apply is_derive_unique.
Qed.

(** ** quadrature *)
Lemma distinct_nth xx i j : distinct xx -> (i < length xx)%nat -> (j < length xx)%nat -> nth i xx 0 = nth j xx 0 -> i = j.
Proof. intros H Hi Hj E. apply (proj1 (NoDup_nth xx 0) H); auto. Qed.

Lemma nth_map_seq (g : nat -> R) n k : (k < n)%nat -> nth k (map g (seq 0 n)) 0 = g k.
Proof. intros H. rewrite (nth_indep _ 0 (g 0%nat)) by (now rewrite map_length, seq_length). rewrite (map_nth g). now rewrite seq_nth. Qed.

(** the Gauss weights computed from the zeros of P_(nn+1) give a rule that is exact up to degree 2 nn + 1 *)
Theorem C87_gauss_weights : forall nn xx, length xx = S nn -> distinct xx -> (forall x, In x xx -> legendre_pn (S nn) x = 0 /\ not_near x) ->
  exact_rule (2 * nn + 2) xx (gauss_weights_at nn xx).
Proof.
  intros nn xx L ND Z. unfold gauss_weights_at. replace (nn + 1)%nat with (S nn) by lia. split; [now rewrite map_length, seq_length|].
  intros f Hf. rewrite L. assert (ZK : forall k, (k < S nn)%nat -> legendre_pn (S nn) (nth k xx 0) = 0 /\ not_near (nth k xx 0)) by (intros k Hk; apply Z, nth_In; lia).
  assert (G := gauss (S nn) (fun k => nth k xx 0) ltac:(lia) ltac:(intros i j Hi Hj; apply distinct_nth; auto; lia) ltac:(intros k Hk; now apply ZK) f).
  rewrite (sumn_ext (S nn) _ (fun k => 2 / ((1 - nth k xx 0 * nth k xx 0) * D (S nn) (nth k xx 0) * D (S nn) (nth k xx 0)) * f (nth k xx 0))).
  - apply G. replace (2 * S nn)%nat with (2 * nn + 2)%nat by lia. auto.
  - intros k Hk. rewrite nth_map_seq by auto. rewrite deriv1_D by (now apply ZK). reflexivity.
Qed.

(** the Lobatto weights computed from the ends and the zeros of P_nn' give a rule that is exact up to degree 2 nn - 1 *)
Theorem C87_lobatto_weights : forall nn xx, (2 <= nn)%nat -> length xx = S nn -> distinct xx -> nth 0 xx 0 = -1 -> nth nn xx 0 = 1 ->
  (forall k, (0 < k < nn)%nat -> is_derive (legendre_pn nn) (nth k xx 0) 0) ->
  exact_rule (2 * nn) xx (lobatto_weights_at nn xx).
Proof.
  intros nn xx Hn L ND E0 E1 Z. unfold lobatto_weights_at. destruct (Nat.ltb_spec nn 2); [lia|].
  replace (nn + 1)%nat with (S nn) by lia. set (c := INR (S nn)). set (we := 2 / (c * (c - 1))).
  set (g := fun k => 2 / (c * (c - 1) * legendre_pn nn (nth k xx 0) * legendre_pn nn (nth k xx 0))).
  change (exact_rule (2 * nn) xx (we :: map g (seq 1 (nn - 1)) ++ [we])).
  assert (G0 : g 0%nat = we). { unfold g, we. rewrite E0, P_at_m1. f_equal. replace (c * (c - 1) * (-1) ^ nn * (-1) ^ nn) with (c * (c - 1) * ((-1) ^ nn * (-1) ^ nn)) by ring. rewrite <- Rpow_mult_distr. replace (-1 * -1) with 1 by ring. rewrite pow1. ring. }
  assert (G1 : g nn = we). { unfold g, we. rewrite E1, P_at_1. f_equal. ring. }
  assert (EW : (we :: map g (seq 1 (nn - 1)) ++ [we] = map g (seq 0 (S nn)))%list).
  { rewrite <- G0 at 1. rewrite <- G1. replace (S nn) with (1 + (nn - 1) + 1)%nat by lia. rewrite !seq_app, !map_app. cbn. replace (S (nn - 1)) with nn by lia. reflexivity. }
  rewrite EW. split; [now rewrite map_length, seq_length|]. intros f Hf. rewrite L.
  rewrite (sumn_ext (S nn) _ (fun k => 2 / (INR nn * (INR nn + 1) * legendre_pn nn (nth k xx 0) * legendre_pn nn (nth k xx 0)) * f (nth k xx 0))).
  - apply (lobatto nn (fun k => nth k xx 0)); auto; [lia| |].
    + intros i j Hi Hj. apply distinct_nth; auto; lia.
    + intros k Hk. unfold W. destruct (Nat.eq_dec k 0) as [->|]; [rewrite E0; ring|]. destruct (Nat.eq_dec k nn) as [->|]; [rewrite E1; ring|].
      replace (D nn (nth k xx 0)) with 0; [ring|]. symmetry. apply is_derive_unique. apply Z. lia.
  - intros k Hk. rewrite nth_map_seq by auto. unfold g, c. rewrite S_INR. f_equal. f_equal. ring.
Qed.

(** ** points *)
Lemma insert_perm a l : Permutation (a :: l) (insert_asc a l).
Proof. induction l as [|b l IH]; cbn; auto. destruct (Rleb a b); auto. rewrite <- IH. apply perm_swap. Qed.
Lemma sort_perm l : Permutation l (sort_asc l).
Proof. induction l as [|a l IH]; cbn; auto. rewrite <- insert_perm. now constructor. Qed.
Lemma insert_sorted a l : StronglySorted Rle l -> StronglySorted Rle (insert_asc a l).
Proof.
  intros H. induction H as [|b l S IH F]; cbn; [repeat constructor|]. destruct (Rleb a b) eqn:E.
  - apply Rleb_true in E. constructor; [now constructor|]. constructor; auto. rewrite Forall_forall in F |- *. intros x Hx. specialize (F x Hx). lra.
  - apply Rleb_false in E. constructor; auto. apply (Permutation_Forall (insert_perm a l)). constructor; auto. lra.
Qed.
Lemma sort_sorted l : StronglySorted Rle (sort_asc l).
Proof. induction l as [|a l IH]; cbn; [constructor|]. now apply insert_sorted. Qed.

(** the result of the Newton iteration started at [x0]: the last step was below 1e-15, or the slope was below 1e-30, or [steps] steps were made *)
Definition newton_result (f df : R -> R) (steps : nat) (x0 x : R) : Prop :=
  (exists y, x = y - f y / df y /\ / 10 ^ 30 <= Rabs (df y) /\ Rabs (f y) < / 10 ^ 15 * Rabs (df y)) \/
  Rabs (df x) < / 10 ^ 30 \/
  exists ys : nat -> R, ys 0%nat = x0 /\ ys steps = x /\ forall k, (k < steps)%nat -> ys (S k) = ys k - f (ys k) / df (ys k) /\ / 10 ^ 15 <= Rabs (ys (S k) - ys k).

Lemma newton_ok f df fuel x : newton_result f df fuel x (legendre_newton f df fuel x).
Proof.
  assert (T30 : 0 < / 10 ^ 30) by (apply Rinv_0_lt_compat; lra).
  revert x. induction fuel as [|fuel IH]; intros x; cbn [legendre_newton].
  - right; right. exists (fun _ => x). splits; auto. lia.
  - destruct (Rltb (Rabs (df x)) (/ 10 ^ 30)) eqn:E1; [right; left; now apply Rltb_true|]. apply Rltb_false in E1.
    assert (NZ : df x <> 0) by (intros Z; rewrite Z, Rabs_R0 in E1; lra).
    destruct (Rltb (Rabs (- f x / df x)) (/ 10 ^ 15)) eqn:E2.
    + apply Rltb_true in E2. left. exists x. splits; [field; auto|auto|].
      replace (Rabs (f x)) with (Rabs (- f x / df x) * Rabs (df x)); [apply Rmult_lt_compat_r; auto; now apply Rabs_pos_lt|].
      rewrite <- Rabs_mult, <- (Rabs_Ropp (f x)). f_equal. field. auto.
    + apply Rltb_false in E2. destruct (IH (x + - f x / df x)) as [A|[A|(ys & Y0 & Y1 & Y2)]]; [now left|right; now left|].
      right; right. exists (fun k => match k with O => x | S k' => ys k' end). splits; auto.
      intros [|k] Hk; [|apply Y2; lia]. rewrite Y0. split; [field; auto|]. replace (x + - f x / df x - x) with (- f x / df x) by ring. auto.
Qed.

(** the Gauss points: nn + 1 values in ascending order, each the result of Newton's method for P_(nn+1) from its own starting point *)
Theorem C87_gauss_points : forall nn, (1 <= nn)%nat -> StronglySorted Rle (legendre_gauss_points nn) /\
  exists ys, Permutation ys (legendre_gauss_points nn) /\ length ys = S nn /\
    forall k, (k < S nn)%nat ->
      newton_result (legendre_pn (S nn)) (legendre_pn_deriv1 (S nn)) 100 (cos (PI * INR (4 * k + 3) / INR (4 * S nn + 2))) (nth k ys 0).
Proof.
  intros nn Hn. unfold legendre_gauss_points. rewrite (proj2 (Nat.eqb_neq nn 0)) by lia. split; [apply sort_sorted|].
  replace (nn + 1)%nat with (S nn) by lia. eexists. split; [apply sort_perm|]. split; [now rewrite map_length, seq_length|].
  intros k Hk. rewrite nth_map_seq by auto. apply newton_ok.
Qed.

(** the Lobatto points: both ends and results of Newton's method for the derivative of P_nn *)
Theorem C87_lobatto_points : forall nn, (1 <= nn)%nat -> let xx := legendre_lobatto_points nn in
  length xx = S nn /\ nth 0 xx 0 = -1 /\ nth nn xx 0 = 1 /\
  forall k, (0 < k < nn)%nat -> (nn = 2%nat /\ nth k xx 0 = 0) \/
    newton_result (legendre_pn_deriv1 nn) (legendre_pn_deriv2 nn) 200 (- cos (PI * INR k / INR nn)) (nth k xx 0).
Proof.
  intros nn Hn. unfold legendre_lobatto_points. destruct nn as [|[|[|n]]]; [lia| | |].
  - cbn. splits; auto. lia.
  - cbn. splits; auto. intros k Hk. left. assert (k = 1%nat) by lia. now subst k.
  - set (nn := S (S (S n))). change (nn =? 0)%nat with false. change (nn <? 3)%nat with false. cbv iota zeta.
    set (g := fun k => legendre_newton (legendre_pn_deriv1 nn) (legendre_pn_deriv2 nn) 200 (- cos (PI * INR k / INR nn))).
    change (let xx := -1 :: map g (seq 1 (nn - 1)) ++ [1] in length xx = S nn /\ nth 0 xx 0 = -1 /\ nth nn xx 0 = 1 /\
      (forall k, (0 < k < nn)%nat -> nn = 2%nat /\ nth k xx 0 = 0 \/ newton_result (legendre_pn_deriv1 nn) (legendre_pn_deriv2 nn) 200 (- cos (PI * INR k / INR nn)) (nth k xx 0))).
    cbv zeta. assert (LM : length (map g (seq 1 (nn - 1))) = (nn - 1)%nat) by (now rewrite map_length, seq_length). splits.
    + cbn [length]. rewrite app_length, LM. cbn. lia.
    + reflexivity.
    + set (l := map g (seq 1 (nn - 1))) in *. clearbody l. change nn with (S (nn - 1)). cbn [nth]. rewrite app_nth2 by (rewrite LM; lia). rewrite LM, Nat.sub_diag. reflexivity.
    + intros k Hk. right. destruct k as [|k]; [lia|]. cbn [nth]. rewrite app_nth1 by (rewrite LM; lia).
      rewrite (nth_indep _ 0 (g 0%nat)) by (rewrite LM; lia). rewrite (map_nth g), seq_nth by lia. apply newton_ok.
Qed.

(** ** the rules with exactly known points, as computed *)
Theorem C87_small_rules : exact_rule 2 (legendre_gauss_points 0) (legendre_gauss_weights 0) /\
  exact_rule 4 (legendre_lobatto_points 2) (legendre_lobatto_weights 2).
Proof.
  assert (T := tiny). split.
  - apply (C87_gauss_weights 0 [0]); [reflexivity|repeat constructor; intros []|]. intros x [<-|[]]. split; [apply P1|]. unfold not_near.
    rewrite (Rabs_left (0 - 1)), (Rabs_right (0 + 1)) by lra. split; left; lra.
  - apply (C87_lobatto_weights 2 [-1; 0; 1]); try reflexivity; [|].
    + repeat constructor; cbn; intuition lra.
    + intros k Hk. assert (k = 1%nat) by lia. subst k. cbn [nth]. replace 0 with (D 2 0) at 2; [apply dP|]. rewrite dB, D1, P1. cbn. ring.
Qed.

(** ** finding *)
(** with two points the Lobatto rule is the trapezoidal rule with weights 1, but the function returns zero weights *)
Theorem C87_lobatto_two_refuted : ~ (forall nn, (1 <= nn)%nat -> exact_rule 2 (legendre_lobatto_points nn) (legendre_lobatto_weights nn)).
Proof.
  intros H. destruct (H 1%nat ltac:(lia)) as [_ Q]. specialize (Q (fun _ => 1)). cbn in Q.
  assert (E : I (fun _ => 1) (0 + 0 * 1 + 0 * 1)). { apply Q. apply is_poly_const. lia. }
  assert (Z := I_unique _ _ _ E I_one). lra.
Qed.

(** ** non-vacuity: the two-point rule on the zeros -1/sqrt 3 and 1/sqrt 3 of P_2 *)
Example C87_two_points : exact_rule 4 [- / sqrt 3; / sqrt 3] (gauss_weights_at 1 [- / sqrt 3; / sqrt 3]).
Proof.
  assert (S3 : sqrt 3 * sqrt 3 = 3) by (apply sqrt_sqrt; lra). assert (S0 : 0 < sqrt 3) by (apply sqrt_lt_R0; lra).
  assert (R0 : 0 < / sqrt 3) by (now apply Rinv_0_lt_compat). assert (RR : / sqrt 3 * / sqrt 3 = / 3) by (rewrite <- Rinv_mult, S3; reflexivity).
  assert (P2 : forall x, legendre_pn 2 x = (3 * (x * x) - 1) / 2). { intros x. assert (Q := Legendre_Proofs.Prec 0%nat x). rewrite P0, P1 in Q. cbn in Q. lra. }
  assert (UB : / sqrt 3 < 3 / 4). { apply Rnot_le_lt. intros C. assert (3 / 4 * (3 / 4) <= / sqrt 3 * / sqrt 3) by (apply Rmult_le_compat; lra). lra. }
  assert (T15 : / 10 ^ 15 < / 10) by (apply Rinv_lt_contravar; lra).
  apply (C87_gauss_weights 1); [reflexivity| |].
  - constructor; [intros [E|[]]; lra|]. constructor; [intros []|constructor].
  - intros x [<-|[<-|[]]]; rewrite P2; (split; [lra|]); unfold not_near.
    + rewrite (Rabs_left (- / sqrt 3 - 1)), (Rabs_right (- / sqrt 3 + 1)) by lra. split; left; lra.
    + rewrite (Rabs_left (/ sqrt 3 - 1)), (Rabs_right (/ sqrt 3 + 1)) by lra. split; left; lra.
Qed.
Example C87_not_near : not_near 1 /\ not_near (-1) /\ not_near (/ 4).
Proof.
  assert (T := tiny). unfold not_near. splits; auto.
  - rewrite (Rabs_right (1 + 1)) by lra. left. lra.
  - rewrite (Rabs_left (-1 - 1)) by lra. left. lra.
  - rewrite (Rabs_left (/ 4 - 1)) by lra. left. assert (/ 10 ^ 15 < / 10) by (apply Rinv_lt_contravar; lra). lra.
  - rewrite (Rabs_right (/ 4 + 1)) by lra. left. lra.
Qed.

Print Assumptions C87_pn.
Print Assumptions C87_pn_unique.
Print Assumptions C87_derivatives.
Print Assumptions C87_gauss_weights.
Print Assumptions C87_lobatto_weights.
Print Assumptions C87_gauss_points.
Print Assumptions C87_lobatto_points.
Print Assumptions C87_small_rules.
Print Assumptions C87_lobatto_two_refuted.
