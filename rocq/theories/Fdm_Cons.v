(** C46: consistency of the FDM systems with polynomial solutions, exact real arithmetic. *)
From Coq Require Import Sorting.Permutation Sorting.Sorted.
From Verif Require Import Base RBase Dense_Model Sparse_Model Sparse_Spec Sparse_CooProofs Sparse_Ops Sparse_Ring Eqs_Model Eqs_Thm Grid_Model Grid_Thm Bcs_Model Bcs_Thm
  Fdm_Model Fdm_Asm Fdm_Stencil Fdm_Cap Fdm_Entries Fdm_Coef Fdm_Thm Fdm_Vec Fdm_Equiv.
Local Open Scope nat_scope.

Lemma pick n a F : a < n -> nsum n (fun c => d a c * F c)%R = F a.
Proof.
  intros H. unfold nsum. rewrite (lsum_single _ _ a); [|apply seq_NoDup|apply in_seq; lia|].
  - rewrite d_same. lra.
  - intros x _ N. rewrite d_ne; auto. lra.
Qed.
Lemma nsum_lin n a b f g : nsum n (fun c => a * f c + b * g c)%R = (a * nsum n f + b * nsum n g)%R.
Proof. unfold nsum. rewrite <- !lsum_scale, <- lsum_add. reflexivity. Qed.

Lemma A1_row per nx k dx alpha m F : 2 <= nx -> m < nx ->
  nsum nx (fun n => A1 per nx k dx alpha m n * F n)%R =
  (wt per nx m * ((2 * k / (dx * dx) + alpha) * F m - k / (dx * dx) * (F (left_of per nx m) + F (right_of per nx m))))%R.
Proof.
  intros Hx Hm. unfold A1, nbs.
  rewrite (nsum_ext nx _ (fun n => wt per nx m * (2 * k / (dx * dx) + alpha) * (d m n * F n) +
    (- wt per nx m * (k / (dx * dx))) * (1 * (d (left_of per nx m) n * F n) + 1 * (d (right_of per nx m) n * F n)))%R).
  2:{ intros; ring. }
  rewrite nsum_lin, nsum_lin, !pick by auto using left_lt, right_lt. ring.
Qed.

Lemma node_lt nx ny i j : i < nx -> j < ny -> i + j * nx < nx * ny.
Proof. intros. nia. Qed.

Lemma A2_row px py nx ny kx ky dx dy alpha i j (F : nat -> nat -> R) : 2 <= nx -> 2 <= ny -> i < nx -> j < ny ->
  nsum (nx * ny) (fun n => A2n px py nx ny kx ky dx dy alpha (i + j * nx) n * F (n mod nx)%nat (n / nx)%nat)%R =
  (wt px nx i * wt py ny j *
   ((2 * (kx / (dx * dx) + ky / (dy * dy)) + alpha) * F i j
     - kx / (dx * dx) * (F (left_of px nx i) j + F (right_of px nx i) j)
     - ky / (dy * dy) * (F i (left_of py ny j) + F i (right_of py ny j))))%R.
Proof.
  intros Hx Hy Hi Hj. unfold A2n. rewrite mod_idx, div_idx by auto.
  set (G := fun n => F (n mod nx) (n / nx)).
  assert (PK : forall a b, a < nx -> b < ny -> nsum (nx * ny) (fun n => d a (n mod nx)%nat * d b (n / nx)%nat * G n)%R = F a b).
  { intros a b Ha Hb. rewrite (nsum_ext _ _ (fun n => d (a + b * nx)%nat n * G n)%R).
    - rewrite pick by (now apply node_lt). unfold G. now rewrite mod_idx, div_idx by auto.
    - intros n Hn. destruct (idx_split nx ny n) as (i' & j' & Hi' & Hj' & ->); [lia|auto|].
      rewrite mod_idx, div_idx by auto. rewrite d_idx by auto. reflexivity. }
  unfold A2, nbs.
  rewrite (nsum_ext _ _ (fun n => wt px nx i * wt py ny j * (2 * (kx / (dx * dx) + ky / (dy * dy)) + alpha) * (d i (n mod nx)%nat * d j (n / nx)%nat * G n) +
    (- (wt px nx i * wt py ny j)) *
      (kx / (dx * dx) * (1 * (d (left_of px nx i) (n mod nx)%nat * d j (n / nx)%nat * G n) + 1 * (d (right_of px nx i) (n mod nx)%nat * d j (n / nx)%nat * G n)) +
       ky / (dy * dy) * (1 * (d i (n mod nx)%nat * d (left_of py ny j) (n / nx)%nat * G n) + 1 * (d i (n mod nx)%nat * d (right_of py ny j) (n / nx)%nat * G n))))%R).
  2:{ intros n Hn. unfold G. ring. }
  rewrite !nsum_lin, !PK by auto using left_lt, right_lt. ring.
Qed.

(** ** 1D *)
(** sum over the columns of the assembled Lagrange matrix in row [m], all nodes *)
Definition line (c : coo R) (n : nat) (u : nat -> R) (m : nat) : R :=
  nsum n (fun j => entryR (expand (c_sym c) (coo_triplets c)) m j * u j)%R.

Section Cons.
Variable tol : R.

(** interior rows are exact for cubics: -k u'' + alpha u *)
Theorem C46_fdm1_interior_cubic : forall f hist hn grid kx alpha extra cc s,
  solver1 tol f hist hn grid kx ->
  let nx := g1_nx R grid in
  let x m := nth m (g1_coords R grid) 0%R in
  (forall m, m < nx -> x m = (x 0%nat + INR m * f1_dx R f)%R) ->
  forall c0 c1 c2 c3 : R,
  let u t := (c0 + c1 * t + c2 * t ^ 2 + c3 * t ^ 3)%R in
  let ddu t := (2 * c2 + 6 * c3 * t)%R in
  exists mm oc, fdm1_get_matrices_lmm R 0%R 1%R 2%R Rplus Rdiv f alpha extra cc s = Ok (mm, oc) /\
  forall m, 0 < m -> m < nx - 1 ->
    line mm nx (fun j => u (x j)) m = (- kx * ddu (x m) + alpha * u (x m))%R.
Proof.
  intros f hist hn grid kx alpha extra cc s S nx x UN c0 c1 c2 c3 u ddu.
  assert (S' := S). destruct S' as (LC & HN & n & RN & H).
  assert (Hx : 2 <= nx) by apply H.
  destruct (fdm1_from_inv _ _ _ _ _ _ _ _ _ _ f hist grid n kx H) as (p & dx & D & _ & _ & _ & _ & _ & _ & DX & GD & _).
  destruct (C45_fdm1_lmm tol f hist hn grid kx alpha extra cc s S) as (mm & oc & E & M1 & M2 & M3 & M4 & M5).
  exists mm, oc. split; auto. intros m L1 L2. unfold line. rewrite M4.
  rewrite (nsum_ext nx _ (fun j => A1 (spec_per F1 hist true) nx kx (f1_dx R f) alpha m j * u (x j))%R).
  2:{ intros j Hj. rewrite M5 by (fold nx; lia). unfold block. fold nx. rewrite (proj2 (Nat.ltb_lt m nx)), (proj2 (Nat.ltb_lt j nx)) by lia. reflexivity. }
  rewrite A1_row by lia.
  destruct (left_cases (spec_per F1 hist true) nx m Hx ltac:(lia)) as [[A ->]|[A ->]]; [|lia].
  destruct (right_cases (spec_per F1 hist true) nx m Hx ltac:(lia)) as [[B ->]|[B ->]]; [|lia].
  unfold wt. rewrite (proj2 (Nat.eqb_neq m 0)), (proj2 (Nat.eqb_neq m (nx - 1))) by lia. rewrite andb_false_r.
  assert (X1 : x (m - 1) = (x m - f1_dx R f)%R).
  { rewrite (UN (m - 1)), (UN m) by lia. rewrite minus_INR by lia. cbn [INR]. ring. }
  assert (X2 : x (m + 1) = (x m + f1_dx R f)%R).
  { rewrite (UN (m + 1)), (UN m) by lia. rewrite plus_INR. cbn [INR]. ring. }
  rewrite X1, X2. destruct (get_dx_first tol grid (f1_dx R f) Hx) as [_ P]; [rewrite DX; exact GD|].
  unfold u, ddu. field. lra.
Qed.

(** all rows are exact for quadratics, provided the fluxes given at natural ends are those of u
    (Xmin: k u', Xmax: -k u'); at the ends of a periodic axis nothing is claimed *)
Theorem C46_fdm1_rows_quadratic : forall f hist hn grid kx alpha extra cc s source,
  solver1 tol f hist hn grid kx ->
  let nx := g1_nx R grid in
  let x m := nth m (g1_coords R grid) 0%R in
  let per := spec_per F1 hist true in
  (forall m, m < nx -> x m = (x 0%nat + INR m * f1_dx R f)%R) ->
  forall c0 c1 c2 : R,
  let u t := (c0 + c1 * t + c2 * t ^ 2)%R in
  let du t := (c1 + 2 * c2 * t)%R in
  (forall t, source t = (- kx * (2 * c2) + alpha * u t)%R) ->
  nth 0 (n_fun _ (f1_n R f)) z1 (x 0) = (kx * du (x 0%nat))%R ->
  nth 1 (n_fun _ (f1_n R f)) z1 (x (nx - 1)) = (- kx * du (x (nx - 1)%nat))%R ->
  exists mm oc v0 ff, fdm1_get_matrices_lmm R 0%R 1%R 2%R Rplus Rdiv f alpha extra cc s = Ok (mm, oc) /\
  fdm1_get_vectors_lmm R 0%R 1%R 2%R Rplus Rmult Rdiv Ropp f source = Ok (v0, ff) /\
  forall m, m < nx -> (per = true -> 0 < m /\ m < nx - 1) ->
    line mm nx (fun j => u (x j)) m = nth m ff 0%R.
Proof.
  intros f hist hn grid kx alpha extra cc s source S nx x per UN c0 c1 c2 u du SRC N0 N1.
  assert (S' := S). destruct S' as (LC & HN & n & RN & H).
  assert (Hx : 2 <= nx) by apply H.
  destruct (fdm1_from_inv _ _ _ _ _ _ _ _ _ _ f hist grid n kx H) as (p & dx & D & _ & _ & _ & _ & _ & _ & DX & GD & _).
  destruct (C45_fdm1_lmm tol f hist hn grid kx alpha extra cc s S) as (mm & oc & E & M1 & M2 & M3 & M4 & M5).
  destruct (vectors1_lmm tol f hist hn grid kx S source) as (ff & E4 & L3 & V3 & V4).
  exists mm, oc, (repeat 0%R (nx + eqs_np (f1_eqs R f))), ff. splits; auto. intros m L1 PER. unfold line. rewrite M4, V3 by auto.
  rewrite (nsum_ext nx _ (fun j => A1 (spec_per F1 hist true) nx kx (f1_dx R f) alpha m j * u (x j))%R).
  2:{ intros j Hj. rewrite M5 by (fold nx; lia). unfold block. fold nx. rewrite (proj2 (Nat.ltb_lt m nx)), (proj2 (Nat.ltb_lt j nx)) by lia. reflexivity. }
  rewrite A1_row by lia. unfold rhs1. fold nx per. rewrite SRC. fold (x m).
  destruct (get_dx_first tol grid (f1_dx R f) Hx) as [_ P]; [rewrite DX; exact GD|].
  assert (X1 : 0 < m -> x (m - 1) = (x m - f1_dx R f)%R).
  { intros. rewrite (UN (m - 1)), (UN m) by lia. rewrite minus_INR by lia. cbn [INR]. ring. }
  assert (X2 : m < nx - 1 -> x (m + 1) = (x m + f1_dx R f)%R).
  { intros. rewrite (UN (m + 1)), (UN m) by lia. rewrite plus_INR. cbn [INR]. ring. }
  destruct (left_cases per nx m Hx L1) as [[A ->]|[A ->]]; destruct (right_cases per nx m Hx L1) as [[B ->]|[B ->]]; unfold wt.
  - rewrite X1, X2 by lia. rewrite (proj2 (Nat.eqb_neq m 0)), (proj2 (Nat.eqb_neq m (nx - 1))) by lia. rewrite andb_false_r.
    replace (if per then 0%R else 0%R) with 0%R by (destruct per; auto). unfold u. field. lra.
  - destruct per; [destruct PER; auto; lia|]. rewrite X1 by lia.
    replace (x (nx - 2)) with (x m - f1_dx R f)%R by (rewrite <- X1 by lia; f_equal; lia).
    rewrite (proj2 (Nat.eqb_neq m 0)), (proj2 (Nat.eqb_eq m (nx - 1))) by lia. cbn [negb andb orb].
    replace (nx - 1) with m in N1 by lia. rewrite N1. unfold u, du. field. lra.
  - destruct per; [destruct PER; auto; lia|]. subst m. rewrite X2 by lia.
    replace (x 1) with (x 0%nat + f1_dx R f)%R by (rewrite <- X2 by lia; reflexivity).
    rewrite Nat.eqb_refl. cbn [negb andb orb]. rewrite N0. unfold u, du. field. lra.
  - exfalso; lia.
Qed.

(** ** 2D: polynomials of degree <= 3 in each variable *)
Definition cubic_in (u : R -> R -> R) (p q : nat -> R -> R) : Prop :=
  (forall x y, u x y = (p 0%nat y + p 1%nat y * x + p 2%nat y * x ^ 2 + p 3%nat y * x ^ 3)%R) /\
  (forall x y, u x y = (q 0%nat x + q 1%nat x * y + q 2%nat x * y ^ 2 + q 3%nat x * y ^ 3)%R).

Lemma shift_x nx (fx : nat -> R) dx i : (forall i, i < nx -> fx i = (fx 0%nat + INR i * dx)%R) -> i < nx ->
  (0 < i -> fx (i - 1) = (fx i - dx)%R) /\ (i < nx - 1 -> fx (i + 1) = (fx i + dx)%R).
Proof.
  intros UN Hi. split; intros.
  - rewrite (UN (i - 1)), (UN i) by lia. rewrite minus_INR by lia. cbn [INR]. ring.
  - rewrite (UN (i + 1)), (UN i) by lia. rewrite plus_INR. cbn [INR]. ring.
Qed.

(** one axis of the molecule applied to a cubic at an interior point *)
Lemma axis_interior per n (f : nat -> R) dx i p0 p1 p2 p3 : 2 <= n -> (forall i, i < n -> f i = (f 0%nat + INR i * dx)%R) -> dx <> 0%R ->
  0 < i -> i < n - 1 ->
  let u t := (p0 + p1 * t + p2 * t ^ 2 + p3 * t ^ 3)%R in
  (2 * u (f i) - (u (f (left_of per n i)) + u (f (right_of per n i))) = - (dx * dx) * (2 * p2 + 6 * p3 * f i))%R.
Proof.
  intros Hn UN ND H1 H2 u. destruct (shift_x n f dx i UN ltac:(lia)) as [X1 X2].
  destruct (left_cases per n i Hn ltac:(lia)) as [[A ->]|[A ->]]; [|lia].
  destruct (right_cases per n i Hn ltac:(lia)) as [[B ->]|[B ->]]; [|lia].
  rewrite X1, X2 by lia. unfold u. ring.
Qed.
(** one axis applied to a quadratic at any point of a non-periodic axis *)
Lemma axis_quadratic n (f : nat -> R) dx i p0 p1 p2 : 2 <= n -> (forall i, i < n -> f i = (f 0%nat + INR i * dx)%R) -> dx <> 0%R -> i < n ->
  let u t := (p0 + p1 * t + p2 * t ^ 2)%R in
  (2 * u (f i) - (u (f (left_of false n i)) + u (f (right_of false n i))) =
   - (dx * dx) * (2 * p2) + (if i =? 0 then - (2 * dx * (p1 + 2 * p2 * f i)) else if i =? n - 1 then 2 * dx * (p1 + 2 * p2 * f i) else 0))%R.
Proof.
  intros Hn UN ND H1 u. destruct (shift_x n f dx i UN ltac:(lia)) as [X1 X2].
  destruct (left_cases false n i Hn ltac:(lia)) as [[A ->]|[A ->]]; destruct (right_cases false n i Hn ltac:(lia)) as [[B ->]|[B ->]].
  - rewrite (proj2 (Nat.eqb_neq i 0)), (proj2 (Nat.eqb_neq i (n - 1))) by lia. rewrite X1, X2 by lia. unfold u. ring.
  - rewrite (proj2 (Nat.eqb_neq i 0)), (proj2 (Nat.eqb_eq i (n - 1))) by lia. rewrite X1 by lia.
    replace (f (n - 2)) with (f i - dx)%R by (rewrite <- X1 by lia; f_equal; lia). unfold u. ring.
  - rewrite (proj2 (Nat.eqb_eq i 0)) by lia. rewrite X2 by lia.
    replace (f 1) with (f i + dx)%R by (rewrite <- X2 by lia; f_equal; lia). unfold u. ring.
  - exfalso; lia.
Qed.

Lemma get_dxdy_pos g dx dy : grid2_get_dx_dy R 0%R tol Rminus Rabs Rltb g = Ok (Some (dx, dy)) -> (0 < dx /\ 0 < dy)%R.
Proof.
  intros H. unfold grid2_get_dx_dy in H. apply bind_ok in H. destruct H as (r & E & H).
  pose (pos := fun o : option R => match o with Some v => (0 < v)%R | None => True end).
  pose (I := fun st : option (option R * option R) => match st with Some (a, b) => pos a /\ pos b | None => True end).
  assert (ST : forall v o o', dx_step R 0%R tol Rminus Rabs Rltb v o = Ok o' -> pos o -> match o' with Some o'' => pos o'' | None => True end).
  { intros v o o' HS HP. unfold dx_step in HS. destruct o as [w|].
    - destruct (Rltb _ _); inversion HS; subst; auto.
    - destruct (Rltb_spec 0 v); inversion HS; subst; auto. }
  assert (Q : I r).
  { destruct (Nat.leb_spec 1 (g2_ny R g)) as [L|L].
    - refine (for_range_partial (fun _ => I) _ _ _ _ _ L E _ _); [cbn; auto|].
      intros j st st' Hj Hst Est.
      destruct (Nat.leb_spec 1 (g2_nx R g)) as [L'|L'].
      + refine (for_range_partial (fun _ => I) _ _ _ _ _ L' Est Hst _).
        intros i t t' Hi Ht Et. destruct t as [[a b]|]; [|inversion Et; subst; exact Logic.I].
        cbn zeta in Et. apply bind_ok in Et. destruct Et as ((x & y) & _ & Et). apply bind_ok in Et. destruct Et as ((xl & yl) & _ & Et).
        apply bind_ok in Et. destruct Et as ((xb & yb) & _ & Et). apply bind_ok in Et. destruct Et as (rx & SX & Et).
        destruct Ht as [Ha Hb]. assert (PX := ST _ _ _ SX Ha).
        destruct rx as [a'|]; [|inversion Et; subst; exact Logic.I].
        apply bind_ok in Et. destruct Et as (ry & SY & Et). assert (PY := ST _ _ _ SY Hb).
        destruct ry as [b'|]; inversion Et; subst; [split; auto|exact Logic.I].
      + unfold for_range in Est. replace (g2_nx R g - 1) with 0 in Est by lia. cbn in Est. inversion Est; subst; auto.
    - unfold for_range in E. replace (g2_ny R g - 1) with 0 in E by lia. cbn in E. inversion E; subst. cbn. auto. }
  destruct r as [[[a|] [b|]]|]; inversion H; subst; auto.
Qed.

(** interior rows are exact for polynomials of degree <= 3 in each direction: -kx u_xx - ky u_yy + alpha u *)
Theorem C46_fdm2_interior_cubic : forall f hist hn grid nx ny fx fy kx ky alpha extra cc s,
  solver2 tol f hist hn grid nx ny fx fy kx ky ->
  (forall i, i < nx -> fx i = (fx 0%nat + INR i * f2_dx R f)%R) ->
  (forall j, j < ny -> fy j = (fy 0%nat + INR j * f2_dy R f)%R) ->
  forall u p q, cubic_in u p q ->
  let uxx x y := (2 * p 2%nat y + 6 * p 3%nat y * x)%R in
  let uyy x y := (2 * q 2%nat x + 6 * q 3%nat x * y)%R in
  exists mm oc, fdm2_get_matrices_lmm R 0%R 1%R 2%R Rplus Rdiv f alpha extra cc s = Ok (mm, oc) /\
  forall i j, 0 < i -> i < nx - 1 -> 0 < j -> j < ny - 1 ->
    line mm (nx * ny) (fun n => u (fx (n mod nx)%nat) (fy (n / nx)%nat)) (i + j * nx) =
    (- kx * uxx (fx i) (fy j) - ky * uyy (fx i) (fy j) + alpha * u (fx i) (fy j))%R.
Proof.
  intros f hist hn grid nx ny fx fy kx ky alpha extra cc s S UX UY u p q [CX CY] uxx uyy.
  assert (S' := S). destruct S' as (LC & n & RN & H).
  assert (Hx : 2 <= nx) by apply H. assert (Hy : 2 <= ny) by apply H.
  destruct (fdm2_from_inv _ _ _ _ _ _ _ _ _ _ _ f hist grid nx ny fx fy n kx ky H) as (pp & dx & dy & D & _ & _ & _ & _ & _ & _ & DX & DY & GD & _).
  destruct (get_dxdy_pos _ _ _ GD) as [PX PY]. rewrite <- DX in PX. rewrite <- DY in PY.
  destruct (C45_fdm2_lmm tol f hist hn grid nx ny fx fy kx ky alpha extra cc s S) as (mm & oc & E & M1 & M2 & M3 & M4 & M5).
  exists mm, oc. split; auto. intros i j I1 I2 J1 J2. unfold line. rewrite M4.
  rewrite (nsum_ext (nx * ny) _ (fun n => A2n (spec_per F2 hist true) (spec_per F2 hist false) nx ny kx ky (f2_dx R f) (f2_dy R f) alpha (i + j * nx)%nat n * (fun a b => u (fx a) (fy b)) (n mod nx)%nat (n / nx)%nat)%R).
  2:{ intros c Hc. assert (i + j * nx < nx * ny) by (apply node_lt; lia). rewrite M5 by lia. unfold block.
      rewrite (proj2 (Nat.ltb_lt (i + j * nx) (nx * ny))), (proj2 (Nat.ltb_lt c (nx * ny))) by lia. reflexivity. }
  rewrite (A2_row _ _ _ _ _ _ _ _ _ i j (fun a b => u (fx a) (fy b))) by lia.
  unfold wt. rewrite (proj2 (Nat.eqb_neq i 0)), (proj2 (Nat.eqb_neq i (nx - 1))), (proj2 (Nat.eqb_neq j 0)), (proj2 (Nat.eqb_neq j (ny - 1))) by lia.
  rewrite !andb_false_r.
  assert (QX := axis_interior (spec_per F2 hist true) nx fx (f2_dx R f) i (p 0 (fy j)) (p 1 (fy j)) (p 2 (fy j)) (p 3 (fy j)) Hx UX ltac:(lra) I1 I2).
  assert (QY := axis_interior (spec_per F2 hist false) ny fy (f2_dy R f) j (q 0 (fx i)) (q 1 (fx i)) (q 2 (fx i)) (q 3 (fx i)) Hy UY ltac:(lra) J1 J2).
  cbn beta zeta in QX, QY. rewrite <- !CX in QX. rewrite <- !CY in QY. unfold uxx, uyy.
  set (ul := u (fx (left_of _ nx i)) (fy j)) in *. set (ur := u (fx (right_of _ nx i)) (fy j)) in *.
  set (ub := u (fx i) (fy (left_of _ ny j))) in *. set (ut := u (fx i) (fy (right_of _ ny j))) in *.
  set (uc := u (fx i) (fy j)) in *.
  assert (EX : (ul + ur = 2 * uc + f2_dx R f * f2_dx R f * (2 * p 2%nat (fy j) + 6 * p 3%nat (fy j) * fx i))%R) by lra.
  assert (EY : (ub + ut = 2 * uc + f2_dy R f * f2_dy R f * (2 * q 2%nat (fx i) + 6 * q 3%nat (fx i) * fy j))%R) by lra.
  rewrite EX, EY. field. lra.
Qed.

(** rows are exact for polynomials of degree <= 2 in each direction (cubic terms zero), with matching fluxes
    (Xmin: kx u_x, Xmax: -kx u_x, Ymin: ky u_y, Ymax: -ky u_y), at every node that is not on an end of a periodic axis *)
Theorem C46_fdm2_rows_quadratic : forall f hist hn grid nx ny fx fy kx ky alpha extra cc s source,
  solver2 tol f hist hn grid nx ny fx fy kx ky ->
  (forall i, i < nx -> fx i = (fx 0%nat + INR i * f2_dx R f)%R) ->
  (forall j, j < ny -> fy j = (fy 0%nat + INR j * f2_dy R f)%R) ->
  forall u p q, cubic_in u p q -> (forall y, p 3 y = 0%R) -> (forall x, q 3 x = 0%R) ->
  let ux x y := (p 1%nat y + 2 * p 2%nat y * x)%R in
  let uy x y := (q 1%nat x + 2 * q 2%nat x * y)%R in
  (forall x y, source x y = (- kx * (2 * p 2%nat y) - ky * (2 * q 2%nat x) + alpha * u x y)%R) ->
  let w k := nth k (n_fun _ (f2_n R f)) z2 in
  (forall y, w 0 (fx 0) y = (kx * ux (fx 0%nat) y)%R) -> (forall y, w 1 (fx (nx - 1)) y = (- kx * ux (fx (nx - 1)%nat) y)%R) ->
  (forall x, w 2 x (fy 0) = (ky * uy x (fy 0%nat))%R) -> (forall x, w 3 x (fy (ny - 1)) = (- ky * uy x (fy (ny - 1)%nat))%R) ->
  exists mm oc v0 ff, fdm2_get_matrices_lmm R 0%R 1%R 2%R Rplus Rdiv f alpha extra cc s = Ok (mm, oc) /\
  fdm2_get_vectors_lmm R 0%R 1%R 2%R (/ 2)%R Rplus Rmult Rdiv Ropp f source = Ok (v0, ff) /\
  forall i j, i < nx -> j < ny ->
    (spec_per F2 hist true = true -> 0 < i /\ i < nx - 1) -> (spec_per F2 hist false = true -> 0 < j /\ j < ny - 1) ->
    line mm (nx * ny) (fun n => u (fx (n mod nx)%nat) (fy (n / nx)%nat)) (i + j * nx) = nth (i + j * nx) ff 0%R.
Proof.
  intros f hist hn grid nx ny fx fy kx ky alpha extra cc s source S UX UY u p q [CX CY] P3 Q3 ux uy SRC w W0 W1 W2 W3.
  assert (S' := S). destruct S' as (LC & n & RN & H).
  assert (Hx : 2 <= nx) by apply H. assert (Hy : 2 <= ny) by apply H.
  destruct (fdm2_from_inv _ _ _ _ _ _ _ _ _ _ _ f hist grid nx ny fx fy n kx ky H) as (pp & dx & dy & D & _ & _ & _ & _ & _ & _ & DX & DY & GD & _).
  destruct (get_dxdy_pos _ _ _ GD) as [PX PY]. rewrite <- DX in PX. rewrite <- DY in PY.
  destruct (C45_fdm2_lmm tol f hist hn grid nx ny fx fy kx ky alpha extra cc s S) as (mm & oc & E & M1 & M2 & M3 & M4 & M5).
  destruct (vectors2_lmm tol f hist hn grid nx ny fx fy kx ky S source) as (ff & E4 & L3 & V3 & V4).
  exists mm, oc, (repeat 0%R (nx * ny + eqs_np (f2_eqs R f))), ff. splits; auto. intros i j Hi Hj PERX PERY.
  assert (LM : i + j * nx < nx * ny) by (apply node_lt; lia).
  unfold line. rewrite M4, V3 by auto.
  rewrite (nsum_ext (nx * ny) _ (fun n => A2n (spec_per F2 hist true) (spec_per F2 hist false) nx ny kx ky (f2_dx R f) (f2_dy R f) alpha (i + j * nx)%nat n * (fun a b => u (fx a) (fy b)) (n mod nx)%nat (n / nx)%nat)%R).
  2:{ intros c Hc. rewrite M5 by lia. unfold block.
      rewrite (proj2 (Nat.ltb_lt (i + j * nx) (nx * ny))), (proj2 (Nat.ltb_lt c (nx * ny))) by lia. reflexivity. }
  rewrite (A2_row _ _ _ _ _ _ _ _ _ i j (fun a b => u (fx a) (fy b))) by lia. unfold rhs2n. rewrite mod_idx, div_idx by auto. unfold rhs2. rewrite SRC. fold (w 0) (w 1) (w 2) (w 3).
  set (X := spec_per F2 hist true) in *. set (Y := spec_per F2 hist false) in *.
  (* both axes *)
  assert (EX : (u (fx (left_of X nx i)) (fy j) + u (fx (right_of X nx i)) (fy j) =
     2 * u (fx i) (fy j) + f2_dx R f * f2_dx R f * (2 * p 2%nat (fy j))
      - (if X then 0 else if i =? 0 then - (2 * f2_dx R f * ux (fx i) (fy j)) else if i =? nx - 1 then 2 * f2_dx R f * ux (fx i) (fy j) else 0))%R).
  { destruct X.
    - assert (Q := axis_interior true nx fx (f2_dx R f) i (p 0 (fy j)) (p 1 (fy j)) (p 2 (fy j)) (p 3 (fy j)) Hx UX ltac:(lra) ltac:(apply PERX; auto) ltac:(apply PERX; auto)).
      cbn beta zeta in Q. rewrite <- !CX in Q. rewrite P3 in Q. lra.
    - assert (Q := axis_quadratic nx fx (f2_dx R f) i (p 0 (fy j)) (p 1 (fy j)) (p 2 (fy j)) Hx UX ltac:(lra) Hi).
      cbn beta zeta in Q. assert (CX' : forall x y, (p 0%nat y + p 1%nat y * x + p 2%nat y * x ^ 2)%R = u x y) by (intros; rewrite CX, P3; ring).
      rewrite !CX' in Q. unfold ux. lra. }
  assert (EY : (u (fx i) (fy (left_of Y ny j)) + u (fx i) (fy (right_of Y ny j)) =
     2 * u (fx i) (fy j) + f2_dy R f * f2_dy R f * (2 * q 2%nat (fx i))
      - (if Y then 0 else if j =? 0 then - (2 * f2_dy R f * uy (fx i) (fy j)) else if j =? ny - 1 then 2 * f2_dy R f * uy (fx i) (fy j) else 0))%R).
  { destruct Y.
    - assert (Q := axis_interior true ny fy (f2_dy R f) j (q 0 (fx i)) (q 1 (fx i)) (q 2 (fx i)) (q 3 (fx i)) Hy UY ltac:(lra) ltac:(apply PERY; auto) ltac:(apply PERY; auto)).
      cbn beta zeta in Q. rewrite <- !CY in Q. rewrite Q3 in Q. lra.
    - assert (Q := axis_quadratic ny fy (f2_dy R f) j (q 0 (fx i)) (q 1 (fx i)) (q 2 (fx i)) Hy UY ltac:(lra) Hj).
      cbn beta zeta in Q. assert (CY' : forall x y, (q 0%nat x + q 1%nat x * y + q 2%nat x * y ^ 2)%R = u x y) by (intros; rewrite CY, Q3; ring).
      rewrite !CY' in Q. unfold uy. lra. }
  rewrite EX, EY. clear EX EY.
  set (uc := u (fx i) (fy j)).
  assert (GX : forall v, (if X then 0 else if i =? 0 then corner_factor nx ny i j * w 0%nat (fx i) (fy j) / v
      else if i =? nx - 1 then corner_factor nx ny i j * w 1%nat (fx i) (fy j) / v else 0)%R =
      (if X then 0 else if i =? 0 then corner_factor nx ny i j * (kx * ux (fx i) (fy j)) / v
      else if i =? nx - 1 then corner_factor nx ny i j * (- kx * ux (fx i) (fy j)) / v else 0)%R).
  { intros v. destruct X; auto. destruct (Nat.eqb_spec i 0) as [->|_]; [now rewrite W0|]. destruct (Nat.eqb_spec i (nx - 1)) as [->|_]; [now rewrite W1|]. auto. }
  assert (GY : forall v, (if Y then 0 else if j =? 0 then corner_factor nx ny i j * w 2%nat (fx i) (fy j) / v
      else if j =? ny - 1 then corner_factor nx ny i j * w 3%nat (fx i) (fy j) / v else 0)%R =
      (if Y then 0 else if j =? 0 then corner_factor nx ny i j * (ky * uy (fx i) (fy j)) / v
      else if j =? ny - 1 then corner_factor nx ny i j * (- ky * uy (fx i) (fy j)) / v else 0)%R).
  { intros v. destruct Y; auto. destruct (Nat.eqb_spec j 0) as [->|_]; [now rewrite W2|]. destruct (Nat.eqb_spec j (ny - 1)) as [->|_]; [now rewrite W3|]. auto. }
  rewrite GX, GY. clear GX GY. set (a := ux (fx i) (fy j)). set (b := uy (fx i) (fy j)). set (pp2 := p 2 (fy j)). set (qq2 := q 2 (fx i)).
  clearbody uc a b pp2 qq2. unfold corner_factor, wt.
  assert (IX : X = true -> (i =? 0) = false /\ (i =? nx - 1) = false) by (intros T; destruct (PERX T); rewrite !Nat.eqb_neq; lia).
  assert (IY : Y = true -> (j =? 0) = false /\ (j =? ny - 1) = false) by (intros T; destruct (PERY T); rewrite !Nat.eqb_neq; lia).
  destruct X; [destruct (IX eq_refl) as [-> ->]|destruct (i =? 0); [|destruct (i =? nx - 1)]];
    (destruct Y; [destruct (IY eq_refl) as [-> ->]|destruct (j =? 0); [|destruct (j =? ny - 1)]]); cbn [negb andb orb]; field; lra.
Qed.

(** At the corner of a rectangle with exactly one periodic axis the flux is still halved, although the row is not:
    with y periodic, the linear function u = x, which solves -kx u_xx = 0 with flux kx at Xmin, violates the row of node (0,0) *)
Theorem C46_periodic_corner_refuted : forall f hist hn grid nx ny fx fy kx ky extra cc s,
  solver2 tol f hist hn grid nx ny fx fy kx ky -> kx <> 0%R ->
  spec_per F2 hist true = false -> spec_per F2 hist false = true ->
  (forall i, i < nx -> fx i = (fx 0%nat + INR i * f2_dx R f)%R) ->
  nth 0 (n_fun _ (f2_n R f)) z2 (fx 0) (fy 0) = kx ->
  exists mm oc v0 ff, fdm2_get_matrices_lmm R 0%R 1%R 2%R Rplus Rdiv f 0%R extra cc s = Ok (mm, oc) /\
    fdm2_get_vectors_lmm R 0%R 1%R 2%R (/ 2)%R Rplus Rmult Rdiv Ropp f z2 = Ok (v0, ff) /\
    line mm (nx * ny) (fun n => fx (n mod nx)%nat) 0 = (2 * nth 0 ff 0)%R /\ line mm (nx * ny) (fun n => fx (n mod nx)%nat) 0 <> nth 0 ff 0%R.
Proof.
  intros f hist hn grid nx ny fx fy kx ky extra cc s S KX PX PY UX W0.
  assert (S' := S). destruct S' as (LC & n & RN & H).
  assert (Hx : 2 <= nx) by apply H. assert (Hy : 2 <= ny) by apply H.
  destruct (fdm2_from_inv _ _ _ _ _ _ _ _ _ _ _ f hist grid nx ny fx fy n kx ky H) as (pp & dx & dy & D & _ & _ & _ & _ & _ & _ & DX & DY & GD & _).
  destruct (get_dxdy_pos _ _ _ GD) as [DPX DPY]. rewrite <- DX in DPX. rewrite <- DY in DPY.
  destruct (C45_fdm2_lmm tol f hist hn grid nx ny fx fy kx ky 0%R extra cc s S) as (mm & oc & E & M1 & M2 & M3 & M4 & M5).
  destruct (vectors2_lmm tol f hist hn grid nx ny fx fy kx ky S z2) as (ff & E4 & L3 & V3 & V4).
  exists mm, oc, (repeat 0%R (nx * ny + eqs_np (f2_eqs R f))), ff.
  assert (LM : 0 + 0 * nx < nx * ny) by (apply node_lt; lia). cbn in LM.
  assert (FF : nth 0 ff 0%R = (- (kx / f2_dx R f / 2))%R).
  { rewrite V3 by auto. unfold rhs2n. replace (0 mod nx) with 0 by (symmetry; apply Nat.mod_0_l; lia). replace (0 / nx) with 0 by (symmetry; apply Nat.div_0_l; lia).
    unfold rhs2, corner_factor. rewrite PX, PY, W0. cbn. field. lra. }
  assert (LN : line mm (nx * ny) (fun n => fx (n mod nx)%nat) 0 = (- (kx / f2_dx R f))%R).
  { unfold line. rewrite M4.
    rewrite (nsum_ext (nx * ny) _ (fun n => A2n (spec_per F2 hist true) (spec_per F2 hist false) nx ny kx ky (f2_dx R f) (f2_dy R f) 0 (0 + 0 * nx)%nat n * (fun a b => fx a) (n mod nx)%nat (n / nx)%nat)%R).
    2:{ intros c Hc. rewrite M5 by lia. unfold block.
        rewrite (proj2 (Nat.ltb_lt 0 (nx * ny))), (proj2 (Nat.ltb_lt c (nx * ny))) by lia. reflexivity. }
    rewrite (A2_row _ _ _ _ _ _ _ _ _ 0 0 (fun a b => fx a)) by lia. rewrite PX, PY. unfold wt. cbn [negb andb orb Nat.eqb].
    destruct (left_cases false nx 0 Hx ltac:(lia)) as [[A _]|[_ ->]]; [lia|].
    destruct (right_cases false nx 0 Hx ltac:(lia)) as [[_ ->]|[A _]]; [|lia].
    replace (0 + 1) with 1 by lia. rewrite (UX 1) by lia. cbn [INR]. field. lra. }
  splits; auto; rewrite LN, FF; [field; lra|].
  intros Q. assert (kx / f2_dx R f = 0)%R by lra. apply KX.
  replace kx with (kx / f2_dx R f * f2_dx R f)%R by (field; lra). rewrite H0. ring.
Qed.
End Cons.
