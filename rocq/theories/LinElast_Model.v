(** Model of russell_tensor/src/lin_elasticity.rs and of Tensor4::calc_inverse
    (default build: feature "heap" off). `f64` is read as a real number. *)
From Coq Require Import Reals Lra List.
From Verif Require Import Base RBase Tensor_Model Tensor4_Model SmallMat_Model.
Import ListNotations.
Open Scope R_scope.

(** tensor4.rs:797-809; the target is returned also on an error *)
Definition t4_calc_inverse (d inv : t4) : t4 * res R :=
  if negb (rep_eqb (t4_rep inv) (t4_rep d))
  then (inv, Err "the representation of the inverse tensor and this tensor must equal each other"%string) else
  let '(x, r) := small_mat_inv 9 (t4_mat inv) (t4_mat d) (t4_dim d) in (t4_put inv x, r).

(** lin_elasticity.rs:4-22 *)
Record lin_el := mkLE { le_young : R; le_poisson : R; le_plane_stress : bool; le_dd : t4 }.

(** lin_elasticity.rs:400-426; every position is below 9, so `set` cannot panic *)
Definition le_calc_rigidity (s : lin_el) : lin_el :=
  let young := le_young s in
  let poisson := le_poisson s in
  let mm := t4_mat (le_dd s) in
  let mm :=
    if le_plane_stress s then
      let c := young / (1 - poisson * poisson) in
      let mm := wr2 mm 0 0 c in
      let mm := wr2 mm 0 1 (c * poisson) in
      let mm := wr2 mm 1 0 (c * poisson) in
      let mm := wr2 mm 1 1 c in
      wr2 mm 3 3 (c * (1 - poisson))
    else
      let c := young / ((1 + poisson) * (1 - 2 * poisson)) in
      let mm := wr2 mm 0 0 (c * (1 - poisson)) in
      let mm := wr2 mm 0 1 (c * poisson) in
      let mm := wr2 mm 0 2 (c * poisson) in
      let mm := wr2 mm 1 0 (c * poisson) in
      let mm := wr2 mm 1 1 (c * (1 - poisson)) in
      let mm := wr2 mm 1 2 (c * poisson) in
      let mm := wr2 mm 2 0 (c * poisson) in
      let mm := wr2 mm 2 1 (c * poisson) in
      let mm := wr2 mm 2 2 (c * (1 - poisson)) in
      wr2 mm 3 3 (c * (1 - 2 * poisson)) in
  let mm := if (4 <? t4_dim (le_dd s))%nat then
              let g := mm.[3].[3] in
              let mm := wr2 mm 4 4 g in
              wr2 mm 5 5 g
            else mm in
  mkLE young poisson (le_plane_stress s) (t4_put (le_dd s) mm).
(** lin_elasticity.rs:94-108 *)
Definition le_new (young poisson : R) (two_dim plane_stress : bool) : lin_el :=
  let r := if two_dim || plane_stress then Symmetric2D else Symmetric in
  le_calc_rigidity (mkLE young poisson plane_stress (t4_new r)).
(** lin_elasticity.rs:141-145 *)
Definition le_set_young_poisson (s : lin_el) (young poisson : R) : lin_el :=
  le_calc_rigidity (mkLE young poisson (le_plane_stress s) (le_dd s)).
(** lin_elasticity.rs:148-152 *)
Definition le_set_bulk_shear (s : lin_el) (bulk shear : R) : lin_el :=
  le_calc_rigidity (mkLE (9 * bulk * shear / (3 * bulk + shear)) ((3 * bulk - 2 * shear) / (6 * bulk + 2 * shear))
                         (le_plane_stress s) (le_dd s)).
(** lin_elasticity.rs:157-159 *)
Definition le_get_young_poisson (s : lin_el) : R * R := (le_young s, le_poisson s).
(** lin_elasticity.rs:164-169 *)
Definition le_get_bulk_shear (s : lin_el) : R * R :=
  (le_young s / (3 * (1 - 2 * le_poisson s)), le_young s / (2 * (1 + le_poisson s))).
(** lin_elasticity.rs:111-113 *)
Definition le_rep (s : lin_el) : rep := t4_rep (le_dd s).
(** lin_elasticity.rs:307-309 *)
Definition le_calc_stress (s : lin_el) (stress strain : t2) : res t2 := t4_ddot_t2 stress 1 (le_dd s) strain.
(** lin_elasticity.rs:343-349 *)
Definition le_out_of_plane_strain (s : lin_el) (stress : t2) : res R :=
  if negb (le_plane_stress s) then Err "out-of-plane strain works with plane-stress only"%string else
  Ok (- ((t2_vec stress).[0] + (t2_vec stress).[1]) * le_poisson s / le_young s).
(** lin_elasticity.rs:389-397 *)
Definition le_calc_compliance (s : lin_el) (cc : t4) : t4 * res unit :=
  if le_plane_stress s then (cc, Err "The compliance modulus is not available for plane-stress"%string) else
  let '(cc, r) := t4_calc_inverse (le_dd s) cc in
  match r with
  | Ok _ => (cc, Ok tt)
  | Err _ => (cc, Err "cannot invert the rigidity modulus D"%string)
  | Panic => (cc, Panic)
  end.
