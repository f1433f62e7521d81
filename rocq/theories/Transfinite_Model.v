(** Transfinite mappings: russell_pde/src/transfinite_2d.rs and transfinite_3d.rs.
    f64 is read as a real number. A boundary function `Fn(&mut Vector, f64)` fills every component of
    its output (russell's own ones do); it is read as "component i at a parameter". The formula of every
    component is the code's formula term by term, each buffer replaced by the call that fills it. *)
From Verif Require Import RBase LabVec_Model Cheb_Model.
Open Scope R_scope.
Open Scope res_scope.

Definition fun1 := nat -> R -> R.          (* component, parameter *)
Definition fun2 := nat -> R -> R -> R.     (* component, two parameters *)

(** transfinite_2d.rs:23-57 `Transfinite2d`; the evaluation buffers are not part of the state *)
Record tf2 := mkTf2 {
  t2_bnd : list fun1;             (* boundary_functions: B0(s), B1(s), B2(r), B3(r) *)
  t2_drv : list fun1;             (* deriv1_boundary_functions *)
  t2_sec : option (list fun1);    (* deriv2_boundary_functions *)
  t2_crn : list (nat -> R) }.     (* p0, p1, p2, p3 *)

Definition zero1 : fun1 := fun _ _ => 0.
Definition bnd2 (g : tf2) (k : nat) : fun1 := nth k (t2_bnd g) zero1.
Definition drv2 (g : tf2) (k : nat) : fun1 := nth k (t2_drv g) zero1.
Definition sec2 (g : tf2) (k : nat) : fun1 :=
  nth k (match t2_sec g with Some l => l | None => [] end) zero1.
Definition crn2 (g : tf2) (k : nat) : nat -> R := nth k (t2_crn g) (fun _ => 0).

(** transfinite_2d.rs:67-113 `new` *)
Definition tf2_new (bnd drv : list fun1) (sec : option (list fun1)) : res tf2 :=
  if negb (Nat.eqb (length bnd) 4) then Err "boundary_functions must have length 4"
  else if negb (Nat.eqb (length drv) 4) then Err "deriv1_boundary_functions must have length 4"
  else if (match sec with Some l => negb (Nat.eqb (length l) 4) | None => false end)
  then Err "deriv2_boundary_functions must have length 4"
  else
    let B k := nth k bnd zero1 in
    Ok (mkTf2 bnd drv sec
          [ (fun i => B 0%nat i (-1)); (fun i => B 1%nat i (-1)); (fun i => B 1%nat i 1); (fun i => B 0%nat i 1) ]).

(** transfinite_2d.rs:131-139 component [i] of `x` *)
Definition tf2_x_p (g : tf2) (i : nat) (r s : R) : R :=
  0 + (1 - r) * (bnd2 g 0 i s) / 2 + (1 + r) * (bnd2 g 1 i s) / 2 + (1 - s) * (bnd2 g 2 i r) / 2
    + (1 + s) * (bnd2 g 3 i r) / 2 - (1 - r) * (1 - s) * (crn2 g 0 i) / 4
    - (1 + r) * (1 - s) * (crn2 g 1 i) / 4 - (1 + r) * (1 + s) * (crn2 g 2 i) / 4
    - (1 - r) * (1 + s) * (crn2 g 3 i) / 4.

(** transfinite_2d.rs:185-193 component [i] of `x` *)
Definition tf2_x (g : tf2) (i : nat) (r s : R) : R :=
  0 + (1 - r) * (bnd2 g 0 i s) / 2 + (1 + r) * (bnd2 g 1 i s) / 2 + (1 - s) * (bnd2 g 2 i r) / 2
    + (1 + s) * (bnd2 g 3 i r) / 2 - (1 - r) * (1 - s) * (crn2 g 0 i) / 4
    - (1 + r) * (1 - s) * (crn2 g 1 i) / 4 - (1 + r) * (1 + s) * (crn2 g 2 i) / 4
    - (1 - r) * (1 + s) * (crn2 g 3 i) / 4.

(** transfinite_2d.rs:196-203 component [i] of `dx_dr` *)
Definition tf2_dx_dr (g : tf2) (i : nat) (r s : R) : R :=
  0 - (bnd2 g 0 i s) / 2 + (bnd2 g 1 i s) / 2 + (1 - s) * (drv2 g 2 i r) / 2
    + (1 + s) * (drv2 g 3 i r) / 2 + (1 - s) * (crn2 g 0 i) / 4 - (1 - s) * (crn2 g 1 i) / 4
    - (1 + s) * (crn2 g 2 i) / 4 + (1 + s) * (crn2 g 3 i) / 4.

(** transfinite_2d.rs:206-211 component [i] of `dx_ds` *)
Definition tf2_dx_ds (g : tf2) (i : nat) (r s : R) : R :=
  0 + (1 - r) * (drv2 g 0 i s) / 2 + (1 + r) * (drv2 g 1 i s) / 2 - (bnd2 g 2 i r) / 2
    + (bnd2 g 3 i r) / 2 + (1 - r) * (crn2 g 0 i) / 4 + (1 + r) * (crn2 g 1 i) / 4
    - (1 + r) * (crn2 g 2 i) / 4 - (1 - r) * (crn2 g 3 i) / 4.

(** transfinite_2d.rs:228-228 component [i] of `d2x_dr2` *)
Definition tf2_d2x_dr2_n (g : tf2) (i : nat) (r s : R) : R :=
  0.

(** transfinite_2d.rs:229-229 component [i] of `d2x_ds2` *)
Definition tf2_d2x_ds2_n (g : tf2) (i : nat) (r s : R) : R :=
  0.

(** transfinite_2d.rs:230-235 component [i] of `d2x_drs` *)
Definition tf2_d2x_drs_n (g : tf2) (i : nat) (r s : R) : R :=
  0 - (drv2 g 0 i s) / 2 + (drv2 g 1 i s) / 2 - (drv2 g 2 i r) / 2 + (drv2 g 3 i r) / 2
    - (crn2 g 0 i) / 4 + (crn2 g 1 i) / 4 - (crn2 g 2 i) / 4 + (crn2 g 3 i) / 4.

(** transfinite_2d.rs:250-250 component [i] of `d2x_dr2` *)
Definition tf2_d2x_dr2 (g : tf2) (i : nat) (r s : R) : R :=
  0 + (1 - s) * (sec2 g 2 i r) / 2 + (1 + s) * (sec2 g 3 i r) / 2.

(** transfinite_2d.rs:253-253 component [i] of `d2x_ds2` *)
Definition tf2_d2x_ds2 (g : tf2) (i : nat) (r s : R) : R :=
  0 + (1 - r) * (sec2 g 0 i s) / 2 + (1 + r) * (sec2 g 1 i s) / 2.

(** transfinite_2d.rs:256-261 component [i] of `d2x_drs` *)
Definition tf2_d2x_drs (g : tf2) (i : nat) (r s : R) : R :=
  0 - (drv2 g 0 i s) / 2 + (drv2 g 1 i s) / 2 - (drv2 g 2 i r) / 2 + (drv2 g 3 i r) / 2
    - (crn2 g 0 i) / 4 + (crn2 g 1 i) / 4 - (crn2 g 2 i) / 4 + (crn2 g 3 i) / 4.

(** transfinite_2d.rs:122-141 `point` *)
Definition tf2_point (g : tf2) (r s : R) : R * R := (tf2_x_p g 0 r s, tf2_x_p g 1 r s).

(** transfinite_2d.rs:159-263 `point_and_derivs`; [want2]: all three optional outputs are given.
    The last component is [None] when the second derivatives are left untouched. *)
Definition tf2_both (f : tf2 -> nat -> R -> R -> R) (g : tf2) (r s : R) : R * R := (f g 0%nat r s, f g 1%nat r s).
Definition tf2_point_and_derivs (g : tf2) (want2 : bool) (r s : R) :
  (R * R) * (R * R) * (R * R) * option ((R * R) * (R * R) * (R * R)) :=
  (tf2_both tf2_x g r s, tf2_both tf2_dx_dr g r s, tf2_both tf2_dx_ds g r s,
   if want2 then
     match t2_sec g with
     | None => Some (tf2_both tf2_d2x_dr2_n g r s, tf2_both tf2_d2x_ds2_n g r s, tf2_both tf2_d2x_drs_n g r s)
     | Some _ => Some (tf2_both tf2_d2x_dr2 g r s, tf2_both tf2_d2x_ds2 g r s, tf2_both tf2_d2x_drs g r s)
     end
   else None).

(** transfinite_2d.rs:266-268 `get_corners` *)
Definition tf2_get_corners (g : tf2) : (R * R) * (R * R) * (R * R) * (R * R) :=
  ((crn2 g 0 0, crn2 g 0 1), (crn2 g 1 0, crn2 g 1 1), (crn2 g 2 0, crn2 g 2 1), (crn2 g 3 0, crn2 g 3 1))%nat.

(** transfinite_2d.rs:295-304 the station list of one direction *)
Definition tf2_stations (n : nat) (cgl : bool) : res (list R) :=
  if cgl then (m <- usub n 1 ;; chebyshev_lobatto_points m)
  else unwrap (v_linspace R 0 Rplus Rminus Rmult Rdiv (fun n => Ok (INR n)) (-1) 1 n).

(** transfinite_2d.rs:281-320 `triangulate` *)
Definition tf2_triangulate (g : tf2) (nr ns : nat) (cgl_r cgl_s : bool) :
  res (list R * list R * list (list nat)) :=
  _ <- assert_ (2 <=? nr) ;;
  _ <- assert_ (2 <=? ns) ;;
  ksi <- tf2_stations nr cgl_r ;;
  eta <- tf2_stations ns cgl_s ;;
  for_range 0 ns (fun j st =>
    s <- vget eta j ;;
    for_range 0 nr (fun i st =>
      let '(xx, yy, tri) := st in
      r <- vget ksi i ;;
      let '(x0, x1) := tf2_point g r s in
      let xx := xx ++ [x0] in
      let yy := yy ++ [x1] in
      if andb (0 <? i)%nat (0 <? j)%nat then
        let m := (i + j * nr)%nat in
        a <- usub m nr ;; a1 <- usub a 1 ;; m1 <- usub m 1 ;;
        Ok (xx, yy, tri ++ [[a1; a; m]] ++ [[a1; m; m1]])
      else Ok (xx, yy, tri)) st) ([], [], []).

(** transfinite_3d.rs:20-140 `Transfinite3d` *)
Record tf3 := mkTf3 {
  t3_bnd : list fun2;                         (* B0(s,t) B1(s,t) B2(r,t) B3(r,t) B4(r,s) B5(r,s) *)
  t3_drv : list (fun2 * fun2);                (* first partials *)
  t3_sec : option (list (fun2 * fun2 * fun2));(* second partials: aa, bb, ab *)
  t3_crn : list (nat -> R) }.                 (* p0 .. p7 *)

Definition zero2 : fun2 := fun _ _ _ => 0.
Definition bnd3 (g : tf3) (k : nat) : fun2 := nth k (t3_bnd g) zero2.
Definition drv3a (g : tf3) (k : nat) : fun2 := fst (nth k (t3_drv g) (zero2, zero2)).
Definition drv3b (g : tf3) (k : nat) : fun2 := snd (nth k (t3_drv g) (zero2, zero2)).
Definition sec3 (g : tf3) (k : nat) : fun2 * fun2 * fun2 :=
  nth k (match t3_sec g with Some l => l | None => [] end) (zero2, zero2, zero2).
Definition sec3aa (g : tf3) (k : nat) : fun2 := fst (fst (sec3 g k)).
Definition sec3bb (g : tf3) (k : nat) : fun2 := snd (fst (sec3 g k)).
Definition sec3ab (g : tf3) (k : nat) : fun2 := snd (sec3 g k).
Definition crn3 (g : tf3) (k : nat) : nat -> R := nth k (t3_crn g) (fun _ => 0).

(** transfinite_3d.rs:143-259 `new` *)
Definition tf3_new (bnd : list fun2) (drv : list (fun2 * fun2)) (sec : option (list (fun2 * fun2 * fun2))) : res tf3 :=
  if negb (Nat.eqb (length bnd) 6) then Err "boundary_functions must have length 6"
  else if negb (Nat.eqb (length drv) 6) then Err "deriv1_boundary_functions must have length 6"
  else if (match sec with Some l => negb (Nat.eqb (length l) 6) | None => false end)
  then Err "deriv2_boundary_functions must have length 6"
  else
    let B k i u v := nth k bnd zero2 i u v in
    Ok (mkTf3 bnd drv sec
          [ (fun i => B 4%nat i (-1) (-1)); (fun i => B 4%nat i 1 (-1)); (fun i => B 4%nat i 1 1); (fun i => B 4%nat i (-1) 1);
            (fun i => B 5%nat i (-1) (-1)); (fun i => B 5%nat i 1 (-1)); (fun i => B 5%nat i 1 1); (fun i => B 5%nat i (-1) 1) ]).

(** transfinite_3d.rs:300-326 component [i] of `x` *)
Definition tf3_x_p (g : tf3) (i : nat) (r s t : R) : R :=
  0 + (1 - r) * (bnd3 g 0 i s t) / 2 + (1 + r) * (bnd3 g 1 i s t) / 2
    + (1 - s) * (bnd3 g 2 i r t) / 2 + (1 + s) * (bnd3 g 3 i r t) / 2
    + (1 - t) * (bnd3 g 4 i r s) / 2 + (1 + t) * (bnd3 g 5 i r s) / 2
    - (1 - r) * (1 - s) * (bnd3 g 0 i (-1) t) / 4 - (1 - r) * (1 + s) * (bnd3 g 0 i 1 t) / 4
    - (1 + r) * (1 - s) * (bnd3 g 1 i (-1) t) / 4 - (1 + r) * (1 + s) * (bnd3 g 1 i 1 t) / 4
    - (1 - r) * (1 - t) * (bnd3 g 0 i s (-1)) / 4 - (1 - r) * (1 + t) * (bnd3 g 0 i s 1) / 4
    - (1 + r) * (1 - t) * (bnd3 g 1 i s (-1)) / 4 - (1 + r) * (1 + t) * (bnd3 g 1 i s 1) / 4
    - (1 - s) * (1 - t) * (bnd3 g 2 i r (-1)) / 4 - (1 - s) * (1 + t) * (bnd3 g 2 i r 1) / 4
    - (1 + s) * (1 - t) * (bnd3 g 3 i r (-1)) / 4 - (1 + s) * (1 + t) * (bnd3 g 3 i r 1) / 4
    + (1 - r) * (1 - s) * (1 - t) * (crn3 g 0 i) / 8
    + (1 + r) * (1 - s) * (1 - t) * (crn3 g 1 i) / 8
    + (1 + r) * (1 + s) * (1 - t) * (crn3 g 2 i) / 8
    + (1 - r) * (1 + s) * (1 - t) * (crn3 g 3 i) / 8
    + (1 - r) * (1 - s) * (1 + t) * (crn3 g 4 i) / 8
    + (1 + r) * (1 - s) * (1 + t) * (crn3 g 5 i) / 8
    + (1 + r) * (1 + s) * (1 + t) * (crn3 g 6 i) / 8
    + (1 - r) * (1 + s) * (1 + t) * (crn3 g 7 i) / 8.

(** transfinite_3d.rs:422-448 component [i] of `x` *)
Definition tf3_x (g : tf3) (i : nat) (r s t : R) : R :=
  0 + (1 - r) * (bnd3 g 0 i s t) / 2 + (1 + r) * (bnd3 g 1 i s t) / 2
    + (1 - s) * (bnd3 g 2 i r t) / 2 + (1 + s) * (bnd3 g 3 i r t) / 2
    + (1 - t) * (bnd3 g 4 i r s) / 2 + (1 + t) * (bnd3 g 5 i r s) / 2
    - (1 - r) * (1 - s) * (bnd3 g 0 i (-1) t) / 4 - (1 - r) * (1 + s) * (bnd3 g 0 i 1 t) / 4
    - (1 + r) * (1 - s) * (bnd3 g 1 i (-1) t) / 4 - (1 + r) * (1 + s) * (bnd3 g 1 i 1 t) / 4
    - (1 - r) * (1 - t) * (bnd3 g 0 i s (-1)) / 4 - (1 - r) * (1 + t) * (bnd3 g 0 i s 1) / 4
    - (1 + r) * (1 - t) * (bnd3 g 1 i s (-1)) / 4 - (1 + r) * (1 + t) * (bnd3 g 1 i s 1) / 4
    - (1 - s) * (1 - t) * (bnd3 g 2 i r (-1)) / 4 - (1 - s) * (1 + t) * (bnd3 g 2 i r 1) / 4
    - (1 + s) * (1 - t) * (bnd3 g 3 i r (-1)) / 4 - (1 + s) * (1 + t) * (bnd3 g 3 i r 1) / 4
    + (1 - r) * (1 - s) * (1 - t) * (crn3 g 0 i) / 8
    + (1 + r) * (1 - s) * (1 - t) * (crn3 g 1 i) / 8
    + (1 + r) * (1 + s) * (1 - t) * (crn3 g 2 i) / 8
    + (1 - r) * (1 + s) * (1 - t) * (crn3 g 3 i) / 8
    + (1 - r) * (1 - s) * (1 + t) * (crn3 g 4 i) / 8
    + (1 + r) * (1 - s) * (1 + t) * (crn3 g 5 i) / 8
    + (1 + r) * (1 + s) * (1 + t) * (crn3 g 6 i) / 8
    + (1 - r) * (1 + s) * (1 + t) * (crn3 g 7 i) / 8.

(** transfinite_3d.rs:451-476 component [i] of `dx_dr` *)
Definition tf3_dx_dr (g : tf3) (i : nat) (r s t : R) : R :=
  0 - (bnd3 g 0 i s t) / 2 + (bnd3 g 1 i s t) / 2 + (1 - s) * (drv3a g 2 i r t) / 2
    + (1 + s) * (drv3a g 3 i r t) / 2 + (1 - t) * (drv3a g 4 i r s) / 2
    + (1 + t) * (drv3a g 5 i r s) / 2 + (1 - s) * (bnd3 g 0 i (-1) t) / 4
    + (1 + s) * (bnd3 g 0 i 1 t) / 4 - (1 - s) * (bnd3 g 1 i (-1) t) / 4
    - (1 + s) * (bnd3 g 1 i 1 t) / 4 + (1 - t) * (bnd3 g 0 i s (-1)) / 4
    + (1 + t) * (bnd3 g 0 i s 1) / 4 - (1 - t) * (bnd3 g 1 i s (-1)) / 4
    - (1 + t) * (bnd3 g 1 i s 1) / 4 - (1 - s) * (1 - t) * (drv3a g 2 i r (-1)) / 4
    - (1 - s) * (1 + t) * (drv3a g 2 i r 1) / 4 - (1 + s) * (1 - t) * (drv3a g 3 i r (-1)) / 4
    - (1 + s) * (1 + t) * (drv3a g 3 i r 1) / 4 - (1 - s) * (1 - t) * (crn3 g 0 i) / 8
    + (1 - s) * (1 - t) * (crn3 g 1 i) / 8 + (1 + s) * (1 - t) * (crn3 g 2 i) / 8
    - (1 + s) * (1 - t) * (crn3 g 3 i) / 8 - (1 - s) * (1 + t) * (crn3 g 4 i) / 8
    + (1 - s) * (1 + t) * (crn3 g 5 i) / 8 + (1 + s) * (1 + t) * (crn3 g 6 i) / 8
    - (1 + s) * (1 + t) * (crn3 g 7 i) / 8.

(** transfinite_3d.rs:479-503 component [i] of `dx_ds` *)
Definition tf3_dx_ds (g : tf3) (i : nat) (r s t : R) : R :=
  0 + (1 - r) * (drv3a g 0 i s t) / 2 + (1 + r) * (drv3a g 1 i s t) / 2 - (bnd3 g 2 i r t) / 2
    + (bnd3 g 3 i r t) / 2 + (1 - t) * (drv3b g 4 i r s) / 2 + (1 + t) * (drv3b g 5 i r s) / 2
    + (1 - r) * (bnd3 g 0 i (-1) t) / 4 - (1 - r) * (bnd3 g 0 i 1 t) / 4
    + (1 + r) * (bnd3 g 1 i (-1) t) / 4 - (1 + r) * (bnd3 g 1 i 1 t) / 4
    - (1 - r) * (1 - t) * (drv3a g 0 i s (-1)) / 4 - (1 - r) * (1 + t) * (drv3a g 0 i s 1) / 4
    - (1 + r) * (1 - t) * (drv3a g 1 i s (-1)) / 4 - (1 + r) * (1 + t) * (drv3a g 1 i s 1) / 4
    + (1 - t) * (bnd3 g 2 i r (-1)) / 4 + (1 + t) * (bnd3 g 2 i r 1) / 4
    - (1 - t) * (bnd3 g 3 i r (-1)) / 4 - (1 + t) * (bnd3 g 3 i r 1) / 4
    - (1 - r) * (1 - t) * (crn3 g 0 i) / 8 - (1 + r) * (1 - t) * (crn3 g 1 i) / 8
    + (1 + r) * (1 - t) * (crn3 g 2 i) / 8 + (1 - r) * (1 - t) * (crn3 g 3 i) / 8
    - (1 - r) * (1 + t) * (crn3 g 4 i) / 8 - (1 + r) * (1 + t) * (crn3 g 5 i) / 8
    + (1 + r) * (1 + t) * (crn3 g 6 i) / 8 + (1 - r) * (1 + t) * (crn3 g 7 i) / 8.

(** transfinite_3d.rs:506-532 component [i] of `dx_dt` *)
Definition tf3_dx_dt (g : tf3) (i : nat) (r s t : R) : R :=
  0 + (1 - r) * (drv3b g 0 i s t) / 2 + (1 + r) * (drv3b g 1 i s t) / 2
    + (1 - s) * (drv3b g 2 i r t) / 2 + (1 + s) * (drv3b g 3 i r t) / 2 - (bnd3 g 4 i r s) / 2
    + (bnd3 g 5 i r s) / 2 - (1 - r) * (1 - s) * (drv3b g 0 i (-1) t) / 4
    - (1 - r) * (1 + s) * (drv3b g 0 i 1 t) / 4 - (1 + r) * (1 - s) * (drv3b g 1 i (-1) t) / 4
    - (1 + r) * (1 + s) * (drv3b g 1 i 1 t) / 4 + (1 - r) * (bnd3 g 0 i s (-1)) / 4
    - (1 - r) * (bnd3 g 0 i s 1) / 4 + (1 + r) * (bnd3 g 1 i s (-1)) / 4
    - (1 + r) * (bnd3 g 1 i s 1) / 4 + (1 - s) * (bnd3 g 2 i r (-1)) / 4
    - (1 - s) * (bnd3 g 2 i r 1) / 4 + (1 + s) * (bnd3 g 3 i r (-1)) / 4
    - (1 + s) * (bnd3 g 3 i r 1) / 4 - (1 - r) * (1 - s) * (crn3 g 0 i) / 8
    - (1 + r) * (1 - s) * (crn3 g 1 i) / 8 - (1 + r) * (1 + s) * (crn3 g 2 i) / 8
    - (1 - r) * (1 + s) * (crn3 g 3 i) / 8 + (1 - r) * (1 - s) * (crn3 g 4 i) / 8
    + (1 + r) * (1 - s) * (crn3 g 5 i) / 8 + (1 + r) * (1 + s) * (crn3 g 6 i) / 8
    + (1 - r) * (1 + s) * (crn3 g 7 i) / 8.

(** transfinite_3d.rs:558-558 component [i] of `d2x_dr2` *)
Definition tf3_d2x_dr2_n (g : tf3) (i : nat) (r s t : R) : R :=
  0.

(** transfinite_3d.rs:559-559 component [i] of `d2x_ds2` *)
Definition tf3_d2x_ds2_n (g : tf3) (i : nat) (r s t : R) : R :=
  0.

(** transfinite_3d.rs:560-560 component [i] of `d2x_dt2` *)
Definition tf3_d2x_dt2_n (g : tf3) (i : nat) (r s t : R) : R :=
  0.

(** transfinite_3d.rs:563-584 component [i] of `d2x_drs` *)
Definition tf3_d2x_drs_n (g : tf3) (i : nat) (r s t : R) : R :=
  0 - (drv3a g 0 i s t) / 2 + (drv3a g 1 i s t) / 2 - (drv3a g 2 i r t) / 2 + (drv3a g 3 i r t) / 2
    - (bnd3 g 0 i (-1) t) / 4 + (bnd3 g 0 i 1 t) / 4 + (bnd3 g 1 i (-1) t) / 4
    - (bnd3 g 1 i 1 t) / 4 + (1 - t) * (drv3a g 0 i s (-1)) / 4 + (1 + t) * (drv3a g 0 i s 1) / 4
    - (1 - t) * (drv3a g 1 i s (-1)) / 4 - (1 + t) * (drv3a g 1 i s 1) / 4
    + (1 - t) * (drv3a g 2 i r (-1)) / 4 + (1 + t) * (drv3a g 2 i r 1) / 4
    - (1 - t) * (drv3a g 3 i r (-1)) / 4 - (1 + t) * (drv3a g 3 i r 1) / 4
    + (1 - t) * (crn3 g 0 i) / 8 - (1 - t) * (crn3 g 1 i) / 8 + (1 - t) * (crn3 g 2 i) / 8
    - (1 - t) * (crn3 g 3 i) / 8 + (1 + t) * (crn3 g 4 i) / 8 - (1 + t) * (crn3 g 5 i) / 8
    + (1 + t) * (crn3 g 6 i) / 8 - (1 + t) * (crn3 g 7 i) / 8.

(** transfinite_3d.rs:587-608 component [i] of `d2x_drt` *)
Definition tf3_d2x_drt_n (g : tf3) (i : nat) (r s t : R) : R :=
  0 - (drv3b g 0 i s t) / 2 + (drv3b g 1 i s t) / 2 - (drv3a g 4 i r s) / 2 + (drv3a g 5 i r s) / 2
    + (1 - s) * (drv3b g 0 i (-1) t) / 4 + (1 + s) * (drv3b g 0 i 1 t) / 4
    - (1 - s) * (drv3b g 1 i (-1) t) / 4 - (1 + s) * (drv3b g 1 i 1 t) / 4 - (bnd3 g 0 i s (-1)) / 4
    + (bnd3 g 0 i s 1) / 4 + (bnd3 g 1 i s (-1)) / 4 - (bnd3 g 1 i s 1) / 4
    + (1 - s) * (drv3a g 2 i r (-1)) / 4 - (1 - s) * (drv3a g 2 i r 1) / 4
    + (1 + s) * (drv3a g 3 i r (-1)) / 4 - (1 + s) * (drv3a g 3 i r 1) / 4
    + (1 - s) * (crn3 g 0 i) / 8 - (1 - s) * (crn3 g 1 i) / 8 - (1 + s) * (crn3 g 2 i) / 8
    + (1 + s) * (crn3 g 3 i) / 8 - (1 - s) * (crn3 g 4 i) / 8 + (1 - s) * (crn3 g 5 i) / 8
    + (1 + s) * (crn3 g 6 i) / 8 - (1 + s) * (crn3 g 7 i) / 8.

(** transfinite_3d.rs:611-632 component [i] of `d2x_dst` *)
Definition tf3_d2x_dst_n (g : tf3) (i : nat) (r s t : R) : R :=
  0 - (drv3b g 2 i r t) / 2 + (drv3b g 3 i r t) / 2 - (drv3b g 4 i r s) / 2 + (drv3b g 5 i r s) / 2
    + (1 - r) * (drv3b g 0 i (-1) t) / 4 - (1 - r) * (drv3b g 0 i 1 t) / 4
    + (1 + r) * (drv3b g 1 i (-1) t) / 4 - (1 + r) * (drv3b g 1 i 1 t) / 4
    + (1 - r) * (drv3a g 0 i s (-1)) / 4 - (1 - r) * (drv3a g 0 i s 1) / 4
    + (1 + r) * (drv3a g 1 i s (-1)) / 4 - (1 + r) * (drv3a g 1 i s 1) / 4 - (bnd3 g 2 i r (-1)) / 4
    + (bnd3 g 2 i r 1) / 4 + (bnd3 g 3 i r (-1)) / 4 - (bnd3 g 3 i r 1) / 4
    + (1 - r) * (crn3 g 0 i) / 8 + (1 + r) * (crn3 g 1 i) / 8 - (1 + r) * (crn3 g 2 i) / 8
    - (1 - r) * (crn3 g 3 i) / 8 - (1 - r) * (crn3 g 4 i) / 8 - (1 + r) * (crn3 g 5 i) / 8
    + (1 + r) * (crn3 g 6 i) / 8 + (1 - r) * (crn3 g 7 i) / 8.

(** transfinite_3d.rs:665-673 component [i] of `d2x_dr2` *)
Definition tf3_d2x_dr2 (g : tf3) (i : nat) (r s t : R) : R :=
  0 + (1 - s) * (sec3aa g 2 i r t) / 2 + (1 + s) * (sec3aa g 3 i r t) / 2
    + (1 - t) * (sec3aa g 4 i r s) / 2 + (1 + t) * (sec3aa g 5 i r s) / 2
    - (1 - s) * (1 - t) * (sec3aa g 2 i r (-1)) / 4 - (1 - s) * (1 + t) * (sec3aa g 2 i r 1) / 4
    - (1 + s) * (1 - t) * (sec3aa g 3 i r (-1)) / 4 - (1 + s) * (1 + t) * (sec3aa g 3 i r 1) / 4.

(** transfinite_3d.rs:676-684 component [i] of `d2x_ds2` *)
Definition tf3_d2x_ds2 (g : tf3) (i : nat) (r s t : R) : R :=
  0 + (1 - r) * (sec3aa g 0 i s t) / 2 + (1 + r) * (sec3aa g 1 i s t) / 2
    + (1 - t) * (sec3bb g 4 i r s) / 2 + (1 + t) * (sec3bb g 5 i r s) / 2
    - (1 - r) * (1 - t) * (sec3aa g 0 i s (-1)) / 4 - (1 - r) * (1 + t) * (sec3aa g 0 i s 1) / 4
    - (1 + r) * (1 - t) * (sec3aa g 1 i s (-1)) / 4 - (1 + r) * (1 + t) * (sec3aa g 1 i s 1) / 4.

(** transfinite_3d.rs:687-695 component [i] of `d2x_dt2` *)
Definition tf3_d2x_dt2 (g : tf3) (i : nat) (r s t : R) : R :=
  0 + (1 - r) * (sec3bb g 0 i s t) / 2 + (1 + r) * (sec3bb g 1 i s t) / 2
    + (1 - s) * (sec3bb g 2 i r t) / 2 + (1 + s) * (sec3bb g 3 i r t) / 2
    - (1 - r) * (1 - s) * (sec3bb g 0 i (-1) t) / 4 - (1 - r) * (1 + s) * (sec3bb g 0 i 1 t) / 4
    - (1 + r) * (1 - s) * (sec3bb g 1 i (-1) t) / 4 - (1 + r) * (1 + s) * (sec3bb g 1 i 1 t) / 4.

(** transfinite_3d.rs:698-721 component [i] of `d2x_drs` *)
Definition tf3_d2x_drs (g : tf3) (i : nat) (r s t : R) : R :=
  0 - (drv3a g 0 i s t) / 2 + (drv3a g 1 i s t) / 2 - (drv3a g 2 i r t) / 2 + (drv3a g 3 i r t) / 2
    + (1 - t) * (sec3ab g 4 i r s) / 2 + (1 + t) * (sec3ab g 5 i r s) / 2 - (bnd3 g 0 i (-1) t) / 4
    + (bnd3 g 0 i 1 t) / 4 + (bnd3 g 1 i (-1) t) / 4 - (bnd3 g 1 i 1 t) / 4
    + (1 - t) * (drv3a g 0 i s (-1)) / 4 + (1 + t) * (drv3a g 0 i s 1) / 4
    - (1 - t) * (drv3a g 1 i s (-1)) / 4 - (1 + t) * (drv3a g 1 i s 1) / 4
    + (1 - t) * (drv3a g 2 i r (-1)) / 4 + (1 + t) * (drv3a g 2 i r 1) / 4
    - (1 - t) * (drv3a g 3 i r (-1)) / 4 - (1 + t) * (drv3a g 3 i r 1) / 4
    + (1 - t) * (crn3 g 0 i) / 8 - (1 - t) * (crn3 g 1 i) / 8 + (1 - t) * (crn3 g 2 i) / 8
    - (1 - t) * (crn3 g 3 i) / 8 + (1 + t) * (crn3 g 4 i) / 8 - (1 + t) * (crn3 g 5 i) / 8
    + (1 + t) * (crn3 g 6 i) / 8 - (1 + t) * (crn3 g 7 i) / 8.

(** transfinite_3d.rs:724-749 component [i] of `d2x_drt` *)
Definition tf3_d2x_drt (g : tf3) (i : nat) (r s t : R) : R :=
  0 - (drv3b g 0 i s t) / 2 + (drv3b g 1 i s t) / 2 + (1 - s) * (sec3ab g 2 i r t) / 2
    + (1 + s) * (sec3ab g 3 i r t) / 2 - (drv3a g 4 i r s) / 2 + (drv3a g 5 i r s) / 2
    + (1 - s) * (drv3b g 0 i (-1) t) / 4 + (1 + s) * (drv3b g 0 i 1 t) / 4
    - (1 - s) * (drv3b g 1 i (-1) t) / 4 - (1 + s) * (drv3b g 1 i 1 t) / 4 - (bnd3 g 0 i s (-1)) / 4
    + (bnd3 g 0 i s 1) / 4 + (bnd3 g 1 i s (-1)) / 4 - (bnd3 g 1 i s 1) / 4
    + (1 - s) * (drv3a g 2 i r (-1)) / 4 - (1 - s) * (drv3a g 2 i r 1) / 4
    + (1 + s) * (drv3a g 3 i r (-1)) / 4 - (1 + s) * (drv3a g 3 i r 1) / 4
    + (1 - s) * (crn3 g 0 i) / 8 - (1 - s) * (crn3 g 1 i) / 8 - (1 + s) * (crn3 g 2 i) / 8
    + (1 + s) * (crn3 g 3 i) / 8 - (1 - s) * (crn3 g 4 i) / 8 + (1 - s) * (crn3 g 5 i) / 8
    + (1 + s) * (crn3 g 6 i) / 8 - (1 + s) * (crn3 g 7 i) / 8.

(** transfinite_3d.rs:752-776 component [i] of `d2x_dst` *)
Definition tf3_d2x_dst (g : tf3) (i : nat) (r s t : R) : R :=
  0 + (1 - r) * (sec3ab g 0 i s t) / 2 + (1 + r) * (sec3ab g 1 i s t) / 2 - (drv3b g 2 i r t) / 2
    + (drv3b g 3 i r t) / 2 - (drv3b g 4 i r s) / 2 + (drv3b g 5 i r s) / 2
    + (1 - r) * (drv3b g 0 i (-1) t) / 4 - (1 - r) * (drv3b g 0 i 1 t) / 4
    + (1 + r) * (drv3b g 1 i (-1) t) / 4 - (1 + r) * (drv3b g 1 i 1 t) / 4
    + (1 - r) * (drv3a g 0 i s (-1)) / 4 - (1 - r) * (drv3a g 0 i s 1) / 4
    + (1 + r) * (drv3a g 1 i s (-1)) / 4 - (1 + r) * (drv3a g 1 i s 1) / 4 - (bnd3 g 2 i r (-1)) / 4
    + (bnd3 g 2 i r 1) / 4 + (bnd3 g 3 i r (-1)) / 4 - (bnd3 g 3 i r 1) / 4
    + (1 - r) * (crn3 g 0 i) / 8 + (1 + r) * (crn3 g 1 i) / 8 - (1 + r) * (crn3 g 2 i) / 8
    - (1 - r) * (crn3 g 3 i) / 8 - (1 - r) * (crn3 g 4 i) / 8 - (1 + r) * (crn3 g 5 i) / 8
    + (1 + r) * (crn3 g 6 i) / 8 + (1 - r) * (crn3 g 7 i) / 8.

Definition tf3_all (f : tf3 -> nat -> R -> R -> R -> R) (g : tf3) (r s t : R) : R * R * R :=
  (f g 0%nat r s t, f g 1%nat r s t, f g 2%nat r s t).

(** transfinite_3d.rs:269-328 `point` *)
Definition tf3_point (g : tf3) (r s t : R) : R * R * R := tf3_all tf3_x_p g r s t.

Record second3 := mkSecond3 { s_rr : R * R * R; s_ss : R * R * R; s_tt : R * R * R;
                              s_rs : R * R * R; s_rt : R * R * R; s_st : R * R * R }.

(** transfinite_3d.rs:351-778 `point_and_derivs`; [want2]: all six optional outputs are given *)
Definition tf3_point_and_derivs (g : tf3) (want2 : bool) (r s t : R) :
  (R * R * R) * (R * R * R) * (R * R * R) * (R * R * R) * option second3 :=
  (tf3_all tf3_x g r s t, tf3_all tf3_dx_dr g r s t, tf3_all tf3_dx_ds g r s t, tf3_all tf3_dx_dt g r s t,
   if want2 then
     match t3_sec g with
     | None => Some (mkSecond3 (tf3_all tf3_d2x_dr2_n g r s t) (tf3_all tf3_d2x_ds2_n g r s t) (tf3_all tf3_d2x_dt2_n g r s t)
                               (tf3_all tf3_d2x_drs_n g r s t) (tf3_all tf3_d2x_drt_n g r s t) (tf3_all tf3_d2x_dst_n g r s t))
     | Some _ => Some (mkSecond3 (tf3_all tf3_d2x_dr2 g r s t) (tf3_all tf3_d2x_ds2 g r s t) (tf3_all tf3_d2x_dt2 g r s t)
                               (tf3_all tf3_d2x_drs g r s t) (tf3_all tf3_d2x_drt g r s t) (tf3_all tf3_d2x_dst g r s t))
     end
   else None).
