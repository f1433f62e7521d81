(** russell_lab/src/algo: linear_fitting, solve_cubic.  f64 is read as a real
    number (exact arithmetic). *)
From Verif Require Export RBase.
From Coq Require Import Ranalysis Rtrigo1 Ratan.

(** algo/linear_fitting.rs:45-94 `linear_fitting`, for T = f64.  The slope
    [None] stands for f64::INFINITY. *)
Definition linear_fitting (x y : list R) (pass_through_zero : bool) : res (R * option R) :=
  let nn := length x in
  if negb (length y =? nn) then Err "arrays must have the same lengths"
  else
    ' (sx, sy, sxy, sxx) <- for_range 0 nn (fun i '(sx, sy, sxy, sxx) =>
        xi <- vget x i ;;
        yi <- vget y i ;;
        Ok (sx + xi, sy + yi, sxy + xi * yi, sxx + xi * xi)%R) (0, 0, 0, 0)%R ;;
    let n := INR nn in
    if pass_through_zero then
      if Reqb sxx 0 then Ok (0%R, None)
      else Ok (0%R, Some (sxy / sxx)%R)
    else
      let den := (sx * sx - n * sxx)%R in
      if Reqb den 0 then Ok (0%R, None)
      else Ok (((sx * sxy - sxx * sy) / den)%R, Some ((sx * sy - n * sxy) / den)%R).

(** algo/cubic.rs:9 *)
Definition CEPS : R := 1e-12%R.

(** f64::cbrt *)
Definition cbrt (x : R) : R :=
  if Rltb 0 x then Rpower x (/ 3)
  else if Rltb x 0 then (- Rpower (- x) (/ 3))%R
  else 0%R.

(** f64::clamp(-1.0, 1.0) *)
Definition clamp1 (x : R) : R := Rmax (-1) (Rmin x 1).

(** slice::sort_by with partial_cmp (no NaN among real numbers): a stable sort *)
Fixpoint insert_sorted (x : R) (l : list R) : list R :=
  match l with
  | [] => [x]
  | y :: t => if Rleb x y then x :: l else y :: insert_sorted x t
  end.
Definition sort_reals (l : list R) : list R := fold_right insert_sorted [] l.

(** algo/cubic.rs:32-89 `solve_cubic`; `powf(3.0)` is the cube *)
Definition solve_cubic (a b c d : R) : res (list R) :=
  if Rltb (Rabs a) CEPS then
    Err "The absolute value of the leading coefficient 'a' must be nonzero (>= 1e-12)."
  else
    let p := (b / a)%R in
    let q := (c / a)%R in
    let r := (d / a)%R in
    let p_sq := (p * p)%R in
    let aa := (q - p_sq / 3)%R in
    let bb := (r - (p * q) / 3 + (2 * p * p_sq) / 27)%R in
    let half_b := (bb / 2)%R in
    let third_a := (aa / 3)%R in
    let delta := (half_b * half_b + third_a ^ 3)%R in
    let ys :=
      if Rltb CEPS delta then
        let sqrt_delta := sqrt delta in
        let u := cbrt (- half_b + sqrt_delta) in
        let v := cbrt (- half_b - sqrt_delta) in
        [u + v]%R
      else if Rltb delta (- CEPS) then
        let sqrt_neg_third_a := sqrt (- third_a) in
        let radicand := (- half_b / sqrt_neg_third_a ^ 3)%R in
        let theta := acos (clamp1 radicand) in
        let factor := (2 * sqrt_neg_third_a)%R in
        [factor * cos (theta / 3); factor * cos ((theta + 2 * PI) / 3); factor * cos ((theta + 4 * PI) / 3)]%R
      else if Rltb (Rabs half_b) CEPS then [0; 0; 0]%R
      else
        let u := cbrt (- half_b) in
        [2 * u; - u; - u]%R in
    let p3 := (p / 3)%R in
    Ok (sort_reals (map (fun y => (y - p3)%R) ys)).
