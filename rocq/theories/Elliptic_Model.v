(** Model of the elliptic integrals of russell_lab (Carlson's duplication algorithms).
    f64 is read as R (finite, exact arithmetic); the value +Inf is a value of its own; `powf` is Rpower. *)
From Coq Require Import Reals.
From Verif Require Import Base RBase Bessel_Model.
Local Open Scope R_scope.
Local Open Scope string_scope.

(** f64::MIN_POSITIVE, f64::MAX, f64::EPSILON *)
Definition min_positive : R := / 2 ^ 1022.
Definition f64_max : R := (2 - / 2 ^ 52) * 2 ^ 1023.
Definition epsilon : R := / 2 ^ 52.

(** elliptic.rs:502 *)
Definition n_max_iterations : nat := 11.

(** elliptic.rs:264-280: the loop of `rf`; returns (it, xt, yt, zt, ave, dx, dy, dz) *)
Fixpoint rf_loop (n it : nat) (xt yt zt ave dx dy dz : R) : nat * (R * R * R * R) :=
  match n with
  | O => (it, (ave, dx, dy, dz))
  | S n =>
    let sqx := sqrt xt in let sqy := sqrt yt in let sqz := sqrt zt in
    let lam := sqx * (sqy + sqz) + sqy * sqz in
    let xt := 1 / 4 * (xt + lam) in
    let yt := 1 / 4 * (yt + lam) in
    let zt := 1 / 4 * (zt + lam) in
    let ave := 1 / 3 * (xt + yt + zt) in
    let dx := (ave - xt) / ave in
    let dy := (ave - yt) / ave in
    let dz := (ave - zt) / ave in
    if Rltb (Rmax (Rmax (Rabs dx) (Rabs dy)) (Rabs dz)) (25 / 10000) then (it, (ave, dx, dy, dz))
    else rf_loop n (it + 1) xt yt zt ave dx dy dz
  end.
(** elliptic.rs:247-288 `rf` *)
Definition rf (x y z : R) : res R :=
  let tiny := 5 * min_positive in
  let big := 2 / 10 * f64_max in
  if Rltb (Rmin (Rmin x y) z) 0 || Rltb (Rmin (Rmin (x + y) (x + z)) (y + z)) tiny || Rltb big (Rmax (Rmax x y) z)
  then Err "(x,y,z) must be non-negative and at most one can be zero"
  else
    let '(it, (ave, dx, dy, dz)) := rf_loop n_max_iterations 0 x y z 0 0 0 0 in
    if (it =? n_max_iterations)%nat then Err "rf failed to converge"
    else
      let e2 := dx * dy - dz * dz in
      let e3 := dx * dy * dz in
      Ok ((1 + (1 / 24 * e2 - 1 / 10 - 3 / 44 * e3) * e2 + 1 / 14 * e3) / sqrt ave).

(** elliptic.rs:316-334: the loop of `rd`; returns (it, sum, fac, ave, dx, dy, dz) *)
Fixpoint rd_loop (n it : nat) (xt yt zt sum fac ave dx dy dz : R) : nat * (R * R * R * R * R * R) :=
  match n with
  | O => (it, (sum, fac, ave, dx, dy, dz))
  | S n =>
    let sqx := sqrt xt in let sqy := sqrt yt in let sqz := sqrt zt in
    let lam := sqx * (sqy + sqz) + sqy * sqz in
    let sum := sum + fac / (sqz * (zt + lam)) in
    let fac := 1 / 4 * fac in
    let xt := 1 / 4 * (xt + lam) in
    let yt := 1 / 4 * (yt + lam) in
    let zt := 1 / 4 * (zt + lam) in
    let ave := 2 / 10 * (xt + yt + 3 * zt) in
    let dx := (ave - xt) / ave in
    let dy := (ave - yt) / ave in
    let dz := (ave - zt) / ave in
    if Rltb (Rmax (Rmax (Rabs dx) (Rabs dy)) (Rabs dz)) (15 / 10000) then (it, (sum, fac, ave, dx, dy, dz))
    else rd_loop n (it + 1) xt yt zt sum fac ave dx dy dz
  end.
(** elliptic.rs:300-350 `rd` *)
Definition rd (x y z : R) : res R :=
  let tiny := 2 * Rpower f64_max (- 2 / 3) in
  let big := 1 / 10 * (15 / 10000) * Rpower min_positive (- 2 / 3) in
  if Rltb (Rmin x y) 0 || Rltb (Rmin (x + y) z) tiny || Rltb big (Rmax (Rmax x y) z)
  then Err "(x,y) must be non-negative and at most one can be zero. z must be positive"
  else
    let '(it, (sum, fac, ave, dx, dy, dz)) := rd_loop n_max_iterations 0 x y z 0 1 0 0 0 0 in
    if (it =? n_max_iterations)%nat then Err "rd failed to converge"
    else
      let ea := dx * dy in
      let eb := dz * dz in
      let ec := ea - eb in
      let ed := ea - 6 * eb in
      let ee := ed + ec + ec in
      Ok (3 * sum + fac * (1 + ed * (- (3 / 14) + 1 / 4 * (9 / 22) * ed - 3 / 2 * (3 / 26) * dz * ee)
                             + dz * (1 / 6 * ee + dz * (- (9 / 22) * ec + dz * (3 / 26) * ea))) / (ave * sqrt ave)).

(** elliptic.rs:482-492: the loop of `rc`; returns (it, ave, s) *)
Fixpoint rc_loop (n it : nat) (xt yt ave s : R) : nat * (R * R) :=
  match n with
  | O => (it, (ave, s))
  | S n =>
    let lam := 2 * sqrt xt * sqrt yt + yt in
    let xt := 1 / 4 * (xt + lam) in
    let yt := 1 / 4 * (yt + lam) in
    let ave := 1 / 3 * (xt + yt + yt) in
    let s := (yt - ave) / ave in
    if Rltb (Rabs s) (12 / 10000) then (it, (ave, s)) else rc_loop n (it + 1) xt yt ave s
  end.
(** elliptic.rs:461-498 `rc` *)
Definition rc (x y : R) : res R :=
  let tiny := 5 * min_positive in
  let big := 2 / 10 * f64_max in
  let comp1 := 2236 / 1000 / sqrt tiny in
  let comp2 := (tiny * big) * (tiny * big) / 25 in
  if Rltb x 0 || Reqb y 0 || Rltb (x + Rabs y) tiny || Rltb big (x + Rabs y) || (Rltb y (- comp1) && Rltb 0 x && Rltb x comp2)
  then Err "x must be non-negative. y must not be zero"
  else
    let '(xt, yt, w) := if Rltb 0 y then (x, y, 1) else (x - y, - y, sqrt x / sqrt (x - y)) in
    let '(it, (ave, s)) := rc_loop n_max_iterations 0 xt yt 0 0 in
    if (it =? n_max_iterations)%nat then Err "rc failed to converge"
    else Ok (w * (1 + s * s * (3 / 10 + s * (1 / 7 + s * (3 / 8 + s * (9 / 22))))) / sqrt ave).

(** elliptic.rs:403-429: the loop of `rj`; returns (it, (xt, yt, zt), (sum, fac, ave), (dx, dy, dz, dp)) *)
Fixpoint rj_loop (n it : nat) (xt yt zt pt sum fac ave dx dy dz dp : R)
  : res (nat * (R * R * R) * (R * R * R) * (R * R * R * R)) :=
  match n with
  | O => Ok (it, (xt, yt, zt), (sum, fac, ave), (dx, dy, dz, dp))
  | S n =>
    let sqx := sqrt xt in let sqy := sqrt yt in let sqz := sqrt zt in
    let lam := sqx * (sqy + sqz) + sqy * sqz in
    let al := pt * (sqx + sqy + sqz) + sqx * sqy * sqz in
    let alpha := al * al in
    let beta := pt * ((pt + lam) * (pt + lam)) in
    r <- rc alpha beta ;;
    let sum := sum + fac * r in
    let fac := 1 / 4 * fac in
    let xt := 1 / 4 * (xt + lam) in
    let yt := 1 / 4 * (yt + lam) in
    let zt := 1 / 4 * (zt + lam) in
    let pt := 1 / 4 * (pt + lam) in
    let ave := 2 / 10 * (xt + yt + zt + pt + pt) in
    let dx := (ave - xt) / ave in
    let dy := (ave - yt) / ave in
    let dz := (ave - zt) / ave in
    let dp := (ave - pt) / ave in
    if Rltb (Rmax (Rmax (Rabs dx) (Rabs dy)) (Rmax (Rabs dz) (Rabs dp))) (15 / 10000)
    then Ok (it, (xt, yt, zt), (sum, fac, ave), (dx, dy, dz, dp))
    else rj_loop n (it + 1) xt yt zt pt sum fac ave dx dy dz dp
  end.
(** elliptic.rs:363-450 `rj` *)
Definition rj (x y z p : R) : res R :=
  let tiny := Rpower (5 * min_positive) (1 / 3) in
  let big := 3 / 10 * Rpower (2 / 10 * f64_max) (1 / 3) in
  if Rltb (Rmin (Rmin x y) z) 0 || Rltb (Rmin (Rmin (x + y) (x + z)) (Rmin (y + z) (Rabs p))) tiny
     || Rltb big (Rmax (Rmax x y) (Rmax z (Rabs p)))
  then Err "(x,y,z) must be non-negative and at most one can be zero. p must be nonzero"
  else
    ' s <- (if Rltb 0 p then Ok (x, y, z, p, 0, 0, 0)
            else
              let xt := Rmin (Rmin x y) z in
              let zt := Rmax (Rmax x y) z in
              let yt := x + y + z - xt - zt in
              let a := 1 / (yt - p) in
              let b := a * (zt - yt) * (yt - xt) in
              let pt := yt + b in
              let rho := xt * zt / yt in
              let tau := p * pt / yt in
              rcx <- rc rho tau ;;
              Ok (xt, yt, zt, pt, a, b, rcx)) ;;
    let '(xt, yt, zt, pt, a, b, rcx) := s : R * R * R * R * R * R * R in
    ' (it, t, s, d) <- rj_loop n_max_iterations 0 xt yt zt pt 0 1 0 0 0 0 0 ;;
    let '(xt, yt, zt) := t in
    let '(sum, fac, ave) := s in
    let '(dx, dy, dz, dp) := d in
    if (it =? n_max_iterations)%nat then Err "rj failed to converge"
    else
      let ea := dx * (dy + dz) + dy * dz in
      let eb := dx * dy * dz in
      let ec := dp * dp in
      let ed := ea - 3 * ec in
      let ee := eb + 2 * dp * (ea - ec) in
      let ans := 3 * sum + fac * (1 + ed * (- (3 / 14) + 3 / 4 * (3 / 22) * ed - 3 / 2 * (3 / 26) * ee)
                                    + eb * (1 / 2 * (1 / 3) + dp * (- (2 * (3 / 22)) + dp * (3 / 26)))
                                    + dp * ea * (1 / 3 - dp * (3 / 22)) - 1 / 3 * dp * ec) / (ave * sqrt ave) in
      if Rleb p 0 then r <- rf xt yt zt ;; Ok (a * (b * ans + 3 * (rcx - r))) else Ok ans.

(** elliptic.rs:54-78 `elliptic_f` *)
Definition elliptic_f (phi m : R) : res xr :=
  if Rltb phi 0 || Rltb m 0 then Err "phi and m must be non-negative"
  else if Rltb (PI / 2 + epsilon) phi then Err "phi must be in 0 ≤ phi ≤ π/2"
  else if Rltb phi min_positive then Ok (Fin 0)
  else if Rltb m min_positive then Ok (Fin phi)
  else
    let s := sin phi in
    let mss := m * s * s in
    if Rltb 1 mss then Err "m must satisfy: 0 ≤ m·sin²(φ) ≤ 1"
    else if Rltb (Rabs (mss - 1)) (10 * epsilon) then Ok (Inf false)
    else
      let c := cos phi in
      r <- rf (c * c) (1 - mss) 1 ;;
      Ok (Fin (s * r)).
(** elliptic.rs:128-151 `elliptic_e` *)
Definition elliptic_e (phi m : R) : res xr :=
  if Rltb phi 0 || Rltb m 0 then Err "phi and m must be non-negative"
  else if Rltb (PI / 2 + epsilon) phi then Err "phi must be in 0 ≤ phi ≤ π/2"
  else if Rltb phi min_positive then Ok (Fin 0)
  else if Rltb m min_positive then Ok (Fin phi)
  else
    let s := sin phi in
    let c := cos phi in
    let cc := c * c in
    let mss := m * s * s in
    if Rltb 1 mss then Err "m must satisfy: 0 ≤ m·sin²(φ) ≤ 1"
    else
      let q := 1 - mss in
      f <- rf cc q 1 ;;
      d <- rd cc q 1 ;;
      Ok (Fin (s * (f - mss * d / 3))).
(** elliptic.rs:207-235 `elliptic_pi` *)
Definition elliptic_pi (n phi m : R) : res xr :=
  if Rltb phi 0 || Rltb m 0 then Err "phi and m must be non-negative"
  else if Rltb (PI / 2 + epsilon) phi then Err "phi must be in 0 ≤ phi ≤ π/2"
  else if Rltb phi min_positive then Ok (Fin 0)
  else
    let s := sin phi in
    let mss := m * s * s in
    if Rltb 1 mss then Err "m must satisfy: 0 ≤ m·sin²(φ) ≤ 1"
    else if Rltb (Rabs (mss - 1)) (10 * epsilon) then Ok (Inf false)
    else
      let nss := n * s * s in
      if Rltb (Rabs (nss - 1)) (10 * epsilon) then Ok (Inf false)
      else
        let c := cos phi in
        let cc := c * c in
        let q := 1 - mss in
        let p := 1 - nss in
        f <- rf cc q 1 ;;
        j <- rj cc q 1 p ;;
        Ok (Fin (s * (f + nss * j / 3))).
