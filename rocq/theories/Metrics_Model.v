(** Model of russell_pde/src/metrics.rs: base vectors, metric matrices and Christoffel symbols, over the reals. *)
From Coq Require Import Reals.
From Verif Require Import Base RBase Dense_Model LabVec_Model Inverse_Model.
Local Open Scope R_scope.

(** metrics.rs:20-58 *)
Record metrics := mkMt {
  mt_ndim : nat;
  mt_hom : bool;
  mt_cov : list (list R);
  mt_ctr : list (list R);
  mt_g : dmat R;
  mt_gg : dmat R;
  mt_chr : list (list (list R));
  mt_zero : list R }.

(** metrics.rs:66-82 `new` *)
Definition mt_new (ndim : nat) (homogeneous : bool) : metrics :=
  let gamma := if homogeneous then [] else repeat (repeat (repeat 0 ndim) ndim) ndim in
  mkMt ndim homogeneous (repeat (repeat 0 ndim) ndim) (repeat (repeat 0 ndim) ndim) (d_new R 0 ndim ndim) (d_new R 0 ndim ndim) gamma (repeat 0 ndim).

(** `l[i][d]`, `l[i][d] = v`, `l[k][i][j] = v` on nested vectors *)
Definition get2 (l : list (list R)) (i d : nat) : res R := r <- vget l i ;; vget r d.
Definition set2 (l : list (list R)) (i d : nat) (v : R) : res (list (list R)) := r <- vget l i ;; r <- vset r d v ;; vset l i r.
Definition set3 (l : list (list (list R))) (k i j : nat) (v : R) : res (list (list (list R))) := r <- vget l k ;; r <- set2 r i j v ;; vset l k r.
(** `Option::unwrap` *)
Definition opt_unwrap {A} (o : option A) : res A := match o with Some a => Ok a | None => Panic end.

Section Calc.
Variable lapack_inverse : dmat R -> res (R * dmat R).   (** mat_inverse for four or more rows, not reached here *)
(** vec_inner on real vectors *)
Definition mt_inner (u v : list R) : res R := vec_inner R 0 Rplus Rmult u v.

(** metrics.rs:243-253: the covariant base vectors *)
Definition mt_set_cov (m : metrics) (dx_dr dx_ds : list R) (dx_dt : option (list R)) : res (list (list R)) :=
  let ndim := mt_ndim m in
  cov <- for_range 0 ndim (fun d cov =>
    a <- vget dx_dr d ;; cov <- set2 cov 0 d a ;;
    b <- vget dx_ds d ;; set2 cov 1 d b) (mt_cov m) ;;
  if (ndim =? 3)%nat then
    dx_dt <- opt_unwrap dx_dt ;;
    for_range 0 ndim (fun d cov => c <- vget dx_dt d ;; set2 cov 2 d c) cov
  else Ok cov.

(** metrics.rs:255-264: the covariant matrix *)
Definition mt_set_g (m : metrics) (cov : list (list R)) : res (dmat R) :=
  let ndim := mt_ndim m in
  for_range 0 ndim (fun i g => for_range 0 ndim (fun j g =>
    g_ij <- for_range 0 ndim (fun d acc => a <- get2 cov i d ;; b <- get2 cov j d ;; Ok (acc + a * b)) 0 ;;
    d_set g i j g_ij) g) (mt_g m).

(** metrics.rs:269-277: the contravariant base vectors *)
Definition mt_set_ctr (m : metrics) (cov : list (list R)) (gg : dmat R) : res (list (list R)) :=
  let ndim := mt_ndim m in
  for_range 0 ndim (fun d ctr => for_range 0 ndim (fun i ctr =>
    ctr <- set2 ctr i d 0 ;;
    for_range 0 ndim (fun j ctr =>
      x <- get2 ctr i d ;; a <- d_get gg i j ;; b <- get2 cov j d ;; set2 ctr i d (x + a * b)) ctr) ctr) (mt_ctr m).

(** metrics.rs:281-301: the Christoffel vectors *)
Definition mt_cc (m : metrics) (rr ss tt rs rt st : option (list R)) : res (list (list (list R))) :=
  rr <- opt_unwrap rr ;; ss <- opt_unwrap ss ;; rs <- opt_unwrap rs ;;
  let z := mt_zero m in
  if (mt_ndim m =? 2)%nat then Ok [[rr; rs; z]; [rs; ss; z]; [z; z; z]]
  else
    tt <- opt_unwrap tt ;; rt <- opt_unwrap rt ;; st <- opt_unwrap st ;;
    Ok [[rr; rs; rt]; [rs; ss; st]; [rt; st; tt]].

(** metrics.rs:279-311: the Christoffel symbols of the second kind *)
Definition mt_set_chr (m : metrics) (ctr : list (list R)) (rr ss tt rs rt st : option (list R)) : res (list (list (list R))) :=
  if mt_hom m then Ok (mt_chr m)
  else
    let ndim := mt_ndim m in
    cc <- mt_cc m rr ss tt rs rt st ;;
    for_range 0 ndim (fun k chr => for_range 0 ndim (fun j chr => for_range 0 ndim (fun i chr =>
      row <- vget cc i ;; c <- vget row j ;; gk <- vget ctr k ;; x <- mt_inner c gk ;; set3 chr k i j x) chr) chr) (mt_chr m).

(** metrics.rs:231-315 `calculate`: the object after the call and the returned Result *)
Definition mt_calculate (m : metrics) (dx_dr dx_ds : list R) (dx_dt rr ss tt rs rt st : option (list R)) : res (metrics * res R) :=
  cov <- mt_set_cov m dx_dr dx_ds dx_dt ;;
  g <- mt_set_g m cov ;;
  match mat_inverse lapack_inverse (mt_gg m) g with
  | Panic => Panic
  | Err e => Ok (mkMt (mt_ndim m) (mt_hom m) cov (mt_ctr m) g (mt_gg m) (mt_chr m) (mt_zero m), Err e)
  | Ok (det, gg) =>
    ctr <- mt_set_ctr m cov gg ;;
    chr <- mt_set_chr m ctr rr ss tt rs rt st ;;
    Ok (mkMt (mt_ndim m) (mt_hom m) cov ctr g gg chr (mt_zero m), Ok det)
  end.

Definition is_none {A} (o : option A) : bool := match o with None => true | Some _ => false end.

(** metrics.rs:105-144 `calculate_2d` *)
Definition mt_calculate_2d (m : metrics) (dx_dr dx_ds : list R) (rr ss rs : option (list R)) : res (metrics * res R) :=
  if negb (mt_ndim m =? 2)%nat then Ok (m, Err "calculate_2d only works for ndim = 2")
  else if negb (length dx_dr =? 2)%nat then Ok (m, Err "dx_dr must have dimension 2")
  else if negb (length dx_ds =? 2)%nat then Ok (m, Err "dx_ds must have dimension 2")
  else if negb (mt_hom m) && is_none rr then Ok (m, Err "d2x_dr2 must be provided for non-homogeneous metrics")
  else if negb (mt_hom m) && is_none ss then Ok (m, Err "d2x_ds2 must be provided for non-homogeneous metrics")
  else if negb (mt_hom m) && is_none rs then Ok (m, Err "d2x_drs must be provided for non-homogeneous metrics")
  else mt_calculate m dx_dr dx_ds None rr ss None rs None None.

(** metrics.rs:171-226 `calculate_3d` *)
Definition mt_calculate_3d (m : metrics) (dx_dr dx_ds dx_dt : list R) (rr ss tt rs rt st : option (list R)) : res (metrics * res R) :=
  if negb (mt_ndim m =? 3)%nat then Ok (m, Err "calculate_3d only works for ndim = 3")
  else if negb (length dx_dr =? 3)%nat then Ok (m, Err "dx_dr must have dimension 3")
  else if negb (length dx_ds =? 3)%nat then Ok (m, Err "dx_ds must have dimension 3")
  else if negb (length dx_dt =? 3)%nat then Ok (m, Err "dx_dt must have dimension 3")
  else if negb (mt_hom m) && is_none rr then Ok (m, Err "d2x_dr2 must be provided for non-homogeneous metrics")
  else if negb (mt_hom m) && is_none ss then Ok (m, Err "d2x_ds2 must be provided for non-homogeneous metrics")
  else if negb (mt_hom m) && is_none tt then Ok (m, Err "d2x_dt2 must be provided for non-homogeneous metrics")
  else if negb (mt_hom m) && is_none rs then Ok (m, Err "d2x_drs must be provided for non-homogeneous metrics")
  else if negb (mt_hom m) && is_none rt then Ok (m, Err "d2x_drt must be provided for non-homogeneous metrics")
  else if negb (mt_hom m) && is_none st then Ok (m, Err "d2x_dst must be provided for non-homogeneous metrics")
  else mt_calculate m dx_dr dx_ds (Some dx_dt) rr ss tt rs rt st.

(** metrics.rs:330-338 `ell_coefficient_for_laplacian` *)
Definition mt_ell (m : metrics) (k : nat) : res R :=
  let ndim := mt_ndim m in
  for_range 0 ndim (fun i ell => for_range 0 ndim (fun j ell =>
    r <- vget (mt_chr m) k ;; x <- get2 r i j ;; g <- d_get (mt_gg m) i j ;; Ok (ell + x * g)) ell) 0.
End Calc.
