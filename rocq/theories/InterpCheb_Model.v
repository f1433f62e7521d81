(** russell_lab/src/algo/interp_chebyshev.rs: Chebyshev interpolation.  f64 is
    read as a real number; the user's function is an oracle (see
    Search_Model.v).  estimate_max_error is in ErrEst_Model.v;
    the getters are not modelled. *)
From Verif Require Import RBase Cheb_Model ChebFn_Model Search_Model.
Open Scope R_scope.

(** interp_chebyshev.rs:6 *)
Definition TOL_RANGE : R := 1e-5.

(** interp_chebyshev.rs:51-86 *)
Record icheb := mkIC {
  ic_nn_max : nat;
  ic_nn : nat;
  ic_xa : R;
  ic_xb : R;
  ic_dx : R;
  ic_a : list R;
  ic_uu_rev : list R;
  ic_constant_fx : R;
  ic_ready : bool }.

Definition set_nn (s : icheb) (nn : nat) : icheb := mkIC (ic_nn_max s) nn (ic_xa s) (ic_xb s) (ic_dx s) (ic_a s) (ic_uu_rev s) (ic_constant_fx s) (ic_ready s).
Definition set_a (s : icheb) (a : list R) : icheb := mkIC (ic_nn_max s) (ic_nn s) (ic_xa s) (ic_xb s) (ic_dx s) a (ic_uu_rev s) (ic_constant_fx s) (ic_ready s).
Definition set_uu (s : icheb) (u : list R) : icheb := mkIC (ic_nn_max s) (ic_nn s) (ic_xa s) (ic_xb s) (ic_dx s) (ic_a s) u (ic_constant_fx s) (ic_ready s).
Definition set_const (s : icheb) (c : R) : icheb := mkIC (ic_nn_max s) (ic_nn s) (ic_xa s) (ic_xb s) (ic_dx s) (ic_a s) (ic_uu_rev s) c (ic_ready s).
Definition set_ready (s : icheb) : icheb := mkIC (ic_nn_max s) (ic_nn s) (ic_xa s) (ic_xb s) (ic_dx s) (ic_a s) (ic_uu_rev s) (ic_constant_fx s) true.

(** interp_chebyshev.rs:115-132 `new` *)
Definition ic_new (nn_max : nat) (xa xb : R) : res icheb :=
  if Rleb xb (xa + TOL_RANGE) then Err "xb must be greater than xa + ϵ"
  else
    let nn_max := (nn_max + 2)%nat in
    let np_max := (nn_max + 1)%nat in
    Ok (mkIC nn_max 0 xa xb (xb - xa) (repeat 0 np_max) (repeat 0 np_max) 0 false).

(** interp_chebyshev.rs:595-616 `chebyshev_coefficients`: new work_a *)
Definition chebyshev_coefficients (a uu_rev : list R) (nn : nat) : res (list R) :=
  let np := (nn + 1)%nat in
  _ <- assert_ (0 <? nn)%nat ;;
  _ <- assert_ (np <=? length a)%nat ;;
  _ <- assert_ (np <=? length uu_rev)%nat ;;
  let nf := INR nn in
  for_range 0 np (fun j a =>
    let jf := INR j in
    let qj := if (j =? 0)%nat || (j =? nn)%nat then 2 else 1 in
    a <- vset a j 0 ;;
    for_range 0 np (fun k a =>
      let kf := INR k in
      let qk := if (k =? 0)%nat || (k =? nn)%nat then 2 else 1 in
      u <- vget uu_rev k ;;
      aj <- vget a j ;;
      vset a j (aj + u * 2 * cos (PI * jf * kf / nf) / (qj * qk * nf))) a) a.

(** what a method with `&mut self` that calls the user's function leaves:
    calls, object, result *)
Definition MC := calls -> calls * (icheb * res unit).

(** interp_chebyshev.rs:586-590; the calls from point k on *)
Fixpoint data_loop (f : callback) (count k : nat) (nf xa xb : R) (uu : list R) (l : calls) : calls * (list R * res unit) :=
  match count with
  | O => (l, (uu, Ok tt))
  | S c =>
      let kf := INR k in
      let x := (xb + xa + (xb - xa) * cos (PI * kf / nf)) / 2 in
      match ask f x l with
      | (l, Ok y) =>
          match vset uu k y with
          | Ok uu => data_loop f c (S k) nf xa xb uu l
          | Err e => (l, (uu, Err e))
          | Panic => (l, (uu, Panic))
          end
      | (l, Err e) => (l, (uu, Err e))
      | (l, Panic) => (l, (uu, Panic))
      end
  end.

(** interp_chebyshev.rs:566-592 `chebyshev_data_vector` *)
Definition chebyshev_data_vector (f : callback) (uu : list R) (nn : nat) (xa xb : R) (l : calls) : calls * (list R * res unit) :=
  let np := (nn + 1)%nat in
  if (0 <? nn)%nat && Rltb xa xb && (np <=? length uu)%nat then data_loop f np 0 (INR nn) xa xb uu l
  else (l, (uu, Panic)).

(** interp_chebyshev.rs:163-179 `set_function` *)
Definition ic_set_function (s : icheb) (nn : nat) (f : callback) : MC := fun l =>
  if (ic_nn_max s <? nn)%nat then (l, (s, Err "nn must be ≤ nn_max"))
  else
    let s := set_nn s nn in
    if (nn =? 0)%nat then
      match ask f ((ic_xa s + ic_xb s) / 2) l with
      | (l, Ok y) => (l, (set_ready (set_const s y), Ok tt))
      | (l, Err e) => (l, (s, Err e))
      | (l, Panic) => (l, (s, Panic))
      end
    else
      let '(l, (uu, r)) := chebyshev_data_vector f (ic_uu_rev s) nn (ic_xa s) (ic_xb s) l in
      let s := set_uu s uu in
      match r with
      | Ok _ =>
          match chebyshev_coefficients (ic_a s) (ic_uu_rev s) nn with
          | Ok a => (l, (set_ready (set_a s a), Ok tt))
          | Err e => (l, (s, Err e))
          | Panic => (l, (s, Panic))
          end
      | Err e => (l, (s, Err e))
      | Panic => (l, (s, Panic))
      end.

(** interp_chebyshev.rs:227-247 `set_data` (the errors come before any change) *)
Definition ic_set_data (s : icheb) (uu : list R) : res icheb :=
  let np := length uu in
  if (np <? 1)%nat then Err "the number of points (uu.len()) must be ≥ 1"
  else
    nn <- usub np 1 ;;
    if (ic_nn_max s <? nn)%nat then Err "nn (=uu.len()-1) must be ≤ nn_max"
    else
      let s := set_nn s nn in
      if (nn =? 0)%nat then
        u0 <- vget uu 0 ;;
        Ok (set_ready (set_const s u0))
      else
        r <- for_range 0 np (fun i r => m <- usub nn i ;; u <- vget uu i ;; vset r m u) (ic_uu_rev s) ;;
        a <- chebyshev_coefficients (ic_a s) r nn ;;
        Ok (set_ready (set_a (set_uu s r) a)).

(** interp_chebyshev.rs:292-307: the first station at or after x *)
Fixpoint gen_find (xx yy : list R) (x : R) (count i_gen : nat) : res (option R) :=
  match count with
  | O => Ok None
  | S c =>
      x_gen <- vget xx i_gen ;;
      if Rleb x x_gen then
        if (i_gen =? 0)%nat then y0 <- vget yy 0 ;; Ok (Some y0)
        else
          p <- usub i_gen 1 ;;
          x_prev <- vget xx p ;;
          y_prev <- vget yy p ;;
          y_gen <- vget yy i_gen ;;
          Ok (Some (y_prev + (y_gen - y_prev) * (x - x_prev) / (x_gen - x_prev)))
      else gen_find xx yy x c (S i_gen)
  end.

(** interp_chebyshev.rs:264-314 `set_gen_data` *)
Definition ic_set_gen_data (s : icheb) (xx yy : list R) : res icheb :=
  let np := length xx in
  if (np <? 1)%nat then Err "the number of points (xx_gen.len()) must be ≥ 1"
  else if negb (length yy =? np)%nat then Err "the number of points in xx_gen and yy_gen must be the same"
  else
    nn <- usub np 1 ;;
    if (ic_nn_max s <? nn)%nat then Err "nn (=xx_gen.len()-1) must be ≤ nn_max"
    else
      x0 <- vget xx 0 ;;
      if negb (Reqb x0 (ic_xa s)) then Err "the first point in xx_gen must be equal to xa"
      else
        xl <- vget xx nn ;;
        if negb (Reqb xl (ic_xb s)) then Err "the last point in xx_gen must be equal to xb"
        else
          let s := set_nn s nn in
          if (nn =? 0)%nat then
            y0 <- vget yy 0 ;;
            Ok (set_ready (set_const s y0))
          else
            zz <- chebyshev_lobatto_points nn ;;
            r <- for_range 0 (length zz) (fun i r =>
              z <- vget zz i ;;
              let x := (ic_xb s + ic_xa s + ic_dx s * z) / 2 in
              o <- gen_find xx yy x np 0 ;;
              match o with
              | None => Panic
              | Some u => m <- usub nn i ;; vset r m u
              end) (ic_uu_rev s) ;;
            a <- chebyshev_coefficients (ic_a s) r nn ;;
            Ok (set_ready (set_a (set_uu s r) a)).

(** interp_chebyshev.rs:329-343 `get_xy_data` *)
Definition ic_get_xy_data (s : icheb) : res (list R * list R) :=
  if negb (ic_ready s) then Err "the data or function must be set first"
  else
    let np := (ic_nn s + 1)%nat in
    zz <- chebyshev_lobatto_points (ic_nn s) ;;
    for_range 0 np (fun i xu =>
      let '(xx, uu) := xu in
      z <- vget zz i ;;
      xx <- vset xx i ((ic_xb s + ic_xa s + ic_dx s * z) / 2) ;;
      m <- usub (ic_nn s) i ;;
      u <- vget (ic_uu_rev s) m ;;
      uu <- vset uu i u ;;
      Ok (xx, uu)) (repeat 0 np, repeat 0 np).

(** interp_chebyshev.rs:489-493: from k down to 1; b_k, b_{k+1} *)
Fixpoint clenshaw (k : nat) (z2 : R) (a : list R) (b_k b_k_plus_1 : R) : res (R * R) :=
  match k with
  | O => Ok (b_k, b_k_plus_1)
  | S k' => ak <- vget a k ;; clenshaw k' z2 a (z2 * b_k - b_k_plus_1 + ak) b_k
  end.

(** interp_chebyshev.rs:483, 506 *)
Definition ic_z (s : icheb) (x : R) : R := Rmax (-1) (Rmin 1 ((2 * x - ic_xb s - ic_xa s) / ic_dx s)).

(** interp_chebyshev.rs:476-496 `eval` *)
Definition ic_eval (s : icheb) (x : R) : res R :=
  if negb (ic_ready s) then Err "the data or function must be set first"
  else if (ic_nn s =? 0)%nat then Ok (ic_constant_fx s)
  else
    let z := ic_z s x in
    let z2 := z * 2 in
    ' (b_k, b_k_plus_1) <- clenshaw (ic_nn s) z2 (ic_a s) 0 0 ;;
    a0 <- vget (ic_a s) 0 ;;
    Ok (b_k * z - b_k_plus_1 + a0).

(** interp_chebyshev.rs:499-513 `eval_using_trig` *)
Definition ic_eval_using_trig (s : icheb) (x : R) : res R :=
  if negb (ic_ready s) then Err "the data or function must be set first"
  else if (ic_nn s =? 0)%nat then Ok (ic_constant_fx s)
  else
    let z := ic_z s x in
    for_range 0 (ic_nn s + 1) (fun k sum => ak <- vget (ic_a s) k ;; Ok (sum + ak * chebyshev_tn k z)) 0.

(** interp_chebyshev.rs:392-402 *)
Fixpoint adapt_loop (f : callback) (tol : R) (count nn : nat) (an_prev : R) (s : icheb) (l : calls) : calls * (icheb * res unit) :=
  match count with
  | O => (l, (s, Err "adaptive interpolation did not converge"))
  | S c =>
      let '(l, (uu, r)) := chebyshev_data_vector f (ic_uu_rev s) nn (ic_xa s) (ic_xb s) l in
      let s := set_uu s uu in
      match r with
      | Ok _ =>
          match (a <- chebyshev_coefficients (ic_a s) (ic_uu_rev s) nn ;; an <- vget a nn ;; Ok (a, an)) with
          | Ok (a, an) =>
              let s := set_a s a in
              if (1 <? nn)%nat && Rltb (Rabs an_prev) tol && Rltb (Rabs an) tol then
                (* .unwrap() *)
                let '(l, (s, r)) := ic_set_function s (nn - 2) f l in
                (l, (s, unwrap r))
              else adapt_loop f tol c (S nn) an s l
          | Err e => (l, (s, Err e))
          | Panic => (l, (s, Panic))
          end
      | Err e => (l, (s, Err e))
      | Panic => (l, (s, Panic))
      end
  end.

(** interp_chebyshev.rs:387-404 `adapt_function` *)
Definition ic_adapt_function (s : icheb) (tol : R) (f : callback) : MC := fun l =>
  adapt_loop f tol (ic_nn_max s) 1 0 s l.

(** interp_chebyshev.rs:450-465 `adapt_data` *)
Definition ic_adapt_data (s : icheb) (tol : R) (uu : list R) : icheb * res unit :=
  let np := length uu in
  if (np <? 1)%nat then (s, Err "the number of points (uu.len()) must be ≥ 1")
  else
    let nn := (np - 1)%nat in
    if (ic_nn_max s <? nn)%nat then (s, Err "nn must be ≤ nn_max")
    else
      match (fit <- unwrap (ic_new nn (ic_xa s) (ic_xb s)) ;; unwrap (ic_set_data fit uu)) with
      | Ok fit => snd (ic_adapt_function s tol (fun _ x => ic_eval fit x) [])
      | Err e => (s, Err e)
      | Panic => (s, Panic)
      end.
