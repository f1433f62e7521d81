(** Model of vector utilities of russell_lab. *)
From Verif Require Import Base.

Section LabVec.
Variable T : Type.
Variables zero one : T.
Variables add sub mul div : T -> T -> T.
(** `cast::<usize, T>(n).unwrap()`: may panic when T cannot represent n *)
Variable cast : nat -> res T.

(** num_vector.rs:117-121 `new`, 137-139 `filled` *)
Definition v_new (dim : nat) : list T := repeat zero dim.
Definition v_filled (dim : nat) (v : T) : list T := repeat v dim.

(** num_vector.rs:215-221 `initialized` (pure closure) *)
Definition v_initialized (dim : nat) (f : nat -> T) : list T := map f (seq 0 dim).

(** num_vector.rs:297-320 `mapped_linspace`; 249-269 `linspace` is the same code with the identity function *)
Definition v_mapped_linspace (start stop : T) (count : nat) (f : T -> T) : res (list T) :=
  let r := v_new count in
  if count =? 0 then Ok r
  else
    r <- vset r 0 (f start) ;;
    if count =? 1 then Ok r
    else
      r <- vset r (count - 1) (f stop) ;;
      if count =? 2 then Ok r
      else
        den <- cast (count - 1) ;;
        let step := div (sub stop start) den in
        for_range 1 count (fun i r =>
          p <- cast i ;;
          vset r i (f (add start (mul p step)))) r.

Definition v_linspace (start stop : T) (count : nat) : res (list T) :=
  v_mapped_linspace start stop count (fun x => x).

(** `slice.copy_from_slice(src)`: panics when the lengths differ *)
Definition copy_from_slice (dst src : list T) : res (list T) :=
  if length dst =? length src then Ok src else Panic.

(** num_vector.rs:475-479 `split2`: returns the new u and v *)
Definition v_split2 (x u v : list T) : res (list T * list T) :=
  _ <- assert_ (length u + length v =? length x) ;;
  u' <- copy_from_slice u (firstn (length u) x) ;;
  v' <- copy_from_slice v (skipn (length u) x) ;;
  Ok (u', v').

(** num_vector.rs:503-507 `join2`: returns the new self *)
Definition v_join2 (x u v : list T) : res (list T) :=
  _ <- assert_ (length u + length v =? length x) ;;
  a <- copy_from_slice (firstn (length u) x) u ;;
  let x := a ++ skipn (length u) x in
  b <- copy_from_slice (skipn (length u) x) v ;;
  Ok (firstn (length u) x ++ b).

(** num_vector.rs:527-531 `scale` *)
Definition v_scale (x : list T) (alpha : T) : res (list T) :=
  for_range 0 (length x) (fun i x => a <- vget x i ;; vset x i (mul a alpha)) x.

(** num_vector.rs:552-559 `map`, 615-624 `get_mapped` *)
Definition v_map (x : list T) (f : T -> T) : list T := map f x.

(** `slice.windows(2).map(|w| w[1] - w[0])`, num_vector.rs:640-647 `get_differences` *)
Fixpoint v_differences (x : list T) : list T :=
  match x with
  | a :: ((b :: _) as t) => sub b a :: v_differences t
  | _ => []
  end.

(** the `scan` of num_vector.rs:678-684 and 693-696 *)
Fixpoint v_scan (state : T) (x : list T) : list T :=
  match x with
  | [] => []
  | d :: t => let s := add state d in s :: v_scan s t
  end.

(** num_vector.rs:670-700 `get_cumulative_sum` *)
Definition v_cumulative_sum (x : list T) (start : option T) : list T :=
  match start with
  | Some a => a :: v_scan a x
  | None => v_scan zero x
  end.

(** `for i in (lo..hi).step_by(s)` *)
Definition for_step {S : Type} (lo hi s : nat) (f : nat -> S -> res S) (st : S) : res S :=
  for_range 0 ((hi - lo + (s - 1)) / s) (fun k => f (lo + k * s)) st.

(** `w[i] = f(u[i], v[i])` *)
Definition put2 (f : T -> T -> T) (u v : list T) (i : nat) (w : list T) : res (list T) :=
  a <- vget u i ;; b <- vget v i ;; vset w i (f a b).

(** the statements `w[0] = ..; ..; w[n-1] = ..;` *)
Fixpoint puts2 (f : T -> T -> T) (u v : list T) (is_ : list nat) (w : list T) : res (list T) :=
  match is_ with
  | [] => Ok w
  | i :: t => w <- put2 f u v i w ;; puts2 f u v t w
  end.

(** internal/array_plus_op.rs:63-72: remainder loop, then blocks of four *)
Definition blocks4 (f : T -> T -> T) (w u v : list T) : res (list T) :=
  let n := length w in
  let m := n mod 4 in
  w <- for_range 0 m (fun i w => put2 f u v i w) w ;;
  for_step m n 4 (fun i w =>
    w <- put2 f u v (i + 0) w ;;
    w <- put2 f u v (i + 1) w ;;
    w <- put2 f u v (i + 2) w ;;
    put2 f u v (i + 3) w) w.

(** internal/array_plus_op.rs:18-73: the unrolled cases *)
Definition unrolled (f : T -> T -> T) (w u v : list T) : res (list T) :=
  match length w with
  | 1 => puts2 f u v [0] w
  | 2 => puts2 f u v [0; 1] w
  | 3 => puts2 f u v [0; 1; 2] w
  | 4 => puts2 f u v [0; 1; 2; 3] w
  | 5 => puts2 f u v [0; 1; 2; 3; 4] w
  | 6 => puts2 f u v [0; 1; 2; 3; 4; 5] w
  | 7 => puts2 f u v [0; 1; 2; 3; 4; 5; 6] w
  | 8 => puts2 f u v [0; 1; 2; 3; 4; 5; 6; 7] w
  | _ => blocks4 f w u v
  end.

(** internal/array_plus_op.rs:10-75 `array_plus_op` (= 83-148, complex) with f = +;
    internal/array_minus_op.rs:10-75 (= 83-148) with f = - *)
Definition array_op (f : T -> T -> T) (w u v : list T) : res (list T) :=
  let n := length w in
  if negb (length u =? n) || negb (length v =? n) then Err "arrays are incompatible"
  else if n =? 0 then Ok w
  else unrolled f w u v.

(** BLAS dscal and daxpy with unit strides, as documented *)
Definition blas_scal (alpha : T) (x : list T) : list T := map (fun a => mul alpha a) x.
Definition blas_axpy (alpha : T) (x y : list T) : list T :=
  map (fun p => add (mul alpha (fst p)) (snd p)) (combine x y).

(** internal/array_plus_opx.rs:41-118 `array_plus_opx` (= 126-209, complex), used by vec_add/mat_add *)
Definition array_plus_opx (w : list T) (alpha : T) (u : list T) (beta : T) (v : list T) : res (list T) :=
  let n := length w in
  if negb (length u =? n) || negb (length v =? n) then Err "arrays are incompatible"
  else if n =? 0 then Ok w
  else if 16 <? n then
    w <- copy_from_slice w v ;;
    let w := blas_scal beta w in
    Ok (blas_axpy alpha u w)
  else unrolled (fun a b => add (mul alpha a) (mul beta b)) w u v.

(** vec_copy_scaled.rs:45-61 `vec_copy_scaled` *)
Definition vec_copy_scaled (v : list T) (alpha : T) (u : list T) : res (list T) :=
  let put i v := a <- vget u i ;; vset v i (mul alpha a) in
  let n := length v in
  if negb (length u =? n) then Err "vectors are incompatible"
  else
    let m := n mod 4 in
    v <- for_range 0 m put v ;;
    for_step m n 4 (fun i v =>
      v <- put i v ;; v <- put (i + 1) v ;; v <- put (i + 2) v ;; put (i + 3) v) v.

(** BLAS ddot with unit strides *)
Definition blas_dot (u v : list T) : T :=
  fold_left (fun s p => add s (mul (fst p) (snd p))) (combine u v) zero.

(** `u[0]*v[0] + u[1]*v[1] + ..` over the given index list (left associated) *)
Fixpoint sum_at (u v : list T) (s : T) (is_ : list nat) : res T :=
  match is_ with
  | [] => Ok s
  | i :: t => a <- vget u i ;; b <- vget v i ;; sum_at u v (add s (mul a b)) t
  end.
Definition sum_products (u v : list T) (is_ : list nat) : res T :=
  a <- vget u 0 ;; b <- vget v 0 ;; sum_at u v (mul a b) is_.

(** vec_inner.rs:31-65 `vec_inner` *)
Definition vec_inner (u v : list T) : res T :=
  let n := if length u <? length v then length u else length v in
  match n with
  | 0 => Ok zero
  | 1 => sum_products u v []
  | 2 => sum_products u v [1]
  | 3 => sum_products u v [1; 2]
  | 4 => sum_products u v [1; 2; 3]
  | 5 => sum_products u v [1; 2; 3; 4]
  | 6 => sum_products u v [1; 2; 3; 4; 5]
  | 7 => sum_products u v [1; 2; 3; 4; 5; 6]
  | 8 => sum_products u v [1; 2; 3; 4; 5; 6; 7]
  | 9 => sum_products u v [1; 2; 3; 4; 5; 6; 7; 8]
  | _ => Ok (blas_dot (firstn n u) (firstn n v))
  end.

(** vec_max_abs_diff.rs:30-44 `vec_max_abs_diff`; [adiff] is `f64::abs(a - b)`, [gt] is `>` *)
Definition vec_max_abs_diff (adiff : T -> T -> T) (gt : T -> T -> bool) (u v : list T) : res (nat * T) :=
  let m := length u in
  if negb (length v =? m) then Err "vectors are incompatible"
  else
    for_range 0 m (fun i '(i_found, best) =>
      a <- vget u i ;; b <- vget v i ;;
      let d := adiff a b in
      Ok (if gt d best then (i, d) else (i_found, best))) (0, zero).

End LabVec.
