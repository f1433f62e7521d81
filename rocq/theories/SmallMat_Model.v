(** Model of russell_lab/src/small: small_mat_inv.rs, num_recipes_gaussj.rs and
    small_solve_lin_sys.rs, with the element type read as the real numbers.

    A `SmallMatrix<T, N>` is a function from positions to reals of which the
    positions below N are meaningful; every position the code uses is below
    n <= N, so no access can fail. `&mut` outputs are passed in (they may hold
    stale data) and returned, also on an error. *)
From Coq Require Import Reals Lra List.
From Verif Require Import Base RBase Tensor_Model.
Import ListNotations.
Open Scope R_scope.

(** small_mat_inv.rs:6, num_recipes_gaussj.rs:12 *)
Definition ZERO_DETERMINANT : R := / 10 ^ 15.
Definition singular {A : Type} : res A := Err "matrix is singular"%string.

(** `a.swap(k, m)` on an array of rows *)
Definition swap_rows (w : nat -> nat -> R) (k m : nat) : nat -> nat -> R :=
  fun p q => if (p =? k)%nat then w m q else if (p =? m)%nat then w k q else w p q.
(** `a[k].swap(p, q)` for one row *)
Definition swap_in_row (w : nat -> nat -> R) (k p q : nat) : nat -> nat -> R :=
  fun i j => if (i =? k)%nat then (if (j =? p)%nat then w k q else if (j =? q)%nat then w k p else w k j) else w i j.

(** small_mat_inv.rs:139-148: the row of the pivot and the size of the pivot *)
Definition gj_pivot (w : nat -> nat -> R) (n k : nat) : nat * R :=
  loop (n - (k + 1)) (fun d s => let i := (k + 1 + d)%nat in
    let value := Rabs (w i k) in
    if Rltb (snd s) value then (i, value) else s) (k, Rabs (w k k)).
(** small_mat_inv.rs:166-173 *)
Definition gj_normalize (n k : nat) (pivot : R) (p : (nat -> nat -> R) * (nat -> nat -> R)) :=
  let p := loop n (fun j p => (wr2 (fst p) k j (fst p k j / pivot), wr2 (snd p) k j (snd p k j / pivot))) p in
  (wr2 (fst p) k k 1, snd p).
(** small_mat_inv.rs:177-204; the two slices are the rows i and k *)
Definition gj_eliminate (n k i : nat) (p : (nat -> nat -> R) * (nat -> nat -> R)) :=
  if (i =? k)%nat then p else
  let factor := fst p i k in
  if Reqb factor 0 then p else
  let p := loop n (fun j p => (wr2 (fst p) i j (fst p i j - factor * fst p k j),
                               wr2 (snd p) i j (snd p i j - factor * snd p k j))) p in
  (wr2 (fst p) i k 0, snd p).
(** small_mat_inv.rs:139-205: one column; None is the early return *)
Definition gj_column (n k : nat) (s : (nat -> nat -> R) * (nat -> nat -> R) * R)
    : option ((nat -> nat -> R) * (nat -> nat -> R) * R) :=
  let '(w, ai, det) := s in
  let '(max_index, max_value) := gj_pivot w n k in
  if Rleb max_value ZERO_DETERMINANT then None else
  let '(w, ai, det) := if negb (max_index =? k)%nat
                       then (swap_rows w k max_index, swap_rows ai k max_index, - det) else (w, ai, det) in
  let pivot := w k k in
  let det := det * pivot in
  let p := gj_normalize n k pivot (w, ai) in
  let p := loop n (fun i p => gj_eliminate n k i p) p in
  Some (fst p, snd p, det).
(** small_mat_inv.rs:138-206; on the early return the matrix `ai` is left as it is *)
Fixpoint gj_columns (n : nat) (count k : nat) (s : (nat -> nat -> R) * (nat -> nat -> R) * R)
    : (nat -> nat -> R) * res R :=
  match count with
  | O => (snd (fst s), Ok (snd s))
  | S count' => match gj_column n k s with
                | None => (snd (fst s), singular)
                | Some s' => gj_columns n count' (S k) s'
                end
  end.
(** small_mat_inv.rs:131-136 *)
Definition gj_identity (n : nat) (ai : nat -> nat -> R) : nat -> nat -> R :=
  loop n (fun i ai => wr2 (loop n (fun j ai => wr2 ai i j 0) ai) i i 1) ai.
(** small_mat_inv.rs:67-209, for a matrix of capacity N *)
Definition small_mat_inv (N : nat) (ai a : nat -> nat -> R) (n : nat) : (nat -> nat -> R) * res R :=
  if negb (n <=? N)%nat then (ai, Panic) else
  if (n =? 1)%nat then
    let det := a.[0].[0] in
    if Rleb (Rabs det) ZERO_DETERMINANT then (ai, singular) else
    (wr2 ai 0 0 (1 / det), Ok det)
  else if (n =? 2)%nat then
    let det := a.[0].[0] * a.[1].[1] - a.[0].[1] * a.[1].[0] in
    if Rleb (Rabs det) ZERO_DETERMINANT then (ai, singular) else
    let ai := wr2 ai 0 0 (a.[1].[1] / det) in
    let ai := wr2 ai 0 1 (- a.[0].[1] / det) in
    let ai := wr2 ai 1 0 (- a.[1].[0] / det) in
    (wr2 ai 1 1 (a.[0].[0] / det), Ok det)
  else if (n =? 3)%nat then
    let det := a.[0].[0] * (a.[1].[1] * a.[2].[2] - a.[1].[2] * a.[2].[1])
               - a.[0].[1] * (a.[1].[0] * a.[2].[2] - a.[1].[2] * a.[2].[0])
               + a.[0].[2] * (a.[1].[0] * a.[2].[1] - a.[1].[1] * a.[2].[0]) in
    if Rleb (Rabs det) ZERO_DETERMINANT then (ai, singular) else
    let ai := wr2 ai 0 0 ((a.[1].[1] * a.[2].[2] - a.[1].[2] * a.[2].[1]) / det) in
    let ai := wr2 ai 0 1 ((a.[0].[2] * a.[2].[1] - a.[0].[1] * a.[2].[2]) / det) in
    let ai := wr2 ai 0 2 ((a.[0].[1] * a.[1].[2] - a.[0].[2] * a.[1].[1]) / det) in
    let ai := wr2 ai 1 0 ((a.[1].[2] * a.[2].[0] - a.[1].[0] * a.[2].[2]) / det) in
    let ai := wr2 ai 1 1 ((a.[0].[0] * a.[2].[2] - a.[0].[2] * a.[2].[0]) / det) in
    let ai := wr2 ai 1 2 ((a.[0].[2] * a.[1].[0] - a.[0].[0] * a.[1].[2]) / det) in
    let ai := wr2 ai 2 0 ((a.[1].[0] * a.[2].[1] - a.[1].[1] * a.[2].[0]) / det) in
    let ai := wr2 ai 2 1 ((a.[0].[1] * a.[2].[0] - a.[0].[0] * a.[2].[1]) / det) in
    (wr2 ai 2 2 ((a.[0].[0] * a.[1].[1] - a.[0].[1] * a.[1].[0]) / det), Ok det)
  else gj_columns n n 0 (a, gj_identity n ai, 1).

(** the variables of num_recipes_gaussj_sol *)
Record nr := mkNR { nr_a : nat -> nat -> R; nr_b : nat -> nat -> R; nr_piv : nat -> nat;
                    nr_r : nat -> nat; nr_c : nat -> nat }.
Definition wrn (v : nat -> nat) (k x : nat) : nat -> nat := fun j => if (j =? k)%nat then x else v j.
(** num_recipes_gaussj.rs:141-159: (big, irow, icol) *)
Definition nr_search (N : nat) (a : nat -> nat -> R) (ipiv : nat -> nat) : R * nat * nat :=
  loop N (fun j s =>
    if negb (ipiv j =? 1)%nat then
      loop N (fun k s =>
        if (ipiv k =? 0)%nat then
          let value := Rabs (a j k) in
          if Rleb (fst (fst s)) value then (value, j, k) else s
        else s) s
    else s) (0, 0%nat, 0%nat).
(** num_recipes_gaussj.rs:179-187 *)
Definition nr_divide (N M icol : nat) (a b : nat -> nat -> R) : (nat -> nat -> R) * (nat -> nat -> R) :=
  let pivinv := 1 / a icol icol in
  let a := wr2 a icol icol 1 in
  let a := loop N (fun l a => wr2 a icol l (a icol l * pivinv)) a in
  let b := loop M (fun l b => wr2 b icol l (b icol l * pivinv)) b in
  (a, b).
(** num_recipes_gaussj.rs:191-200 *)
Definition nr_reduce (N M icol ll : nat) (p : (nat -> nat -> R) * (nat -> nat -> R)) :=
  if (ll =? icol)%nat then p else
  let a := fst p in
  let dum := a ll icol in
  let a := wr2 a ll icol 0 in
  let a := loop N (fun l a => wr2 a ll l (a ll l - a icol l * dum)) a in
  let b := loop M (fun l b => wr2 b ll l (b ll l - b icol l * dum)) (snd p) in
  (a, b).
(** num_recipes_gaussj.rs:141-201; None is the early return *)
Definition nr_column (N M i : nat) (s : nr) : option nr :=
  let '(big, irow, icol) := nr_search N (nr_a s) (nr_piv s) in
  let ipiv := wrn (nr_piv s) icol (nr_piv s icol + 1) in
  if Rleb big ZERO_DETERMINANT then None else
  let '(a, b) := if negb (irow =? icol)%nat
                 then (swap_rows (nr_a s) irow icol, swap_rows (nr_b s) irow icol) else (nr_a s, nr_b s) in
  let indxr := wrn (nr_r s) i irow in
  let indxc := wrn (nr_c s) i icol in
  let p := nr_divide N M icol a b in
  let p := loop N (fun ll p => nr_reduce N M icol ll p) p in
  Some (mkNR (fst p) (snd p) ipiv indxr indxc).
(** num_recipes_gaussj.rs:206-212: l runs down from count-1 to 0 *)
Fixpoint nr_unscramble (N count : nat) (indxr indxc : nat -> nat) (a : nat -> nat -> R) : nat -> nat -> R :=
  match count with
  | O => a
  | S l => nr_unscramble N l indxr indxc
             (if negb (indxr l =? indxc l)%nat
              then loop N (fun k a => swap_in_row a k (indxr l) (indxc l)) a else a)
  end.
(** num_recipes_gaussj.rs:140-214; on the early return `a` and `b` are left as
    they are at that point *)
Fixpoint nr_columns (N M count i : nat) (s : nr) : (nat -> nat -> R) * (nat -> nat -> R) * res unit :=
  match count with
  | O => (nr_unscramble N N (nr_r s) (nr_c s) (nr_a s), nr_b s, Ok tt)
  | S count' => match nr_column N M i s with
                | None => (nr_a s, nr_b s, singular)
                | Some s' => nr_columns N M count' (S i) s'
                end
  end.
(** num_recipes_gaussj.rs:124-215 *)
Definition num_recipes_gaussj_sol (N M : nat) (a b : nat -> nat -> R) : (nat -> nat -> R) * (nat -> nat -> R) * res unit :=
  nr_columns N M N 0 (mkNR a b (fun _ => 0%nat) (fun _ => 0%nat) (fun _ => 0%nat)).
(** num_recipes_gaussj.rs:65-71 *)
Definition num_recipes_gaussj_inv (N : nat) (a : nat -> nat -> R) : (nat -> nat -> R) * res unit :=
  let '(a, _, r) := num_recipes_gaussj_sol N 0 a (fun _ _ => 0) in (a, r).
(** small_solve_lin_sys.rs:59-80 *)
Definition small_solve_lin_sys (N : nat) (b : nat -> R) (a : nat -> nat -> R) : (nat -> R) * (nat -> nat -> R) * res unit :=
  let bb := loop N (fun i bb => wr2 bb i 0 (b i)) (fun _ _ => 0) in
  let '(a, bb, r) := num_recipes_gaussj_sol N 1 a bb in
  match r with
  | Ok _ => (loop N (fun i b => wr b i (bb i 0%nat)) b, a, Ok tt)
  | Err e => (b, a, Err e)
  | Panic => (b, a, Panic)
  end.
