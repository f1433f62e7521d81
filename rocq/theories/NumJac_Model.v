(** Model of russell_sparse/src/numerical_jacobian.rs (one-sided differences into a COO matrix).

    Simplifications: f64 is [R]; the function is an oracle that receives and returns the output vector and the
    arguments, and may fail after having changed both; the final state is given also when an error is returned. *)
From Coq Require Import Reals.
From Verif Require Import Base RBase Search_Model Sparse_Model.
Local Open Scope string_scope.
Local Open Scope nat_scope.

Section NumJac.
Variable A : Type.
(** function(w, x, y, args): the new w, the new args and the result *)
Variable f : list R -> R -> list R -> A -> list R * A * res unit.

(** the objects behind the &mut parameters of numerical_jacobian.rs:129-139 *)
Record njs := mkNjs { n_jj : coo R; n_y : list R; n_w1 : list R; n_w2 : list R; n_args : A }.

(** numerical_jacobian.rs:169 *)
Definition THRESHOLD : R := (1 / 100000)%R.
(** numerical_jacobian.rs:174 *)
Definition delta (yj : R) : R := sqrt (FEPS * Rmax THRESHOLD (Rabs yj)).

(** numerical_jacobian.rs:177-181 *)
Definition row_range (s : sym) (ndim j : nat) : nat * nat :=
  match s with
  | SymYesLower => (j, ndim)
  | SymYesUpper => (0, j + 1)
  | SymYesFull | SymNo => (0, ndim)
  end.

(** numerical_jacobian.rs:182-185 *)
Definition put_column (alpha dy : R) (w1 w2 : list R) (ndim j : nat) (jj : coo R) : res (coo R) :=
  let '(start, endp1) := row_range (c_sym jj) ndim j in
  for_range start endp1 (fun i jj =>
    a <- vget w2 i ;;
    b <- vget w1 i ;;
    match coo_put jj i j (alpha * (a - b) / dy)%R with
    | (jj', Ok _) => Ok jj'
    | _ => Panic
    end) jj.

(** numerical_jacobian.rs:172-187: the loop over j, [k] iterations left *)
Fixpoint nj_loop (ndim : nat) (alpha x : R) (k j : nat) (st : njs) : njs * res unit :=
  match k with
  | 0 => (st, Ok tt)
  | S k =>
      match vget (n_y st) j with
      | Ok original_yj =>
          let delta_yj := delta original_yj in
          let y' := upd (n_y st) j (original_yj + delta_yj)%R in
          let '(w2', args', r) := f (n_w2 st) x y' (n_args st) in
          let st' := mkNjs (n_jj st) y' (n_w1 st) w2' args' in
          match r with
          | Ok _ =>
              match put_column alpha delta_yj (n_w1 st) w2' ndim j (n_jj st) with
              | Ok jj' => nj_loop ndim alpha x k (S j) (mkNjs jj' (upd y' j original_yj) (n_w1 st) w2' args')
              | _ => (st', Panic)
              end
          | Err e => (st', Err e)
          | Panic => (st', Panic)
          end
      | _ => (st, Panic)
      end
  end.

(** numerical_jacobian.rs:129-189 `numerical_jacobian` *)
Definition numerical_jacobian (ndim : nat) (alpha x : R) (st : njs) : njs * res unit :=
  let jj := n_jj st in
  if c_nrow jj <? ndim then (st, Err "the Jacobian matrix must have nrow >= ndim")
  else if c_ncol jj <? ndim then (st, Err "the Jacobian matrix must have ncol >= ndim")
  else if triangular (c_sym jj) && (c_max jj <? (ndim + ndim * ndim) / 2) then
    (st, Err "the max number of non-zero values in the numerical (triangular) Jacobian matrix must be at least (ndim + ndim^2) / 2")
  else if negb (triangular (c_sym jj)) && (c_max jj <? ndim * ndim) then
    (st, Err "the max number of non-zero values in the numerical Jacobian matrix must be at least ndim^2")
  else if length (n_y st) <? ndim then (st, Err "the y vector must have dim >= ndim")
  else if length (n_w1 st) <? ndim then (st, Err "the workspace vector w1 must have dim >= ndim")
  else if length (n_w2 st) <? ndim then (st, Err "the workspace vector w2 must have dim >= ndim")
  else
    let '(w1', args', r) := f (n_w1 st) x (n_y st) (n_args st) in
    let st' := mkNjs jj (n_y st) w1' (n_w2 st) args' in
    match r with
    | Ok _ => nj_loop ndim alpha x ndim 0 (mkNjs (coo_reset jj) (n_y st) w1' (n_w2 st) args')
    | Err e => (st', Err e)
    | Panic => (st', Panic)
    end.
End NumJac.
Arguments mkNjs {A}. Arguments n_jj {A}. Arguments n_y {A}. Arguments n_w1 {A}. Arguments n_w2 {A}. Arguments n_args {A}.
