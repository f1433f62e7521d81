(** Model of russell_pde/src/equation_handler.rs. *)
From Verif Require Import Base.

(** equation_handler.rs:89-119 `struct EquationHandler`. The marker `usize::MAX` of
    `e_to_iu`/`e_to_ip` is [None] (an index is always smaller than `usize::MAX`). *)
Record eqs := mkEqs {
  eq_neq : nat;
  eq_is_prescribed : list bool;
  eq_e_to_iu : list (option nat);
  eq_e_to_ip : list (option nat);
  eq_u_sorted : list nat;
  eq_p_sorted : list nat }.

(** equation_handler.rs:132-142 `new` *)
Definition eqs_new (neq : nat) : eqs :=
  mkEqs neq (repeat false neq) (map (@Some nat) (seq 0 neq)) (repeat None neq) (seq 0 neq) [].

(** `HashSet::contains` after inserting the elements of the list *)
Definition contains (p : list nat) (e : nat) : bool := existsb (Nat.eqb e) p.

(** equation_handler.rs:165-179: one pass of the loop; state is (handler, iu, ip) *)
Definition eqs_step (p_list : list nat) (e : nat) (st : eqs * nat * nat) : res (eqs * nat * nat) :=
  let '(h, iu, ip) := st in
  if contains p_list e then
    a <- vset (eq_is_prescribed h) e true ;;
    b <- vset (eq_e_to_iu h) e None ;;
    c <- vset (eq_e_to_ip h) e (Some ip) ;;
    Ok (mkEqs (eq_neq h) a b c (eq_u_sorted h) (eq_p_sorted h ++ [e]), iu, ip + 1)
  else
    a <- vset (eq_is_prescribed h) e false ;;
    b <- vset (eq_e_to_iu h) e (Some iu) ;;
    c <- vset (eq_e_to_ip h) e None ;;
    Ok (mkEqs (eq_neq h) a b c (eq_u_sorted h ++ [e]) (eq_p_sorted h), iu + 1, ip).

(** equation_handler.rs:153-180 `recompute` *)
Definition eqs_recompute (h : eqs) (p_list : list nat) : res eqs :=
  if existsb (fun p => eq_neq h <=? p) p_list then Panic
  else
    let h := mkEqs (eq_neq h) (eq_is_prescribed h) (eq_e_to_iu h) (eq_e_to_ip h) [] [] in
    '(h, _, _) <- for_range 0 (eq_neq h) (eqs_step p_list) (h, 0, 0) ;;
    Ok h.

(** equation_handler.rs:190-192 `nu`, 195-197 `np` *)
Definition eqs_nu (h : eqs) : nat := length (eq_u_sorted h).
Definition eqs_np (h : eqs) : nat := length (eq_p_sorted h).

(** equation_handler.rs:213-215 `is_prescribed` *)
Definition eqs_is_prescribed (h : eqs) (e : nat) : res bool := vget (eq_is_prescribed h) e.

(** equation_handler.rs:222-227 `iu`, 234-239 `ip` *)
Definition eqs_iu (h : eqs) (e : nat) : res nat :=
  x <- vget (eq_e_to_iu h) e ;; match x with None => Panic | Some i => Ok i end.
Definition eqs_ip (h : eqs) (e : nat) : res nat :=
  x <- vget (eq_e_to_ip h) e ;; match x with None => Panic | Some i => Ok i end.
