(** Model of russell_tensor: tensor3.rs and operations_t3.rs (default build:
    feature "heap" off), with the index tables of constants.rs they use.

    As in Tensor4_Model.v the fixed array `[[f64; 9]; 9]` is a function from two
    positions to the reals, meaningful below 9, and `f64` is read as a real
    number. `case_a` says which pair of indices the Kelvin-Mandel rows or columns
    stand for: in case A the rows are the pair (i, j), in case B the columns are
    the pair (j, k). Not modelled: Display and serde impls and the field
    `use_loops`, which no function of this file reads. *)
From Coq Require Import Reals Lra List.
From Verif Require Import Base RBase Tensor_Model.
Import ListNotations.
Open Scope R_scope.

(** constants.rs:493-503 *)
Definition MN_TO_IJK_CASE_A_tab : list (list (nat * nat * nat)) :=
  ([[(0, 0, 0); (0, 0, 1); (0, 0, 2)];
   [(1, 1, 0); (1, 1, 1); (1, 1, 2)];
   [(2, 2, 0); (2, 2, 1); (2, 2, 2)];
   [(0, 1, 0); (0, 1, 1); (0, 1, 2)];
   [(1, 2, 0); (1, 2, 1); (1, 2, 2)];
   [(0, 2, 0); (0, 2, 1); (0, 2, 2)];
   [(1, 0, 0); (1, 0, 1); (1, 0, 2)];
   [(2, 1, 0); (2, 1, 1); (2, 1, 2)];
   [(2, 0, 0); (2, 0, 1); (2, 0, 2)]])%nat.
Definition MN_TO_IJK_CASE_A (m n : nat) : nat * nat * nat := nth n (nth m MN_TO_IJK_CASE_A_tab []) (0, 0, 0)%nat.
(** constants.rs:528-532 *)
Definition MN_TO_IJK_CASE_B_tab : list (list (nat * nat * nat)) :=
  ([[(0, 0, 0); (0, 1, 1); (0, 2, 2); (0, 0, 1); (0, 1, 2); (0, 0, 2); (0, 1, 0); (0, 2, 1); (0, 2, 0)];
   [(1, 0, 0); (1, 1, 1); (1, 2, 2); (1, 0, 1); (1, 1, 2); (1, 0, 2); (1, 1, 0); (1, 2, 1); (1, 2, 0)];
   [(2, 0, 0); (2, 1, 1); (2, 2, 2); (2, 0, 1); (2, 1, 2); (2, 0, 2); (2, 1, 0); (2, 2, 1); (2, 2, 0)]])%nat.
Definition MN_TO_IJK_CASE_B (m n : nat) : nat * nat * nat := nth n (nth m MN_TO_IJK_CASE_B_tab []) (0, 0, 0)%nat.
(** constants.rs:563-579 *)
Definition IJK_TO_MN_CASE_A_tab : list (list (list (nat * nat))) :=
  ([[[(0, 0); (0, 1); (0, 2)]; [(3, 0); (3, 1); (3, 2)]; [(5, 0); (5, 1); (5, 2)]];
   [[(6, 0); (6, 1); (6, 2)]; [(1, 0); (1, 1); (1, 2)]; [(4, 0); (4, 1); (4, 2)]];
   [[(8, 0); (8, 1); (8, 2)]; [(7, 0); (7, 1); (7, 2)]; [(2, 0); (2, 1); (2, 2)]]])%nat.
Definition IJK_TO_MN_CASE_A (i j k : nat) : nat * nat := nth k (nth j (nth i IJK_TO_MN_CASE_A_tab []) []) (0, 0)%nat.
(** constants.rs:604-620 *)
Definition IJK_TO_MN_CASE_B_tab : list (list (list (nat * nat))) :=
  ([[[(0, 0); (0, 3); (0, 5)]; [(0, 6); (0, 1); (0, 4)]; [(0, 8); (0, 7); (0, 2)]];
   [[(1, 0); (1, 3); (1, 5)]; [(1, 6); (1, 1); (1, 4)]; [(1, 8); (1, 7); (1, 2)]];
   [[(2, 0); (2, 3); (2, 5)]; [(2, 6); (2, 1); (2, 4)]; [(2, 8); (2, 7); (2, 2)]]])%nat.
Definition IJK_TO_MN_CASE_B (i j k : nat) : nat * nat := nth k (nth j (nth i IJK_TO_MN_CASE_B_tab []) []) (0, 0)%nat.
(** constants.rs:649-665 *)
Definition IJK_TO_MN_SYM_CASE_A_tab : list (list (list (nat * nat))) :=
  ([[[(0, 0); (0, 1); (0, 2)]; [(3, 0); (3, 1); (3, 2)]; [(5, 0); (5, 1); (5, 2)]];
   [[(3, 0); (3, 1); (3, 2)]; [(1, 0); (1, 1); (1, 2)]; [(4, 0); (4, 1); (4, 2)]];
   [[(5, 0); (5, 1); (5, 2)]; [(4, 0); (4, 1); (4, 2)]; [(2, 0); (2, 1); (2, 2)]]])%nat.
Definition IJK_TO_MN_SYM_CASE_A (i j k : nat) : nat * nat := nth k (nth j (nth i IJK_TO_MN_SYM_CASE_A_tab []) []) (0, 0)%nat.
(** constants.rs:691-707 *)
Definition IJK_TO_MN_SYM_CASE_B_tab : list (list (list (nat * nat))) :=
  ([[[(0, 0); (0, 3); (0, 5)]; [(0, 3); (0, 1); (0, 4)]; [(0, 5); (0, 4); (0, 2)]];
   [[(1, 0); (1, 3); (1, 5)]; [(1, 3); (1, 1); (1, 4)]; [(1, 5); (1, 4); (1, 2)]];
   [[(2, 0); (2, 3); (2, 5)]; [(2, 3); (2, 1); (2, 4)]; [(2, 5); (2, 4); (2, 2)]]])%nat.
Definition IJK_TO_MN_SYM_CASE_B (i j k : nat) : nat * nat := nth k (nth j (nth i IJK_TO_MN_SYM_CASE_B_tab []) []) (0, 0)%nat.

(** tensor3.rs:198-249 *)
Record t3 := mkT3 { t3_case_a : bool; t3_nrow : nat; t3_ncol : nat; t3_mat : nat -> nat -> R; t3_rep : rep }.
Definition t3_put (d : t3) (mm : nat -> nat -> R) : t3 := mkT3 (t3_case_a d) (t3_nrow d) (t3_ncol d) mm (t3_rep d).
(** tensor3.rs:275-299 *)
Definition t3_new (r : rep) (case_a : bool) : t3 :=
  let '(nrow, ncol) := if case_a then (rep_dim r, 3%nat) else (3%nat, rep_dim r) in
  mkT3 case_a nrow ncol (fun _ _ => 0) r.
(** tensor3.rs:302-308 *)
Definition t3_new_sym (two_dim case_a : bool) : t3 :=
  if two_dim then t3_new Symmetric2D case_a else t3_new Symmetric case_a.
(** tensor3.rs:313-319 *)
Definition t3_new_sym_ndim (space_ndim : nat) (case_a : bool) : t3 :=
  if (space_ndim =? 2)%nat then t3_new Symmetric2D case_a else t3_new Symmetric case_a.
(** tensor3.rs:334-337 *)
Definition t3_dims (d : t3) : nat * nat := (t3_nrow d, t3_ncol d).
(** tensor3.rs:361-371 *)
Definition t3_get (d : t3) (m n : nat) : res R :=
  if ((m <? 9) && (n <? 9))%nat then Ok (t3_mat d m n) else Panic.
(** tensor3.rs:396-406 *)
Definition t3_set (d : t3) (m n : nat) (x : R) : res t3 :=
  if ((m <? 9) && (n <? 9))%nat then Ok (t3_put d (wr2 (t3_mat d) m n x)) else Panic.

(** the three nested loops `for i in 0..3 { for j .. { for k .. } }` around a
    body that may return early with an error *)
Definition idx3 : list (nat * nat * nat) :=
  flat_map (fun i => flat_map (fun j => map (fun k => (i, j, k)) (seq 0 3)) (seq 0 3)) (seq 0 3).
Definition err_loop3 {S : Type} (f : nat -> nat -> nat -> S -> S * res unit) (s : S) : S * res unit :=
  fold_left (fun acc ijk =>
    let '(i, j, k) := ijk in
    match acc with
    | (s, Ok _) => f i j k s
    | stop => stop
    end) idx3 (s, Ok tt).

(** tensor3.rs:413-513: the tensor after the call and the `Result` *)
Definition t3_set_std_array (d : t3) (inp : nat -> nat -> nat -> R) : t3 * res unit :=
  let dim := rep_dim (t3_rep d) in
  let '(mm, r) :=
    if t3_case_a d then
      if ((dim =? 4) || (dim =? 6))%nat then
        let max := if (dim =? 4)%nat then 3%nat else 6%nat in
        err_loop3 (fun i j k mm =>
          if (j <? i)%nat then
            if negb (Reqb (inp i j k) (inp j i k))
            then (mm, Err "the input data does not correspond to a minor-symmetric tensor")
            else (mm, Ok tt)
          else
            let '(m, n) := IJK_TO_MN_CASE_A i j k in
            if (max <? m)%nat then
              if negb (Reqb (inp i j k) 0)
              then (mm, Err "the input data does not correspond to a 2D minor-symmetric tensor")
              else (mm, Ok tt)
            else if (m <? 3)%nat then (wr2 mm m n (inp i j k), Ok tt)
            else (wr2 mm m n (SQRT_2 * inp i j k), Ok tt)) (t3_mat d)
      else
        err_loop3 (fun i j k mm =>
          let '(m, n) := IJK_TO_MN_CASE_A i j k in
          ((if (i =? j)%nat then wr2 mm m n (inp i j k)
            else if (i <? j)%nat then wr2 mm m n ((inp i j k + inp j i k) / SQRT_2)
            else if (j <? i)%nat then wr2 mm m n ((inp j i k - inp i j k) / SQRT_2)
            else mm), Ok tt)) (t3_mat d)
    else
      if ((dim =? 4) || (dim =? 6))%nat then
        let max := if (dim =? 4)%nat then 3%nat else 6%nat in
        err_loop3 (fun i j k mm =>
          if (k <? j)%nat then
            if negb (Reqb (inp i j k) (inp i k j))
            then (mm, Err "the input data does not correspond to a minor-symmetric tensor")
            else (mm, Ok tt)
          else
            let '(m, n) := IJK_TO_MN_CASE_B i j k in
            if (max <? n)%nat then
              if negb (Reqb (inp i j k) 0)
              then (mm, Err "the input data does not correspond to a 2D minor-symmetric tensor")
              else (mm, Ok tt)
            else if (n <? 3)%nat then (wr2 mm m n (inp i j k), Ok tt)
            else (wr2 mm m n (SQRT_2 * inp i j k), Ok tt)) (t3_mat d)
      else
        err_loop3 (fun i j k mm =>
          let '(m, n) := IJK_TO_MN_CASE_B i j k in
          ((if (j =? k)%nat then wr2 mm m n (inp i j k)
            else if (j <? k)%nat then wr2 mm m n ((inp i j k + inp i k j) / SQRT_2)
            else if (k <? j)%nat then wr2 mm m n ((inp i k j - inp i j k) / SQRT_2)
            else mm), Ok tt)) (t3_mat d) in
  (t3_put d mm, r).
(** `let mut res = Tensor3::new(..); res.set(..)?; Ok(res)` *)
Definition t3_fin (x : t3 * res unit) : res t3 :=
  match x with
  | (d, Ok _) => Ok d
  | (_, Err e) => Err e
  | (_, Panic) => Panic
  end.
(** tensor3.rs:555-559 *)
Definition t3_from_std_array (inp : nat -> nat -> nat -> R) (r : rep) (case_a : bool) : res t3 :=
  t3_fin (t3_set_std_array (t3_new r case_a) inp).

(** tensor3.rs:574-683; [inp] is the 9x3 (case A) or 3x9 (case B) input *)
Definition t3_set_std_matrix (d : t3) (inp : nat -> nat -> R) : t3 * res unit :=
  let at_ := fun mn : nat * nat => inp (fst mn) (snd mn) in
  let dim := rep_dim (t3_rep d) in
  let '(mm, r) :=
    if t3_case_a d then
      if ((dim =? 4) || (dim =? 6))%nat then
        let max := if (dim =? 4)%nat then 3%nat else 6%nat in
        err_loop3 (fun i j k mm =>
          let '(m, n) := IJK_TO_MN_CASE_A i j k in
          let rs := IJK_TO_MN_CASE_A j i k in
          if (j <? i)%nat then
            if negb (Reqb (inp m n) (at_ rs))
            then (mm, Err "the input data does not correspond to a minor-symmetric tensor")
            else (mm, Ok tt)
          else if (max <? m)%nat then
            if negb (Reqb (inp m n) 0)
            then (mm, Err "the input data does not correspond to a 2D minor-symmetric tensor")
            else (mm, Ok tt)
          else if (m <? 3)%nat then (wr2 mm m n (inp m n), Ok tt)
          else (wr2 mm m n (SQRT_2 * inp m n), Ok tt)) (t3_mat d)
      else
        err_loop3 (fun i j k mm =>
          let '(m, n) := IJK_TO_MN_CASE_A i j k in
          ((if (i =? j)%nat then wr2 mm m n (inp m n)
            else if (i <? j)%nat then let rs := IJK_TO_MN_CASE_A j i k in wr2 mm m n ((inp m n + at_ rs) / SQRT_2)
            else if (j <? i)%nat then let rs := IJK_TO_MN_CASE_A j i k in wr2 mm m n ((at_ rs - inp m n) / SQRT_2)
            else mm), Ok tt)) (t3_mat d)
    else
      if ((dim =? 4) || (dim =? 6))%nat then
        let max := if (dim =? 4)%nat then 3%nat else 6%nat in
        err_loop3 (fun i j k mm =>
          let '(m, n) := IJK_TO_MN_CASE_B i j k in
          let rs := IJK_TO_MN_CASE_B i k j in
          if (k <? j)%nat then
            if negb (Reqb (inp m n) (at_ rs))
            then (mm, Err "the input data does not correspond to a minor-symmetric tensor")
            else (mm, Ok tt)
          else if (max <? n)%nat then
            if negb (Reqb (inp m n) 0)
            then (mm, Err "the input data does not correspond to a 2D minor-symmetric tensor")
            else (mm, Ok tt)
          else if (n <? 3)%nat then (wr2 mm m n (inp m n), Ok tt)
          else (wr2 mm m n (SQRT_2 * inp m n), Ok tt)) (t3_mat d)
      else
        err_loop3 (fun i j k mm =>
          let '(m, n) := IJK_TO_MN_CASE_B i j k in
          ((if (j =? k)%nat then wr2 mm m n (inp m n)
            else if (j <? k)%nat then let rs := IJK_TO_MN_CASE_B i k j in wr2 mm m n ((inp m n + at_ rs) / SQRT_2)
            else if (k <? j)%nat then let rs := IJK_TO_MN_CASE_B i k j in wr2 mm m n ((at_ rs - inp m n) / SQRT_2)
            else mm), Ok tt)) (t3_mat d) in
  (t3_put d mm, r).
(** tensor3.rs:732-739 *)
Definition t3_from_std_matrix (inp : nat -> nat -> R) (r : rep) (case_a : bool) : res t3 :=
  t3_fin (t3_set_std_matrix (t3_new r case_a) inp).

(** tensor3.rs:770-842 *)
Definition t3_get_std (d : t3) (i j k : nat) : res R :=
  if negb ((i <? 3) && (j <? 3) && (k <? 3))%nat then Panic else
  let v := t3_mat d in
  let at_ := fun mn : nat * nat => v (fst mn) (snd mn) in
  Ok (if t3_case_a d then
        match t3_nrow d with
        | 4%nat => let '(m, n) := IJK_TO_MN_SYM_CASE_A i j k in
                   if (3 <? m)%nat then 0 else if (m <? 3)%nat then v m n else v m n / SQRT_2
        | 6%nat => let '(m, n) := IJK_TO_MN_SYM_CASE_A i j k in
                   if (m <? 3)%nat then v m n else v m n / SQRT_2
        | _ => let '(m, n) := IJK_TO_MN_CASE_A i j k in
               if (i =? j)%nat then v m n
               else if (i <? j)%nat then (v m n + at_ (IJK_TO_MN_CASE_A j i k)) / SQRT_2
               else (at_ (IJK_TO_MN_CASE_A j i k) - v m n) / SQRT_2
        end
      else
        match t3_ncol d with
        | 4%nat => let '(m, n) := IJK_TO_MN_SYM_CASE_B i j k in
                   if (3 <? n)%nat then 0 else if (n <? 3)%nat then v m n else v m n / SQRT_2
        | 6%nat => let '(m, n) := IJK_TO_MN_SYM_CASE_B i j k in
                   if (n <? 3)%nat then v m n else v m n / SQRT_2
        | _ => let '(m, n) := IJK_TO_MN_CASE_B i j k in
               if (j =? k)%nat then v m n
               else if (j <? k)%nat then (v m n + at_ (IJK_TO_MN_CASE_B i k j)) / SQRT_2
               else (at_ (IJK_TO_MN_CASE_B i k j) - v m n) / SQRT_2
        end).
(** the value `get_std` gives for indices below 3 *)
Definition gs3 (d : t3) (i j k : nat) : R := match t3_get_std d i j k with Ok x => x | _ => 0 end.

(** tensor3.rs:890-898 *)
Definition t3_update (d : t3) (alpha : R) (other : t3) : res t3 :=
  _ <- assert_ (rep_eqb (t3_rep other) (t3_rep d)) ;;
  _ <- assert_ (Bool.eqb (t3_case_a other) (t3_case_a d)) ;;
  Ok (t3_put d (loop (t3_nrow d) (fun m mm => loop (t3_ncol d) (fun n mm =>
    wr2 mm m n (mm m n + alpha * t3_mat other m n)) mm) (t3_mat d))).
(** writing one position of a 3x3x3 array *)
Definition wr3 (x : nat -> nat -> nat -> R) (i j k : nat) (e : R) : nat -> nat -> nat -> R :=
  fun i' j' k' => if ((i' =? i) && (j' =? j) && (k' =? k))%nat then e else x i' j' k'.
(** tensor3.rs:971-1017 (the array is 3x3x3) *)
Definition t3_to_std_array (d : t3) (dd : nat -> nat -> nat -> R) : nat -> nat -> nat -> R :=
  if t3_case_a d then
    if (t3_nrow d =? 9)%nat then
      loop 3 (fun i dd => loop 3 (fun j dd => loop 3 (fun k dd => wr3 dd i j k (gs3 d i j k)) dd) dd) dd
    else
      loop (t3_nrow d) (fun m dd => loop (t3_ncol d) (fun n dd =>
        let '(i, j, k) := MN_TO_IJK_CASE_A m n in
        let dd := wr3 dd i j k (gs3 d i j k) in
        if negb (i =? j)%nat then wr3 dd j i k (dd i j k) else dd) dd) dd
  else
    if (t3_ncol d =? 9)%nat then
      loop 3 (fun i dd => loop 3 (fun j dd => loop 3 (fun k dd => wr3 dd i j k (gs3 d i j k)) dd) dd) dd
    else
      loop (t3_nrow d) (fun m dd => loop (t3_ncol d) (fun n dd =>
        let '(i, j, k) := MN_TO_IJK_CASE_B m n in
        let dd := wr3 dd i j k (gs3 d i j k) in
        if negb (j =? k)%nat then wr3 dd i k j (dd i j k) else dd) dd) dd.
(** tensor3.rs:930-934 *)
Definition t3_as_std_array (d : t3) : nat -> nat -> nat -> R := t3_to_std_array d (fun _ _ _ => 0).
(** tensor3.rs:1108-1126 *)
Definition t3_to_std_matrix (d : t3) (out : (nat * nat) * (nat -> nat -> R)) : res ((nat * nat) * (nat -> nat -> R)) :=
  let '((nr, nc), mm) := out in
  if t3_case_a d then
    _ <- assert_ ((nr =? 9) && (nc =? 3))%nat ;;
    Ok ((nr, nc), loop 9 (fun m mm => loop 3 (fun n mm =>
      let '(i, j, k) := MN_TO_IJK_CASE_A m n in wr2 mm m n (gs3 d i j k)) mm) mm)
  else
    _ <- assert_ ((nr =? 3) && (nc =? 9))%nat ;;
    Ok ((nr, nc), loop 3 (fun m mm => loop 9 (fun n mm =>
      let '(i, j, k) := MN_TO_IJK_CASE_B m n in wr2 mm m n (gs3 d i j k)) mm) mm).
(** tensor3.rs:1054-1062 *)
Definition t3_as_std_matrix (d : t3) : res ((nat * nat) * (nat -> nat -> R)) :=
  t3_to_std_matrix d (if t3_case_a d then (9, 3)%nat else (3, 9)%nat, fun _ _ => 0).
(** tensor3.rs:1170-1187 *)
Definition t3_sym_set_std (d : t3) (i j k : nat) (value : R) : res t3 :=
  _ <- assert_ (negb (rep_eqb (t3_rep d) General)) ;;
  if negb ((i <? 3) && (j <? 3) && (k <? 3))%nat then Panic else
  if t3_case_a d then
    let '(m, n) := IJK_TO_MN_SYM_CASE_A i j k in
    Ok (t3_put d (if (m <? 3)%nat then wr2 (t3_mat d) m n value else wr2 (t3_mat d) m n (value * SQRT_2)))
  else
    let '(m, n) := IJK_TO_MN_SYM_CASE_B i j k in
    Ok (t3_put d (if (n <? 3)%nat then wr2 (t3_mat d) m n value else wr2 (t3_mat d) m n (value * SQRT_2))).

(** operations_t3.rs:15-25 *)
Definition t3_add (c : t3) (alpha : R) (a : t3) (beta : R) (b : t3) : res t3 :=
  _ <- assert_ (rep_eqb (t3_rep b) (t3_rep a)) ;;
  _ <- assert_ (rep_eqb (t3_rep c) (t3_rep a)) ;;
  _ <- assert_ (Bool.eqb (t3_case_a b) (t3_case_a a)) ;;
  _ <- assert_ (Bool.eqb (t3_case_a c) (t3_case_a a)) ;;
  Ok (t3_put c (loop (t3_nrow a) (fun i mm => loop (t3_ncol a) (fun j mm =>
    wr2 mm i j (alpha * t3_mat a i j + beta * t3_mat b i j)) mm) (t3_mat c))).
(** operations_t3.rs:64-70 *)
Definition t3_dot_t1 (tt : t2) (alpha : R) (hh : t3) (u : t1) : res t2 :=
  _ <- assert_ (t3_case_a hh) ;;
  _ <- assert_ (rep_eqb (t2_rep tt) (t3_rep hh)) ;;
  Ok (mkT2 (t2_rep tt) (loop (t3_nrow hh) (fun m v =>
    wr v m (alpha * (t3_mat hh m 0%nat * u.[0] + t3_mat hh m 1%nat * u.[1] + t3_mat hh m 2%nat * u.[2]))) (t2_vec tt))).
(** operations_t3.rs:108-119 *)
Definition t3_ddot_t2 (u : t1) (alpha : R) (hh : t3) (tt : t2) : res t1 :=
  _ <- assert_ (negb (t3_case_a hh)) ;;
  _ <- assert_ (rep_eqb (t2_rep tt) (t3_rep hh)) ;;
  let u := wr (wr (wr u 0 0) 1 0) 2 0 in
  Ok (loop (t3_ncol hh) (fun n u =>
    let u := wr u 0 (u.[0] + alpha * t3_mat hh 0%nat n * t2_vec tt n) in
    let u := wr u 1 (u.[1] + alpha * t3_mat hh 1%nat n * t2_vec tt n) in
    wr u 2 (u.[2] + alpha * t3_mat hh 2%nat n * t2_vec tt n)) u).
