(** Model of russell_tensor: tensor4.rs, operations_mix1.rs, operations_mix2.rs
    and operations_t4.rs (default build: feature "heap" off), and of the
    small-matrix helpers of russell_lab they call (small_mat_add, _update,
    _mat_mul; the inverse is in SmallMat_Model.v).

    The fixed array `[[f64; 9]; 9]` is a function from two positions to the
    reals, meaningful below 9. The component formulas of operations_mix2.rs
    were translated line by line. Not modelled: Display and serde impls. *)
From Coq Require Import Reals Lra List.
From Verif Require Import Base RBase Tensor_Model.
Import ListNotations.
Open Scope R_scope.

(** constants.rs:740-750 *)
Definition MN_TO_IJKL_tab : list (list (nat * nat * nat * nat)) :=
  ([ [(0, 0, 0, 0); (0, 0, 1, 1); (0, 0, 2, 2); (0, 0, 0, 1); (0, 0, 1, 2); (0, 0, 0, 2); (0, 0, 1, 0); (0, 0, 2, 1); (0, 0, 2, 0)];
    [(1, 1, 0, 0); (1, 1, 1, 1); (1, 1, 2, 2); (1, 1, 0, 1); (1, 1, 1, 2); (1, 1, 0, 2); (1, 1, 1, 0); (1, 1, 2, 1); (1, 1, 2, 0)];
    [(2, 2, 0, 0); (2, 2, 1, 1); (2, 2, 2, 2); (2, 2, 0, 1); (2, 2, 1, 2); (2, 2, 0, 2); (2, 2, 1, 0); (2, 2, 2, 1); (2, 2, 2, 0)];
    [(0, 1, 0, 0); (0, 1, 1, 1); (0, 1, 2, 2); (0, 1, 0, 1); (0, 1, 1, 2); (0, 1, 0, 2); (0, 1, 1, 0); (0, 1, 2, 1); (0, 1, 2, 0)];
    [(1, 2, 0, 0); (1, 2, 1, 1); (1, 2, 2, 2); (1, 2, 0, 1); (1, 2, 1, 2); (1, 2, 0, 2); (1, 2, 1, 0); (1, 2, 2, 1); (1, 2, 2, 0)];
    [(0, 2, 0, 0); (0, 2, 1, 1); (0, 2, 2, 2); (0, 2, 0, 1); (0, 2, 1, 2); (0, 2, 0, 2); (0, 2, 1, 0); (0, 2, 2, 1); (0, 2, 2, 0)];
    [(1, 0, 0, 0); (1, 0, 1, 1); (1, 0, 2, 2); (1, 0, 0, 1); (1, 0, 1, 2); (1, 0, 0, 2); (1, 0, 1, 0); (1, 0, 2, 1); (1, 0, 2, 0)];
    [(2, 1, 0, 0); (2, 1, 1, 1); (2, 1, 2, 2); (2, 1, 0, 1); (2, 1, 1, 2); (2, 1, 0, 2); (2, 1, 1, 0); (2, 1, 2, 1); (2, 1, 2, 0)];
    [(2, 0, 0, 0); (2, 0, 1, 1); (2, 0, 2, 2); (2, 0, 0, 1); (2, 0, 1, 2); (2, 0, 0, 2); (2, 0, 1, 0); (2, 0, 2, 1); (2, 0, 2, 0)]])%nat.
Definition MN_TO_IJKL (m n : nat) : nat * nat * nat * nat :=
  nth n (nth m MN_TO_IJKL_tab []) (0, 0, 0, 0)%nat.
(** constants.rs:779-795 *)
Definition IJKL_TO_MN_tab : list (list (list (list (nat * nat)))) :=
  ([ [ [[(0, 0); (0, 3); (0, 5)]; [(0, 6); (0, 1); (0, 4)]; [(0, 8); (0, 7); (0, 2)]];
    [[(3, 0); (3, 3); (3, 5)]; [(3, 6); (3, 1); (3, 4)]; [(3, 8); (3, 7); (3, 2)]];
    [[(5, 0); (5, 3); (5, 5)]; [(5, 6); (5, 1); (5, 4)]; [(5, 8); (5, 7); (5, 2)]]];
    [ [[(6, 0); (6, 3); (6, 5)]; [(6, 6); (6, 1); (6, 4)]; [(6, 8); (6, 7); (6, 2)]];
    [[(1, 0); (1, 3); (1, 5)]; [(1, 6); (1, 1); (1, 4)]; [(1, 8); (1, 7); (1, 2)]];
    [[(4, 0); (4, 3); (4, 5)]; [(4, 6); (4, 1); (4, 4)]; [(4, 8); (4, 7); (4, 2)]]];
    [ [[(8, 0); (8, 3); (8, 5)]; [(8, 6); (8, 1); (8, 4)]; [(8, 8); (8, 7); (8, 2)]];
    [[(7, 0); (7, 3); (7, 5)]; [(7, 6); (7, 1); (7, 4)]; [(7, 8); (7, 7); (7, 2)]];
    [[(2, 0); (2, 3); (2, 5)]; [(2, 6); (2, 1); (2, 4)]; [(2, 8); (2, 7); (2, 2)]]]])%nat.
Definition IJKL_TO_MN (i j k l : nat) : nat * nat :=
  nth l (nth k (nth j (nth i IJKL_TO_MN_tab []) []) []) (0, 0)%nat.
(** constants.rs:820-836 *)
Definition IJKL_TO_MN_SYM_tab : list (list (list (list (nat * nat)))) :=
  ([ [ [[(0, 0); (0, 3); (0, 5)]; [(0, 3); (0, 1); (0, 4)]; [(0, 5); (0, 4); (0, 2)]];
    [[(3, 0); (3, 3); (3, 5)]; [(3, 3); (3, 1); (3, 4)]; [(3, 5); (3, 4); (3, 2)]];
    [[(5, 0); (5, 3); (5, 5)]; [(5, 3); (5, 1); (5, 4)]; [(5, 5); (5, 4); (5, 2)]]];
    [ [[(3, 0); (3, 3); (3, 5)]; [(3, 3); (3, 1); (3, 4)]; [(3, 5); (3, 4); (3, 2)]];
    [[(1, 0); (1, 3); (1, 5)]; [(1, 3); (1, 1); (1, 4)]; [(1, 5); (1, 4); (1, 2)]];
    [[(4, 0); (4, 3); (4, 5)]; [(4, 3); (4, 1); (4, 4)]; [(4, 5); (4, 4); (4, 2)]]];
    [ [[(5, 0); (5, 3); (5, 5)]; [(5, 3); (5, 1); (5, 4)]; [(5, 5); (5, 4); (5, 2)]];
    [[(4, 0); (4, 3); (4, 5)]; [(4, 3); (4, 1); (4, 4)]; [(4, 5); (4, 4); (4, 2)]];
    [[(2, 0); (2, 3); (2, 5)]; [(2, 3); (2, 1); (2, 4)]; [(2, 5); (2, 4); (2, 2)]]]])%nat.
Definition IJKL_TO_MN_SYM (i j k l : nat) : nat * nat :=
  nth l (nth k (nth j (nth i IJKL_TO_MN_SYM_tab []) []) []) (0, 0)%nat.

(** tensor4.rs:123-150 *)
Record t4 := mkT4 { t4_rep : rep; t4_mat : nat -> nat -> R; t4_use_loops : bool }.
Definition t4_dim (d : t4) : nat := rep_dim (t4_rep d).
Definition t4_put (d : t4) (mm : nat -> nat -> R) : t4 := mkT4 (t4_rep d) mm (t4_use_loops d).
(** tensor4.rs:175-195 *)
Definition t4_new (r : rep) : t4 := mkT4 r (fun _ _ => 0) false.
(** tensor4.rs:198-204 *)
Definition t4_new_sym (two_dim : bool) : t4 := if two_dim then t4_new Symmetric2D else t4_new Symmetric.
(** tensor4.rs:209-215 *)
Definition t4_new_sym_ndim (ndim : nat) : t4 :=
  if (ndim =? 2)%nat then t4_new Symmetric2D else t4_new Symmetric.
(** tensor4.rs:252-261 *)
Definition t4_get (d : t4) (m n : nat) : res R :=
  if ((m <? 9) && (n <? 9))%nat then Ok (t4_mat d m n) else Panic.
(** tensor4.rs:287-296 *)
Definition t4_set (d : t4) (m n : nat) (x : R) : res t4 :=
  if ((m <? 9) && (n <? 9))%nat then Ok (t4_put d (wr2 (t4_mat d) m n x)) else Panic.

(** the four nested loops `for i in 0..3 { for j .. { for k .. { for l .. } } }`
    around a body that may return early with an error *)
Definition idx4 : list (nat * nat * nat * nat) :=
  flat_map (fun i => flat_map (fun j => flat_map (fun k => map (fun l => (i, j, k, l)) (seq 0 3)) (seq 0 3)) (seq 0 3)) (seq 0 3).
Definition err_loop {S : Type} (f : nat -> nat -> nat -> nat -> S -> S * res unit) (s : S) : S * res unit :=
  fold_left (fun acc ijkl =>
    let '(i, j, k, l) := ijkl in
    match acc with
    | (s, Ok _) => f i j k l s
    | stop => stop
    end) idx4 (s, Ok tt).

(** tensor4.rs:303-399: the tensor after the call and the `Result` *)
Definition t4_set_std_array (d : t4) (inp : nat -> nat -> nat -> nat -> R) : t4 * res unit :=
  let dim := t4_dim d in
  let '(mm, r) :=
    if ((dim =? 4) || (dim =? 6))%nat then
      let max := if (dim =? 4)%nat then 3%nat else 6%nat in
      err_loop (fun i j k l mm =>
        if ((j <? i) || (l <? k))%nat then
          if negb (Reqb (inp i j k l) (inp j i k l)) || negb (Reqb (inp i j k l) (inp i j l k))
             || negb (Reqb (inp i j k l) (inp j i l k))
          then (mm, Err "the input data does not correspond to a minor-symmetric tensor")
          else (mm, Ok tt)
        else
          let '(m, n) := IJKL_TO_MN i j k l in
          if ((max <? m) || (max <? n))%nat then
            if negb (Reqb (inp i j k l) 0)
            then (mm, Err "the input data does not correspond to a 2D minor-symmetric tensor")
            else (mm, Ok tt)
          else if ((m <? 3) && (n <? 3))%nat then (wr2 mm m n (inp i j k l), Ok tt)
          else if ((2 <? m) && (2 <? n))%nat then (wr2 mm m n (2 * inp i j k l), Ok tt)
          else (wr2 mm m n (SQRT_2 * inp i j k l), Ok tt)) (t4_mat d)
    else
      err_loop (fun i j k l mm =>
        let '(m, n) := IJKL_TO_MN i j k l in
        ((if ((i =? j) && (k =? l))%nat then wr2 mm m n (inp i j k l)
          else if ((i =? j) && (k <? l))%nat then wr2 mm m n ((inp i j k l + inp i j l k) / SQRT_2)
          else if ((i =? j) && (l <? k))%nat then wr2 mm m n ((inp i j l k - inp i j k l) / SQRT_2)
          else if ((i <? j) && (k =? l))%nat then wr2 mm m n ((inp i j k l + inp j i k l) / SQRT_2)
          else if ((i <? j) && (k <? l))%nat then
            wr2 mm m n ((inp i j k l + inp i j l k + inp j i k l + inp j i l k) / 2)
          else if ((i <? j) && (l <? k))%nat then
            wr2 mm m n ((inp i j l k - inp i j k l + inp j i l k - inp j i k l) / 2)
          else if ((j <? i) && (k =? l))%nat then wr2 mm m n ((inp j i k l - inp i j k l) / SQRT_2)
          else if ((j <? i) && (k <? l))%nat then
            wr2 mm m n ((inp j i k l + inp j i l k - inp i j k l - inp i j l k) / 2)
          else if ((j <? i) && (l <? k))%nat then
            wr2 mm m n ((inp j i l k - inp j i k l - inp i j l k + inp i j k l) / 2)
          else mm), Ok tt)) (t4_mat d) in
  (t4_put d mm, r).
(** tensor4.rs:442-446 *)
Definition t4_from_std_array (inp : nat -> nat -> nat -> nat -> R) (r : rep) : res t4 :=
  match t4_set_std_array (t4_new r) inp with
  | (d, Ok _) => Ok d
  | (_, Err e) => Err e
  | (_, Panic) => Panic
  end.

(** tensor4.rs:458-560; [inp] is the 9x9 input *)
Definition t4_set_std_matrix (d : t4) (inp : nat -> nat -> R) : t4 * res unit :=
  let at_ := fun mn : nat * nat => inp (fst mn) (snd mn) in
  let dim := t4_dim d in
  let '(mm, r) :=
    if ((dim =? 4) || (dim =? 6))%nat then
      let max := if (dim =? 4)%nat then 3%nat else 6%nat in
      err_loop (fun i j k l mm =>
        let '(m, n) := IJKL_TO_MN i j k l in
        let pq := IJKL_TO_MN i j l k in
        let rs := IJKL_TO_MN j i k l in
        let uv := IJKL_TO_MN j i l k in
        if ((j <? i) || (l <? k))%nat then
          if negb (Reqb (inp m n) (at_ pq)) || negb (Reqb (inp m n) (at_ rs))
             || negb (Reqb (inp m n) (at_ uv))
          then (mm, Err "the input data does not correspond to a minor-symmetric tensor")
          else (mm, Ok tt)
        else if ((max <? m) || (max <? n))%nat then
            if negb (Reqb (inp m n) 0)
            then (mm, Err "the input data does not correspond to a 2D minor-symmetric tensor")
            else (mm, Ok tt)
          else if ((m <? 3) && (n <? 3))%nat then (wr2 mm m n (inp m n), Ok tt)
          else if ((2 <? m) && (2 <? n))%nat then (wr2 mm m n (2 * inp m n), Ok tt)
          else (wr2 mm m n (SQRT_2 * inp m n), Ok tt)) (t4_mat d)
    else
      err_loop (fun i j k l mm =>
        let '(m, n) := IJKL_TO_MN i j k l in
        let pq := IJKL_TO_MN i j l k in
        let rs := IJKL_TO_MN j i k l in
        let uv := IJKL_TO_MN j i l k in
        ((if ((i =? j) && (k =? l))%nat then wr2 mm m n (inp m n)
          else if ((i =? j) && (k <? l))%nat then wr2 mm m n ((inp m n + at_ pq) / SQRT_2)
          else if ((i =? j) && (l <? k))%nat then wr2 mm m n ((at_ pq - inp m n) / SQRT_2)
          else if ((i <? j) && (k =? l))%nat then wr2 mm m n ((inp m n + at_ rs) / SQRT_2)
          else if ((i <? j) && (k <? l))%nat then
            wr2 mm m n ((inp m n + at_ pq + at_ rs + at_ uv) / 2)
          else if ((i <? j) && (l <? k))%nat then
            wr2 mm m n ((at_ pq - inp m n + at_ uv - at_ rs) / 2)
          else if ((j <? i) && (k =? l))%nat then wr2 mm m n ((at_ rs - inp m n) / SQRT_2)
          else if ((j <? i) && (k <? l))%nat then
            wr2 mm m n ((at_ rs + at_ uv - inp m n - at_ pq) / 2)
          else if ((j <? i) && (l <? k))%nat then
            wr2 mm m n ((at_ uv - at_ rs - at_ pq + inp m n) / 2)
          else mm), Ok tt)) (t4_mat d) in
  (t4_put d mm, r).
(** tensor4.rs:605-612 *)
Definition t4_from_std_matrix (inp : nat -> nat -> R) (r : rep) : res t4 :=
  match t4_set_std_matrix (t4_new r) inp with
  | (d, Ok _) => Ok d
  | (_, Err e) => Err e
  | (_, Panic) => Panic
  end.

(** tensor4.rs:643-735 *)
Definition t4_get_std (d : t4) (i j k l : nat) : res R :=
  let g := t4_mat d in
  if negb ((i <? 3) && (j <? 3) && (k <? 3) && (l <? 3))%nat then Panic else
  Ok match t4_dim d with
     | 4%nat =>
         let '(m, n) := IJKL_TO_MN_SYM i j k l in
         if ((3 <? m) || (3 <? n))%nat then 0
         else if ((m <? 3) && (n <? 3))%nat then g m n
         else if ((2 <? m) && (2 <? n))%nat then g m n / 2
         else g m n / SQRT_2
     | 6%nat =>
         let '(m, n) := IJKL_TO_MN_SYM i j k l in
         if ((m <? 3) && (n <? 3))%nat then g m n
         else if ((2 <? m) && (2 <? n))%nat then g m n / 2
         else g m n / SQRT_2
     | _ =>
         let '(m, n) := IJKL_TO_MN i j k l in
         let val := g m n in
         let '(p, q) := IJKL_TO_MN i j l k in
         let '(r, s) := IJKL_TO_MN j i k l in
         let '(u, v) := IJKL_TO_MN j i l k in
         if ((i =? j) && (k =? l))%nat then val
         else if ((i =? j) && (k <? l))%nat then (val + g p q) / SQRT_2
         else if ((i =? j) && (l <? k))%nat then (g p q - val) / SQRT_2
         else if ((i <? j) && (k =? l))%nat then (val + g r s) / SQRT_2
         else if ((i <? j) && (k <? l))%nat then (val + g p q + g r s + g u v) / 2
         else if ((i <? j) && (l <? k))%nat then (g p q - val + g u v - g r s) / 2
         else if ((j <? i) && (k =? l))%nat then (g r s - val) / SQRT_2
         else if ((j <? i) && (k <? l))%nat then (g r s + g u v - val - g p q) / 2
         else (g u v - g r s - g p q + val) / 2
     end.
(** the value of `get_std` at indices known to be below 3 *)
Definition gs4 (d : t4) (i j k l : nat) : R := match t4_get_std d i j k l with Ok x => x | _ => 0 end.

(** tensor4.rs:783-790 *)
Definition t4_update (d : t4) (alpha : R) (other : t4) : res t4 :=
  _ <- assert_ (rep_eqb (t4_rep other) (t4_rep d)) ;;
  Ok (t4_put d (loop (t4_dim d) (fun m mm => loop (t4_dim d) (fun n mm =>
    wr2 mm m n (mm m n + alpha * t4_mat other m n)) mm) (t4_mat d))).
(** writing one position of a 3x3x3x3 array *)
Definition wr4 (x : nat -> nat -> nat -> nat -> R) (i j k l : nat) (e : R) : nat -> nat -> nat -> nat -> R :=
  fun i' j' k' l' => if ((i' =? i) && (j' =? j) && (k' =? k) && (l' =? l))%nat then e else x i' j' k' l'.
(** tensor4.rs:882-907 *)
Definition t4_to_std_array (d : t4) (dd : nat -> nat -> nat -> nat -> R) : nat -> nat -> nat -> nat -> R :=
  let dim := t4_dim d in
  if (dim <? 9)%nat then
    loop dim (fun m dd => loop dim (fun n dd =>
      let '(i, j, k, l) := MN_TO_IJKL m n in
      let dd := wr4 dd i j k l (gs4 d i j k l) in
      if negb (i =? j)%nat || negb (k =? l)%nat then
        let dd := wr4 dd j i k l (dd i j k l) in
        let dd := wr4 dd i j l k (dd i j k l) in
        wr4 dd j i l k (dd i j k l)
      else dd) dd) dd
  else
    loop 3 (fun i dd => loop 3 (fun j dd => loop 3 (fun k dd => loop 3 (fun l dd =>
      wr4 dd i j k l (gs4 d i j k l)) dd) dd) dd) dd.
(** tensor4.rs:841-845 *)
Definition t4_as_std_array (d : t4) : nat -> nat -> nat -> nat -> R := t4_to_std_array d (fun _ _ _ _ => 0).
(** tensor4.rs:994-1002 *)
Definition t4_to_std_matrix (d : t4) (out : (nat * nat) * (nat -> nat -> R)) : res ((nat * nat) * (nat -> nat -> R)) :=
  let '((nr, nc), mm) := out in
  _ <- assert_ ((nr =? 9) && (nc =? 9))%nat ;;
  Ok ((nr, nc), loop 9 (fun m mm => loop 9 (fun n mm =>
    let '(i, j, k, l) := MN_TO_IJKL m n in
    wr2 mm m n (gs4 d i j k l)) mm) mm).
(** tensor4.rs:944-948 *)
Definition t4_as_std_matrix (d : t4) : res ((nat * nat) * (nat -> nat -> R)) :=
  t4_to_std_matrix d ((9, 9)%nat, fun _ _ => 0).
(** tensor4.rs:1046-1056 *)
Definition t4_sym_set_std (d : t4) (i j k l : nat) (value : R) : res t4 :=
  _ <- assert_ (negb (rep_eqb (t4_rep d) General)) ;;
  if negb ((i <? 3) && (j <? 3) && (k <? 3) && (l <? 3))%nat then Panic else
  let '(m, n) := IJKL_TO_MN_SYM i j k l in
  Ok (t4_put d (if ((m <? 3) && (n <? 3))%nat then wr2 (t4_mat d) m n value
                else if ((2 <? m) && (2 <? n))%nat then wr2 (t4_mat d) m n (value * 2)
                else wr2 (t4_mat d) m n (value * SQRT_2))).
(** tensor4.rs:1095-1102 *)
Definition t4_set_tensor (d : t4) (alpha : R) (other : t4) : res t4 :=
  _ <- assert_ (rep_eqb (t4_rep other) (t4_rep d)) ;;
  Ok (t4_put d (loop (t4_dim d) (fun m mm => loop (t4_dim d) (fun n mm =>
    wr2 mm m n (alpha * t4_mat other m n)) mm) (t4_mat d))).

(** tensor4.rs:1128-1134 *)
Definition t4_constant_ii : t4 :=
  let d := t4_new General in t4_put d (loop 9 (fun m mm => wr2 mm m m 1) (t4_mat d)).
(** tensor4.rs:1161-1173 *)
Definition t4_constant_tt : t4 :=
  let d := t4_new General in
  let mm := t4_mat d in
  let mm := wr2 mm 0 0 1 in
  let mm := wr2 mm 1 1 1 in
  let mm := wr2 mm 2 2 1 in
  let mm := wr2 mm 3 3 1 in
  let mm := wr2 mm 4 4 1 in
  let mm := wr2 mm 5 5 1 in
  let mm := wr2 mm 6 6 (-1) in
  let mm := wr2 mm 7 7 (-1) in
  let mm := wr2 mm 8 8 (-1) in
  t4_put d mm.
(** the nine assignments to the top-left 3x3 block shared by the constants
    below: [x] on the diagonal, [y] off it *)
Definition wr_block (mm : nat -> nat -> R) (x y : R) : nat -> nat -> R :=
  let mm := wr2 mm 0 0 x in
  let mm := wr2 mm 0 1 y in
  let mm := wr2 mm 0 2 y in
  let mm := wr2 mm 1 0 y in
  let mm := wr2 mm 1 1 x in
  let mm := wr2 mm 1 2 y in
  let mm := wr2 mm 2 0 y in
  let mm := wr2 mm 2 1 y in
  wr2 mm 2 2 x.
(** tensor4.rs:1199-1215 *)
Definition t4_constant_jj (reduced_6x6 : bool) : t4 :=
  let d := if reduced_6x6 then t4_new Symmetric else t4_new General in
  t4_put d (wr_block (t4_mat d) 1 1).
(** tensor4.rs:1241-1257 *)
Definition t4_constant_pp_iso (reduced_6x6 : bool) : t4 :=
  let d := if reduced_6x6 then t4_new Symmetric else t4_new General in
  t4_put d (wr_block (t4_mat d) ONE_BY_3 ONE_BY_3).
(** tensor4.rs:1284-1297 *)
Definition t4_constant_pp_sym (reduced_6x6 : bool) : t4 :=
  let d := if reduced_6x6 then t4_new Symmetric else t4_new General in
  let mm := t4_mat d in
  let mm := wr2 mm 0 0 1 in
  let mm := wr2 mm 1 1 1 in
  let mm := wr2 mm 2 2 1 in
  let mm := wr2 mm 3 3 1 in
  let mm := wr2 mm 4 4 1 in
  let mm := wr2 mm 5 5 1 in
  t4_put d mm.
(** tensor4.rs:1324-1330 *)
Definition t4_constant_pp_skew : t4 :=
  let d := t4_new General in
  let mm := t4_mat d in
  let mm := wr2 mm 6 6 1 in
  let mm := wr2 mm 7 7 1 in
  let mm := wr2 mm 8 8 1 in
  t4_put d mm.
(** tensor4.rs:1356-1374 *)
Definition t4_constant_pp_dev : t4 :=
  let d := t4_new General in
  let mm := wr_block (t4_mat d) TWO_BY_3 (- ONE_BY_3) in
  let mm := wr2 mm 3 3 1 in
  let mm := wr2 mm 4 4 1 in
  let mm := wr2 mm 5 5 1 in
  let mm := wr2 mm 6 6 1 in
  let mm := wr2 mm 7 7 1 in
  let mm := wr2 mm 8 8 1 in
  t4_put d mm.
(** tensor4.rs:1401-1420 *)
Definition t4_constant_pp_symdev (reduced_6x6 : bool) : t4 :=
  let d := if reduced_6x6 then t4_new Symmetric else t4_new General in
  let mm := wr_block (t4_mat d) TWO_BY_3 (- ONE_BY_3) in
  let mm := wr2 mm 3 3 1 in
  let mm := wr2 mm 4 4 1 in
  let mm := wr2 mm 5 5 1 in
  t4_put d mm.
(** tensor4.rs:1447-1467 *)
Definition t4_set_pp_symdev (d : t4) : t4 :=
  let dim := t4_dim d in
  let mm := loop dim (fun m mm => loop dim (fun n mm => wr2 mm m n 0) mm) (t4_mat d) in
  let mm := wr_block mm TWO_BY_3 (- ONE_BY_3) in
  let mm := wr2 mm 3 3 1 in
  let mm := if (4 <? dim)%nat then let mm := wr2 mm 4 4 1 in wr2 mm 5 5 1 else mm in
  t4_put d mm.

(** small_mat_add.rs:58-74 with N = 9 *)
Definition small_mat_add (c : nat -> nat -> R) (alpha : R) (a : nat -> nat -> R) (beta : R) (b : nat -> nat -> R)
    (n : nat) : res (nat -> nat -> R) :=
  _ <- assert_ (n <=? 9)%nat ;;
  Ok (loop n (fun i c => loop n (fun j c => wr2 c i j (alpha * a i j + beta * b i j)) c) c).
(** small_mat_update.rs:52-62 with N = 9 *)
Definition small_mat_update (b : nat -> nat -> R) (alpha : R) (a : nat -> nat -> R) (n : nat) : res (nat -> nat -> R) :=
  _ <- assert_ (n <=? 9)%nat ;;
  Ok (loop n (fun i b => loop n (fun j b => wr2 b i j (b i j + alpha * a i j)) b) b).
(** small_mat_mat_mul.rs:56-76 with N = 9 *)
Definition small_mat_mat_mul (c : nat -> nat -> R) (alpha : R) (a b : nat -> nat -> R) (beta : R)
    (n : nat) : res (nat -> nat -> R) :=
  _ <- assert_ (n <=? 9)%nat ;;
  Ok (loop n (fun i c => loop n (fun j c =>
    let sum := loop n (fun k sum => sum + a i k * b k j) 0 in
    wr2 c i j (alpha * sum + beta * c i j)) c) c).

(** operations_t4.rs:21-33 *)
Definition t4_add (c : t4) (alpha : R) (a : t4) (beta : R) (b : t4) : res t4 :=
  _ <- assert_ (rep_eqb (t4_rep b) (t4_rep a)) ;;
  _ <- assert_ (rep_eqb (t4_rep c) (t4_rep a)) ;;
  mm <- small_mat_add (t4_mat c) alpha (t4_mat a) beta (t4_mat b) (t4_dim c) ;;
  Ok (t4_put c mm).
(** operations_t4.rs:124-136 *)
Definition t4_ddot_t4 (ee : t4) (alpha : R) (cc dd : t4) : res t4 :=
  _ <- assert_ (rep_eqb (t4_rep cc) (t4_rep dd)) ;;
  _ <- assert_ (rep_eqb (t4_rep ee) (t4_rep dd)) ;;
  mm <- small_mat_mat_mul (t4_mat ee) alpha (t4_mat cc) (t4_mat dd) 0 (t4_dim ee) ;;
  Ok (t4_put ee mm).
(** operations_t4.rs:174-186 *)
Definition t4_ddot_t4_update (ee : t4) (alpha : R) (cc dd : t4) (beta : R) : res t4 :=
  _ <- assert_ (rep_eqb (t4_rep cc) (t4_rep dd)) ;;
  _ <- assert_ (rep_eqb (t4_rep ee) (t4_rep dd)) ;;
  mm <- small_mat_mat_mul (t4_mat ee) alpha (t4_mat cc) (t4_mat dd) beta (t4_dim ee) ;;
  Ok (t4_put ee mm).

(** operations_mix1.rs:76-85 *)
Definition t2_dyad_t2 (dd : t4) (alpha : R) (a b : t2) : res t4 :=
  _ <- assert_ (rep_eqb (t2_rep a) (t4_rep dd)) ;;
  _ <- assert_ (rep_eqb (t2_rep b) (t4_rep dd)) ;;
  let dim := t4_dim dd in
  Ok (t4_put dd (loop dim (fun m mm => loop dim (fun n mm =>
    wr2 mm m n (alpha * t2_vec a m * t2_vec b n)) mm) (t4_mat dd))).
(** operations_mix1.rs:163-172 *)
Definition t2_dyad_t2_update (dd : t4) (alpha : R) (a b : t2) : res t4 :=
  _ <- assert_ (rep_eqb (t2_rep a) (t4_rep dd)) ;;
  _ <- assert_ (rep_eqb (t2_rep b) (t4_rep dd)) ;;
  let dim := t4_dim dd in
  Ok (t4_put dd (loop dim (fun m mm => loop dim (fun n mm =>
    wr2 mm m n (mm m n + alpha * t2_vec a m * t2_vec b n)) mm) (t4_mat dd))).
(** operations_mix1.rs:246-257 *)
Definition t4_ddot_t2 (b : t2) (alpha : R) (dd : t4) (a : t2) : res t2 :=
  _ <- assert_ (rep_eqb (t2_rep a) (t4_rep dd)) ;;
  _ <- assert_ (rep_eqb (t2_rep b) (t4_rep dd)) ;;
  let dim := t2_dim b in
  Ok (t2_put b (loop dim (fun m v =>
    let s := loop dim (fun n s => s + t4_mat dd m n * t2_vec a n) 0 in
    wr v m (alpha * s)) (t2_vec b))).
(** operations_mix1.rs:338-349 *)
Definition t4_ddot_t2_update (b : t2) (alpha : R) (dd : t4) (a : t2) (beta : R) : res t2 :=
  _ <- assert_ (rep_eqb (t2_rep a) (t4_rep dd)) ;;
  _ <- assert_ (rep_eqb (t2_rep b) (t4_rep dd)) ;;
  let dim := t2_dim b in
  Ok (t2_put b (loop dim (fun m v =>
    let s := loop dim (fun n s => s + t4_mat dd m n * t2_vec a n) 0 in
    wr v m (alpha * s + beta * v m)) (t2_vec b))).
(** operations_mix1.rs:418-429 *)
Definition t2_ddot_t4 (b : t2) (alpha : R) (a : t2) (dd : t4) : res t2 :=
  _ <- assert_ (rep_eqb (t2_rep a) (t4_rep dd)) ;;
  _ <- assert_ (rep_eqb (t2_rep b) (t4_rep dd)) ;;
  let dim := t2_dim b in
  Ok (t2_put b (loop dim (fun n v =>
    let s := loop dim (fun m s => s + t2_vec a m * t4_mat dd m n) 0 in
    wr v n (alpha * s)) (t2_vec b))).
(** operations_mix1.rs:468-479 *)
Definition t2_ddot_t4_ddot_t2 (a : t2) (dd : t4) (b : t2) : res R :=
  _ <- assert_ (rep_eqb (t2_rep a) (t4_rep dd)) ;;
  _ <- assert_ (rep_eqb (t2_rep b) (t4_rep dd)) ;;
  let dim := t2_dim a in
  Ok (loop dim (fun m s => loop dim (fun n s =>
    s + t2_vec a m * t4_mat dd m n * t2_vec b n) s) 0).
(** operations_mix1.rs:520-539 *)
Definition t4_ddot_t2_dyad_t2_ddot_t4 (ee : t4) (alpha : R) (dd : t4) (beta : R) (a b : t2) : res t4 :=
  _ <- assert_ (rep_eqb (t2_rep a) (t4_rep dd)) ;;
  _ <- assert_ (rep_eqb (t2_rep b) (t4_rep dd)) ;;
  _ <- assert_ (rep_eqb (t4_rep ee) (t4_rep dd)) ;;
  let dim := t2_dim a in
  let g := t4_mat dd in
  Ok (t4_put ee (loop dim (fun m mm => loop dim (fun n mm =>
    let mm := wr2 mm m n (alpha * g m n) in
    loop dim (fun p mm => loop dim (fun q mm =>
      wr2 mm m n (mm m n + beta * g m p * t2_vec a p * t2_vec b q * g q n)) mm) mm) mm) (t4_mat ee))).

(** operations_mix2.rs:36-314: the three arms, then the dispatch *)
Definition odyad4 (mm : nat -> nat -> R) (s : R) (a b : nat -> R) : nat -> nat -> R :=
  let tsq2 := 2 * SQRT_2 in
  let mm := wr2 mm 0 0 (s*a.[0]*b.[0]) in
  let mm := wr2 mm 0 1 (s*(a.[3]*b.[3])/2) in
  let mm := wr2 mm 0 2 (0) in
  let mm := wr2 mm 0 3 (s*(a.[3]*b.[0] + a.[0]*b.[3])/2) in
  let mm := wr2 mm 0 4 (0) in
  let mm := wr2 mm 0 5 (0) in
  let mm := wr2 mm 0 6 (s*(-(a.[3]*b.[0]) + a.[0]*b.[3])/2) in
  let mm := wr2 mm 0 7 (0) in
  let mm := wr2 mm 0 8 (0) in
  let mm := wr2 mm 1 0 (s*(a.[3]*b.[3])/2) in
  let mm := wr2 mm 1 1 (s*a.[1]*b.[1]) in
  let mm := wr2 mm 1 2 (0) in
  let mm := wr2 mm 1 3 (s*(a.[3]*b.[1] + a.[1]*b.[3])/2) in
  let mm := wr2 mm 1 4 (0) in
  let mm := wr2 mm 1 5 (0) in
  let mm := wr2 mm 1 6 (s*(a.[3]*b.[1] - a.[1]*b.[3])/2) in
  let mm := wr2 mm 1 7 (0) in
  let mm := wr2 mm 1 8 (0) in
  let mm := wr2 mm 2 0 (0) in
  let mm := wr2 mm 2 1 (0) in
  let mm := wr2 mm 2 2 (s*a.[2]*b.[2]) in
  let mm := wr2 mm 2 3 (0) in
  let mm := wr2 mm 2 4 (0) in
  let mm := wr2 mm 2 5 (0) in
  let mm := wr2 mm 2 6 (0) in
  let mm := wr2 mm 2 7 (0) in
  let mm := wr2 mm 2 8 (0) in
  let mm := wr2 mm 3 0 (s*(a.[3]*b.[0] + a.[0]*b.[3])/2) in
  let mm := wr2 mm 3 1 (s*(a.[3]*b.[1] + a.[1]*b.[3])/2) in
  let mm := wr2 mm 3 2 (0) in
  let mm := wr2 mm 3 3 (s*(a.[1]*b.[0] + a.[0]*b.[1] + a.[3]*b.[3])/2) in
  let mm := wr2 mm 3 4 (0) in
  let mm := wr2 mm 3 5 (0) in
  let mm := wr2 mm 3 6 (s*(-(a.[1]*b.[0]) + a.[0]*b.[1])/2) in
  let mm := wr2 mm 3 7 (0) in
  let mm := wr2 mm 3 8 (0) in
  let mm := wr2 mm 4 0 (0) in
  let mm := wr2 mm 4 1 (0) in
  let mm := wr2 mm 4 2 (0) in
  let mm := wr2 mm 4 3 (0) in
  let mm := wr2 mm 4 4 (s*(a.[2]*b.[1] + a.[1]*b.[2])/2) in
  let mm := wr2 mm 4 5 (s*(a.[3]*b.[2] + a.[2]*b.[3])/tsq2) in
  let mm := wr2 mm 4 6 (0) in
  let mm := wr2 mm 4 7 (s*(-(a.[2]*b.[1]) + a.[1]*b.[2])/2) in
  let mm := wr2 mm 4 8 (s*(a.[3]*b.[2] - a.[2]*b.[3])/tsq2) in
  let mm := wr2 mm 5 0 (0) in
  let mm := wr2 mm 5 1 (0) in
  let mm := wr2 mm 5 2 (0) in
  let mm := wr2 mm 5 3 (0) in
  let mm := wr2 mm 5 4 (s*(a.[3]*b.[2] + a.[2]*b.[3])/tsq2) in
  let mm := wr2 mm 5 5 (s*(a.[2]*b.[0] + a.[0]*b.[2])/2) in
  let mm := wr2 mm 5 6 (0) in
  let mm := wr2 mm 5 7 (s*(a.[3]*b.[2] - a.[2]*b.[3])/tsq2) in
  let mm := wr2 mm 5 8 (s*(-(a.[2]*b.[0]) + a.[0]*b.[2])/2) in
  let mm := wr2 mm 6 0 (s*(-(a.[3]*b.[0]) + a.[0]*b.[3])/2) in
  let mm := wr2 mm 6 1 (s*(a.[3]*b.[1] - a.[1]*b.[3])/2) in
  let mm := wr2 mm 6 2 (0) in
  let mm := wr2 mm 6 3 (s*(-(a.[1]*b.[0]) + a.[0]*b.[1])/2) in
  let mm := wr2 mm 6 4 (0) in
  let mm := wr2 mm 6 5 (0) in
  let mm := wr2 mm 6 6 (s*(a.[1]*b.[0] + a.[0]*b.[1] - a.[3]*b.[3])/2) in
  let mm := wr2 mm 6 7 (0) in
  let mm := wr2 mm 6 8 (0) in
  let mm := wr2 mm 7 0 (0) in
  let mm := wr2 mm 7 1 (0) in
  let mm := wr2 mm 7 2 (0) in
  let mm := wr2 mm 7 3 (0) in
  let mm := wr2 mm 7 4 (s*(-(a.[2]*b.[1]) + a.[1]*b.[2])/2) in
  let mm := wr2 mm 7 5 (s*(a.[3]*b.[2] - a.[2]*b.[3])/tsq2) in
  let mm := wr2 mm 7 6 (0) in
  let mm := wr2 mm 7 7 (s*(a.[2]*b.[1] + a.[1]*b.[2])/2) in
  let mm := wr2 mm 7 8 (s*(a.[3]*b.[2] + a.[2]*b.[3])/tsq2) in
  let mm := wr2 mm 8 0 (0) in
  let mm := wr2 mm 8 1 (0) in
  let mm := wr2 mm 8 2 (0) in
  let mm := wr2 mm 8 3 (0) in
  let mm := wr2 mm 8 4 (s*(a.[3]*b.[2] - a.[2]*b.[3])/tsq2) in
  let mm := wr2 mm 8 5 (s*(-(a.[2]*b.[0]) + a.[0]*b.[2])/2) in
  let mm := wr2 mm 8 6 (0) in
  let mm := wr2 mm 8 7 (s*(a.[3]*b.[2] + a.[2]*b.[3])/tsq2) in
  let mm := wr2 mm 8 8 (s*(a.[2]*b.[0] + a.[0]*b.[2])/2) in
  mm.
Definition odyad6 (mm : nat -> nat -> R) (s : R) (a b : nat -> R) : nat -> nat -> R :=
  let tsq2 := 2 * SQRT_2 in
  let mm := wr2 mm 0 0 (s*a.[0]*b.[0]) in
  let mm := wr2 mm 0 1 (s*(a.[3]*b.[3])/2) in
  let mm := wr2 mm 0 2 (s*(a.[5]*b.[5])/2) in
  let mm := wr2 mm 0 3 (s*(a.[3]*b.[0] + a.[0]*b.[3])/2) in
  let mm := wr2 mm 0 4 (s*(a.[5]*b.[3] + a.[3]*b.[5])/tsq2) in
  let mm := wr2 mm 0 5 (s*(a.[5]*b.[0] + a.[0]*b.[5])/2) in
  let mm := wr2 mm 0 6 (s*(-(a.[3]*b.[0]) + a.[0]*b.[3])/2) in
  let mm := wr2 mm 0 7 (s*(-(a.[5]*b.[3]) + a.[3]*b.[5])/tsq2) in
  let mm := wr2 mm 0 8 (s*(-(a.[5]*b.[0]) + a.[0]*b.[5])/2) in
  let mm := wr2 mm 1 0 (s*(a.[3]*b.[3])/2) in
  let mm := wr2 mm 1 1 (s*a.[1]*b.[1]) in
  let mm := wr2 mm 1 2 (s*(a.[4]*b.[4])/2) in
  let mm := wr2 mm 1 3 (s*(a.[3]*b.[1] + a.[1]*b.[3])/2) in
  let mm := wr2 mm 1 4 (s*(a.[4]*b.[1] + a.[1]*b.[4])/2) in
  let mm := wr2 mm 1 5 (s*(a.[4]*b.[3] + a.[3]*b.[4])/tsq2) in
  let mm := wr2 mm 1 6 (s*(a.[3]*b.[1] - a.[1]*b.[3])/2) in
  let mm := wr2 mm 1 7 (s*(-(a.[4]*b.[1]) + a.[1]*b.[4])/2) in
  let mm := wr2 mm 1 8 (s*(-(a.[4]*b.[3]) + a.[3]*b.[4])/tsq2) in
  let mm := wr2 mm 2 0 (s*(a.[5]*b.[5])/2) in
  let mm := wr2 mm 2 1 (s*(a.[4]*b.[4])/2) in
  let mm := wr2 mm 2 2 (s*a.[2]*b.[2]) in
  let mm := wr2 mm 2 3 (s*(a.[5]*b.[4] + a.[4]*b.[5])/tsq2) in
  let mm := wr2 mm 2 4 (s*(a.[4]*b.[2] + a.[2]*b.[4])/2) in
  let mm := wr2 mm 2 5 (s*(a.[5]*b.[2] + a.[2]*b.[5])/2) in
  let mm := wr2 mm 2 6 (s*(a.[5]*b.[4] - a.[4]*b.[5])/tsq2) in
  let mm := wr2 mm 2 7 (s*(a.[4]*b.[2] - a.[2]*b.[4])/2) in
  let mm := wr2 mm 2 8 (s*(a.[5]*b.[2] - a.[2]*b.[5])/2) in
  let mm := wr2 mm 3 0 (s*(a.[3]*b.[0] + a.[0]*b.[3])/2) in
  let mm := wr2 mm 3 1 (s*(a.[3]*b.[1] + a.[1]*b.[3])/2) in
  let mm := wr2 mm 3 2 (s*(a.[5]*b.[4] + a.[4]*b.[5])/tsq2) in
  let mm := wr2 mm 3 3 (s*(a.[1]*b.[0] + a.[0]*b.[1] + a.[3]*b.[3])/2) in
  let mm := wr2 mm 3 4 (s*(SQRT_2*a.[5]*b.[1] + a.[4]*b.[3] + a.[3]*b.[4] + SQRT_2*a.[1]*b.[5])/4) in
  let mm := wr2 mm 3 5 (s*(SQRT_2*a.[4]*b.[0] + a.[5]*b.[3] + SQRT_2*a.[0]*b.[4] + a.[3]*b.[5])/4) in
  let mm := wr2 mm 3 6 (s*(-(a.[1]*b.[0]) + a.[0]*b.[1])/2) in
  let mm := wr2 mm 3 7 (s*(-(SQRT_2*a.[5]*b.[1]) - a.[4]*b.[3] + a.[3]*b.[4] + SQRT_2*a.[1]*b.[5])/4) in
  let mm := wr2 mm 3 8 (s*(-(SQRT_2*a.[4]*b.[0]) - a.[5]*b.[3] + SQRT_2*a.[0]*b.[4] + a.[3]*b.[5])/4) in
  let mm := wr2 mm 4 0 (s*(a.[5]*b.[3] + a.[3]*b.[5])/tsq2) in
  let mm := wr2 mm 4 1 (s*(a.[4]*b.[1] + a.[1]*b.[4])/2) in
  let mm := wr2 mm 4 2 (s*(a.[4]*b.[2] + a.[2]*b.[4])/2) in
  let mm := wr2 mm 4 3 (s*(SQRT_2*a.[5]*b.[1] + a.[4]*b.[3] + a.[3]*b.[4] + SQRT_2*a.[1]*b.[5])/4) in
  let mm := wr2 mm 4 4 (s*(a.[2]*b.[1] + a.[1]*b.[2] + a.[4]*b.[4])/2) in
  let mm := wr2 mm 4 5 (s*(SQRT_2*a.[3]*b.[2] + SQRT_2*a.[2]*b.[3] + a.[5]*b.[4] + a.[4]*b.[5])/4) in
  let mm := wr2 mm 4 6 (s*(SQRT_2*a.[5]*b.[1] - a.[4]*b.[3] + a.[3]*b.[4] - SQRT_2*a.[1]*b.[5])/4) in
  let mm := wr2 mm 4 7 (s*(-(a.[2]*b.[1]) + a.[1]*b.[2])/2) in
  let mm := wr2 mm 4 8 (s*(SQRT_2*a.[3]*b.[2] - SQRT_2*a.[2]*b.[3] + a.[5]*b.[4] - a.[4]*b.[5])/4) in
  let mm := wr2 mm 5 0 (s*(a.[5]*b.[0] + a.[0]*b.[5])/2) in
  let mm := wr2 mm 5 1 (s*(a.[4]*b.[3] + a.[3]*b.[4])/tsq2) in
  let mm := wr2 mm 5 2 (s*(a.[5]*b.[2] + a.[2]*b.[5])/2) in
  let mm := wr2 mm 5 3 (s*(SQRT_2*a.[4]*b.[0] + a.[5]*b.[3] + SQRT_2*a.[0]*b.[4] + a.[3]*b.[5])/4) in
  let mm := wr2 mm 5 4 (s*(SQRT_2*a.[3]*b.[2] + SQRT_2*a.[2]*b.[3] + a.[5]*b.[4] + a.[4]*b.[5])/4) in
  let mm := wr2 mm 5 5 (s*(a.[2]*b.[0] + a.[0]*b.[2] + a.[5]*b.[5])/2) in
  let mm := wr2 mm 5 6 (s*(-(SQRT_2*a.[4]*b.[0]) + a.[5]*b.[3] + SQRT_2*a.[0]*b.[4] - a.[3]*b.[5])/4) in
  let mm := wr2 mm 5 7 (s*(SQRT_2*a.[3]*b.[2] - SQRT_2*a.[2]*b.[3] - a.[5]*b.[4] + a.[4]*b.[5])/4) in
  let mm := wr2 mm 5 8 (s*(-(a.[2]*b.[0]) + a.[0]*b.[2])/2) in
  let mm := wr2 mm 6 0 (s*(-(a.[3]*b.[0]) + a.[0]*b.[3])/2) in
  let mm := wr2 mm 6 1 (s*(a.[3]*b.[1] - a.[1]*b.[3])/2) in
  let mm := wr2 mm 6 2 (s*(a.[5]*b.[4] - a.[4]*b.[5])/tsq2) in
  let mm := wr2 mm 6 3 (s*(-(a.[1]*b.[0]) + a.[0]*b.[1])/2) in
  let mm := wr2 mm 6 4 (s*(SQRT_2*a.[5]*b.[1] - a.[4]*b.[3] + a.[3]*b.[4] - SQRT_2*a.[1]*b.[5])/4) in
  let mm := wr2 mm 6 5 (s*(-(SQRT_2*a.[4]*b.[0]) + a.[5]*b.[3] + SQRT_2*a.[0]*b.[4] - a.[3]*b.[5])/4) in
  let mm := wr2 mm 6 6 (s*(a.[1]*b.[0] + a.[0]*b.[1] - a.[3]*b.[3])/2) in
  let mm := wr2 mm 6 7 (s*(-(SQRT_2*a.[5]*b.[1]) + a.[4]*b.[3] + a.[3]*b.[4] - SQRT_2*a.[1]*b.[5])/4) in
  let mm := wr2 mm 6 8 (s*(SQRT_2*a.[4]*b.[0] - a.[5]*b.[3] + SQRT_2*a.[0]*b.[4] - a.[3]*b.[5])/4) in
  let mm := wr2 mm 7 0 (s*(-(a.[5]*b.[3]) + a.[3]*b.[5])/tsq2) in
  let mm := wr2 mm 7 1 (s*(-(a.[4]*b.[1]) + a.[1]*b.[4])/2) in
  let mm := wr2 mm 7 2 (s*(a.[4]*b.[2] - a.[2]*b.[4])/2) in
  let mm := wr2 mm 7 3 (s*(-(SQRT_2*a.[5]*b.[1]) - a.[4]*b.[3] + a.[3]*b.[4] + SQRT_2*a.[1]*b.[5])/4) in
  let mm := wr2 mm 7 4 (s*(-(a.[2]*b.[1]) + a.[1]*b.[2])/2) in
  let mm := wr2 mm 7 5 (s*(SQRT_2*a.[3]*b.[2] - SQRT_2*a.[2]*b.[3] - a.[5]*b.[4] + a.[4]*b.[5])/4) in
  let mm := wr2 mm 7 6 (s*(-(SQRT_2*a.[5]*b.[1]) + a.[4]*b.[3] + a.[3]*b.[4] - SQRT_2*a.[1]*b.[5])/4) in
  let mm := wr2 mm 7 7 (s*(a.[2]*b.[1] + a.[1]*b.[2] - a.[4]*b.[4])/2) in
  let mm := wr2 mm 7 8 (s*(SQRT_2*a.[3]*b.[2] + SQRT_2*a.[2]*b.[3] - a.[5]*b.[4] - a.[4]*b.[5])/4) in
  let mm := wr2 mm 8 0 (s*(-(a.[5]*b.[0]) + a.[0]*b.[5])/2) in
  let mm := wr2 mm 8 1 (s*(-(a.[4]*b.[3]) + a.[3]*b.[4])/tsq2) in
  let mm := wr2 mm 8 2 (s*(a.[5]*b.[2] - a.[2]*b.[5])/2) in
  let mm := wr2 mm 8 3 (s*(-(SQRT_2*a.[4]*b.[0]) - a.[5]*b.[3] + SQRT_2*a.[0]*b.[4] + a.[3]*b.[5])/4) in
  let mm := wr2 mm 8 4 (s*(SQRT_2*a.[3]*b.[2] - SQRT_2*a.[2]*b.[3] + a.[5]*b.[4] - a.[4]*b.[5])/4) in
  let mm := wr2 mm 8 5 (s*(-(a.[2]*b.[0]) + a.[0]*b.[2])/2) in
  let mm := wr2 mm 8 6 (s*(SQRT_2*a.[4]*b.[0] - a.[5]*b.[3] + SQRT_2*a.[0]*b.[4] - a.[3]*b.[5])/4) in
  let mm := wr2 mm 8 7 (s*(SQRT_2*a.[3]*b.[2] + SQRT_2*a.[2]*b.[3] - a.[5]*b.[4] - a.[4]*b.[5])/4) in
  let mm := wr2 mm 8 8 (s*(a.[2]*b.[0] + a.[0]*b.[2] - a.[5]*b.[5])/2) in
  mm.
Definition odyad9 (mm : nat -> nat -> R) (s : R) (a b : nat -> R) : nat -> nat -> R :=
  let tsq2 := 2 * SQRT_2 in
  let mm := wr2 mm 0 0 (s*a.[0]*b.[0]) in
  let mm := wr2 mm 0 1 (s*((a.[3] + a.[6])*(b.[3] + b.[6]))/2) in
  let mm := wr2 mm 0 2 (s*((a.[5] + a.[8])*(b.[5] + b.[8]))/2) in
  let mm := wr2 mm 0 3 (s*(a.[3]*b.[0] + a.[6]*b.[0] + a.[0]*(b.[3] + b.[6]))/2) in
  let mm := wr2 mm 0 4 (s*((a.[5] + a.[8])*(b.[3] + b.[6]) + (a.[3] + a.[6])*(b.[5] + b.[8]))/tsq2) in
  let mm := wr2 mm 0 5 (s*(a.[5]*b.[0] + a.[8]*b.[0] + a.[0]*(b.[5] + b.[8]))/2) in
  let mm := wr2 mm 0 6 (s*(-(a.[3]*b.[0]) - a.[6]*b.[0] + a.[0]*(b.[3] + b.[6]))/2) in
  let mm := wr2 mm 0 7 (s*(-((a.[5] + a.[8])*(b.[3] + b.[6])) + (a.[3] + a.[6])*(b.[5] + b.[8]))/tsq2) in
  let mm := wr2 mm 0 8 (s*(-(a.[5]*b.[0]) - a.[8]*b.[0] + a.[0]*(b.[5] + b.[8]))/2) in
  let mm := wr2 mm 1 0 (s*((a.[3] - a.[6])*(b.[3] - b.[6]))/2) in
  let mm := wr2 mm 1 1 (s*a.[1]*b.[1]) in
  let mm := wr2 mm 1 2 (s*((a.[4] + a.[7])*(b.[4] + b.[7]))/2) in
  let mm := wr2 mm 1 3 (s*(a.[3]*b.[1] - a.[6]*b.[1] + a.[1]*(b.[3] - b.[6]))/2) in
  let mm := wr2 mm 1 4 (s*(a.[4]*b.[1] + a.[7]*b.[1] + a.[1]*(b.[4] + b.[7]))/2) in
  let mm := wr2 mm 1 5 (s*((a.[4] + a.[7])*(b.[3] - b.[6]) + (a.[3] - a.[6])*(b.[4] + b.[7]))/tsq2) in
  let mm := wr2 mm 1 6 (s*(a.[3]*b.[1] - a.[6]*b.[1] + a.[1]*(-b.[3] + b.[6]))/2) in
  let mm := wr2 mm 1 7 (s*(-(a.[4]*b.[1]) - a.[7]*b.[1] + a.[1]*(b.[4] + b.[7]))/2) in
  let mm := wr2 mm 1 8 (s*(-((a.[4] + a.[7])*(b.[3] - b.[6])) + (a.[3] - a.[6])*(b.[4] + b.[7]))/tsq2) in
  let mm := wr2 mm 2 0 (s*((a.[5] - a.[8])*(b.[5] - b.[8]))/2) in
  let mm := wr2 mm 2 1 (s*((a.[4] - a.[7])*(b.[4] - b.[7]))/2) in
  let mm := wr2 mm 2 2 (s*a.[2]*b.[2]) in
  let mm := wr2 mm 2 3 (s*((a.[5] - a.[8])*(b.[4] - b.[7]) + (a.[4] - a.[7])*(b.[5] - b.[8]))/tsq2) in
  let mm := wr2 mm 2 4 (s*(a.[4]*b.[2] - a.[7]*b.[2] + a.[2]*(b.[4] - b.[7]))/2) in
  let mm := wr2 mm 2 5 (s*(a.[5]*b.[2] - a.[8]*b.[2] + a.[2]*(b.[5] - b.[8]))/2) in
  let mm := wr2 mm 2 6 (s*((a.[5] - a.[8])*(b.[4] - b.[7]) - (a.[4] - a.[7])*(b.[5] - b.[8]))/tsq2) in
  let mm := wr2 mm 2 7 (s*(a.[4]*b.[2] - a.[7]*b.[2] + a.[2]*(-b.[4] + b.[7]))/2) in
  let mm := wr2 mm 2 8 (s*(a.[5]*b.[2] - a.[8]*b.[2] + a.[2]*(-b.[5] + b.[8]))/2) in
  let mm := wr2 mm 3 0 (s*(a.[3]*b.[0] - a.[6]*b.[0] + a.[0]*(b.[3] - b.[6]))/2) in
  let mm := wr2 mm 3 1 (s*(a.[3]*b.[1] + a.[6]*b.[1] + a.[1]*(b.[3] + b.[6]))/2) in
  let mm := wr2 mm 3 2 (s*((a.[5] + a.[8])*(b.[4] + b.[7]) + (a.[4] + a.[7])*(b.[5] + b.[8]))/tsq2) in
  let mm := wr2 mm 3 3 (s*(a.[1]*b.[0] + a.[0]*b.[1] + a.[3]*b.[3] - a.[6]*b.[6])/2) in
  let mm := wr2 mm 3 4 (s*(SQRT_2*(a.[5] + a.[8])*b.[1] + (a.[4] + a.[7])*(b.[3] + b.[6]) + (a.[3] + a.[6])*(b.[4] + b.[7]) + SQRT_2*a.[1]*(b.[5] + b.[8]))/4) in
  let mm := wr2 mm 3 5 (s*(SQRT_2*(a.[4] + a.[7])*b.[0] + (a.[5] + a.[8])*(b.[3] - b.[6]) + SQRT_2*a.[0]*(b.[4] + b.[7]) + (a.[3] - a.[6])*(b.[5] + b.[8]))/4) in
  let mm := wr2 mm 3 6 (s*(-(a.[1]*b.[0]) + a.[0]*b.[1] - a.[6]*b.[3] + a.[3]*b.[6])/2) in
  let mm := wr2 mm 3 7 (s*(-(SQRT_2*(a.[5] + a.[8])*b.[1]) - (a.[4] + a.[7])*(b.[3] + b.[6]) + (a.[3] + a.[6])*(b.[4] + b.[7]) + SQRT_2*a.[1]*(b.[5] + b.[8]))/4) in
  let mm := wr2 mm 3 8 (s*(-(SQRT_2*(a.[4] + a.[7])*b.[0]) - (a.[5] + a.[8])*(b.[3] - b.[6]) + SQRT_2*a.[0]*(b.[4] + b.[7]) + (a.[3] - a.[6])*(b.[5] + b.[8]))/4) in
  let mm := wr2 mm 4 0 (s*((a.[5] - a.[8])*(b.[3] - b.[6]) + (a.[3] - a.[6])*(b.[5] - b.[8]))/tsq2) in
  let mm := wr2 mm 4 1 (s*(a.[4]*b.[1] - a.[7]*b.[1] + a.[1]*(b.[4] - b.[7]))/2) in
  let mm := wr2 mm 4 2 (s*(a.[4]*b.[2] + a.[7]*b.[2] + a.[2]*(b.[4] + b.[7]))/2) in
  let mm := wr2 mm 4 3 (s*(SQRT_2*(a.[5] - a.[8])*b.[1] + (a.[4] - a.[7])*(b.[3] - b.[6]) + (a.[3] - a.[6])*(b.[4] - b.[7]) + SQRT_2*a.[1]*(b.[5] - b.[8]))/4) in
  let mm := wr2 mm 4 4 (s*(a.[2]*b.[1] + a.[1]*b.[2] + a.[4]*b.[4] - a.[7]*b.[7])/2) in
  let mm := wr2 mm 4 5 (s*(SQRT_2*(a.[3] - a.[6])*b.[2] + SQRT_2*a.[2]*(b.[3] - b.[6]) + (a.[5] - a.[8])*(b.[4] + b.[7]) + (a.[4] + a.[7])*(b.[5] - b.[8]))/4) in
  let mm := wr2 mm 4 6 (s*(SQRT_2*(a.[5] - a.[8])*b.[1] - (a.[4] - a.[7])*(b.[3] - b.[6]) + (a.[3] - a.[6])*(b.[4] - b.[7]) - SQRT_2*a.[1]*(b.[5] - b.[8]))/4) in
  let mm := wr2 mm 4 7 (s*(-(a.[2]*b.[1]) + a.[1]*b.[2] - a.[7]*b.[4] + a.[4]*b.[7])/2) in
  let mm := wr2 mm 4 8 (s*(SQRT_2*(a.[3] - a.[6])*b.[2] - SQRT_2*a.[2]*(b.[3] - b.[6]) + (a.[5] - a.[8])*(b.[4] + b.[7]) - (a.[4] + a.[7])*(b.[5] - b.[8]))/4) in
  let mm := wr2 mm 5 0 (s*(a.[5]*b.[0] - a.[8]*b.[0] + a.[0]*(b.[5] - b.[8]))/2) in
  let mm := wr2 mm 5 1 (s*((a.[4] - a.[7])*(b.[3] + b.[6]) + (a.[3] + a.[6])*(b.[4] - b.[7]))/tsq2) in
  let mm := wr2 mm 5 2 (s*(a.[5]*b.[2] + a.[8]*b.[2] + a.[2]*(b.[5] + b.[8]))/2) in
  let mm := wr2 mm 5 3 (s*(SQRT_2*(a.[4] - a.[7])*b.[0] + (a.[5] - a.[8])*(b.[3] + b.[6]) + SQRT_2*a.[0]*(b.[4] - b.[7]) + (a.[3] + a.[6])*(b.[5] - b.[8]))/4) in
  let mm := wr2 mm 5 4 (s*(SQRT_2*(a.[3] + a.[6])*b.[2] + SQRT_2*a.[2]*(b.[3] + b.[6]) + (a.[5] + a.[8])*(b.[4] - b.[7]) + (a.[4] - a.[7])*(b.[5] + b.[8]))/4) in
  let mm := wr2 mm 5 5 (s*(a.[2]*b.[0] + a.[0]*b.[2] + a.[5]*b.[5] - a.[8]*b.[8])/2) in
  let mm := wr2 mm 5 6 (s*(-(SQRT_2*(a.[4] - a.[7])*b.[0]) + (a.[5] - a.[8])*(b.[3] + b.[6]) + SQRT_2*a.[0]*(b.[4] - b.[7]) - (a.[3] + a.[6])*(b.[5] - b.[8]))/4) in
  let mm := wr2 mm 5 7 (s*(SQRT_2*(a.[3] + a.[6])*b.[2] - SQRT_2*a.[2]*(b.[3] + b.[6]) - (a.[5] + a.[8])*(b.[4] - b.[7]) + (a.[4] - a.[7])*(b.[5] + b.[8]))/4) in
  let mm := wr2 mm 5 8 (s*(-(a.[2]*b.[0]) + a.[0]*b.[2] - a.[8]*b.[5] + a.[5]*b.[8])/2) in
  let mm := wr2 mm 6 0 (s*(-(a.[3]*b.[0]) + a.[6]*b.[0] + a.[0]*(b.[3] - b.[6]))/2) in
  let mm := wr2 mm 6 1 (s*(a.[3]*b.[1] + a.[6]*b.[1] - a.[1]*(b.[3] + b.[6]))/2) in
  let mm := wr2 mm 6 2 (s*((a.[5] + a.[8])*(b.[4] + b.[7]) - (a.[4] + a.[7])*(b.[5] + b.[8]))/tsq2) in
  let mm := wr2 mm 6 3 (s*(-(a.[1]*b.[0]) + a.[0]*b.[1] + a.[6]*b.[3] - a.[3]*b.[6])/2) in
  let mm := wr2 mm 6 4 (s*(SQRT_2*(a.[5] + a.[8])*b.[1] - (a.[4] + a.[7])*(b.[3] + b.[6]) + (a.[3] + a.[6])*(b.[4] + b.[7]) - SQRT_2*a.[1]*(b.[5] + b.[8]))/4) in
  let mm := wr2 mm 6 5 (s*(-(SQRT_2*(a.[4] + a.[7])*b.[0]) + (a.[5] + a.[8])*(b.[3] - b.[6]) + SQRT_2*a.[0]*(b.[4] + b.[7]) - (a.[3] - a.[6])*(b.[5] + b.[8]))/4) in
  let mm := wr2 mm 6 6 (s*(a.[1]*b.[0] + a.[0]*b.[1] - a.[3]*b.[3] + a.[6]*b.[6])/2) in
  let mm := wr2 mm 6 7 (s*(-(SQRT_2*(a.[5] + a.[8])*b.[1]) + (a.[4] + a.[7])*(b.[3] + b.[6]) + (a.[3] + a.[6])*(b.[4] + b.[7]) - SQRT_2*a.[1]*(b.[5] + b.[8]))/4) in
  let mm := wr2 mm 6 8 (s*(SQRT_2*(a.[4] + a.[7])*b.[0] - (a.[5] + a.[8])*(b.[3] - b.[6]) + SQRT_2*a.[0]*(b.[4] + b.[7]) - (a.[3] - a.[6])*(b.[5] + b.[8]))/4) in
  let mm := wr2 mm 7 0 (s*(-((a.[5] - a.[8])*(b.[3] - b.[6])) + (a.[3] - a.[6])*(b.[5] - b.[8]))/tsq2) in
  let mm := wr2 mm 7 1 (s*(-(a.[4]*b.[1]) + a.[7]*b.[1] + a.[1]*(b.[4] - b.[7]))/2) in
  let mm := wr2 mm 7 2 (s*(a.[4]*b.[2] + a.[7]*b.[2] - a.[2]*(b.[4] + b.[7]))/2) in
  let mm := wr2 mm 7 3 (s*(-(SQRT_2*(a.[5] - a.[8])*b.[1]) - (a.[4] - a.[7])*(b.[3] - b.[6]) + (a.[3] - a.[6])*(b.[4] - b.[7]) + SQRT_2*a.[1]*(b.[5] - b.[8]))/4) in
  let mm := wr2 mm 7 4 (s*(-(a.[2]*b.[1]) + a.[1]*b.[2] + a.[7]*b.[4] - a.[4]*b.[7])/2) in
  let mm := wr2 mm 7 5 (s*(SQRT_2*(a.[3] - a.[6])*b.[2] - SQRT_2*a.[2]*(b.[3] - b.[6]) - (a.[5] - a.[8])*(b.[4] + b.[7]) + (a.[4] + a.[7])*(b.[5] - b.[8]))/4) in
  let mm := wr2 mm 7 6 (s*(-(SQRT_2*(a.[5] - a.[8])*b.[1]) + (a.[4] - a.[7])*(b.[3] - b.[6]) + (a.[3] - a.[6])*(b.[4] - b.[7]) - SQRT_2*a.[1]*(b.[5] - b.[8]))/4) in
  let mm := wr2 mm 7 7 (s*(a.[2]*b.[1] + a.[1]*b.[2] - a.[4]*b.[4] + a.[7]*b.[7])/2) in
  let mm := wr2 mm 7 8 (s*(SQRT_2*(a.[3] - a.[6])*b.[2] + SQRT_2*a.[2]*(b.[3] - b.[6]) - (a.[5] - a.[8])*(b.[4] + b.[7]) - (a.[4] + a.[7])*(b.[5] - b.[8]))/4) in
  let mm := wr2 mm 8 0 (s*(-(a.[5]*b.[0]) + a.[8]*b.[0] + a.[0]*(b.[5] - b.[8]))/2) in
  let mm := wr2 mm 8 1 (s*(-((a.[4] - a.[7])*(b.[3] + b.[6])) + (a.[3] + a.[6])*(b.[4] - b.[7]))/tsq2) in
  let mm := wr2 mm 8 2 (s*(a.[5]*b.[2] + a.[8]*b.[2] - a.[2]*(b.[5] + b.[8]))/2) in
  let mm := wr2 mm 8 3 (s*(-(SQRT_2*(a.[4] - a.[7])*b.[0]) - (a.[5] - a.[8])*(b.[3] + b.[6]) + SQRT_2*a.[0]*(b.[4] - b.[7]) + (a.[3] + a.[6])*(b.[5] - b.[8]))/4) in
  let mm := wr2 mm 8 4 (s*(SQRT_2*(a.[3] + a.[6])*b.[2] - SQRT_2*a.[2]*(b.[3] + b.[6]) + (a.[5] + a.[8])*(b.[4] - b.[7]) - (a.[4] - a.[7])*(b.[5] + b.[8]))/4) in
  let mm := wr2 mm 8 5 (s*(-(a.[2]*b.[0]) + a.[0]*b.[2] + a.[8]*b.[5] - a.[5]*b.[8])/2) in
  let mm := wr2 mm 8 6 (s*(SQRT_2*(a.[4] - a.[7])*b.[0] - (a.[5] - a.[8])*(b.[3] + b.[6]) + SQRT_2*a.[0]*(b.[4] - b.[7]) - (a.[3] + a.[6])*(b.[5] - b.[8]))/4) in
  let mm := wr2 mm 8 7 (s*(SQRT_2*(a.[3] + a.[6])*b.[2] + SQRT_2*a.[2]*(b.[3] + b.[6]) - (a.[5] + a.[8])*(b.[4] - b.[7]) - (a.[4] - a.[7])*(b.[5] + b.[8]))/4) in
  let mm := wr2 mm 8 8 (s*(a.[2]*b.[0] + a.[0]*b.[2] - a.[5]*b.[5] + a.[8]*b.[8])/2) in
  mm.
Definition t2_odyad_t2 (dd : t4) (s : R) (aa bb : t2) : res t4 :=
  _ <- assert_ (rep_eqb (t4_rep dd) General) ;;
  _ <- assert_ (rep_eqb (t2_rep bb) (t2_rep aa)) ;;
  let dim := t2_dim aa in
  Ok (t4_put dd (if (dim =? 4)%nat then odyad4 (t4_mat dd) s (t2_vec aa) (t2_vec bb)
                 else if (dim =? 6)%nat then odyad6 (t4_mat dd) s (t2_vec aa) (t2_vec bb)
                 else odyad9 (t4_mat dd) s (t2_vec aa) (t2_vec bb))).

(** operations_mix2.rs:348-626 *)
Definition udyad4 (mm : nat -> nat -> R) (s : R) (a b : nat -> R) : nat -> nat -> R :=
  let tsq2 := 2 * SQRT_2 in
  let mm := wr2 mm 0 0 (s*a.[0]*b.[0]) in
  let mm := wr2 mm 0 1 (s*(a.[3]*b.[3])/2) in
  let mm := wr2 mm 0 2 (0) in
  let mm := wr2 mm 0 3 (s*(a.[3]*b.[0] + a.[0]*b.[3])/2) in
  let mm := wr2 mm 0 4 (0) in
  let mm := wr2 mm 0 5 (0) in
  let mm := wr2 mm 0 6 (s*(a.[3]*b.[0] - a.[0]*b.[3])/2) in
  let mm := wr2 mm 0 7 (0) in
  let mm := wr2 mm 0 8 (0) in
  let mm := wr2 mm 1 0 (s*(a.[3]*b.[3])/2) in
  let mm := wr2 mm 1 1 (s*a.[1]*b.[1]) in
  let mm := wr2 mm 1 2 (0) in
  let mm := wr2 mm 1 3 (s*(a.[3]*b.[1] + a.[1]*b.[3])/2) in
  let mm := wr2 mm 1 4 (0) in
  let mm := wr2 mm 1 5 (0) in
  let mm := wr2 mm 1 6 (s*(-(a.[3]*b.[1]) + a.[1]*b.[3])/2) in
  let mm := wr2 mm 1 7 (0) in
  let mm := wr2 mm 1 8 (0) in
  let mm := wr2 mm 2 0 (0) in
  let mm := wr2 mm 2 1 (0) in
  let mm := wr2 mm 2 2 (s*a.[2]*b.[2]) in
  let mm := wr2 mm 2 3 (0) in
  let mm := wr2 mm 2 4 (0) in
  let mm := wr2 mm 2 5 (0) in
  let mm := wr2 mm 2 6 (0) in
  let mm := wr2 mm 2 7 (0) in
  let mm := wr2 mm 2 8 (0) in
  let mm := wr2 mm 3 0 (s*(a.[3]*b.[0] + a.[0]*b.[3])/2) in
  let mm := wr2 mm 3 1 (s*(a.[3]*b.[1] + a.[1]*b.[3])/2) in
  let mm := wr2 mm 3 2 (0) in
  let mm := wr2 mm 3 3 (s*(a.[1]*b.[0] + a.[0]*b.[1] + a.[3]*b.[3])/2) in
  let mm := wr2 mm 3 4 (0) in
  let mm := wr2 mm 3 5 (0) in
  let mm := wr2 mm 3 6 (s*(a.[1]*b.[0] - a.[0]*b.[1])/2) in
  let mm := wr2 mm 3 7 (0) in
  let mm := wr2 mm 3 8 (0) in
  let mm := wr2 mm 4 0 (0) in
  let mm := wr2 mm 4 1 (0) in
  let mm := wr2 mm 4 2 (0) in
  let mm := wr2 mm 4 3 (0) in
  let mm := wr2 mm 4 4 (s*(a.[2]*b.[1] + a.[1]*b.[2])/2) in
  let mm := wr2 mm 4 5 (s*(a.[3]*b.[2] + a.[2]*b.[3])/tsq2) in
  let mm := wr2 mm 4 6 (0) in
  let mm := wr2 mm 4 7 (s*(a.[2]*b.[1] - a.[1]*b.[2])/2) in
  let mm := wr2 mm 4 8 (s*(-(a.[3]*b.[2]) + a.[2]*b.[3])/tsq2) in
  let mm := wr2 mm 5 0 (0) in
  let mm := wr2 mm 5 1 (0) in
  let mm := wr2 mm 5 2 (0) in
  let mm := wr2 mm 5 3 (0) in
  let mm := wr2 mm 5 4 (s*(a.[3]*b.[2] + a.[2]*b.[3])/tsq2) in
  let mm := wr2 mm 5 5 (s*(a.[2]*b.[0] + a.[0]*b.[2])/2) in
  let mm := wr2 mm 5 6 (0) in
  let mm := wr2 mm 5 7 (s*(-(a.[3]*b.[2]) + a.[2]*b.[3])/tsq2) in
  let mm := wr2 mm 5 8 (s*(a.[2]*b.[0] - a.[0]*b.[2])/2) in
  let mm := wr2 mm 6 0 (s*(-(a.[3]*b.[0]) + a.[0]*b.[3])/2) in
  let mm := wr2 mm 6 1 (s*(a.[3]*b.[1] - a.[1]*b.[3])/2) in
  let mm := wr2 mm 6 2 (0) in
  let mm := wr2 mm 6 3 (s*(-(a.[1]*b.[0]) + a.[0]*b.[1])/2) in
  let mm := wr2 mm 6 4 (0) in
  let mm := wr2 mm 6 5 (0) in
  let mm := wr2 mm 6 6 (s*(-(a.[1]*b.[0]) - a.[0]*b.[1] + a.[3]*b.[3])/2) in
  let mm := wr2 mm 6 7 (0) in
  let mm := wr2 mm 6 8 (0) in
  let mm := wr2 mm 7 0 (0) in
  let mm := wr2 mm 7 1 (0) in
  let mm := wr2 mm 7 2 (0) in
  let mm := wr2 mm 7 3 (0) in
  let mm := wr2 mm 7 4 (s*(-(a.[2]*b.[1]) + a.[1]*b.[2])/2) in
  let mm := wr2 mm 7 5 (s*(a.[3]*b.[2] - a.[2]*b.[3])/tsq2) in
  let mm := wr2 mm 7 6 (0) in
  let mm := wr2 mm 7 7 (s*(-(a.[2]*b.[1]) - a.[1]*b.[2])/2) in
  let mm := wr2 mm 7 8 (s*(-(a.[3]*b.[2] + a.[2]*b.[3])/tsq2)) in
  let mm := wr2 mm 8 0 (0) in
  let mm := wr2 mm 8 1 (0) in
  let mm := wr2 mm 8 2 (0) in
  let mm := wr2 mm 8 3 (0) in
  let mm := wr2 mm 8 4 (s*(a.[3]*b.[2] - a.[2]*b.[3])/tsq2) in
  let mm := wr2 mm 8 5 (s*(-(a.[2]*b.[0]) + a.[0]*b.[2])/2) in
  let mm := wr2 mm 8 6 (0) in
  let mm := wr2 mm 8 7 (s*(-(a.[3]*b.[2] + a.[2]*b.[3])/tsq2)) in
  let mm := wr2 mm 8 8 (s*(-(a.[2]*b.[0]) - a.[0]*b.[2])/2) in
  mm.
Definition udyad6 (mm : nat -> nat -> R) (s : R) (a b : nat -> R) : nat -> nat -> R :=
  let tsq2 := 2 * SQRT_2 in
  let mm := wr2 mm 0 0 (s*a.[0]*b.[0]) in
  let mm := wr2 mm 0 1 (s*(a.[3]*b.[3])/2) in
  let mm := wr2 mm 0 2 (s*(a.[5]*b.[5])/2) in
  let mm := wr2 mm 0 3 (s*(a.[3]*b.[0] + a.[0]*b.[3])/2) in
  let mm := wr2 mm 0 4 (s*(a.[5]*b.[3] + a.[3]*b.[5])/tsq2) in
  let mm := wr2 mm 0 5 (s*(a.[5]*b.[0] + a.[0]*b.[5])/2) in
  let mm := wr2 mm 0 6 (s*(a.[3]*b.[0] - a.[0]*b.[3])/2) in
  let mm := wr2 mm 0 7 (s*(a.[5]*b.[3] - a.[3]*b.[5])/tsq2) in
  let mm := wr2 mm 0 8 (s*(a.[5]*b.[0] - a.[0]*b.[5])/2) in
  let mm := wr2 mm 1 0 (s*(a.[3]*b.[3])/2) in
  let mm := wr2 mm 1 1 (s*a.[1]*b.[1]) in
  let mm := wr2 mm 1 2 (s*(a.[4]*b.[4])/2) in
  let mm := wr2 mm 1 3 (s*(a.[3]*b.[1] + a.[1]*b.[3])/2) in
  let mm := wr2 mm 1 4 (s*(a.[4]*b.[1] + a.[1]*b.[4])/2) in
  let mm := wr2 mm 1 5 (s*(a.[4]*b.[3] + a.[3]*b.[4])/tsq2) in
  let mm := wr2 mm 1 6 (s*(-(a.[3]*b.[1]) + a.[1]*b.[3])/2) in
  let mm := wr2 mm 1 7 (s*(a.[4]*b.[1] - a.[1]*b.[4])/2) in
  let mm := wr2 mm 1 8 (s*(a.[4]*b.[3] - a.[3]*b.[4])/tsq2) in
  let mm := wr2 mm 2 0 (s*(a.[5]*b.[5])/2) in
  let mm := wr2 mm 2 1 (s*(a.[4]*b.[4])/2) in
  let mm := wr2 mm 2 2 (s*a.[2]*b.[2]) in
  let mm := wr2 mm 2 3 (s*(a.[5]*b.[4] + a.[4]*b.[5])/tsq2) in
  let mm := wr2 mm 2 4 (s*(a.[4]*b.[2] + a.[2]*b.[4])/2) in
  let mm := wr2 mm 2 5 (s*(a.[5]*b.[2] + a.[2]*b.[5])/2) in
  let mm := wr2 mm 2 6 (s*(-(a.[5]*b.[4]) + a.[4]*b.[5])/tsq2) in
  let mm := wr2 mm 2 7 (s*(-(a.[4]*b.[2]) + a.[2]*b.[4])/2) in
  let mm := wr2 mm 2 8 (s*(-(a.[5]*b.[2]) + a.[2]*b.[5])/2) in
  let mm := wr2 mm 3 0 (s*(a.[3]*b.[0] + a.[0]*b.[3])/2) in
  let mm := wr2 mm 3 1 (s*(a.[3]*b.[1] + a.[1]*b.[3])/2) in
  let mm := wr2 mm 3 2 (s*(a.[5]*b.[4] + a.[4]*b.[5])/tsq2) in
  let mm := wr2 mm 3 3 (s*(a.[1]*b.[0] + a.[0]*b.[1] + a.[3]*b.[3])/2) in
  let mm := wr2 mm 3 4 (s*(SQRT_2*a.[5]*b.[1] + a.[4]*b.[3] + a.[3]*b.[4] + SQRT_2*a.[1]*b.[5])/4) in
  let mm := wr2 mm 3 5 (s*(SQRT_2*a.[4]*b.[0] + a.[5]*b.[3] + SQRT_2*a.[0]*b.[4] + a.[3]*b.[5])/4) in
  let mm := wr2 mm 3 6 (s*(a.[1]*b.[0] - a.[0]*b.[1])/2) in
  let mm := wr2 mm 3 7 (s*(SQRT_2*a.[5]*b.[1] + a.[4]*b.[3] - a.[3]*b.[4] - SQRT_2*a.[1]*b.[5])/4) in
  let mm := wr2 mm 3 8 (s*(SQRT_2*a.[4]*b.[0] + a.[5]*b.[3] - SQRT_2*a.[0]*b.[4] - a.[3]*b.[5])/4) in
  let mm := wr2 mm 4 0 (s*(a.[5]*b.[3] + a.[3]*b.[5])/tsq2) in
  let mm := wr2 mm 4 1 (s*(a.[4]*b.[1] + a.[1]*b.[4])/2) in
  let mm := wr2 mm 4 2 (s*(a.[4]*b.[2] + a.[2]*b.[4])/2) in
  let mm := wr2 mm 4 3 (s*(SQRT_2*a.[5]*b.[1] + a.[4]*b.[3] + a.[3]*b.[4] + SQRT_2*a.[1]*b.[5])/4) in
  let mm := wr2 mm 4 4 (s*(a.[2]*b.[1] + a.[1]*b.[2] + a.[4]*b.[4])/2) in
  let mm := wr2 mm 4 5 (s*(SQRT_2*a.[3]*b.[2] + SQRT_2*a.[2]*b.[3] + a.[5]*b.[4] + a.[4]*b.[5])/4) in
  let mm := wr2 mm 4 6 (s*(-(SQRT_2*a.[5]*b.[1]) + a.[4]*b.[3] - a.[3]*b.[4] + SQRT_2*a.[1]*b.[5])/4) in
  let mm := wr2 mm 4 7 (s*(a.[2]*b.[1] - a.[1]*b.[2])/2) in
  let mm := wr2 mm 4 8 (s*(-(SQRT_2*a.[3]*b.[2]) + SQRT_2*a.[2]*b.[3] - a.[5]*b.[4] + a.[4]*b.[5])/4) in
  let mm := wr2 mm 5 0 (s*(a.[5]*b.[0] + a.[0]*b.[5])/2) in
  let mm := wr2 mm 5 1 (s*(a.[4]*b.[3] + a.[3]*b.[4])/tsq2) in
  let mm := wr2 mm 5 2 (s*(a.[5]*b.[2] + a.[2]*b.[5])/2) in
  let mm := wr2 mm 5 3 (s*(SQRT_2*a.[4]*b.[0] + a.[5]*b.[3] + SQRT_2*a.[0]*b.[4] + a.[3]*b.[5])/4) in
  let mm := wr2 mm 5 4 (s*(SQRT_2*a.[3]*b.[2] + SQRT_2*a.[2]*b.[3] + a.[5]*b.[4] + a.[4]*b.[5])/4) in
  let mm := wr2 mm 5 5 (s*(a.[2]*b.[0] + a.[0]*b.[2] + a.[5]*b.[5])/2) in
  let mm := wr2 mm 5 6 (s*(SQRT_2*a.[4]*b.[0] - a.[5]*b.[3] - SQRT_2*a.[0]*b.[4] + a.[3]*b.[5])/4) in
  let mm := wr2 mm 5 7 (s*(-(SQRT_2*a.[3]*b.[2]) + SQRT_2*a.[2]*b.[3] + a.[5]*b.[4] - a.[4]*b.[5])/4) in
  let mm := wr2 mm 5 8 (s*(a.[2]*b.[0] - a.[0]*b.[2])/2) in
  let mm := wr2 mm 6 0 (s*(-(a.[3]*b.[0]) + a.[0]*b.[3])/2) in
  let mm := wr2 mm 6 1 (s*(a.[3]*b.[1] - a.[1]*b.[3])/2) in
  let mm := wr2 mm 6 2 (s*(a.[5]*b.[4] - a.[4]*b.[5])/tsq2) in
  let mm := wr2 mm 6 3 (s*(-(a.[1]*b.[0]) + a.[0]*b.[1])/2) in
  let mm := wr2 mm 6 4 (s*(SQRT_2*a.[5]*b.[1] - a.[4]*b.[3] + a.[3]*b.[4] - SQRT_2*a.[1]*b.[5])/4) in
  let mm := wr2 mm 6 5 (s*(-(SQRT_2*a.[4]*b.[0]) + a.[5]*b.[3] + SQRT_2*a.[0]*b.[4] - a.[3]*b.[5])/4) in
  let mm := wr2 mm 6 6 (s*(-(a.[1]*b.[0]) - a.[0]*b.[1] + a.[3]*b.[3])/2) in
  let mm := wr2 mm 6 7 (s*(SQRT_2*a.[5]*b.[1] - a.[4]*b.[3] - a.[3]*b.[4] + SQRT_2*a.[1]*b.[5])/4) in
  let mm := wr2 mm 6 8 (s*(-(SQRT_2*a.[4]*b.[0]) + a.[5]*b.[3] - SQRT_2*a.[0]*b.[4] + a.[3]*b.[5])/4) in
  let mm := wr2 mm 7 0 (s*(-(a.[5]*b.[3]) + a.[3]*b.[5])/tsq2) in
  let mm := wr2 mm 7 1 (s*(-(a.[4]*b.[1]) + a.[1]*b.[4])/2) in
  let mm := wr2 mm 7 2 (s*(a.[4]*b.[2] - a.[2]*b.[4])/2) in
  let mm := wr2 mm 7 3 (s*(-(SQRT_2*a.[5]*b.[1]) - a.[4]*b.[3] + a.[3]*b.[4] + SQRT_2*a.[1]*b.[5])/4) in
  let mm := wr2 mm 7 4 (s*(-(a.[2]*b.[1]) + a.[1]*b.[2])/2) in
  let mm := wr2 mm 7 5 (s*(SQRT_2*a.[3]*b.[2] - SQRT_2*a.[2]*b.[3] - a.[5]*b.[4] + a.[4]*b.[5])/4) in
  let mm := wr2 mm 7 6 (s*(SQRT_2*a.[5]*b.[1] - a.[4]*b.[3] - a.[3]*b.[4] + SQRT_2*a.[1]*b.[5])/4) in
  let mm := wr2 mm 7 7 (s*(-(a.[2]*b.[1]) - a.[1]*b.[2] + a.[4]*b.[4])/2) in
  let mm := wr2 mm 7 8 (s*(-(SQRT_2*a.[3]*b.[2]) - SQRT_2*a.[2]*b.[3] + a.[5]*b.[4] + a.[4]*b.[5])/4) in
  let mm := wr2 mm 8 0 (s*(-(a.[5]*b.[0]) + a.[0]*b.[5])/2) in
  let mm := wr2 mm 8 1 (s*(-(a.[4]*b.[3]) + a.[3]*b.[4])/tsq2) in
  let mm := wr2 mm 8 2 (s*(a.[5]*b.[2] - a.[2]*b.[5])/2) in
  let mm := wr2 mm 8 3 (s*(-(SQRT_2*a.[4]*b.[0]) - a.[5]*b.[3] + SQRT_2*a.[0]*b.[4] + a.[3]*b.[5])/4) in
  let mm := wr2 mm 8 4 (s*(SQRT_2*a.[3]*b.[2] - SQRT_2*a.[2]*b.[3] + a.[5]*b.[4] - a.[4]*b.[5])/4) in
  let mm := wr2 mm 8 5 (s*(-(a.[2]*b.[0]) + a.[0]*b.[2])/2) in
  let mm := wr2 mm 8 6 (s*(-(SQRT_2*a.[4]*b.[0]) + a.[5]*b.[3] - SQRT_2*a.[0]*b.[4] + a.[3]*b.[5])/4) in
  let mm := wr2 mm 8 7 (s*(-(SQRT_2*a.[3]*b.[2]) - SQRT_2*a.[2]*b.[3] + a.[5]*b.[4] + a.[4]*b.[5])/4) in
  let mm := wr2 mm 8 8 (s*(-(a.[2]*b.[0]) - a.[0]*b.[2] + a.[5]*b.[5])/2) in
  mm.
Definition udyad9 (mm : nat -> nat -> R) (s : R) (a b : nat -> R) : nat -> nat -> R :=
  let tsq2 := 2 * SQRT_2 in
  let mm := wr2 mm 0 0 (s*a.[0]*b.[0]) in
  let mm := wr2 mm 0 1 (s*((a.[3] + a.[6])*(b.[3] + b.[6]))/2) in
  let mm := wr2 mm 0 2 (s*((a.[5] + a.[8])*(b.[5] + b.[8]))/2) in
  let mm := wr2 mm 0 3 (s*(a.[3]*b.[0] + a.[6]*b.[0] + a.[0]*(b.[3] + b.[6]))/2) in
  let mm := wr2 mm 0 4 (s*((a.[5] + a.[8])*(b.[3] + b.[6]) + (a.[3] + a.[6])*(b.[5] + b.[8]))/tsq2) in
  let mm := wr2 mm 0 5 (s*(a.[5]*b.[0] + a.[8]*b.[0] + a.[0]*(b.[5] + b.[8]))/2) in
  let mm := wr2 mm 0 6 (s*(a.[3]*b.[0] + a.[6]*b.[0] - a.[0]*(b.[3] + b.[6]))/2) in
  let mm := wr2 mm 0 7 (s*((a.[5] + a.[8])*(b.[3] + b.[6]) - (a.[3] + a.[6])*(b.[5] + b.[8]))/tsq2) in
  let mm := wr2 mm 0 8 (s*(a.[5]*b.[0] + a.[8]*b.[0] - a.[0]*(b.[5] + b.[8]))/2) in
  let mm := wr2 mm 1 0 (s*((a.[3] - a.[6])*(b.[3] - b.[6]))/2) in
  let mm := wr2 mm 1 1 (s*a.[1]*b.[1]) in
  let mm := wr2 mm 1 2 (s*((a.[4] + a.[7])*(b.[4] + b.[7]))/2) in
  let mm := wr2 mm 1 3 (s*(a.[3]*b.[1] - a.[6]*b.[1] + a.[1]*(b.[3] - b.[6]))/2) in
  let mm := wr2 mm 1 4 (s*(a.[4]*b.[1] + a.[7]*b.[1] + a.[1]*(b.[4] + b.[7]))/2) in
  let mm := wr2 mm 1 5 (s*((a.[4] + a.[7])*(b.[3] - b.[6]) + (a.[3] - a.[6])*(b.[4] + b.[7]))/tsq2) in
  let mm := wr2 mm 1 6 (s*(-(a.[3]*b.[1]) + a.[6]*b.[1] + a.[1]*(b.[3] - b.[6]))/2) in
  let mm := wr2 mm 1 7 (s*(a.[4]*b.[1] + a.[7]*b.[1] - a.[1]*(b.[4] + b.[7]))/2) in
  let mm := wr2 mm 1 8 (s*((a.[4] + a.[7])*(b.[3] - b.[6]) - (a.[3] - a.[6])*(b.[4] + b.[7]))/tsq2) in
  let mm := wr2 mm 2 0 (s*((a.[5] - a.[8])*(b.[5] - b.[8]))/2) in
  let mm := wr2 mm 2 1 (s*((a.[4] - a.[7])*(b.[4] - b.[7]))/2) in
  let mm := wr2 mm 2 2 (s*a.[2]*b.[2]) in
  let mm := wr2 mm 2 3 (s*((a.[5] - a.[8])*(b.[4] - b.[7]) + (a.[4] - a.[7])*(b.[5] - b.[8]))/tsq2) in
  let mm := wr2 mm 2 4 (s*(a.[4]*b.[2] - a.[7]*b.[2] + a.[2]*(b.[4] - b.[7]))/2) in
  let mm := wr2 mm 2 5 (s*(a.[5]*b.[2] - a.[8]*b.[2] + a.[2]*(b.[5] - b.[8]))/2) in
  let mm := wr2 mm 2 6 (s*(-((a.[5] - a.[8])*(b.[4] - b.[7])) + (a.[4] - a.[7])*(b.[5] - b.[8]))/tsq2) in
  let mm := wr2 mm 2 7 (s*(-(a.[4]*b.[2]) + a.[7]*b.[2] + a.[2]*(b.[4] - b.[7]))/2) in
  let mm := wr2 mm 2 8 (s*(-(a.[5]*b.[2]) + a.[8]*b.[2] + a.[2]*(b.[5] - b.[8]))/2) in
  let mm := wr2 mm 3 0 (s*(a.[3]*b.[0] - a.[6]*b.[0] + a.[0]*(b.[3] - b.[6]))/2) in
  let mm := wr2 mm 3 1 (s*(a.[3]*b.[1] + a.[6]*b.[1] + a.[1]*(b.[3] + b.[6]))/2) in
  let mm := wr2 mm 3 2 (s*((a.[5] + a.[8])*(b.[4] + b.[7]) + (a.[4] + a.[7])*(b.[5] + b.[8]))/tsq2) in
  let mm := wr2 mm 3 3 (s*(a.[1]*b.[0] + a.[0]*b.[1] + a.[3]*b.[3] - a.[6]*b.[6])/2) in
  let mm := wr2 mm 3 4 (s*(SQRT_2*(a.[5] + a.[8])*b.[1] + (a.[4] + a.[7])*(b.[3] + b.[6]) + (a.[3] + a.[6])*(b.[4] + b.[7]) + SQRT_2*a.[1]*(b.[5] + b.[8]))/4) in
  let mm := wr2 mm 3 5 (s*(SQRT_2*(a.[4] + a.[7])*b.[0] + (a.[5] + a.[8])*(b.[3] - b.[6]) + SQRT_2*a.[0]*(b.[4] + b.[7]) + (a.[3] - a.[6])*(b.[5] + b.[8]))/4) in
  let mm := wr2 mm 3 6 (s*(a.[1]*b.[0] - a.[0]*b.[1] + a.[6]*b.[3] - a.[3]*b.[6])/2) in
  let mm := wr2 mm 3 7 (s*(SQRT_2*(a.[5] + a.[8])*b.[1] + (a.[4] + a.[7])*(b.[3] + b.[6]) - (a.[3] + a.[6])*(b.[4] + b.[7]) - SQRT_2*a.[1]*(b.[5] + b.[8]))/4) in
  let mm := wr2 mm 3 8 (s*(SQRT_2*(a.[4] + a.[7])*b.[0] + (a.[5] + a.[8])*(b.[3] - b.[6]) - SQRT_2*a.[0]*(b.[4] + b.[7]) - (a.[3] - a.[6])*(b.[5] + b.[8]))/4) in
  let mm := wr2 mm 4 0 (s*((a.[5] - a.[8])*(b.[3] - b.[6]) + (a.[3] - a.[6])*(b.[5] - b.[8]))/tsq2) in
  let mm := wr2 mm 4 1 (s*(a.[4]*b.[1] - a.[7]*b.[1] + a.[1]*(b.[4] - b.[7]))/2) in
  let mm := wr2 mm 4 2 (s*(a.[4]*b.[2] + a.[7]*b.[2] + a.[2]*(b.[4] + b.[7]))/2) in
  let mm := wr2 mm 4 3 (s*(SQRT_2*(a.[5] - a.[8])*b.[1] + (a.[4] - a.[7])*(b.[3] - b.[6]) + (a.[3] - a.[6])*(b.[4] - b.[7]) + SQRT_2*a.[1]*(b.[5] - b.[8]))/4) in
  let mm := wr2 mm 4 4 (s*(a.[2]*b.[1] + a.[1]*b.[2] + a.[4]*b.[4] - a.[7]*b.[7])/2) in
  let mm := wr2 mm 4 5 (s*(SQRT_2*(a.[3] - a.[6])*b.[2] + SQRT_2*a.[2]*(b.[3] - b.[6]) + (a.[5] - a.[8])*(b.[4] + b.[7]) + (a.[4] + a.[7])*(b.[5] - b.[8]))/4) in
  let mm := wr2 mm 4 6 (s*(-(SQRT_2*(a.[5] - a.[8])*b.[1]) + (a.[4] - a.[7])*(b.[3] - b.[6]) - (a.[3] - a.[6])*(b.[4] - b.[7]) + SQRT_2*a.[1]*(b.[5] - b.[8]))/4) in
  let mm := wr2 mm 4 7 (s*(a.[2]*b.[1] - a.[1]*b.[2] + a.[7]*b.[4] - a.[4]*b.[7])/2) in
  let mm := wr2 mm 4 8 (s*(-(SQRT_2*(a.[3] - a.[6])*b.[2]) + SQRT_2*a.[2]*(b.[3] - b.[6]) - (a.[5] - a.[8])*(b.[4] + b.[7]) + (a.[4] + a.[7])*(b.[5] - b.[8]))/4) in
  let mm := wr2 mm 5 0 (s*(a.[5]*b.[0] - a.[8]*b.[0] + a.[0]*(b.[5] - b.[8]))/2) in
  let mm := wr2 mm 5 1 (s*((a.[4] - a.[7])*(b.[3] + b.[6]) + (a.[3] + a.[6])*(b.[4] - b.[7]))/tsq2) in
  let mm := wr2 mm 5 2 (s*(a.[5]*b.[2] + a.[8]*b.[2] + a.[2]*(b.[5] + b.[8]))/2) in
  let mm := wr2 mm 5 3 (s*(SQRT_2*(a.[4] - a.[7])*b.[0] + (a.[5] - a.[8])*(b.[3] + b.[6]) + SQRT_2*a.[0]*(b.[4] - b.[7]) + (a.[3] + a.[6])*(b.[5] - b.[8]))/4) in
  let mm := wr2 mm 5 4 (s*(SQRT_2*(a.[3] + a.[6])*b.[2] + SQRT_2*a.[2]*(b.[3] + b.[6]) + (a.[5] + a.[8])*(b.[4] - b.[7]) + (a.[4] - a.[7])*(b.[5] + b.[8]))/4) in
  let mm := wr2 mm 5 5 (s*(a.[2]*b.[0] + a.[0]*b.[2] + a.[5]*b.[5] - a.[8]*b.[8])/2) in
  let mm := wr2 mm 5 6 (s*(SQRT_2*(a.[4] - a.[7])*b.[0] - (a.[5] - a.[8])*(b.[3] + b.[6]) - SQRT_2*a.[0]*(b.[4] - b.[7]) + (a.[3] + a.[6])*(b.[5] - b.[8]))/4) in
  let mm := wr2 mm 5 7 (s*(-(SQRT_2*(a.[3] + a.[6])*b.[2]) + SQRT_2*a.[2]*(b.[3] + b.[6]) + (a.[5] + a.[8])*(b.[4] - b.[7]) - (a.[4] - a.[7])*(b.[5] + b.[8]))/4) in
  let mm := wr2 mm 5 8 (s*(a.[2]*b.[0] - a.[0]*b.[2] + a.[8]*b.[5] - a.[5]*b.[8])/2) in
  let mm := wr2 mm 6 0 (s*(-(a.[3]*b.[0]) + a.[6]*b.[0] + a.[0]*(b.[3] - b.[6]))/2) in
  let mm := wr2 mm 6 1 (s*(a.[3]*b.[1] + a.[6]*b.[1] - a.[1]*(b.[3] + b.[6]))/2) in
  let mm := wr2 mm 6 2 (s*((a.[5] + a.[8])*(b.[4] + b.[7]) - (a.[4] + a.[7])*(b.[5] + b.[8]))/tsq2) in
  let mm := wr2 mm 6 3 (s*(-(a.[1]*b.[0]) + a.[0]*b.[1] + a.[6]*b.[3] - a.[3]*b.[6])/2) in
  let mm := wr2 mm 6 4 (s*(SQRT_2*(a.[5] + a.[8])*b.[1] - (a.[4] + a.[7])*(b.[3] + b.[6]) + (a.[3] + a.[6])*(b.[4] + b.[7]) - SQRT_2*a.[1]*(b.[5] + b.[8]))/4) in
  let mm := wr2 mm 6 5 (s*(-(SQRT_2*(a.[4] + a.[7])*b.[0]) + (a.[5] + a.[8])*(b.[3] - b.[6]) + SQRT_2*a.[0]*(b.[4] + b.[7]) - (a.[3] - a.[6])*(b.[5] + b.[8]))/4) in
  let mm := wr2 mm 6 6 (s*(-(a.[1]*b.[0]) - a.[0]*b.[1] + a.[3]*b.[3] - a.[6]*b.[6])/2) in
  let mm := wr2 mm 6 7 (s*(SQRT_2*(a.[5] + a.[8])*b.[1] - (a.[4] + a.[7])*(b.[3] + b.[6]) - (a.[3] + a.[6])*(b.[4] + b.[7]) + SQRT_2*a.[1]*(b.[5] + b.[8]))/4) in
  let mm := wr2 mm 6 8 (s*(-(SQRT_2*(a.[4] + a.[7])*b.[0]) + (a.[5] + a.[8])*(b.[3] - b.[6]) - SQRT_2*a.[0]*(b.[4] + b.[7]) + (a.[3] - a.[6])*(b.[5] + b.[8]))/4) in
  let mm := wr2 mm 7 0 (s*(-((a.[5] - a.[8])*(b.[3] - b.[6])) + (a.[3] - a.[6])*(b.[5] - b.[8]))/tsq2) in
  let mm := wr2 mm 7 1 (s*(-(a.[4]*b.[1]) + a.[7]*b.[1] + a.[1]*(b.[4] - b.[7]))/2) in
  let mm := wr2 mm 7 2 (s*(a.[4]*b.[2] + a.[7]*b.[2] - a.[2]*(b.[4] + b.[7]))/2) in
  let mm := wr2 mm 7 3 (s*(-(SQRT_2*(a.[5] - a.[8])*b.[1]) - (a.[4] - a.[7])*(b.[3] - b.[6]) + (a.[3] - a.[6])*(b.[4] - b.[7]) + SQRT_2*a.[1]*(b.[5] - b.[8]))/4) in
  let mm := wr2 mm 7 4 (s*(-(a.[2]*b.[1]) + a.[1]*b.[2] + a.[7]*b.[4] - a.[4]*b.[7])/2) in
  let mm := wr2 mm 7 5 (s*(SQRT_2*(a.[3] - a.[6])*b.[2] - SQRT_2*a.[2]*(b.[3] - b.[6]) - (a.[5] - a.[8])*(b.[4] + b.[7]) + (a.[4] + a.[7])*(b.[5] - b.[8]))/4) in
  let mm := wr2 mm 7 6 (s*(SQRT_2*(a.[5] - a.[8])*b.[1] - (a.[4] - a.[7])*(b.[3] - b.[6]) - (a.[3] - a.[6])*(b.[4] - b.[7]) + SQRT_2*a.[1]*(b.[5] - b.[8]))/4) in
  let mm := wr2 mm 7 7 (s*(-(a.[2]*b.[1]) - a.[1]*b.[2] + a.[4]*b.[4] - a.[7]*b.[7])/2) in
  let mm := wr2 mm 7 8 (s*(-(SQRT_2*(a.[3] - a.[6])*b.[2]) - SQRT_2*a.[2]*(b.[3] - b.[6]) + (a.[5] - a.[8])*(b.[4] + b.[7]) + (a.[4] + a.[7])*(b.[5] - b.[8]))/4) in
  let mm := wr2 mm 8 0 (s*(-(a.[5]*b.[0]) + a.[8]*b.[0] + a.[0]*(b.[5] - b.[8]))/2) in
  let mm := wr2 mm 8 1 (s*(-((a.[4] - a.[7])*(b.[3] + b.[6])) + (a.[3] + a.[6])*(b.[4] - b.[7]))/tsq2) in
  let mm := wr2 mm 8 2 (s*(a.[5]*b.[2] + a.[8]*b.[2] - a.[2]*(b.[5] + b.[8]))/2) in
  let mm := wr2 mm 8 3 (s*(-(SQRT_2*(a.[4] - a.[7])*b.[0]) - (a.[5] - a.[8])*(b.[3] + b.[6]) + SQRT_2*a.[0]*(b.[4] - b.[7]) + (a.[3] + a.[6])*(b.[5] - b.[8]))/4) in
  let mm := wr2 mm 8 4 (s*(SQRT_2*(a.[3] + a.[6])*b.[2] - SQRT_2*a.[2]*(b.[3] + b.[6]) + (a.[5] + a.[8])*(b.[4] - b.[7]) - (a.[4] - a.[7])*(b.[5] + b.[8]))/4) in
  let mm := wr2 mm 8 5 (s*(-(a.[2]*b.[0]) + a.[0]*b.[2] + a.[8]*b.[5] - a.[5]*b.[8])/2) in
  let mm := wr2 mm 8 6 (s*(-(SQRT_2*(a.[4] - a.[7])*b.[0]) + (a.[5] - a.[8])*(b.[3] + b.[6]) - SQRT_2*a.[0]*(b.[4] - b.[7]) + (a.[3] + a.[6])*(b.[5] - b.[8]))/4) in
  let mm := wr2 mm 8 7 (s*(-(SQRT_2*(a.[3] + a.[6])*b.[2]) - SQRT_2*a.[2]*(b.[3] + b.[6]) + (a.[5] + a.[8])*(b.[4] - b.[7]) + (a.[4] - a.[7])*(b.[5] + b.[8]))/4) in
  let mm := wr2 mm 8 8 (s*(-(a.[2]*b.[0]) - a.[0]*b.[2] + a.[5]*b.[5] - a.[8]*b.[8])/2) in
  mm.
Definition t2_udyad_t2 (dd : t4) (s : R) (aa bb : t2) : res t4 :=
  _ <- assert_ (rep_eqb (t4_rep dd) General) ;;
  _ <- assert_ (rep_eqb (t2_rep bb) (t2_rep aa)) ;;
  let dim := t2_dim aa in
  Ok (t4_put dd (if (dim =? 4)%nat then udyad4 (t4_mat dd) s (t2_vec aa) (t2_vec bb)
                 else if (dim =? 6)%nat then udyad6 (t4_mat dd) s (t2_vec aa) (t2_vec bb)
                 else udyad9 (t4_mat dd) s (t2_vec aa) (t2_vec bb))).

(** operations_mix2.rs:659-809 *)
Definition ssd4 (mm : nat -> nat -> R) (s : R) (a : nat -> R) : nat -> nat -> R :=
  let mm := wr2 mm 0 0 (s*(2*a.[0]*a.[0])) in
  let mm := wr2 mm 0 1 (s*(a.[3]*a.[3])) in
  let mm := wr2 mm 0 2 (0) in
  let mm := wr2 mm 0 3 (s*(2*a.[0]*a.[3])) in
  let mm := wr2 mm 0 4 (0) in
  let mm := wr2 mm 0 5 (0) in
  let mm := wr2 mm 1 0 (s*(a.[3]*a.[3])) in
  let mm := wr2 mm 1 1 (s*(2*a.[1]*a.[1])) in
  let mm := wr2 mm 1 2 (0) in
  let mm := wr2 mm 1 3 (s*(2*a.[1]*a.[3])) in
  let mm := wr2 mm 1 4 (0) in
  let mm := wr2 mm 1 5 (0) in
  let mm := wr2 mm 2 0 (0) in
  let mm := wr2 mm 2 1 (0) in
  let mm := wr2 mm 2 2 (s*(2*a.[2]*a.[2])) in
  let mm := wr2 mm 2 3 (0) in
  let mm := wr2 mm 2 4 (0) in
  let mm := wr2 mm 2 5 (0) in
  let mm := wr2 mm 3 0 (s*(2*a.[0]*a.[3])) in
  let mm := wr2 mm 3 1 (s*(2*a.[1]*a.[3])) in
  let mm := wr2 mm 3 2 (0) in
  let mm := wr2 mm 3 3 (s*(2*a.[0]*a.[1] + a.[3]*a.[3])) in
  let mm := wr2 mm 3 4 (0) in
  let mm := wr2 mm 3 5 (0) in
  let mm := wr2 mm 4 0 (0) in
  let mm := wr2 mm 4 1 (0) in
  let mm := wr2 mm 4 2 (0) in
  let mm := wr2 mm 4 3 (0) in
  let mm := wr2 mm 4 4 (s*(2*a.[1]*a.[2])) in
  let mm := wr2 mm 4 5 (s*(SQRT_2*a.[2]*a.[3])) in
  let mm := wr2 mm 5 0 (0) in
  let mm := wr2 mm 5 1 (0) in
  let mm := wr2 mm 5 2 (0) in
  let mm := wr2 mm 5 3 (0) in
  let mm := wr2 mm 5 4 (s*(SQRT_2*a.[2]*a.[3])) in
  let mm := wr2 mm 5 5 (s*(2*a.[0]*a.[2])) in
  mm.
Definition ssd6 (mm : nat -> nat -> R) (s : R) (a : nat -> R) : nat -> nat -> R :=
  let mm := wr2 mm 0 0 (s*(2*a.[0]*a.[0])) in
  let mm := wr2 mm 0 1 (s*(a.[3]*a.[3])) in
  let mm := wr2 mm 0 2 (s*(a.[5]*a.[5])) in
  let mm := wr2 mm 0 3 (s*(2*a.[0]*a.[3])) in
  let mm := wr2 mm 0 4 (s*(SQRT_2*a.[3]*a.[5])) in
  let mm := wr2 mm 0 5 (s*(2*a.[0]*a.[5])) in
  let mm := wr2 mm 1 0 (s*(a.[3]*a.[3])) in
  let mm := wr2 mm 1 1 (s*(2*a.[1]*a.[1])) in
  let mm := wr2 mm 1 2 (s*(a.[4]*a.[4])) in
  let mm := wr2 mm 1 3 (s*(2*a.[1]*a.[3])) in
  let mm := wr2 mm 1 4 (s*(2*a.[1]*a.[4])) in
  let mm := wr2 mm 1 5 (s*(SQRT_2*a.[3]*a.[4])) in
  let mm := wr2 mm 2 0 (s*(a.[5]*a.[5])) in
  let mm := wr2 mm 2 1 (s*(a.[4]*a.[4])) in
  let mm := wr2 mm 2 2 (s*(2*a.[2]*a.[2])) in
  let mm := wr2 mm 2 3 (s*(SQRT_2*a.[4]*a.[5])) in
  let mm := wr2 mm 2 4 (s*(2*a.[2]*a.[4])) in
  let mm := wr2 mm 2 5 (s*(2*a.[2]*a.[5])) in
  let mm := wr2 mm 3 0 (s*(2*a.[0]*a.[3])) in
  let mm := wr2 mm 3 1 (s*(2*a.[1]*a.[3])) in
  let mm := wr2 mm 3 2 (s*(SQRT_2*a.[4]* a.[5])) in
  let mm := wr2 mm 3 3 (s*(2*a.[0]*a.[1] + a.[3]*a.[3])) in
  let mm := wr2 mm 3 4 (s*(a.[3]*a.[4] + SQRT_2*a.[1]*a.[5])) in
  let mm := wr2 mm 3 5 (s*(SQRT_2*a.[0]*a.[4] + a.[3]*a.[5])) in
  let mm := wr2 mm 4 0 (s*(SQRT_2*a.[3]*a.[5])) in
  let mm := wr2 mm 4 1 (s*(2*a.[1]*a.[4])) in
  let mm := wr2 mm 4 2 (s*(2*a.[2]*a.[4])) in
  let mm := wr2 mm 4 3 (s*(a.[3]*a.[4] + SQRT_2*a.[1]*a.[5])) in
  let mm := wr2 mm 4 4 (s*(2*a.[1]*a.[2] + a.[4]*a.[4])) in
  let mm := wr2 mm 4 5 (s*(SQRT_2*a.[2]*a.[3] + a.[4]*a.[5])) in
  let mm := wr2 mm 5 0 (s*(2*a.[0]*a.[5])) in
  let mm := wr2 mm 5 1 (s*(SQRT_2*a.[3]*a.[4])) in
  let mm := wr2 mm 5 2 (s*(2*a.[2]*a.[5])) in
  let mm := wr2 mm 5 3 (s*(SQRT_2*a.[0]* a.[4] + a.[3]*a.[5])) in
  let mm := wr2 mm 5 4 (s*(SQRT_2*a.[2]*a.[3] + a.[4]*a.[5])) in
  let mm := wr2 mm 5 5 (s*(2*a.[0]*a.[2] + a.[5]*a.[5])) in
  mm.
Definition ssd9 (mm : nat -> nat -> R) (s : R) (a : nat -> R) : nat -> nat -> R :=
  let mm := wr2 mm 0 0 (s*(2*a.[0]*a.[0])) in
  let mm := wr2 mm 0 1 (s*((a.[3] + a.[6])*(a.[3] + a.[6]))) in
  let mm := wr2 mm 0 2 (s*((a.[5] + a.[8])*(a.[5] + a.[8]))) in
  let mm := wr2 mm 0 3 (s*(2*a.[0]*(a.[3] + a.[6]))) in
  let mm := wr2 mm 0 4 (s*(SQRT_2*(a.[3] + a.[6])*(a.[5] + a.[8]))) in
  let mm := wr2 mm 0 5 (s*(2*a.[0]*(a.[5] + a.[8]))) in
  let mm := wr2 mm 1 0 (s*((a.[3] - a.[6])*(a.[3] - a.[6]))) in
  let mm := wr2 mm 1 1 (s*(2*a.[1]*a.[1])) in
  let mm := wr2 mm 1 2 (s*((a.[4] + a.[7])*(a.[4] + a.[7]))) in
  let mm := wr2 mm 1 3 (s*(2*a.[1]*(a.[3] - a.[6]))) in
  let mm := wr2 mm 1 4 (s*(2*a.[1]*(a.[4] + a.[7]))) in
  let mm := wr2 mm 1 5 (s*(SQRT_2*(a.[3] - a.[6])*(a.[4] + a.[7]))) in
  let mm := wr2 mm 2 0 (s*((a.[5] - a.[8])*(a.[5] - a.[8]))) in
  let mm := wr2 mm 2 1 (s*((a.[4] - a.[7])*(a.[4] - a.[7]))) in
  let mm := wr2 mm 2 2 (s*(2*a.[2]*a.[2])) in
  let mm := wr2 mm 2 3 (s*(SQRT_2*(a.[4] - a.[7])*(a.[5] - a.[8]))) in
  let mm := wr2 mm 2 4 (s*(2*a.[2]*(a.[4] - a.[7]))) in
  let mm := wr2 mm 2 5 (s*(2*a.[2]*(a.[5] - a.[8]))) in
  let mm := wr2 mm 3 0 (s*(2*a.[0]*(a.[3] - a.[6]))) in
  let mm := wr2 mm 3 1 (s*(2*a.[1]*(a.[3] + a.[6]))) in
  let mm := wr2 mm 3 2 (s*(SQRT_2*(a.[4] + a.[7])*(a.[5] + a.[8]))) in
  let mm := wr2 mm 3 3 (s*(2*a.[0]*a.[1] + a.[3]*a.[3] - a.[6]*a.[6])) in
  let mm := wr2 mm 3 4 (s*((a.[3] + a.[6])*(a.[4] + a.[7]) + SQRT_2*a.[1]*(a.[5] + a.[8]))) in
  let mm := wr2 mm 3 5 (s*(SQRT_2*a.[0]*(a.[4] + a.[7]) + (a.[3] - a.[6])*(a.[5] + a.[8]))) in
  let mm := wr2 mm 4 0 (s*(SQRT_2*(a.[3] - a.[6])*(a.[5] - a.[8]))) in
  let mm := wr2 mm 4 1 (s*(2*a.[1]*(a.[4] - a.[7]))) in
  let mm := wr2 mm 4 2 (s*(2*a.[2]*(a.[4] + a.[7]))) in
  let mm := wr2 mm 4 3 (s*((a.[3] - a.[6])*(a.[4] - a.[7]) + SQRT_2*a.[1]*(a.[5] - a.[8]))) in
  let mm := wr2 mm 4 4 (s*(2*a.[1]*a.[2] + a.[4]*a.[4] - a.[7]*a.[7])) in
  let mm := wr2 mm 4 5 (s*(SQRT_2*a.[2]*(a.[3] - a.[6]) + (a.[4] + a.[7])*(a.[5] - a.[8]))) in
  let mm := wr2 mm 5 0 (s*(2*a.[0]*(a.[5] - a.[8]))) in
  let mm := wr2 mm 5 1 (s*(SQRT_2*(a.[3] + a.[6])*(a.[4] - a.[7]))) in
  let mm := wr2 mm 5 2 (s*(2*a.[2]*(a.[5] + a.[8]))) in
  let mm := wr2 mm 5 3 (s*(SQRT_2*a.[0]*(a.[4] - a.[7]) + (a.[3] + a.[6])*(a.[5] - a.[8]))) in
  let mm := wr2 mm 5 4 (s*(SQRT_2*a.[2]*(a.[3] + a.[6]) + (a.[4] - a.[7])*(a.[5] + a.[8]))) in
  let mm := wr2 mm 5 5 (s*(2*a.[0]*a.[2] + a.[5]*a.[5] - a.[8]*a.[8])) in
  mm.
Definition t2_ssd (dd : t4) (s : R) (aa : t2) : res t4 :=
  _ <- assert_ (rep_eqb (t4_rep dd) Symmetric) ;;
  let dim := t2_dim aa in
  let a := t2_vec aa in
  if t4_use_loops dd then
    let ddim := t4_dim dd in
    let mm := loop ddim (fun m mm => loop ddim (fun n mm => wr2 mm m n 0) mm) (t4_mat dd) in
    Ok (t4_put dd (loop 6 (fun m mm =>
      let '(i, j) := M_TO_IJ m in
      let fm := if (i =? j)%nat then 1 else SQRT_2 in
      loop 6 (fun n mm =>
        let '(k, l) := M_TO_IJ n in
        let fn_ := if (k =? l)%nat then 1 else SQRT_2 in
        let dijkl := gs aa i k * gs aa j l + gs aa i l * gs aa j k in
        wr2 mm m n (s * fm * fn_ * dijkl)) mm) mm))
  else
    Ok (t4_put dd (if (dim =? 4)%nat then ssd4 (t4_mat dd) s a
                   else if (dim =? 6)%nat then ssd6 (t4_mat dd) s a
                   else ssd9 (t4_mat dd) s a)).

(** operations_mix2.rs:844-997 *)
Definition qsd4 (mm : nat -> nat -> R) (s : R) (a b : nat -> R) : nat -> nat -> R :=
  let mm := wr2 mm 0 0 (s*(4*a.[0]*b.[0])) in
  let mm := wr2 mm 0 1 (s*(2*a.[3]*b.[3])) in
  let mm := wr2 mm 0 2 (0) in
  let mm := wr2 mm 0 3 (s*(2*(a.[3]*b.[0] + a.[0]*b.[3]))) in
  let mm := wr2 mm 0 4 (0) in
  let mm := wr2 mm 0 5 (0) in
  let mm := wr2 mm 1 0 (s*(2*a.[3]*b.[3])) in
  let mm := wr2 mm 1 1 (s*(4*a.[1]*b.[1])) in
  let mm := wr2 mm 1 2 (0) in
  let mm := wr2 mm 1 3 (s*(2*(a.[3]*b.[1] + a.[1]*b.[3]))) in
  let mm := wr2 mm 1 4 (0) in
  let mm := wr2 mm 1 5 (0) in
  let mm := wr2 mm 2 0 (0) in
  let mm := wr2 mm 2 1 (0) in
  let mm := wr2 mm 2 2 (s*(4*a.[2]*b.[2])) in
  let mm := wr2 mm 2 3 (0) in
  let mm := wr2 mm 2 4 (0) in
  let mm := wr2 mm 2 5 (0) in
  let mm := wr2 mm 3 0 (s*(2*(a.[3]*b.[0] + a.[0]*b.[3]))) in
  let mm := wr2 mm 3 1 (s*(2*(a.[3]*b.[1] + a.[1]*b.[3]))) in
  let mm := wr2 mm 3 2 (0) in
  let mm := wr2 mm 3 3 (s*(2*(a.[1]*b.[0] + a.[0]*b.[1] + a.[3]*b.[3]))) in
  let mm := wr2 mm 3 4 (0) in
  let mm := wr2 mm 3 5 (0) in
  let mm := wr2 mm 4 0 (0) in
  let mm := wr2 mm 4 1 (0) in
  let mm := wr2 mm 4 2 (0) in
  let mm := wr2 mm 4 3 (0) in
  let mm := wr2 mm 4 4 (s*(2*(a.[2]*b.[1] + a.[1]*b.[2]))) in
  let mm := wr2 mm 4 5 (s*(SQRT_2*(a.[3]*b.[2] + a.[2]*b.[3]))) in
  let mm := wr2 mm 5 0 (0) in
  let mm := wr2 mm 5 1 (0) in
  let mm := wr2 mm 5 2 (0) in
  let mm := wr2 mm 5 3 (0) in
  let mm := wr2 mm 5 4 (s*(SQRT_2*(a.[3]*b.[2] + a.[2]*b.[3]))) in
  let mm := wr2 mm 5 5 (s*(2*(a.[2]*b.[0] + a.[0]*b.[2]))) in
  mm.
Definition qsd6 (mm : nat -> nat -> R) (s : R) (a b : nat -> R) : nat -> nat -> R :=
  let mm := wr2 mm 0 0 (s*(4*a.[0]*b.[0])) in
  let mm := wr2 mm 0 1 (s*(2*a.[3]*b.[3])) in
  let mm := wr2 mm 0 2 (s*(2*a.[5]*b.[5])) in
  let mm := wr2 mm 0 3 (s*(2*(a.[3]*b.[0] + a.[0]*b.[3]))) in
  let mm := wr2 mm 0 4 (s*(SQRT_2*(a.[5]*b.[3] + a.[3]*b.[5]))) in
  let mm := wr2 mm 0 5 (s*(2*(a.[5]*b.[0] + a.[0]*b.[5]))) in
  let mm := wr2 mm 1 0 (s*(2*a.[3]*b.[3])) in
  let mm := wr2 mm 1 1 (s*(4*a.[1]*b.[1])) in
  let mm := wr2 mm 1 2 (s*(2*a.[4]*b.[4])) in
  let mm := wr2 mm 1 3 (s*(2*(a.[3]*b.[1] + a.[1]*b.[3]))) in
  let mm := wr2 mm 1 4 (s*(2*(a.[4]*b.[1] + a.[1]*b.[4]))) in
  let mm := wr2 mm 1 5 (s*(SQRT_2*(a.[4]*b.[3] + a.[3]*b.[4]))) in
  let mm := wr2 mm 2 0 (s*(2*a.[5]*b.[5])) in
  let mm := wr2 mm 2 1 (s*(2*a.[4]*b.[4])) in
  let mm := wr2 mm 2 2 (s*(4*a.[2]*b.[2])) in
  let mm := wr2 mm 2 3 (s*(SQRT_2*(a.[5]*b.[4] + a.[4]*b.[5]))) in
  let mm := wr2 mm 2 4 (s*(2*(a.[4]*b.[2] + a.[2]*b.[4]))) in
  let mm := wr2 mm 2 5 (s*(2*(a.[5]*b.[2] + a.[2]*b.[5]))) in
  let mm := wr2 mm 3 0 (s*(2*(a.[3]*b.[0] + a.[0]*b.[3]))) in
  let mm := wr2 mm 3 1 (s*(2*(a.[3]*b.[1] + a.[1]*b.[3]))) in
  let mm := wr2 mm 3 2 (s*(SQRT_2*(a.[5]*b.[4] + a.[4]*b.[5]))) in
  let mm := wr2 mm 3 3 (s*(2*(a.[1]*b.[0] + a.[0]*b.[1] + a.[3]*b.[3]))) in
  let mm := wr2 mm 3 4 (s*(SQRT_2*a.[5]*b.[1] + a.[4]*b.[3] + a.[3]*b.[4] + SQRT_2*a.[1]*b.[5])) in
  let mm := wr2 mm 3 5 (s*(SQRT_2*a.[4]*b.[0] + a.[5]*b.[3] + SQRT_2*a.[0]*b.[4] + a.[3]*b.[5])) in
  let mm := wr2 mm 4 0 (s*(SQRT_2*(a.[5]*b.[3] + a.[3]*b.[5]))) in
  let mm := wr2 mm 4 1 (s*(2*(a.[4]*b.[1] + a.[1]*b.[4]))) in
  let mm := wr2 mm 4 2 (s*(2*(a.[4]*b.[2] + a.[2]*b.[4]))) in
  let mm := wr2 mm 4 3 (s*(SQRT_2*a.[5]*b.[1] + a.[4]*b.[3] + a.[3]*b.[4] + SQRT_2*a.[1]*b.[5])) in
  let mm := wr2 mm 4 4 (s*(2*(a.[2]*b.[1] + a.[1]*b.[2] + a.[4]*b.[4]))) in
  let mm := wr2 mm 4 5 (s*(SQRT_2*a.[3]*b.[2] + SQRT_2*a.[2]*b.[3] + a.[5]*b.[4] + a.[4]*b.[5])) in
  let mm := wr2 mm 5 0 (s*(2*(a.[5]*b.[0] + a.[0]*b.[5]))) in
  let mm := wr2 mm 5 1 (s*(SQRT_2*(a.[4]*b.[3] + a.[3]*b.[4]))) in
  let mm := wr2 mm 5 2 (s*(2*(a.[5]*b.[2] + a.[2]*b.[5]))) in
  let mm := wr2 mm 5 3 (s*(SQRT_2*a.[4]*b.[0] + a.[5]*b.[3] + SQRT_2*a.[0]*b.[4] + a.[3]*b.[5])) in
  let mm := wr2 mm 5 4 (s*(SQRT_2*a.[3]*b.[2] + SQRT_2*a.[2]*b.[3] + a.[5]*b.[4] + a.[4]*b.[5])) in
  let mm := wr2 mm 5 5 (s*(2*(a.[2]*b.[0] + a.[0]*b.[2] + a.[5]*b.[5]))) in
  mm.
Definition qsd9 (mm : nat -> nat -> R) (s : R) (a b : nat -> R) : nat -> nat -> R :=
  let mm := wr2 mm 0 0 (s*(4*a.[0]*b.[0])) in
  let mm := wr2 mm 0 1 (s*(2*(a.[3] + a.[6])*(b.[3] + b.[6]))) in
  let mm := wr2 mm 0 2 (s*(2*(a.[5] + a.[8])*(b.[5] + b.[8]))) in
  let mm := wr2 mm 0 3 (s*(2*(a.[3]*b.[0] + a.[6]*b.[0] + a.[0]*(b.[3] + b.[6])))) in
  let mm := wr2 mm 0 4 (s*(SQRT_2*((a.[5] + a.[8])*(b.[3] + b.[6]) + (a.[3] + a.[6])*(b.[5] + b.[8])))) in
  let mm := wr2 mm 0 5 (s*(2*(a.[5]*b.[0] + a.[8]*b.[0] + a.[0]*(b.[5] + b.[8])))) in
  let mm := wr2 mm 1 0 (s*(2*(a.[3] - a.[6])*(b.[3] - b.[6]))) in
  let mm := wr2 mm 1 1 (s*(4*a.[1]*b.[1])) in
  let mm := wr2 mm 1 2 (s*(2*(a.[4] + a.[7])*(b.[4] + b.[7]))) in
  let mm := wr2 mm 1 3 (s*(2*(a.[3]*b.[1] - a.[6]*b.[1] + a.[1]*(b.[3] - b.[6])))) in
  let mm := wr2 mm 1 4 (s*(2*(a.[4]*b.[1] + a.[7]*b.[1] + a.[1]*(b.[4] + b.[7])))) in
  let mm := wr2 mm 1 5 (s*(SQRT_2*((a.[4] + a.[7])*(b.[3] - b.[6]) + (a.[3] - a.[6])*(b.[4] + b.[7])))) in
  let mm := wr2 mm 2 0 (s*(2*(a.[5] - a.[8])*(b.[5] - b.[8]))) in
  let mm := wr2 mm 2 1 (s*(2*(a.[4] - a.[7])*(b.[4] - b.[7]))) in
  let mm := wr2 mm 2 2 (s*(4*a.[2]*b.[2])) in
  let mm := wr2 mm 2 3 (s*(SQRT_2*((a.[5] - a.[8])*(b.[4] - b.[7]) + (a.[4] - a.[7])*(b.[5] - b.[8])))) in
  let mm := wr2 mm 2 4 (s*(2*(a.[4]*b.[2] - a.[7]*b.[2] + a.[2]*(b.[4] - b.[7])))) in
  let mm := wr2 mm 2 5 (s*(2*(a.[5]*b.[2] - a.[8]*b.[2] + a.[2]*(b.[5] - b.[8])))) in
  let mm := wr2 mm 3 0 (s*(2*(a.[3]*b.[0] - a.[6]*b.[0] + a.[0]*(b.[3] - b.[6])))) in
  let mm := wr2 mm 3 1 (s*(2*(a.[3]*b.[1] + a.[6]*b.[1] + a.[1]*(b.[3] + b.[6])))) in
  let mm := wr2 mm 3 2 (s*(SQRT_2*((a.[5] + a.[8])*(b.[4] + b.[7]) + (a.[4] + a.[7])*(b.[5] + b.[8])))) in
  let mm := wr2 mm 3 3 (s*(2*(a.[1]*b.[0] + a.[0]*b.[1] + a.[3]*b.[3] - a.[6]*b.[6]))) in
  let mm := wr2 mm 3 4 (s*(SQRT_2*(a.[5] + a.[8])*b.[1] + (a.[4] + a.[7])*(b.[3] + b.[6]) + (a.[3] + a.[6])*(b.[4] + b.[7]) + SQRT_2*a.[1]*(b.[5] + b.[8]))) in
  let mm := wr2 mm 3 5 (s*(SQRT_2*(a.[4] + a.[7])*b.[0] + (a.[5] + a.[8])*(b.[3] - b.[6]) + SQRT_2*a.[0]*(b.[4] + b.[7]) + (a.[3] - a.[6])*(b.[5] + b.[8]))) in
  let mm := wr2 mm 4 0 (s*(SQRT_2*((a.[5] - a.[8])*(b.[3] - b.[6]) + (a.[3] - a.[6])*(b.[5] - b.[8])))) in
  let mm := wr2 mm 4 1 (s*(2*(a.[4]*b.[1] - a.[7]*b.[1] + a.[1]*(b.[4] - b.[7])))) in
  let mm := wr2 mm 4 2 (s*(2*(a.[4]*b.[2] + a.[7]*b.[2] + a.[2]*(b.[4] + b.[7])))) in
  let mm := wr2 mm 4 3 (s*(SQRT_2*(a.[5] - a.[8])*b.[1] + (a.[4] - a.[7])*(b.[3] - b.[6]) + (a.[3] - a.[6])*(b.[4] - b.[7]) + SQRT_2*a.[1]*(b.[5] - b.[8]))) in
  let mm := wr2 mm 4 4 (s*(2*(a.[2]*b.[1] + a.[1]*b.[2] + a.[4]*b.[4] - a.[7]*b.[7]))) in
  let mm := wr2 mm 4 5 (s*(SQRT_2*(a.[3] - a.[6])*b.[2] + SQRT_2*a.[2]*(b.[3] - b.[6]) + (a.[5] - a.[8])*(b.[4] + b.[7]) + (a.[4] + a.[7])*(b.[5] - b.[8]))) in
  let mm := wr2 mm 5 0 (s*(2*(a.[5]*b.[0] - a.[8]*b.[0] + a.[0]*(b.[5] - b.[8])))) in
  let mm := wr2 mm 5 1 (s*(SQRT_2*((a.[4] - a.[7])*(b.[3] + b.[6]) + (a.[3] + a.[6])*(b.[4] - b.[7])))) in
  let mm := wr2 mm 5 2 (s*(2*(a.[5]*b.[2] + a.[8]*b.[2] + a.[2]*(b.[5] + b.[8])))) in
  let mm := wr2 mm 5 3 (s*(SQRT_2*(a.[4] - a.[7])*b.[0] + (a.[5] - a.[8])*(b.[3] + b.[6]) + SQRT_2*a.[0]*(b.[4] - b.[7]) + (a.[3] + a.[6])*(b.[5] - b.[8]))) in
  let mm := wr2 mm 5 4 (s*(SQRT_2*(a.[3] + a.[6])*b.[2] + SQRT_2*a.[2]*(b.[3] + b.[6]) + (a.[5] + a.[8])*(b.[4] - b.[7]) + (a.[4] - a.[7])*(b.[5] + b.[8]))) in
  let mm := wr2 mm 5 5 (s*(2*(a.[2]*b.[0] + a.[0]*b.[2] + a.[5]*b.[5] - a.[8]*b.[8]))) in
  mm.
Definition t2_qsd_t2 (dd : t4) (s : R) (aa bb : t2) : res t4 :=
  _ <- assert_ (rep_eqb (t4_rep dd) Symmetric) ;;
  _ <- assert_ (rep_eqb (t2_rep bb) (t2_rep aa)) ;;
  let dim := t2_dim aa in
  let a := t2_vec aa in
  let b := t2_vec bb in
  if t4_use_loops dd then
    let ddim := t4_dim dd in
    let mm := loop ddim (fun m mm => loop ddim (fun n mm => wr2 mm m n 0) mm) (t4_mat dd) in
    Ok (t4_put dd (loop 6 (fun m mm =>
      let '(i, j) := M_TO_IJ m in
      let fm := if (i =? j)%nat then 1 else SQRT_2 in
      loop 6 (fun n mm =>
        let '(k, l) := M_TO_IJ n in
        let fn_ := if (k =? l)%nat then 1 else SQRT_2 in
        let dijkl := gs aa i k * gs bb j l + gs aa i l * gs bb j k
                     + gs bb i k * gs aa j l + gs bb i l * gs aa j k in
        wr2 mm m n (s * fm * fn_ * dijkl)) mm) mm))
  else
    Ok (t4_put dd (if (dim =? 4)%nat then qsd4 (t4_mat dd) s a b
                   else if (dim =? 6)%nat then qsd6 (t4_mat dd) s a b
                   else qsd9 (t4_mat dd) s a b)).
