(** Model of russell_tensor: constants.rs, enums.rs, tensor1.rs, tensor2.rs
    and operations_t2.rs (default build: feature "heap" off).

    `f64` is read as a real number. The fixed array `[f64; 9]` is a function
    from positions to reals of which positions 0..8 are meaningful; a call that
    lets the user choose a position beyond 8 is a.[Panic]. `&mut` outputs are
    passed in (they may hold stale data) and returned. Not modelled: the
    Display and serde impls, and the field `use_loops` of Tensor2, which no
    function of the crate reads. *)
From Coq Require Import Reals Lra List.
From Verif Require Import Base RBase Sort_Model.
Import ListNotations.
Open Scope R_scope.

(** reading and writing one position of an array *)
Notation "v .[ i ]" := (v i%nat) (at level 2, left associativity, only parsing).
Definition wr (v : nat -> R) (k : nat) (x : R) : nat -> R :=
  fun j => if (j =? k)%nat then x else v j.
Definition wr2 (v : nat -> nat -> R) (m n : nat) (x : R) : nat -> nat -> R :=
  fun p q => if ((p =? m) && (q =? n))%nat then x else v p q.
(** `for m in 0..n { .. }` around a body that cannot panic *)
Definition loop {S : Type} (n : nat) (f : nat -> S -> S) (s : S) : S :=
  fold_left (fun s m => f m s) (seq 0 n) s.

(** constants.rs:3-27; the literals are read as the numbers their comments name *)
Definition SQRT_2 : R := sqrt 2.
Definition SQRT_3 : R := sqrt 3.
Definition SQRT_6 : R := sqrt 6.
Definition SQRT_2_BY_3 : R := sqrt (2 / 3).
Definition SQRT_3_BY_2 : R := sqrt (3 / 2).
Definition ONE_BY_3 : R := 1 / 3.
Definition TWO_BY_3 : R := 2 / 3.
(** constants.rs:39 *)
Definition TOL_J2 : R := / 1000000000.

(** constants.rs:386-399 *)
Definition M_TO_IJ (m : nat) : nat * nat :=
  nth m [(0,0); (1,1); (2,2); (0,1); (1,2); (0,2); (1,0); (2,1); (2,0)]%nat (0,0)%nat.
(** constants.rs:426-430 *)
Definition IJ_TO_M (i j : nat) : nat :=
  nth j (nth i [[0; 3; 5]; [6; 1; 4]; [8; 7; 2]] [])%nat 0%nat.
(** constants.rs:454-458 *)
Definition IJ_TO_M_SYM (i j : nat) : nat :=
  nth j (nth i [[0; 3; 5]; [3; 1; 4]; [5; 4; 2]] [])%nat 0%nat.

(** enums.rs:24-139 *)
Inductive rep := General | Symmetric | Symmetric2D.
Definition rep_eqb (r s : rep) : bool :=
  match r, s with
  | General, General | Symmetric, Symmetric | Symmetric2D, Symmetric2D => true
  | _, _ => false
  end.
(** enums.rs:143-149 *)
Definition rep_new (vector_dim : nat) : rep :=
  match vector_dim with 4%nat => Symmetric2D | 6%nat => Symmetric | _ => General end.
(** enums.rs:152-158 *)
Definition rep_dim (r : rep) : nat :=
  match r with General => 9%nat | Symmetric => 6%nat | Symmetric2D => 4%nat end.
(** enums.rs:163-169 *)
Definition rep_two_dim (r : rep) : bool := match r with Symmetric2D => true | _ => false end.
(** enums.rs:172-174 *)
Definition rep_symmetric (r : rep) : bool := if rep_eqb r General then false else true.

(** tensor1.rs:24-33, 56-66 (an input of three components), 78-80, 91-93 *)
Definition t1 := nat -> R.
Definition t1_new : t1 := fun _ => 0.
Definition t1_from (x y z : R) : t1 := wr (wr (wr t1_new 0 x) 1 y) 2 z.
Definition t1_set (u : t1) (i : nat) (x : R) : res t1 := if (i <? 3)%nat then Ok (wr u i x) else Panic.
Definition t1_get (u : t1) (i : nat) : res R := if (i <? 3)%nat then Ok (u i) else Panic.
(** tensor1.rs:100-104 *)
Definition t1_cross (a : t1) (result : t1) (b : t1) : t1 :=
  let v := wr result 0 (a.[1] * b.[2] - a.[2] * b.[1]) in
  let v := wr v 1 (a.[2] * b.[0] - a.[0] * b.[2]) in
  wr v 2 (a.[0] * b.[1] - a.[1] * b.[0]).
(** tensor1.rs:111-113 *)
Definition t1_dot (a b : t1) : R := a.[0] * b.[0] + a.[1] * b.[1] + a.[2] * b.[2].

(** tensor2.rs:70-99; `dim` is a function of `rep`, see [t2_dim] *)
Record t2 := mkT2 { t2_rep : rep; t2_vec : nat -> R }.
Definition t2_dim (t : t2) : nat := rep_dim (t2_rep t).
(** tensor2.rs:130-150 *)
Definition t2_new (r : rep) : t2 := mkT2 r (fun _ => 0).
(** tensor2.rs:153-159 *)
Definition t2_new_sym (two_dim : bool) : t2 := if two_dim then t2_new Symmetric2D else t2_new Symmetric.
(** tensor2.rs:164-170 *)
Definition t2_new_sym_ndim (ndim : nat) : t2 :=
  if (ndim =? 2)%nat then t2_new Symmetric2D else t2_new Symmetric.
(** tensor2.rs:274-276 *)
Definition t2_get (t : t2) (m : nat) : res R := if (m <? 9)%nat then Ok (t2_vec t m) else Panic.
(** tensor2.rs:284-286 *)
Definition t2_set (t : t2) (m : nat) (x : R) : res t2 :=
  if (m <? 9)%nat then Ok (mkT2 (t2_rep t) (wr (t2_vec t) m x)) else Panic.
Definition t2_put (t : t2) (v : nat -> R) : t2 := mkT2 (t2_rep t) v.

(** tensor2.rs:368-395; [tt] is the 3x3 input *)
Definition t2_set_std_matrix (t : t2) (tt : nat -> nat -> R) : res t2 :=
  let dim := t2_dim t in
  _ <- (if ((dim =? 4) || (dim =? 6))%nat then
          if negb (Reqb (tt 1 0)%nat (tt 0 1)%nat) || negb (Reqb (tt 2 1)%nat (tt 1 2)%nat)
             || negb (Reqb (tt 2 0)%nat (tt 0 2)%nat)
          then Err "cannot set symmetric Tensor2 with non-symmetric data"
          else if (dim =? 4)%nat then
                 if negb (Reqb (tt 1 2)%nat 0) || negb (Reqb (tt 0 2)%nat 0)
                 then Err "cannot set Symmetric2D Tensor2 with non-zero off-diagonal data"
                 else Ok Datatypes.tt
               else Ok Datatypes.tt
        else Ok Datatypes.tt) ;;
  Ok (t2_put t (loop dim (fun m v =>
    let '(i, j) := M_TO_IJ m in
    let v := if (i =? j)%nat then wr v m (tt i j) else v in
    let v := if (i <? j)%nat then wr v m ((tt i j + tt j i) / SQRT_2) else v in
    if (j <? i)%nat then wr v m ((tt j i - tt i j) / SQRT_2) else v) (t2_vec t))).
(** tensor2.rs:487-494 *)
Definition t2_from_std_matrix (tt : nat -> nat -> R) (r : rep) : res t2 :=
  t2_set_std_matrix (t2_new r) tt.
(** tensor2.rs:521-527 *)
Definition t2_identity (r : rep) : t2 :=
  let v := t2_vec (t2_new r) in
  let v := wr v 0 1 in
  let v := wr v 1 1 in
  let v := wr v 2 1 in
  mkT2 r v.

(** tensor2.rs:559-588 *)
Definition t2_get_std (t : t2) (i j : nat) : res R :=
  let v := t2_vec t in
  if negb ((i <? 3) && (j <? 3))%nat then Panic else
  Ok match t2_dim t with
     | 4%nat => let m := IJ_TO_M_SYM i j in
                if (3 <? m)%nat then 0 else if (i =? j)%nat then v m else v m / SQRT_2
     | 6%nat => let m := IJ_TO_M_SYM i j in
                if (i =? j)%nat then v m else v m / SQRT_2
     | _ => let m := IJ_TO_M i j in
            if (i =? j)%nat then v m
            else if (i <? j)%nat then let n := IJ_TO_M j i in (v m + v n) / SQRT_2
            else let n := IJ_TO_M j i in (v n - v m) / SQRT_2
     end.
(** the value of `get_std` at indices known to be below 3 *)
Definition gs (t : t2) (i j : nat) : R := match t2_get_std t i j with Ok x => x | _ => 0 end.

(** tensor2.rs:657-674; the output matrix is ((nrow, ncol), entries) *)
Definition t2_to_std_matrix (t : t2) (out : (nat * nat) * (nat -> nat -> R)) : res ((nat * nat) * (nat -> nat -> R)) :=
  let '((nr, nc), mm) := out in
  _ <- assert_ ((nr =? 3) && (nc =? 3))%nat ;;
  if (t2_dim t <? 9)%nat then
    Ok ((nr, nc), loop (t2_dim t) (fun m mm =>
      let '(i, j) := M_TO_IJ m in
      let mm := wr2 mm i j (gs t i j) in
      if negb (i =? j)%nat then wr2 mm j i (mm i j) else mm) mm)
  else
    Ok ((nr, nc), loop 3 (fun i mm => loop 3 (fun j mm => wr2 mm i j (gs t i j)) mm) mm).
(** tensor2.rs:616-620 *)
Definition t2_as_std_matrix (t : t2) : res ((nat * nat) * (nat -> nat -> R)) :=
  t2_to_std_matrix t ((3, 3)%nat, fun _ _ => 0).
(** tensor2.rs:710-718: (T22, the 2x2 matrix) *)
Definition t2_as_std_matrix_2d (t : t2) : res (R * (nat -> nat -> R)) :=
  _ <- assert_ (rep_eqb (t2_rep t) Symmetric2D) ;;
  let mm := fun _ _ => 0 in
  let mm := wr2 mm 0 0 (gs t 0 0) in
  let mm := wr2 mm 0 1 (gs t 0 1) in
  let mm := wr2 mm 1 0 (gs t 1 0) in
  let mm := wr2 mm 1 1 (gs t 1 1) in
  Ok (gs t 2 2, mm).

(** tensor2.rs:766-782 *)
Definition t2_as_general (t : t2) : t2 :=
  let a := t2_vec t in
  let v := t2_vec (t2_new General) in
  let v := wr (wr (wr (wr v 0 a.[0]) 1 a.[1]) 2 a.[2]) 3 a.[3] in
  let v := if (4 <? t2_dim t)%nat then wr (wr v 4 a.[4]) 5 a.[5] else v in
  let v := if (6 <? t2_dim t)%nat then wr (wr (wr v 6 a.[6]) 7 a.[7]) 8 a.[8] else v in
  mkT2 General v.
(** tensor2.rs:831-839 *)
Definition t2_sym2d_as_symmetric (t : t2) : res t2 :=
  _ <- assert_ (rep_eqb (t2_rep t) Symmetric2D) ;;
  let a := t2_vec t in
  let v := t2_vec (t2_new Symmetric) in
  Ok (mkT2 Symmetric (wr (wr (wr (wr v 0 a.[0]) 1 a.[1]) 2 a.[2]) 3 a.[3])).
(** tensor2.rs:842-844 *)
Definition t2_clear (t : t2) : t2 := t2_put t (fun _ => 0).
(** tensor2.rs:900-908 *)
Definition t2_sym_set_std (t : t2) (i j : nat) (value : R) : res t2 :=
  _ <- assert_ (negb (rep_eqb (t2_rep t) General)) ;;
  if negb ((i <? 3) && (j <? 3))%nat then Panic else
  let m := IJ_TO_M_SYM i j in
  Ok (t2_put t (if (i =? j)%nat then wr (t2_vec t) m value
                else wr (t2_vec t) m (value * SQRT_2))).
(** tensor2.rs:953-962 *)
Definition t2_sym_add_std (t : t2) (i j : nat) (alpha value : R) : res t2 :=
  _ <- assert_ (negb (rep_eqb (t2_rep t) General)) ;;
  _ <- assert_ (i <=? j)%nat ;;
  if negb ((i <? 3) && (j <? 3))%nat then Panic else
  let m := IJ_TO_M_SYM i j in
  let v := t2_vec t in
  Ok (t2_put t (if (i =? j)%nat then wr v m (v m + alpha * value)
                else wr v m (v m + alpha * value * SQRT_2))).
(** tensor2.rs:1011-1026 *)
Definition t2_set_vector (t : t2) (alpha : R) (other : list R) : res t2 :=
  _ <- assert_ (t2_dim t =? length other)%nat ;;
  let b := fun k => nth k other 0 in
  let v := t2_vec t in
  let v := wr v 0 (alpha * b.[0]) in
  let v := wr v 1 (alpha * b.[1]) in
  let v := wr v 2 (alpha * b.[2]) in
  let v := wr v 3 (alpha * b.[3]) in
  let v := if (4 <? t2_dim t)%nat then
    let v := wr v 4 (alpha * b.[4]) in wr v 5 (alpha * b.[5]) else v in
  let v := if (6 <? t2_dim t)%nat then
    let v := wr v 6 (alpha * b.[6]) in
    let v := wr v 7 (alpha * b.[7]) in wr v 8 (alpha * b.[8]) else v in
  Ok (t2_put t v).
(** tensor2.rs:1068-1083 *)
Definition t2_set_tensor (t : t2) (alpha : R) (other : t2) : res t2 :=
  _ <- assert_ (rep_eqb (t2_rep t) (t2_rep other)) ;;
  let b := t2_vec other in
  let v := t2_vec t in
  let v := wr v 0 (alpha * b.[0]) in
  let v := wr v 1 (alpha * b.[1]) in
  let v := wr v 2 (alpha * b.[2]) in
  let v := wr v 3 (alpha * b.[3]) in
  let v := if (4 <? t2_dim t)%nat then
    let v := wr v 4 (alpha * b.[4]) in wr v 5 (alpha * b.[5]) else v in
  let v := if (6 <? t2_dim t)%nat then
    let v := wr v 6 (alpha * b.[6]) in
    let v := wr v 7 (alpha * b.[7]) in wr v 8 (alpha * b.[8]) else v in
  Ok (t2_put t v).
(** tensor2.rs:1125-1140 *)
Definition t2_update (t : t2) (alpha : R) (other : t2) : res t2 :=
  _ <- assert_ (rep_eqb (t2_rep t) (t2_rep other)) ;;
  let b := t2_vec other in
  let v := t2_vec t in
  let v := wr v 0 (v.[0] + alpha * b.[0]) in
  let v := wr v 1 (v.[1] + alpha * b.[1]) in
  let v := wr v 2 (v.[2] + alpha * b.[2]) in
  let v := wr v 3 (v.[3] + alpha * b.[3]) in
  let v := if (4 <? t2_dim t)%nat then
    let v := wr v 4 (v.[4] + alpha * b.[4]) in wr v 5 (v.[5] + alpha * b.[5]) else v in
  let v := if (6 <? t2_dim t)%nat then
    let v := wr v 6 (v.[6] + alpha * b.[6]) in
    let v := wr v 7 (v.[7] + alpha * b.[7]) in wr v 8 (v.[8] + alpha * b.[8]) else v in
  Ok (t2_put t v).

(** tensor2.rs:1161-1182 *)
Definition t2_determinant (t : t2) : R :=
  let a := t2_vec t in
  match t2_dim t with
  | 4%nat => a.[0] * a.[1] * a.[2] - (a.[2] * a.[3] * a.[3]) / 2
  | 6%nat => a.[0] * a.[1] * a.[2] - (a.[2] * a.[3] * a.[3]) / 2 - (a.[0] * a.[4] * a.[4]) / 2
             + (a.[3] * a.[4] * a.[5]) / SQRT_2
             - (a.[1] * a.[5] * a.[5]) / 2
  | _ => a.[0] * a.[1] * a.[2] - (a.[2] * a.[3] * a.[3]) / 2 - (a.[0] * a.[4] * a.[4]) / 2
         + (a.[3] * a.[4] * a.[5]) / SQRT_2
         - (a.[1] * a.[5] * a.[5]) / 2
         + (a.[2] * a.[6] * a.[6]) / 2
         + (a.[5] * a.[6] * a.[7]) / SQRT_2
         + (a.[0] * a.[7] * a.[7]) / 2
         - (a.[4] * a.[6] * a.[8]) / SQRT_2
         - (a.[3] * a.[7] * a.[8]) / SQRT_2
         + (a.[1] * a.[8] * a.[8]) / 2
  end.

(** tensor2.rs:1225-1242 *)
Definition t2_transpose (t : t2) (at_ : t2) : res t2 :=
  _ <- assert_ (rep_eqb (t2_rep at_) (t2_rep t)) ;;
  let a := t2_vec t in
  let v := t2_vec at_ in
  let v := wr v 0 a.[0] in
  let v := wr v 1 a.[1] in
  let v := wr v 2 a.[2] in
  let v := wr v 3 a.[3] in
  let v := if (4 <? t2_dim t)%nat then let v := wr v 4 a.[4] in wr v 5 a.[5] else v in
  let v := if (6 <? t2_dim t)%nat then
    let v := wr v 6 (- a.[6]) in let v := wr v 7 (- a.[7]) in wr v 8 (- a.[8]) else v in
  Ok (t2_put at_ v).

(** tensor2.rs:1300-1353: the output tensor and the `Option<f64>` *)
Definition t2_inverse (t : t2) (ai : t2) (tolerance : R) : res (t2 * option R) :=
  _ <- assert_ (rep_eqb (t2_rep ai) (t2_rep t)) ;;
  let a := t2_vec t in
  let ov := t2_vec ai in
  match t2_dim t with
  | 4%nat =>
      let det := a.[0] * a.[1] * a.[2] - (a.[2] * a.[3] * a.[3]) / 2 in
      if Rltb tolerance (Rabs det) then
        Ok (t2_put ai (
      let ov := wr ov 0 ((a.[1] * a.[2]) / det) in
        let ov := wr ov 1 ((a.[0] * a.[2]) / det) in
        let ov := wr ov 2 ((a.[0] * a.[1] - a.[3] * a.[3] / 2) / det) in
        let ov := wr ov 3 (-((a.[2] * a.[3]) / det)) in
        ov), Some det)
      else Ok (ai, None)
  | 6%nat =>
      let det := a.[0] * a.[1] * a.[2] - (a.[2] * a.[3] * a.[3]) / 2 - (a.[0] * a.[4] * a.[4]) / 2
                 + (a.[3] * a.[4] * a.[5]) / SQRT_2
                 - (a.[1] * a.[5] * a.[5]) / 2 in
      if Rltb tolerance (Rabs det) then
        Ok (t2_put ai (
      let ov := wr ov 0 ((a.[1] * a.[2] - a.[4] * a.[4] / 2) / det) in
        let ov := wr ov 1 ((a.[0] * a.[2] - a.[5] * a.[5] / 2) / det) in
        let ov := wr ov 2 ((a.[0] * a.[1] - a.[3] * a.[3] / 2) / det) in
        let ov := wr ov 3 ((-2 * a.[2] * a.[3] + SQRT_2 * a.[4] * a.[5]) / (2 * det)) in
        let ov := wr ov 4 ((-2 * a.[0] * a.[4] + SQRT_2 * a.[3] * a.[5]) / (2 * det)) in
        let ov := wr ov 5 ((SQRT_2 * a.[3] * a.[4] - 2 * a.[1] * a.[5]) / (2 * det)) in
        ov), Some det)
      else Ok (ai, None)
  | _ =>
      let det := a.[0] * a.[1] * a.[2] - (a.[2] * a.[3] * a.[3]) / 2 - (a.[0] * a.[4] * a.[4]) / 2
                 + (a.[3] * a.[4] * a.[5]) / SQRT_2
                 - (a.[1] * a.[5] * a.[5]) / 2
                 + (a.[2] * a.[6] * a.[6]) / 2
                 + (a.[5] * a.[6] * a.[7]) / SQRT_2
                 + (a.[0] * a.[7] * a.[7]) / 2
                 - (a.[4] * a.[6] * a.[8]) / SQRT_2
                 - (a.[3] * a.[7] * a.[8]) / SQRT_2
                 + (a.[1] * a.[8] * a.[8]) / 2 in
      if Rltb tolerance (Rabs det) then
        Ok (t2_put ai (
      let ov := wr ov 0 ((2 * a.[1] * a.[2] - a.[4] * a.[4] + a.[7] * a.[7]) / (2 * det)) in
        let ov := wr ov 1 ((2 * a.[0] * a.[2] - a.[5] * a.[5] + a.[8] * a.[8]) / (2 * det)) in
        let ov := wr ov 2 ((2 * a.[0] * a.[1] - a.[3] * a.[3] + a.[6] * a.[6]) / (2 * det)) in
        let ov := wr ov 3 (-((SQRT_2 * a.[2] * a.[3] - a.[4] * a.[5] + a.[7] * a.[8]) / (SQRT_2 * det))) in
        let ov := wr ov 4 (-((SQRT_2 * a.[0] * a.[4] - a.[3] * a.[5] + a.[6] * a.[8]) / (SQRT_2 * det))) in
        let ov := wr ov 5 ((a.[3] * a.[4] - SQRT_2 * a.[1] * a.[5] + a.[6] * a.[7]) / (SQRT_2 * det)) in
        let ov := wr ov 6 (-((SQRT_2 * a.[2] * a.[6] + a.[5] * a.[7] - a.[4] * a.[8]) / (SQRT_2 * det))) in
        let ov := wr ov 7 (-((a.[5] * a.[6] + SQRT_2 * a.[0] * a.[7] - a.[3] * a.[8]) / (SQRT_2 * det))) in
        let ov := wr ov 8 ((a.[4] * a.[6] + a.[3] * a.[7] - SQRT_2 * a.[1] * a.[8]) / (SQRT_2 * det)) in
        ov), Some det)
      else Ok (ai, None)
  end.

(** tensor2.rs:1395-1458 *)
Definition t2_squared (t : t2) (a2 : t2) : res t2 :=
  _ <- assert_ (rep_eqb (t2_rep a2) (t2_rep t)) ;;
  let a := t2_vec t in
  let ov := t2_vec a2 in
  Ok (t2_put a2 match t2_dim t with
  | 4%nat =>
    let ov := wr ov 0 (a.[0] * a.[0] + a.[3] * a.[3] / 2) in
    let ov := wr ov 1 (a.[1] * a.[1] + a.[3] * a.[3] / 2) in
    let ov := wr ov 2 (a.[2] * a.[2]) in
    let ov := wr ov 3 ((SQRT_2 * a.[0] * a.[3] + SQRT_2 * a.[1] * a.[3]) / SQRT_2) in
    ov
  | 6%nat =>
    let ov := wr ov 0 (a.[0] * a.[0] + a.[3] * a.[3] / 2 + a.[5] * a.[5] / 2) in
    let ov := wr ov 1 (a.[1] * a.[1] + a.[3] * a.[3] / 2 + a.[4] * a.[4] / 2) in
    let ov := wr ov 2 (a.[2] * a.[2] + a.[4] * a.[4] / 2 + a.[5] * a.[5] / 2) in
    let ov := wr ov 3 (a.[0] * a.[3] + a.[1] * a.[3] + a.[4] * a.[5] / SQRT_2) in
    let ov := wr ov 4 (a.[1] * a.[4] + a.[2] * a.[4] + a.[3] * a.[5] / SQRT_2) in
    let ov := wr ov 5 (a.[0] * a.[5] + a.[2] * a.[5] + a.[3] * a.[4] / SQRT_2) in
    ov
  | _ =>
    let ov := wr ov 0 (a.[0] * a.[0] + ((a.[3] - a.[6]) * (a.[3] + a.[6])) / 2 + ((a.[5] - a.[8]) * (a.[5] + a.[8])) / 2) in
    let ov := wr ov 1 (a.[1] * a.[1] + ((a.[3] - a.[6]) * (a.[3] + a.[6])) / 2 + ((a.[4] - a.[7]) * (a.[4] + a.[7])) / 2) in
    let ov := wr ov 2 (a.[2] * a.[2] + ((a.[4] - a.[7]) * (a.[4] + a.[7])) / 2 + ((a.[5] - a.[8]) * (a.[5] + a.[8])) / 2) in
    let ov := wr ov 3 (((a.[0] * (a.[3] - a.[6])) / SQRT_2 + (a.[1] * (a.[3] - a.[6])) / SQRT_2 + (a.[0] * (a.[3] + a.[6])) / SQRT_2 + (a.[1] * (a.[3] + a.[6])) / SQRT_2 + ((a.[4] + a.[7]) * (a.[5] - a.[8])) / 2 + ((a.[4] - a.[7]) * (a.[5] + a.[8])) / 2) / SQRT_2) in
    let ov := wr ov 4 (((a.[1] * (a.[4] - a.[7])) / SQRT_2 + (a.[2] * (a.[4] - a.[7])) / SQRT_2 + (a.[1] * (a.[4] + a.[7])) / SQRT_2 + (a.[2] * (a.[4] + a.[7])) / SQRT_2 + ((a.[3] + a.[6]) * (a.[5] - a.[8])) / 2 + ((a.[3] - a.[6]) * (a.[5] + a.[8])) / 2) / SQRT_2) in
    let ov := wr ov 5 (((a.[0] * (a.[5] + a.[8])) / SQRT_2 + (a.[2] * (a.[5] + a.[8])) / SQRT_2 + (a.[0] * (a.[5] - a.[8])) / SQRT_2 + (a.[2] * (a.[5] - a.[8])) / SQRT_2 + ((a.[3] - a.[6]) * (a.[4] - a.[7])) / 2 + ((a.[3] + a.[6]) * (a.[4] + a.[7])) / 2) / SQRT_2) in
    let ov := wr ov 6 ((-(a.[0] * (a.[3] - a.[6])) / SQRT_2 - (a.[1] * (a.[3] - a.[6])) / SQRT_2 + (a.[0] * (a.[3] + a.[6])) / SQRT_2 + (a.[1] * (a.[3] + a.[6])) / SQRT_2 - ((a.[4] + a.[7]) * (a.[5] - a.[8])) / 2 + ((a.[4] - a.[7]) * (a.[5] + a.[8])) / 2) / SQRT_2) in
    let ov := wr ov 7 ((-(a.[1] * (a.[4] - a.[7])) / SQRT_2 - (a.[2] * (a.[4] - a.[7])) / SQRT_2 + (a.[1] * (a.[4] + a.[7])) / SQRT_2 + (a.[2] * (a.[4] + a.[7])) / SQRT_2 - ((a.[3] + a.[6]) * (a.[5] - a.[8])) / 2 + ((a.[3] - a.[6]) * (a.[5] + a.[8])) / 2) / SQRT_2) in
    let ov := wr ov 8 ((-(a.[0] * (a.[5] - a.[8])) / SQRT_2 - (a.[2] * (a.[5] - a.[8])) / SQRT_2 + (a.[0] * (a.[5] + a.[8])) / SQRT_2 + (a.[2] * (a.[5] + a.[8])) / SQRT_2 - ((a.[3] - a.[6]) * (a.[4] - a.[7])) / 2 + ((a.[3] + a.[6]) * (a.[4] + a.[7])) / 2) / SQRT_2) in
    ov
  end).

(** tensor2.rs:1483-1485 *)
Definition t2_trace (t : t2) : R := let a := t2_vec t in a.[0] + a.[1] + a.[2].
(** tensor2.rs:1510-1522 *)
Definition t2_norm (t : t2) : R :=
  let a := t2_vec t in
  let sm := a.[0] * a.[0] + a.[1] * a.[1] + a.[2] * a.[2] + a.[3] * a.[3] in
  let sm := if (4 <? t2_dim t)%nat then sm + (a.[4] * a.[4] + a.[5] * a.[5]) else sm in
  let sm := if (6 <? t2_dim t)%nat then sm + (a.[6] * a.[6] + a.[7] * a.[7] + a.[8] * a.[8]) else sm in
  sqrt sm.
(** tensor2.rs:1566-1593 *)
Definition t2_deviator (t : t2) (dev : t2) : res t2 :=
  _ <- assert_ (rep_eqb (t2_rep dev) (t2_rep t)) ;;
  let a := t2_vec t in
  let v := t2_vec dev in
  let m := (a.[0] + a.[1] + a.[2]) / 3 in
  let v := wr v 0 (a.[0] - m) in
  let v := wr v 1 (a.[1] - m) in
  let v := wr v 2 (a.[2] - m) in
  let v := wr v 3 a.[3] in
  let v := if (4 <? t2_dim t)%nat then let v := wr v 4 a.[4] in wr v 5 a.[5] else v in
  let v := if (6 <? t2_dim t)%nat then
    let v := wr v 6 a.[6] in let v := wr v 7 a.[7] in wr v 8 a.[8] else v in
  let new_trace_s := v.[0] + v.[1] + v.[2] in
  Ok (t2_put dev
    (if Rltb (/ 10000000000) (Rabs new_trace_s) then
       let '(_, _, v2) := sort3 R Rltb (Rabs a.[0], Rabs a.[1], Rabs a.[2]) in
       let d := Rmax 1 v2 in
       let m := (a.[0] / d + a.[1] / d + a.[2] / d) / 3 in
       let v := wr v 0 ((a.[0] / d - m) * d) in
       let v := wr v 1 ((a.[1] / d - m) * d) in
       wr v 2 ((a.[2] / d - m) * d)
     else v)).
(** tensor2.rs:1641-1654 *)
Definition t2_deviator_norm (t : t2) : R :=
  let a := t2_vec t in
  let sq := a.[3] * a.[3]
    + (a.[0] - a.[1]) * (a.[0] - a.[1]) / 3
    + (a.[1] - a.[2]) * (a.[1] - a.[2]) / 3
    + (a.[2] - a.[0]) * (a.[2] - a.[0]) / 3 in
  let sq := if (4 <? t2_dim t)%nat then sq + (a.[4] * a.[4] + a.[5] * a.[5]) else sq in
  let sq := if (6 <? t2_dim t)%nat then sq + (a.[6] * a.[6] + a.[7] * a.[7] + a.[8] * a.[8]) else sq in
  sqrt sq.
(** tensor2.rs:1693-1714 *)
Definition t2_deviator_determinant (t : t2) : R :=
  let a := t2_vec t in
  let m := (a.[0] + a.[1] + a.[2]) / 3 in
  match t2_dim t with
  | 4%nat => (a.[2] - m) * (m * m + a.[0] * a.[1] - m * (a.[0] + a.[1]) - a.[3] * a.[3] / 2)
  | 6%nat =>
      (2 * m * m * (a.[0] + a.[1] + a.[2]) - a.[2] * a.[3] * a.[3] + a.[0] * (2 * a.[1] * a.[2] - a.[4] * a.[4])
        - 2 * m * m * m
        + SQRT_2 * a.[3] * a.[4] * a.[5]
        - a.[1] * a.[5] * a.[5]
        + m * (-2 * a.[1] * a.[2] - 2 * a.[0] * (a.[1] + a.[2]) + a.[3] * a.[3] + a.[4] * a.[4] + a.[5] * a.[5]))
        / 2
  | _ =>
      (2 * (a.[2] - m)
        * (2 * m * m + 2 * a.[0] * a.[1] - 2 * m * (a.[0] + a.[1]) - a.[3] * a.[3] + a.[6] * a.[6])
        + SQRT_2 * (a.[5] - a.[8]) * ((a.[3] + a.[6]) * (a.[4] + a.[7]) + SQRT_2 * (m - a.[1]) * (a.[5] + a.[8]))
        + SQRT_2 * (a.[4] - a.[7]) * ((a.[3] - a.[6]) * (a.[5] + a.[8]) + SQRT_2 * (m - a.[0]) * (a.[4] + a.[7])))
        / 4
  end.
(** tensor2.rs:1731-1753 *)
Definition t2_decompose (t sym skw : t2) : res (t2 * t2) :=
  _ <- assert_ (rep_eqb (t2_rep sym) (t2_rep t)) ;;
  _ <- assert_ (rep_eqb (t2_rep skw) (t2_rep t)) ;;
  let a := t2_vec t in
  if rep_eqb (t2_rep t) General then
    let sv := loop 6 (fun m sv => wr sv m (a m)) (t2_vec sym) in
    let kv := loop 6 (fun m kv => wr kv m 0) (t2_vec skw) in
    let kv := wr kv 6 a.[6] in
    let kv := wr kv 7 a.[7] in
    let kv := wr kv 8 a.[8] in
    Ok (t2_put sym sv, t2_put skw kv)
  else
    let sv := loop (t2_dim t) (fun m sv => wr sv m (a m)) (t2_vec sym) in
    let kv := loop (t2_dim t) (fun m kv => wr kv m 0) (t2_vec skw) in
    Ok (t2_put sym sv, t2_put skw kv).
(** tensor2.rs:1771-1788 *)
Definition t2_axial_vector (t : t2) (omega : t1) : t1 :=
  let a := t2_vec t in
  if rep_eqb (t2_rep t) General then
    let v := wr omega 0 (- a.[7] / SQRT_2) in
    let v := wr v 1 (a.[8] / SQRT_2) in
    wr v 2 (- a.[6] / SQRT_2)
  else
    let v := wr omega 0 0 in let v := wr v 1 0 in wr v 2 0.

(** tensor2.rs:1814-1816 *)
Definition t2_invariant_ii1 (t : t2) : R := t2_trace t.
(** tensor2.rs:1840-1850 *)
Definition t2_invariant_ii2 (t : t2) : R :=
  let a := t2_vec t in
  let ii2 := a.[0] * a.[1] + a.[0] * a.[2] + a.[1] * a.[2] - a.[3] * a.[3] / 2 in
  let ii2 := if (4 <? t2_dim t)%nat then ii2 - (a.[4] * a.[4] + a.[5] * a.[5]) / 2 else ii2 in
  if (6 <? t2_dim t)%nat then ii2 + (a.[6] * a.[6] + a.[7] * a.[7] + a.[8] * a.[8]) / 2 else ii2.
(** tensor2.rs:1874-1876 *)
Definition t2_invariant_ii3 (t : t2) : R := t2_determinant t.
(** tensor2.rs:1916-1935 *)
Definition t2_invariant_jj2 (t : t2) : R :=
  let a := t2_vec t in
  match t2_dim t with
  | 4%nat => (2 * (a.[0] * a.[0] + a.[1] * a.[1] - a.[1] * a.[2] + a.[2] * a.[2] - a.[0] * (a.[1] + a.[2]))
              + 3 * a.[3] * a.[3])
             / 6
  | 6%nat => (2 * (a.[0] * a.[0] + a.[1] * a.[1] - a.[1] * a.[2] + a.[2] * a.[2] - a.[0] * (a.[1] + a.[2]))
              + 3 * (a.[3] * a.[3] + a.[4] * a.[4] + a.[5] * a.[5]))
             / 6
  | _ => (2 * (a.[0] * a.[0] + a.[1] * a.[1] - a.[1] * a.[2] + a.[2] * a.[2] - a.[0] * (a.[1] + a.[2]))
          + 3 * (a.[3] * a.[3] + a.[4] * a.[4] + a.[5] * a.[5] - a.[6] * a.[6] - a.[7] * a.[7] - a.[8] * a.[8]))
         / 6
  end.
(** tensor2.rs:1961-1963 *)
Definition t2_invariant_jj3 (t : t2) : R := t2_deviator_determinant t.
(** tensor2.rs:1989-1991, 2015-2017, 2043-2045, 2074-2076 *)
Definition t2_invariant_sigma_s (t : t2) : R := t2_trace t / SQRT_3.
Definition t2_invariant_sigma_t (t : t2) : R := t2_deviator_norm t.
Definition t2_invariant_p (t : t2) : R := t2_trace t / 3.
Definition t2_invariant_q (t : t2) : R := t2_deviator_norm t * SQRT_3_BY_2.
(** tensor2.rs:2100-2102, 2128-2130, 2154-2156, 2180-2182 *)
Definition t2_invariant_eps_s (t : t2) : R := t2_trace t / SQRT_3.
Definition t2_invariant_eps_t (t : t2) : R := t2_deviator_norm t.
Definition t2_invariant_eps_v (t : t2) : R := t2_trace t.
Definition t2_invariant_eps_d (t : t2) : R := t2_deviator_norm t * SQRT_2_BY_3.
(** tensor2.rs:2214-2222; `f64::powf` of a positive number *)
Definition t2_invariant_lode (t : t2) : option R :=
  let jj2 := t2_invariant_jj2 t in
  if Rltb TOL_J2 jj2 then
    let jj3 := t2_invariant_jj3 t in
    Some ((3 / 2) * SQRT_3 * jj3 / Rpower jj2 (3 / 2))
  else None.
(** tensor2.rs:2245-2250 *)
Definition t2_invariants_octahedral (t : t2) : R * R * option R :=
  (t2_invariant_ii1 t / SQRT_3, t2_deviator_norm t, t2_invariant_lode t).

(** tensor2.rs:205-212 = 246-253: the part shared by the two constructors *)
Definition t2_from_stars (star1 star2 star3 : R) (two_dim : bool) : t2 :=
  let tt := t2_new_sym two_dim in
  let v := t2_vec tt in
  let v := wr v 0 ((SQRT_2 * star1 + star2) / SQRT_3) in
  let v := wr v 1 (- star1 / SQRT_6 + star2 / SQRT_3 - star3 / SQRT_2) in
  let v := wr v 2 (- star1 / SQRT_6 + star2 / SQRT_3 + star3 / SQRT_2) in
  t2_put tt v.
(** tensor2.rs:200-213 *)
Definition t2_new_from_octahedral (distance radius lode : R) (two_dim : bool) : res t2 :=
  if Rltb lode (-1) || Rltb 1 lode then Err "lode invariant must be in -1 <= lode <= 1" else
  let theta := acos lode / 3 in
  Ok (t2_from_stars (radius * cos theta) distance (radius * sin theta) two_dim).
(** tensor2.rs:242-254 *)
Definition t2_new_from_octahedral_alpha (distance radius alpha : R) (two_dim : bool) : res t2 :=
  if Rltb alpha (- PI) || Rltb PI alpha then Err "alpha must be in -pi <= alpha <= pi" else
  Ok (t2_from_stars (radius * sin alpha) distance (radius * cos alpha) two_dim).

(** operations_t2.rs:14-44; the three arms write the positions below dim *)
Definition t2_add (c : t2) (alpha : R) (aa : t2) (beta : R) (bb : t2) : res t2 :=
  _ <- assert_ (rep_eqb (t2_rep bb) (t2_rep aa)) ;;
  _ <- assert_ (rep_eqb (t2_rep c) (t2_rep aa)) ;;
  let a := t2_vec aa in
  let b := t2_vec bb in
  let v := t2_vec c in
  let arm4 v :=
    let v := wr v 0 (alpha * a.[0] + beta * b.[0]) in
    let v := wr v 1 (alpha * a.[1] + beta * b.[1]) in
    let v := wr v 2 (alpha * a.[2] + beta * b.[2]) in
    wr v 3 (alpha * a.[3] + beta * b.[3]) in
  let arm6 v :=
    let v := arm4 v in
    let v := wr v 4 (alpha * a.[4] + beta * b.[4]) in
    wr v 5 (alpha * a.[5] + beta * b.[5]) in
  Ok (t2_put c match t2_dim aa with
      | 4%nat => arm4 v
      | 6%nat => arm6 v
      | _ => let v := arm6 v in
             let v := wr v 6 (alpha * a.[6] + beta * b.[6]) in
             let v := wr v 7 (alpha * a.[7] + beta * b.[7]) in
             wr v 8 (alpha * a.[8] + beta * b.[8])
      end).
(** operations_t2.rs:106-130 *)
Definition t2_ddot_t2 (aa bb : t2) : res R :=
  _ <- assert_ (rep_eqb (t2_rep aa) (t2_rep bb)) ;;
  let a := t2_vec aa in
  let b := t2_vec bb in
  Ok match t2_dim aa with
     | 4%nat => a.[0] * b.[0] + a.[1] * b.[1] + a.[2] * b.[2] + a.[3] * b.[3]
     | 6%nat => a.[0] * b.[0] + a.[1] * b.[1] + a.[2] * b.[2] + a.[3] * b.[3] + a.[4] * b.[4] + a.[5] * b.[5]
     | _ => a.[0] * b.[0] + a.[1] * b.[1] + a.[2] * b.[2] + a.[3] * b.[3] + a.[4] * b.[4] + a.[5] * b.[5]
            + a.[6] * b.[6] + a.[7] * b.[7] + a.[8] * b.[8]
     end.
(** operations_t2.rs:196-235 *)
Definition t2_dot_t2 (c : t2) (aa bb : t2) : res t2 :=
  _ <- assert_ (rep_eqb (t2_rep c) General) ;;
  _ <- assert_ (rep_eqb (t2_rep bb) (t2_rep aa)) ;;
  let dim := t2_dim aa in
  let a := t2_vec aa in
  let b := t2_vec bb in
  let ov := t2_vec c in
  let tsq2 := 2 * SQRT_2 in
  Ok (t2_put c (if (dim =? 4)%nat then
    let ov := wr ov 0 (a.[0] * b.[0] + (a.[3] * b.[3]) / 2) in
    let ov := wr ov 1 (a.[1] * b.[1] + (a.[3] * b.[3]) / 2) in
    let ov := wr ov 2 (a.[2] * b.[2]) in
    let ov := wr ov 3 ((a.[3] * (b.[0] + b.[1]) + (a.[0] + a.[1]) * b.[3]) / 2) in
    let ov := wr ov 4 (0) in
    let ov := wr ov 5 (0) in
    let ov := wr ov 6 ((a.[3] * (-b.[0] + b.[1]) + (a.[0] - a.[1]) * b.[3]) / 2) in
    let ov := wr ov 7 (0) in
    let ov := wr ov 8 (0) in
    ov
  else if (dim =? 6)%nat then
    let ov := wr ov 0 ((2 * a.[0] * b.[0] + a.[3] * b.[3] + a.[5] * b.[5]) / 2) in
    let ov := wr ov 1 ((2 * a.[1] * b.[1] + a.[3] * b.[3] + a.[4] * b.[4]) / 2) in
    let ov := wr ov 2 ((2 * a.[2] * b.[2] + a.[4] * b.[4] + a.[5] * b.[5]) / 2) in
    let ov := wr ov 3 ((SQRT_2 * a.[3] * (b.[0] + b.[1]) + SQRT_2 * a.[0] * b.[3] + SQRT_2 * a.[1] * b.[3] + a.[5] * b.[4] + a.[4] * b.[5]) / tsq2) in
    let ov := wr ov 4 ((SQRT_2 * a.[4] * (b.[1] + b.[2]) + a.[5] * b.[3] + SQRT_2 * a.[1] * b.[4] + SQRT_2 * a.[2] * b.[4] + a.[3] * b.[5]) / tsq2) in
    let ov := wr ov 5 ((SQRT_2 * a.[5] * (b.[0] + b.[2]) + a.[4] * b.[3] + a.[3] * b.[4] + SQRT_2 * a.[0] * b.[5] + SQRT_2 * a.[2] * b.[5]) / tsq2) in
    let ov := wr ov 6 ((SQRT_2 * a.[3] * (-b.[0] + b.[1]) + SQRT_2 * a.[0] * b.[3] - SQRT_2 * a.[1] * b.[3] + a.[5] * b.[4] - a.[4] * b.[5]) / tsq2) in
    let ov := wr ov 7 ((SQRT_2 * a.[4] * (-b.[1] + b.[2]) - a.[5] * b.[3] + SQRT_2 * a.[1] * b.[4] - SQRT_2 * a.[2] * b.[4] + a.[3] * b.[5]) / tsq2) in
    let ov := wr ov 8 ((SQRT_2 * a.[5] * (-b.[0] + b.[2]) - a.[4] * b.[3] + a.[3] * b.[4] + SQRT_2 * a.[0] * b.[5] - SQRT_2 * a.[2] * b.[5]) / tsq2) in
    ov
  else
    let ov := wr ov 0 ((2 * a.[0] * b.[0] + (a.[3] + a.[6]) * (b.[3] - b.[6]) + (a.[5] + a.[8]) * (b.[5] - b.[8])) / 2) in
    let ov := wr ov 1 ((2 * a.[1] * b.[1] + (a.[3] - a.[6]) * (b.[3] + b.[6]) + (a.[4] + a.[7]) * (b.[4] - b.[7])) / 2) in
    let ov := wr ov 2 ((2 * a.[2] * b.[2] + (a.[4] - a.[7]) * (b.[4] + b.[7]) + (a.[5] - a.[8]) * (b.[5] + b.[8])) / 2) in
    let ov := wr ov 3 ((2 * (a.[3] - a.[6]) * b.[0] + 2 * (a.[3] + a.[6]) * b.[1] + 2 * a.[1] * (b.[3] - b.[6]) + 2 * a.[0] * (b.[3] + b.[6]) + SQRT_2 * (a.[5] + a.[8]) * (b.[4] - b.[7]) + SQRT_2 * (a.[4] + a.[7]) * (b.[5] - b.[8])) / 4) in
    let ov := wr ov 4 ((2 * (a.[4] - a.[7]) * b.[1] + 2 * (a.[4] + a.[7]) * b.[2] + SQRT_2 * (a.[5] - a.[8]) * (b.[3] + b.[6]) + 2 * a.[2] * (b.[4] - b.[7]) + 2 * a.[1] * (b.[4] + b.[7]) + SQRT_2 * (a.[3] - a.[6]) * (b.[5] + b.[8])) / 4) in
    let ov := wr ov 5 ((2 * (a.[5] - a.[8]) * b.[0] + 2 * (a.[5] + a.[8]) * b.[2] + SQRT_2 * (a.[4] - a.[7]) * (b.[3] - b.[6]) + SQRT_2 * (a.[3] + a.[6]) * (b.[4] + b.[7]) + 2 * a.[2] * (b.[5] - b.[8]) + 2 * a.[0] * (b.[5] + b.[8])) / 4) in
    let ov := wr ov 6 ((-2 * (a.[3] - a.[6]) * b.[0] + 2 * (a.[3] + a.[6]) * b.[1] - 2 * a.[1] * (b.[3] - b.[6]) + 2 * a.[0] * (b.[3] + b.[6]) + SQRT_2 * (a.[5] + a.[8]) * (b.[4] - b.[7]) - SQRT_2 * (a.[4] + a.[7]) * (b.[5] - b.[8])) / 4) in
    let ov := wr ov 7 ((-2 * (a.[4] - a.[7]) * b.[1] + 2 * (a.[4] + a.[7]) * b.[2] - SQRT_2 * (a.[5] - a.[8]) * (b.[3] + b.[6]) - 2 * a.[2] * (b.[4] - b.[7]) + 2 * a.[1] * (b.[4] + b.[7]) + SQRT_2 * (a.[3] - a.[6]) * (b.[5] + b.[8])) / 4) in
    let ov := wr ov 8 ((-2 * (a.[5] - a.[8]) * b.[0] + 2 * (a.[5] + a.[8]) * b.[2] - SQRT_2 * (a.[4] - a.[7]) * (b.[3] - b.[6]) + SQRT_2 * (a.[3] + a.[6]) * (b.[4] + b.[7]) - 2 * a.[2] * (b.[5] - b.[8]) + 2 * a.[0] * (b.[5] + b.[8])) / 4) in
    ov)).
(** operations_t2.rs:289-302 *)
Definition t2_dot_t1 (v : t1) (alpha : R) (a : t2) (u : t1) : t1 :=
  let v := wr v 0 (alpha * (gs a 0 0 * u 0%nat + gs a 0 1 * u 1%nat + gs a 0 2 * u 2%nat)) in
  let v := wr v 1 (alpha * (gs a 1 0 * u 0%nat + gs a 1 1 * u 1%nat + gs a 1 2 * u 2%nat)) in
  wr v 2 (alpha * (gs a 2 0 * u 0%nat + gs a 2 1 * u 1%nat + gs a 2 2 * u 2%nat)).
(** operations_t2.rs:356-369 *)
Definition t1_dot_t2 (v : t1) (alpha : R) (u : t1) (a : t2) : t1 :=
  let v := wr v 0 (alpha * (u 0%nat * gs a 0 0 + u 1%nat * gs a 1 0 + u 2%nat * gs a 2 0)) in
  let v := wr v 1 (alpha * (u 0%nat * gs a 0 1 + u 1%nat * gs a 1 1 + u 2%nat * gs a 2 1)) in
  wr v 2 (alpha * (u 0%nat * gs a 0 2 + u 1%nat * gs a 1 2 + u 2%nat * gs a 2 2)).
(** operations_t2.rs:422-452: the output tensor and the `Result` *)
Definition t1_dyad_t1 (aa : t2) (alpha : R) (u w : t1) : t2 * res unit :=
  let msg := "dyadic product between u and v does not generate a symmetric tensor"%string in
  let u0 := u 0%nat in let u1 := u 1%nat in let u2 := u 2%nat in
  let v0 := w 0%nat in let v1 := w 1%nat in let v2 := w 2%nat in
  let v := t2_vec aa in
  if (t2_dim aa =? 4)%nat then
    if negb (Reqb (u0 * v1) (u1 * v0)) then (aa, Err msg) else
    let v := wr v 0 (alpha * u0 * v0) in
    let v := wr v 1 (alpha * u1 * v1) in
    let v := wr v 2 0 in
    let v := wr v 3 (alpha * (u0 * v1 + u1 * v0) / SQRT_2) in
    (t2_put aa v, Ok Datatypes.tt)
  else
    let v := wr v 0 (alpha * u0 * v0) in
    let v := wr v 1 (alpha * u1 * v1) in
    let v := wr v 2 (alpha * u2 * v2) in
    let v := wr v 3 (alpha * (u0 * v1 + u1 * v0) / SQRT_2) in
    let v := wr v 4 (alpha * (u1 * v2 + u2 * v1) / SQRT_2) in
    let v := wr v 5 (alpha * (u0 * v2 + u2 * v0) / SQRT_2) in
    if (t2_dim aa =? 6)%nat then
      if negb (Reqb (u0 * v1) (u1 * v0)) || negb (Reqb (u1 * v2) (u2 * v1)) || negb (Reqb (u0 * v2) (u2 * v0))
      then (t2_put aa v, Err msg)
      else (t2_put aa v, Ok Datatypes.tt)
    else
      let v := wr v 6 (alpha * (u0 * v1 - u1 * v0) / SQRT_2) in
      let v := wr v 7 (alpha * (u1 * v2 - u2 * v1) / SQRT_2) in
      let v := wr v 8 (alpha * (u0 * v2 - u2 * v0) / SQRT_2) in
      (t2_put aa v, Ok Datatypes.tt).
