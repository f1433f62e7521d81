(** Model of russell_sparse/src/{enums,coo_matrix,csc_matrix,csr_matrix}.rs.

    Simplifications:
    - `i32` indices and pointers that the code keeps non-negative are [nat]
      (the temporary array `w`, which holds -1, is [Z]);
      `to_i32` (constants.rs:20) panics above i32::MAX: sizes are assumed below 2^31;
    - numbers are an arbitrary type [T] with arbitrary [zero], [add], [mul]:
      no algebraic law is assumed in this file. *)
From Verif Require Import Base Dense_Model.

(** enums.rs `enum Sym` *)
Inductive sym := SymNo | SymYesFull | SymYesLower | SymYesUpper.

Definition sym_eqb (a b : sym) : bool :=
  match a, b with
  | SymNo, SymNo | SymYesFull, SymYesFull | SymYesLower, SymYesLower | SymYesUpper, SymYesUpper => true
  | _, _ => false
  end.

(** enums.rs `Sym::triangular` *)
Definition triangular (s : sym) : bool :=
  match s with SymYesLower | SymYesUpper => true | _ => false end.

Section Sparse.
Variable T : Type.
Variable zero : T.
Variables add mul : T -> T -> T.

(* ------------------------------------------------------------------ *)
(** * COO *)

(** coo_matrix.rs:21-73 `struct NumCooMatrix` *)
Record coo := mkCoo {
  c_sym : sym;
  c_nrow : nat;
  c_ncol : nat;
  c_nnz : nat;
  c_max : nat;
  c_ii : list nat;
  c_jj : list nat;
  c_vv : list T
}.

(** coo_matrix.rs:173-196 `new` *)
Definition coo_new (nrow ncol max_nnz : nat) (s : sym) : res coo :=
  if nrow <? 1 then Err "nrow must be >= 1"
  else if ncol <? 1 then Err "ncol must be >= 1"
  else if max_nnz <? 1 then Err "max_nnz must be >= 1"
  else if negb (sym_eqb s SymNo) && negb (nrow =? ncol) then
    Err "symmetric storage requires a square matrix"
  else Ok (mkCoo s nrow ncol 0 max_nnz (repeat 0 max_nnz) (repeat 0 max_nnz) (repeat zero max_nnz)).

(** coo_matrix.rs:246-290 `from`; the indices come in as signed numbers *)
Definition coo_from (nrow ncol : nat) (ri ci : list Z) (vv : list T) (s : sym) : res coo :=
  if nrow <? 1 then Err "nrow must be >= 1"
  else if ncol <? 1 then Err "ncol must be >= 1"
  else
    let nnz := length ri in
    if nnz <? 1 then Err "nnz must be >= 1"
    else if negb (length ci =? nnz) then Err "col_indices.len() must be = nnz"
    else if negb (length vv =? nnz) then Err "values.len() must be = nnz"
    else
      _ <- for_range 0 nnz (fun k (_ : unit) =>
             r <- vget ri k ;;
             if ((r <? 0) || (Z.of_nat nrow <=? r))%Z then Err "row index is out-of-range"
             else
               c <- vget ci k ;;
               if ((c <? 0) || (Z.of_nat ncol <=? c))%Z then Err "col index is out-of-range"
               else Ok tt) tt ;;
      Ok (mkCoo s nrow ncol nnz nnz (map Z.to_nat ri) (map Z.to_nat ci) vv).

(** coo_matrix.rs:324-354 `put` : new state and result *)
Definition coo_put (a : coo) (i j : nat) (x : T) : coo * res unit :=
  if c_nrow a <=? i then (a, Err "COO matrix: index of row is outside range")
  else if c_ncol a <=? j then (a, Err "COO matrix: index of column is outside range")
  else if c_max a <=? c_nnz a then (a, Err "COO matrix: max number of items has been reached")
  else if sym_eqb (c_sym a) SymYesLower && (i <? j) then
    (a, Err "COO matrix: j > i is incorrect for lower triangular storage")
  else if sym_eqb (c_sym a) SymYesUpper && (j <? i) then
    (a, Err "COO matrix: j < i is incorrect for upper triangular storage")
  else
    let k := c_nnz a in
    match vset (c_ii a) k i, vset (c_jj a) k j, vset (c_vv a) k x with
    | Ok ii, Ok jj, Ok vv =>
      (mkCoo (c_sym a) (c_nrow a) (c_ncol a) (k + 1) (c_max a) ii jj vv, Ok tt)
    | _, _, _ => (a, Panic)
    end.

(** coo_matrix.rs:388-390 `reset` *)
Definition coo_reset (a : coo) : coo :=
  mkCoo (c_sym a) (c_nrow a) (c_ncol a) 0 (c_max a) (c_ii a) (c_jj a) (c_vv a).

(** coo_matrix.rs:468-484 `to_dense` *)
Definition coo_to_dense (c : coo) (a : dmat T) : res (dmat T) :=
  if negb (d_nrow a =? c_nrow c) || negb (d_ncol a =? c_ncol c) then Err "wrong matrix dimensions"
  else
    let mirror := triangular (c_sym c) in
    for_range 0 (c_nnz c) (fun p a =>
      i <- vget (c_ii c) p ;;
      j <- vget (c_jj c) p ;;
      v <- vget (c_vv c) p ;;
      a <- d_add T add a i j v ;;
      if mirror && negb (i =? j) then d_add T add a j i v else Ok a)
    (d_fill T a zero).

(** coo_matrix.rs:423-427 `as_dense` *)
Definition coo_as_dense (c : coo) : res (dmat T) :=
  unwrap (coo_to_dense c (d_new T zero (c_nrow c) (c_ncol c))).

(** `v[i] += x` *)
Definition vadd_at (v : list T) (i : nat) (x : T) : res (list T) :=
  y <- vget v i ;; vset v i (add y x).

(** the common loop body of the COO products (coo_matrix.rs:556-564, 637-645, 717-725):
    [ri] and [ci] are the arrays playing the role of row and column index *)
Definition coo_mv_loop (ri ci : list nat) (vv : list T) (mirror : bool) (nnz : nat)
    (alpha : T) (u v : list T) : res (list T) :=
  for_range 0 nnz (fun p v =>
    i <- vget ri p ;;
    j <- vget ci p ;;
    aij <- vget vv p ;;
    uj <- vget u j ;;
    v <- vadd_at v i (mul (mul alpha aij) uj) ;;
    if mirror && negb (i =? j) then
      ui <- vget u i ;;
      vadd_at v j (mul (mul alpha aij) ui)
    else Ok v) v.

(** coo_matrix.rs:547-566 `mat_vec_mul` *)
Definition coo_mat_vec_mul (c : coo) (v : list T) (alpha : T) (u : list T) : res (list T) :=
  if length u <? c_ncol c then Err "u.dim() must be >= the number of columns of the matrix"
  else if length v <? c_nrow c then Err "v.dim() must be >= the number of rows of the matrix"
  else coo_mv_loop (c_ii c) (c_jj c) (c_vv c) (triangular (c_sym c)) (c_nnz c) alpha u
         (map (fun _ => zero) v).

(** coo_matrix.rs:629-647 `mat_vec_mul_update` *)
Definition coo_mat_vec_mul_update (c : coo) (v : list T) (alpha : T) (u : list T) : res (list T) :=
  if length u <? c_ncol c then Err "u.dim() must be >= the number of columns of the matrix"
  else if length v <? c_nrow c then Err "v.dim() must be >= the number of rows of the matrix"
  else coo_mv_loop (c_ii c) (c_jj c) (c_vv c) (triangular (c_sym c)) (c_nnz c) alpha u v.

(** coo_matrix.rs:708-727 `mat_t_vec_mul` *)
Definition coo_mat_t_vec_mul (c : coo) (v : list T) (alpha : T) (u : list T) : res (list T) :=
  if length u <? c_nrow c then Err "u.dim() must be >= the number of rows of the matrix"
  else if length v <? c_ncol c then Err "v.dim() must be >= the number of columns of the matrix"
  else coo_mv_loop (c_jj c) (c_ii c) (c_vv c) (triangular (c_sym c)) (c_nnz c) alpha u
         (map (fun _ => zero) v).

(** a sequence of `self.put(..)?` calls: stops at the first failure, keeping what was put *)
Fixpoint coo_puts (a : coo) (ts : list (nat * nat * T)) : coo * res unit :=
  match ts with
  | [] => (a, Ok tt)
  | (i, j, x) :: rest =>
    match coo_put a i j x with
    | (a', Ok _) => coo_puts a' rest
    | (a', e) => (a', e)
    end
  end.

(** the first [nnz] stored triplets, as the loops `for p in 0..other.nnz` read them
    (`from`/`put` keep the three arrays at least that long) *)
Definition coo_triplets (c : coo) : list (nat * nat * T) :=
  firstn (c_nnz c) (combine (combine (c_ii c) (c_jj c)) (c_vv c)).

(** coo_matrix.rs:738-755 `assign` *)
Definition coo_assign (a : coo) (alpha : T) (o : coo) : coo * res unit :=
  if negb (c_nrow o =? c_nrow a) then (a, Err "matrices must have the same nrow")
  else if negb (c_ncol o =? c_ncol a) then (a, Err "matrices must have the same ncol")
  else if negb (sym_eqb (c_sym o) (c_sym a)) then (a, Err "matrices must have the same symmetric type")
  else coo_puts (coo_reset a) (map (fun '(i, j, x) => (i, j, mul alpha x)) (coo_triplets o)).

(** coo_matrix.rs:779-795 `add` *)
Definition coo_add (a : coo) (alpha : T) (o : coo) : coo * res unit :=
  if c_nrow a <? c_nrow o then (a, Err "other.nrow must be <= this.nrow")
  else if c_ncol a <? c_ncol o then (a, Err "other.ncol must be <= this.ncol")
  else if negb (sym_eqb (c_sym o) (c_sym a)) then (a, Err "matrices must have the same symmetric type")
  else coo_puts a (map (fun '(i, j, x) => (i, j, mul alpha x)) (coo_triplets o)).

(** coo_matrix.rs:823-857 `put_lagrange_block` *)
Definition coo_put_lagrange_block (a : coo) (b : coo) : coo * res unit :=
  if negb (sym_eqb (c_sym b) SymNo) then (a, Err "the Lagrange block must not be symmetric")
  else if c_nrow a <? c_ncol b + c_nrow b then (a, Err "ncol(B) + nrow(B) must be <= nrow(A)")
  else if c_ncol a <? c_ncol b + c_nrow b then (a, Err "ncol(B) + nrow(B) must be <= ncol(A)")
  else
    match c_sym a with
    | SymYesLower =>
      coo_puts a (map (fun '(i, j, x) => (c_ncol b + i, j, x)) (coo_triplets b))
    | SymYesUpper =>
      coo_puts a (map (fun '(i, j, x) => (j, c_ncol b + i, x)) (coo_triplets b))
    | _ =>
      coo_puts a (flat_map (fun '(i, j, x) => [(c_ncol b + i, j, x); (j, c_ncol b + i, x)])
                   (coo_triplets b))
    end.

(** coo_matrix.rs:872-887 `get_actual_nnz` *)
Definition coo_get_actual_nnz (c : coo) : nat :=
  if triangular (c_sym c) then
    fold_left (fun n '(i, j, _) => if i =? j then n + 1 else n + 1 + 1) (coo_triplets c) 0
  else c_nnz c.

(* ------------------------------------------------------------------ *)
(** * CSC *)

(** csc_matrix.rs:20-85 `struct NumCscMatrix` (with its workspaces) *)
Record csc := mkCsc {
  s_sym : sym;
  s_nrow : nat;
  s_ncol : nat;
  s_bp : list nat;    (* col_pointers *)
  s_bi : list nat;    (* row_indices *)
  s_bx : list T;      (* values *)
  s_rp : list nat;    (* temp_rp *)
  s_rj : list nat;    (* temp_rj *)
  s_rx : list T;      (* temp_rx *)
  s_rc : list nat;    (* temp_rc *)
  s_w : list Z        (* temp_w *)
}.

(** `x as usize` for an `i32` used as an index: a negative value is a huge usize, out of range *)
Definition as_index (z : Z) : res nat := if (z <? 0)%Z then Panic else Ok (Z.to_nat z).

(** csc_matrix.rs:416-421 = csr_matrix.rs:408-413: count the entries in each row *)
Definition count_rows (nnz : nat) (ai : list nat) (w : list Z) : res (list Z) :=
  for_range 0 nnz (fun k w =>
    i <- vget ai k ;;
    x <- vget w i ;;
    vset w i (x + 1)%Z) w.

(** csc_matrix.rs:423-428 = csr_matrix.rs:415-420: row pointers *)
Definition row_pointers_loop (nrow : nat) (rp : list nat) (w : list Z) : res (list nat * list Z) :=
  rp <- vset rp 0 0 ;;
  for_range 0 nrow (fun i st =>
    let '(rp, w) := st in
    r <- vget rp i ;;
    x <- vget w i ;;
    x <- as_index x ;;
    rp <- vset rp (i + 1) (r + x) ;;
    w <- vset w i (Z.of_nat r) ;;
    Ok (rp, w)) (rp, w).

(** csc_matrix.rs:430-437: construct the row form (with unsorted values) *)
Definition scatter_rows (nnz : nat) (ai aj : list nat) (ax : list T)
    (rj : list nat) (rx : list T) (w : list Z) : res (list nat * list T * list Z) :=
  for_range 0 nnz (fun k st =>
    let '(rj, rx, w) := st in
    i <- vget ai k ;;
    wi <- vget w i ;;
    p <- as_index wi ;;
    ajk <- vget aj k ;;
    rj <- vset rj p ajk ;;
    axk <- vget ax k ;;
    rx <- vset rx p axk ;;
    w <- vset w i (wi + 1)%Z ;;
    Ok (rj, rx, w)) (rj, rx, w).

(** csc_matrix.rs:441-443 etc.: `for j in 0..n { w[j] = v }` *)
Definition fill_prefix (n : nat) (v : Z) (w : list Z) : res (list Z) :=
  for_range 0 n (fun j w => vset w j v) w.

(** csc_matrix.rs:449-466: the inner loop of "sum duplicates" for one row *)
Definition dedup_row (p1 p2 : nat) (rj : list nat) (rx : list T) (w : list Z)
    : res (list nat * list T * list Z * nat) :=
  for_range p1 p2 (fun p st =>
    let '(rj, rx, w, dest) := st in
    j <- vget rj p ;;
    wj <- vget w j ;;
    if (Z.of_nat p1 <=? wj)%Z then
      pj <- as_index wj ;;
      x <- vget rx p ;;
      y <- vget rx pj ;;
      rx <- vset rx pj (add y x) ;;
      Ok (rj, rx, w, dest)
    else
      w <- vset w j (Z.of_nat dest) ;;
      if negb (dest =? p) then
        rj <- vset rj dest j ;;
        x <- vget rx p ;;
        rx <- vset rx dest x ;;
        Ok (rj, rx, w, dest + 1)
      else Ok (rj, rx, w, dest + 1)) (rj, rx, w, p1).

(** csc_matrix.rs:444-468: sum duplicates, all rows *)
Definition dedup_rows (nrow : nat) (rp : list nat) (rj : list nat) (rx : list T) (rc : list nat)
    (w : list Z) : res (list nat * list T * list nat * list Z) :=
  for_range 0 nrow (fun i st =>
    let '(rj, rx, rc, w) := st in
    p1 <- vget rp i ;;
    p2 <- vget rp (i + 1) ;;
    '(rj, rx, w, dest) <- dedup_row p1 p2 rj rx w ;;
    d <- usub dest p1 ;;
    rc <- vset rc i d ;;
    Ok (rj, rx, rc, w)) (rj, rx, rc, w).

(** csc_matrix.rs:474-481: count the entries in each column *)
Definition count_cols (nrow : nat) (rp rc rj : list nat) (w : list Z) : res (list Z) :=
  for_range 0 nrow (fun i w =>
    p1 <- vget rp i ;;
    c <- vget rc i ;;
    for_range p1 (p1 + c) (fun p w =>
      j <- vget rj p ;;
      x <- vget w j ;;
      vset w j (x + 1)%Z) w) w.

(** csc_matrix.rs:484-487: create the column pointers *)
Definition col_pointers_loop (ncol : nat) (bp : list nat) (w : list Z) : res (list nat) :=
  bp <- vset bp 0 0 ;;
  for_range 0 ncol (fun j bp =>
    b <- vget bp j ;;
    x <- vget w j ;;
    x <- as_index x ;;
    vset bp (j + 1) (b + x)) bp.

(** csc_matrix.rs:488-490 *)
Definition copy_pointers (ncol : nat) (bp : list nat) (w : list Z) : res (list Z) :=
  for_range 0 ncol (fun j w => b <- vget bp j ;; vset w j (Z.of_nat b)) w.

(** csc_matrix.rs:493-503: construct the column form *)
Definition scatter_cols (nrow : nat) (rp rc rj : list nat) (rx : list T)
    (bi : list nat) (bx : list T) (w : list Z) : res (list nat * list T * list Z) :=
  for_range 0 nrow (fun i st =>
    p1 <- vget rp i ;;
    c <- vget rc i ;;
    for_range p1 (p1 + c) (fun p st =>
      let '(bi, bx, w) := st in
      j <- vget rj p ;;
      wj <- vget w j ;;
      cp <- as_index wj ;;
      bi <- vset bi cp i ;;
      x <- vget rx p ;;
      bx <- vset bx cp x ;;
      w <- vset w j (wj + 1)%Z ;;
      Ok (bi, bx, w)) st) (bi, bx, w).

(** csc_matrix.rs:365-505 `update_from_coo` *)
Definition csc_update_from_coo (s : csc) (c : coo) : res csc :=
  if negb (sym_eqb (c_sym c) (s_sym s)) then Err "coo.symmetric must be equal to csc.symmetric"
  else if negb (c_nrow c =? s_nrow s) then Err "coo.nrow must be equal to csc.nrow"
  else if negb (c_ncol c =? s_ncol s) then Err "coo.ncol must be equal to csc.ncol"
  else if negb (c_nnz c =? length (s_bx s)) then
    Err "coo.nnz must be equal to nnz(dup) = csc.row_indices.len() = csc.values.len()"
  else
    let nrow := c_nrow c in
    let ncol := c_ncol c in
    let nnz := c_nnz c in
    let ndim := Nat.max nrow ncol in
    '(rp, rj, rx, rc, w) <-
      (if length (s_w s) =? 0 then
         Ok (repeat 0 (nrow + 1), repeat 0 nnz, repeat zero nnz, repeat 0 nrow, repeat 0%Z ndim)
       else
         w <- fill_prefix nrow 0%Z (s_w s) ;;
         Ok (s_rp s, s_rj s, s_rx s, s_rc s, w)) ;;
    w <- count_rows nnz (c_ii c) w ;;
    '(rp, w) <- row_pointers_loop nrow rp w ;;
    '(rj, rx, w) <- scatter_rows nnz (c_ii c) (c_jj c) (c_vv c) rj rx w ;;
    w <- fill_prefix ncol (-1)%Z w ;;
    '(rj, rx, rc, w) <- dedup_rows nrow rp rj rx rc w ;;
    w <- fill_prefix ncol 0%Z w ;;
    w <- count_cols nrow rp rc rj w ;;
    bp <- col_pointers_loop ncol (s_bp s) w ;;
    w <- copy_pointers ncol bp w ;;
    '(bi, bx, w) <- scatter_cols nrow rp rc rj rx (s_bi s) (s_bx s) w ;;
    Ok (mkCsc (s_sym s) (s_nrow s) (s_ncol s) bp bi bx rp rj rx rc w).

(** csc_matrix.rs:337-356 `from_coo` *)
Definition csc_from_coo (c : coo) : res csc :=
  if c_nnz c <? 1 then Err "COO to CSC requires nnz > 0"
  else
    unwrap (csc_update_from_coo
      (mkCsc (c_sym c) (c_nrow c) (c_ncol c) (repeat 0 (c_ncol c + 1))
         (repeat 0 (c_nnz c)) (repeat zero (c_nnz c)) [] [] [] [] []) c).

(** csc_matrix.rs:197-265 `new`; pointers and indices come in as signed numbers *)
Definition csc_new (nrow ncol : nat) (bp bi : list Z) (bx : list T) (s : sym) : res csc :=
  if nrow <? 1 then Err "nrow must be >= 1"
  else if ncol <? 1 then Err "ncol must be >= 1"
  else if negb (length bp =? ncol + 1) then Err "col_pointers.len() must be = ncol + 1"
  else
    nnz <- vget bp ncol ;;
    if (nnz <? 1)%Z then Err "nnz = col_pointers[ncol] must be >= 1"
    else if length bi <? Z.to_nat nnz then Err "row_indices.len() must be >= nnz"
    else if length bx <? Z.to_nat nnz then Err "values.len() must be >= nnz"
    else if negb (sym_eqb s SymNo) && negb (nrow =? ncol) then
      Err "symmetric storage requires a square matrix"
    else
      _ <- for_range 0 ncol (fun j (_ : unit) =>
             pj <- vget bp j ;;
             if (pj <? 0)%Z then Err "col pointers must be >= 0"
             else
               pj1 <- vget bp (j + 1) ;;
               if (pj1 <? pj)%Z then Err "col pointers must be sorted in ascending order"
               else
                 let start := Z.to_nat pj in
                 for_range start (Z.to_nat pj1) (fun p (_ : unit) =>
                   i <- vget bi p ;;
                   if (i <? 0)%Z then Err "row indices must be >= 0"
                   else if (Z.of_nat nrow <=? i)%Z then Err "row indices must be < nrow"
                   else if start <? p then
                     q <- usub p 1 ;;
                     i0 <- vget bi q ;;
                     if (i <? i0)%Z then
                       Err "row indices must be sorted in ascending order (within their column)"
                     else Ok tt
                   else Ok tt) tt) tt ;;
      Ok (mkCsc s nrow ncol (map Z.to_nat bp) (map Z.to_nat bi) bx [] [] [] [] []).

(** csc_matrix.rs:702-719 `to_dense` *)
Definition csc_to_dense (s : csc) (a : dmat T) : res (dmat T) :=
  if negb (d_nrow a =? s_nrow s) || negb (d_ncol a =? s_ncol s) then Err "wrong matrix dimensions"
  else
    let mirror := triangular (s_sym s) in
    for_range 0 (s_ncol s) (fun j a =>
      p1 <- vget (s_bp s) j ;;
      p2 <- vget (s_bp s) (j + 1) ;;
      for_range p1 p2 (fun p a =>
        i <- vget (s_bi s) p ;;
        v <- vget (s_bx s) p ;;
        a <- d_add T add a i j v ;;
        if mirror && negb (i =? j) then d_add T add a j i v else Ok a) a)
    (d_fill T a zero).

(** csc_matrix.rs:639-643 `as_dense` *)
Definition csc_as_dense (s : csc) : res (dmat T) :=
  unwrap (csc_to_dense s (d_new T zero (s_nrow s) (s_ncol s))).

(** csc_matrix.rs:735-755 `mat_vec_mul` *)
Definition csc_mat_vec_mul (s : csc) (v : list T) (alpha : T) (u : list T) : res (list T) :=
  if negb (length u =? s_ncol s) then Err "u vector is incompatible"
  else if negb (length v =? s_nrow s) then Err "v vector is incompatible"
  else
    let mirror := triangular (s_sym s) in
    for_range 0 (s_ncol s) (fun j v =>
      p1 <- vget (s_bp s) j ;;
      p2 <- vget (s_bp s) (j + 1) ;;
      for_range p1 p2 (fun p v =>
        i <- vget (s_bi s) p ;;
        aij <- vget (s_bx s) p ;;
        uj <- vget u j ;;
        v <- vadd_at v i (mul (mul alpha aij) uj) ;;
        if mirror && negb (i =? j) then
          ui <- vget u i ;; vadd_at v j (mul (mul alpha aij) ui)
        else Ok v) v) (map (fun _ => zero) v).

(* ------------------------------------------------------------------ *)
(** * CSR *)

(** csr_matrix.rs:20-80 `struct NumCsrMatrix` (with its workspaces) *)
Record csr := mkCsr {
  r_sym : sym;
  r_nrow : nat;
  r_ncol : nat;
  r_bp : list nat;          (* row_pointers *)
  r_bj : list nat;          (* col_indices *)
  r_bx : list T;            (* values *)
  r_rp : list nat;          (* temp_rp *)
  r_rjx : list (nat * T);   (* temp_rjx *)
  r_rc : list nat;          (* temp_rc *)
  r_w : list Z              (* temp_w *)
}.

(** csr_matrix.rs:422-429: construct the row form (with unsorted values) *)
Definition scatter_rows_jx (nnz : nat) (ai aj : list nat) (ax : list T)
    (rjx : list (nat * T)) (w : list Z) : res (list (nat * T) * list Z) :=
  for_range 0 nnz (fun k st =>
    let '(rjx, w) := st in
    i <- vget ai k ;;
    wi <- vget w i ;;
    p <- as_index wi ;;
    ajk <- vget aj k ;;
    axk <- vget ax k ;;
    rjx <- vset rjx p (ajk, axk) ;;
    w <- vset w i (wi + 1)%Z ;;
    Ok (rjx, w)) (rjx, w).

(** csr_matrix.rs:441-457: the inner loop of "sum duplicates" for one row *)
Definition dedup_row_jx (p1 p2 : nat) (rjx : list (nat * T)) (w : list Z)
    : res (list (nat * T) * list Z * nat) :=
  for_range p1 p2 (fun p st =>
    let '(rjx, w, dest) := st in
    '(j, x) <- vget rjx p ;;
    wj <- vget w j ;;
    if (Z.of_nat p1 <=? wj)%Z then
      pj <- as_index wj ;;
      '(j', y) <- vget rjx pj ;;
      rjx <- vset rjx pj (j', add y x) ;;
      Ok (rjx, w, dest)
    else
      w <- vset w j (Z.of_nat dest) ;;
      if negb (dest =? p) then
        rjx <- vset rjx dest (j, x) ;;
        Ok (rjx, w, dest + 1)
      else Ok (rjx, w, dest + 1)) (rjx, w, p1).

(** csr_matrix.rs:436-459: sum duplicates, all rows *)
Definition dedup_rows_jx (nrow : nat) (rp : list nat) (rjx : list (nat * T)) (rc : list nat)
    (w : list Z) : res (list (nat * T) * list nat * list Z) :=
  for_range 0 nrow (fun i st =>
    let '(rjx, rc, w) := st in
    p1 <- vget rp i ;;
    p2 <- vget rp (i + 1) ;;
    '(rjx, w, dest) <- dedup_row_jx p1 p2 rjx w ;;
    d <- usub dest p1 ;;
    rc <- vset rc i d ;;
    Ok (rjx, rc, w)) (rjx, rc, w).

(** csr_matrix.rs:462-465: row pointers of the result *)
Definition fix_row_pointers (nrow : nat) (bp rc : list nat) : res (list nat) :=
  bp <- vset bp 0 0 ;;
  for_range 0 nrow (fun i bp =>
    b <- vget bp i ;;
    c <- vget rc i ;;
    vset bp (i + 1) (b + c)) bp.

(** `slice.sort_by(|a, b| a.0.partial_cmp(&b.0))` : Rust's stable sort on the first
    component, modelled as stable insertion sort *)
Fixpoint insert_by_key (a : nat * T) (l : list (nat * T)) : list (nat * T) :=
  match l with
  | [] => [a]
  | b :: t => if fst a <=? fst b then a :: b :: t else b :: insert_by_key a t
  end.

Fixpoint sort_by_key (l : list (nat * T)) : list (nat * T) :=
  match l with
  | [] => []
  | a :: t => insert_by_key a (sort_by_key t)
  end.

(** `x[p1..p2]` (panics when out of range) *)
Definition slice {A} (l : list A) (p1 p2 : nat) : res (list A) :=
  if (p1 <=? p2) && (p2 <=? length l) then Ok (firstn (p2 - p1) (skipn p1 l)) else Panic.

(** csr_matrix.rs:467-478: construct the row form (with sorted values) *)
Definition sort_rows (nrow : nat) (rp rc : list nat) (rjx : list (nat * T))
    (bj : list nat) (bx : list T) : res (list (nat * T) * list nat * list T * nat) :=
  for_range 0 nrow (fun i st =>
    let '(rjx, bj, bx, k) := st in
    p1 <- vget rp i ;;
    c <- vget rc i ;;
    let p2 := p1 + c in
    sl <- slice rjx p1 p2 ;;
    let sorted := sort_by_key sl in
    let rjx := firstn p1 rjx ++ sorted ++ skipn p2 rjx in
    '(bj, bx, k) <- for_each sorted (fun jx st =>
        let '(bj, bx, k) := st in
        bj <- vset bj k (fst jx) ;;
        bx <- vset bx k (snd jx) ;;
        Ok (bj, bx, k + 1)) (bj, bx, k) ;;
    Ok (rjx, bj, bx, k)) (rjx, bj, bx, 0).

(** csr_matrix.rs:359-480 `update_from_coo` *)
Definition csr_update_from_coo (s : csr) (c : coo) : res csr :=
  if negb (sym_eqb (c_sym c) (r_sym s)) then Err "coo.symmetric must be equal to csr.symmetric"
  else if negb (c_nrow c =? r_nrow s) then Err "coo.nrow must be equal to csr.nrow"
  else if negb (c_ncol c =? r_ncol s) then Err "coo.ncol must be equal to csr.ncol"
  else if negb (c_nnz c =? length (r_bx s)) then
    Err "coo.nnz must be equal to nnz(dup) = self.col_indices.len() = csr.values.len()"
  else
    let nrow := c_nrow c in
    let ncol := c_ncol c in
    let nnz := c_nnz c in
    let ndim := Nat.max nrow ncol in
    '(rp, rjx, rc, w) <-
      (if length (r_w s) =? 0 then
         Ok (repeat 0 (nrow + 1), repeat (0, zero) nnz, repeat 0 nrow, repeat 0%Z ndim)
       else
         w <- fill_prefix nrow 0%Z (r_w s) ;;
         Ok (r_rp s, r_rjx s, r_rc s, w)) ;;
    w <- count_rows nnz (c_ii c) w ;;
    '(rp, w) <- row_pointers_loop nrow rp w ;;
    '(rjx, w) <- scatter_rows_jx nnz (c_ii c) (c_jj c) (c_vv c) rjx w ;;
    w <- fill_prefix ncol (-1)%Z w ;;
    '(rjx, rc, w) <- dedup_rows_jx nrow rp rjx rc w ;;
    bp <- fix_row_pointers nrow (r_bp s) rc ;;
    '(rjx, bj, bx, k) <- sort_rows nrow rp rc rjx (r_bj s) (r_bx s) ;;
    Ok (mkCsr (r_sym s) (r_nrow s) (r_ncol s) bp bj bx rp rjx rc w).

(** csr_matrix.rs:332-350 `from_coo` *)
Definition csr_from_coo (c : coo) : res csr :=
  if c_nnz c <? 1 then Err "COO to CSR requires nnz > 0"
  else
    unwrap (csr_update_from_coo
      (mkCsr (c_sym c) (c_nrow c) (c_ncol c) (repeat 0 (c_nrow c + 1))
         (repeat 0 (c_nnz c)) (repeat zero (c_nnz c)) [] [] [] []) c).

(** csr_matrix.rs:193-260 `new` *)
Definition csr_new (nrow ncol : nat) (bp bj : list Z) (bx : list T) (s : sym) : res csr :=
  if nrow <? 1 then Err "nrow must be >= 1"
  else if ncol <? 1 then Err "ncol must be >= 1"
  else if negb (length bp =? nrow + 1) then Err "row_pointers.len() must be = nrow + 1"
  else
    nnz <- vget bp nrow ;;
    if (nnz <? 1)%Z then Err "nnz = row_pointers[nrow] must be >= 1"
    else if length bj <? Z.to_nat nnz then Err "col_indices.len() must be >= nnz"
    else if length bx <? Z.to_nat nnz then Err "values.len() must be >= nnz"
    else if negb (sym_eqb s SymNo) && negb (nrow =? ncol) then
      Err "symmetric storage requires a square matrix"
    else
      _ <- for_range 0 nrow (fun i (_ : unit) =>
             pi <- vget bp i ;;
             if (pi <? 0)%Z then Err "row pointers must be >= 0"
             else
               pi1 <- vget bp (i + 1) ;;
               if (pi1 <? pi)%Z then Err "row pointers must be sorted in ascending order"
               else
                 let start := Z.to_nat pi in
                 for_range start (Z.to_nat pi1) (fun p (_ : unit) =>
                   j <- vget bj p ;;
                   if (j <? 0)%Z then Err "column indices must be >= 0"
                   else if (Z.of_nat ncol <=? j)%Z then Err "column indices must be < ncol"
                   else if start <? p then
                     q <- usub p 1 ;;
                     j0 <- vget bj q ;;
                     if (j <? j0)%Z then
                       Err "column indices must be sorted in ascending order (within their row)"
                     else Ok tt
                   else Ok tt) tt) tt ;;
      Ok (mkCsr s nrow ncol (map Z.to_nat bp) (map Z.to_nat bj) bx [] [] [] []).

(** csr_matrix.rs:676-693 `to_dense` *)
Definition csr_to_dense (s : csr) (a : dmat T) : res (dmat T) :=
  if negb (d_nrow a =? r_nrow s) || negb (d_ncol a =? r_ncol s) then Err "wrong matrix dimensions"
  else
    let mirror := triangular (r_sym s) in
    for_range 0 (r_nrow s) (fun i a =>
      p1 <- vget (r_bp s) i ;;
      p2 <- vget (r_bp s) (i + 1) ;;
      for_range p1 p2 (fun p a =>
        j <- vget (r_bj s) p ;;
        v <- vget (r_bx s) p ;;
        a <- d_add T add a i j v ;;
        if mirror && negb (i =? j) then d_add T add a j i v else Ok a) a)
    (d_fill T a zero).

(** csr_matrix.rs:613-617 `as_dense` *)
Definition csr_as_dense (s : csr) : res (dmat T) :=
  unwrap (csr_to_dense s (d_new T zero (r_nrow s) (r_ncol s))).

(** csr_matrix.rs:709-729 `mat_vec_mul` *)
Definition csr_mat_vec_mul (s : csr) (v : list T) (alpha : T) (u : list T) : res (list T) :=
  if negb (length u =? r_ncol s) then Err "u vector is incompatible"
  else if negb (length v =? r_nrow s) then Err "v vector is incompatible"
  else
    let mirror := triangular (r_sym s) in
    for_range 0 (r_nrow s) (fun i v =>
      p1 <- vget (r_bp s) i ;;
      p2 <- vget (r_bp s) (i + 1) ;;
      for_range p1 p2 (fun p v =>
        j <- vget (r_bj s) p ;;
        aij <- vget (r_bx s) p ;;
        uj <- vget u j ;;
        v <- vadd_at v i (mul (mul alpha aij) uj) ;;
        if mirror && negb (i =? j) then
          ui <- vget u i ;; vadd_at v j (mul (mul alpha aij) ui)
        else Ok v) v) (map (fun _ => zero) v).

(* ------------------------------------------------------------------ *)
(** * CSR <-> CSC *)

(** csc_matrix.rs:550-580 = csr_matrix.rs:524-554: the common transposition of compressed
    arrays. [nout] = number of buckets of the result, [nin] = number of rows (columns) of the
    source, [ap], [aj], [ax] its arrays. *)
Definition compressed_transpose (nin nout : nat) (ap aj : list nat) (ax : list T)
    : res (list nat * list nat * list T) :=
  nnz <- vget ap nin ;;
  let bp := repeat 0 (nout + 1) in
  let bi := repeat 0 nnz in
  let bx := repeat zero nnz in
  (* number of entries per bucket *)
  bp <- for_range 0 nnz (fun k bp =>
          j <- vget aj k ;; x <- vget bp j ;; vset bp j (x + 1)) bp ;;
  (* cumulative sum *)
  '(bp, sum) <- for_range 0 nout (fun j st =>
          let '(bp, sum) := st in
          temp <- vget bp j ;;
          bp <- vset bp j sum ;;
          Ok (bp, sum + temp)) (bp, 0) ;;
  bp <- vset bp nout nnz ;;
  (* write entries, using bp as cursors *)
  '(bp, bi, bx) <- for_range 0 nin (fun i st =>
      p1 <- vget ap i ;;
      p2 <- vget ap (i + 1) ;;
      for_range p1 p2 (fun p st =>
        let '(bp, bi, bx) := st in
        j <- vget aj p ;;
        dest <- vget bp j ;;
        bi <- vset bi dest i ;;
        x <- vget ax p ;;
        bx <- vset bx dest x ;;
        bp <- vset bp j (dest + 1) ;;
        Ok (bp, bi, bx)) st) (bp, bi, bx) ;;
  (* fix bp *)
  '(bp, last) <- for_range 0 (nout + 1) (fun j st =>
      let '(bp, last) := st in
      temp <- vget bp j ;;
      bp <- vset bp j last ;;
      Ok (bp, temp)) (bp, 0) ;;
  Ok (bp, bi, bx).

(** csc_matrix.rs:508-584 `from_csr` *)
Definition csc_from_csr (s : csr) : res csc :=
  '(bp, bi, bx) <- compressed_transpose (r_nrow s) (r_ncol s) (r_bp s) (r_bj s) (r_bx s) ;;
  Ok (mkCsc (r_sym s) (r_nrow s) (r_ncol s) bp bi bx [] [] [] [] []).

(** csr_matrix.rs:483-558 `from_csc` *)
Definition csr_from_csc (s : csc) : res csr :=
  '(bp, bj, bx) <- compressed_transpose (s_ncol s) (s_nrow s) (s_bp s) (s_bi s) (s_bx s) ;;
  Ok (mkCsr (s_sym s) (s_nrow s) (s_ncol s) bp bj bx [] [] [] []).

End Sparse.

Arguments mkCoo {T}.
Arguments c_sym {T}.
Arguments c_nrow {T}.
Arguments c_ncol {T}.
Arguments c_nnz {T}.
Arguments c_max {T}.
Arguments c_ii {T}.
Arguments c_jj {T}.
Arguments c_vv {T}.
Arguments coo_put {T}.
Arguments coo_puts {T}.
Arguments coo_reset {T}.
Arguments coo_triplets {T}.
Arguments mkCsc {T}.
Arguments s_sym {T}. Arguments s_nrow {T}. Arguments s_ncol {T}.
Arguments s_bp {T}. Arguments s_bi {T}. Arguments s_bx {T}.
Arguments s_rp {T}. Arguments s_rj {T}. Arguments s_rx {T}. Arguments s_rc {T}. Arguments s_w {T}.
Arguments mkCsr {T}.
Arguments r_sym {T}. Arguments r_nrow {T}. Arguments r_ncol {T}.
Arguments r_bp {T}. Arguments r_bj {T}. Arguments r_bx {T}.
Arguments r_rp {T}. Arguments r_rjx {T}. Arguments r_rc {T}. Arguments r_w {T}.
