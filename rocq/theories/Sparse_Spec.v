(** Specification vocabulary for the sparse matrices: a matrix is a list of
    triplets (row, column, value); an entry is the left-to-right sum of the values
    put at that position. Independent of the storage formats. *)
From Verif Require Import Base Dense_Model Sparse_Model.

Section Spec.
Variable T : Type.
Variable zero : T.
Variables add mul : T -> T -> T.

Definition row_of (t : nat * nat * T) : nat := fst (fst t).
Definition col_of (t : nat * nat * T) : nat := snd (fst t).
Definition val_of (t : nat * nat * T) : T := snd t.

Definition at_pos (i j : nat) (t : nat * nat * T) : bool :=
  (row_of t =? i) && (col_of t =? j).

(** values put at (i,j), in order of insertion *)
Definition vals_at (ts : list (nat * nat * T)) (i j : nat) : list T :=
  map val_of (filter (at_pos i j) ts).

(** entry (i,j): ((0 + v1) + v2) + ... *)
Definition entry (ts : list (nat * nat * T)) (i j : nat) : T :=
  fold_left add (vals_at ts i j) zero.

(** ((v1 + v2) + v3) + ... for a non-empty list *)
Definition sum1 (l : list T) : T :=
  match l with
  | [] => zero
  | v :: vs => fold_left add vs v
  end.

(** the compressed content at (i,j): nothing when no value was put there, otherwise the
    one value (v1 + v2) + ... *)
Definition cell (ts : list (nat * nat * T)) (i j : nat) : list T :=
  match vals_at ts i j with
  | [] => []
  | vs => [sum1 vs]
  end.

(** column [j] / row [i] of the compressed matrix: the occupied positions in
    increasing order *)
Definition spec_column (ts : list (nat * nat * T)) (nrow j : nat) : list (nat * T) :=
  flat_map (fun i => map (fun x => (i, x)) (cell ts i j)) (seq 0 nrow).

Definition spec_row (ts : list (nat * nat * T)) (ncol i : nat) : list (nat * T) :=
  flat_map (fun j => map (fun x => (j, x)) (cell ts i j)) (seq 0 ncol).

(** what a triplet list stands for: with triangular storage an off-diagonal
    triplet (i,j,x) also stands for (j,i,x) *)
Definition expand (s : sym) (ts : list (nat * nat * T)) : list (nat * nat * T) :=
  flat_map (fun t : nat * nat * T => let '(i, j, x) := t in
    if triangular s && negb (i =? j) then [(i, j, x); (j, i, x)] else [(i, j, x)]) ts.

(** a dense matrix holds exactly the entries of the triplet list *)
Definition dense_is (a : dmat T) (nrow ncol : nat) (ts : list (nat * nat * T)) : Prop :=
  d_nrow a = nrow /\ d_ncol a = ncol /\ length (d_data a) = nrow * ncol /\
  forall i j, i < nrow -> j < ncol -> d_get a i j = Ok (entry ts i j).

(** may (i,j) be stored with symmetry kind [s]? *)
Definition in_triangle (s : sym) (i j : nat) : bool :=
  match s with
  | SymYesLower => j <=? i
  | SymYesUpper => i <=? j
  | _ => true
  end.

(** the abstract bounded triplet list of property C01 *)
Inductive coo_op :=
| OpPut (i j : nat) (x : T)
| OpReset.

Definition spec_accepts (nrow ncol cap : nat) (s : sym) (l : list (nat * nat * T)) (i j : nat) : bool :=
  (i <? nrow) && (j <? ncol) && (length l <? cap) && in_triangle s i j.

(** new list, and whether the call is reported successful *)
Definition spec_step (nrow ncol cap : nat) (s : sym) (l : list (nat * nat * T)) (o : coo_op)
    : list (nat * nat * T) * bool :=
  match o with
  | OpPut i j x => if spec_accepts nrow ncol cap s l i j then (l ++ [(i, j, x)], true) else (l, false)
  | OpReset => ([], true)
  end.

Fixpoint spec_run nrow ncol cap s l (os : list coo_op) : list (nat * nat * T) * list bool :=
  match os with
  | [] => (l, [])
  | o :: rest =>
    let (l1, b) := spec_step nrow ncol cap s l o in
    let (l2, bs) := spec_run nrow ncol cap s l1 rest in
    (l2, b :: bs)
  end.

(** the same history on the model *)
Definition coo_step (c : coo T) (o : coo_op) : coo T * res unit :=
  match o with
  | OpPut i j x => coo_put c i j x
  | OpReset => (coo_reset c, Ok tt)
  end.

Fixpoint coo_run (c : coo T) (os : list coo_op) : coo T * list (res unit) :=
  match os with
  | [] => (c, [])
  | o :: rest =>
    let (c1, b) := coo_step c o in
    let (c2, bs) := coo_run c1 rest in
    (c2, b :: bs)
  end.

(** does a reported result mean success ([true]) or an `Err` ([false])?
    [None] stands for a panic *)
Definition outcome_flag (r : res unit) : option bool :=
  match r with
  | Ok _ => Some true
  | Err _ => Some false
  | Panic => None
  end.

(** Validity of a COO matrix: exactly what `new` followed by any history of `put`s
    and `reset`s guarantees (see Sparse_CooProofs.coo_valid_reachable). *)
Definition coo_valid (c : coo T) : Prop :=
  1 <= c_nrow c /\ 1 <= c_ncol c /\ 1 <= c_max c /\ c_nnz c <= c_max c /\
  length (c_ii c) = c_max c /\ length (c_jj c) = c_max c /\ length (c_vv c) = c_max c /\
  (c_sym c <> SymNo -> c_nrow c = c_ncol c) /\
  (forall t, In t (coo_triplets c) ->
     row_of t < c_nrow c /\ col_of t < c_ncol c /\
     in_triangle (c_sym c) (row_of t) (col_of t) = true).

(** entries of a CSC matrix: column j as the list of (row, value) between its pointers *)
Definition seg {A} (l : list A) (p1 p2 : nat) : list A := firstn (p2 - p1) (skipn p1 l).

Definition csc_column (s : csc T) (j : nat) : list (nat * T) :=
  seg (combine (s_bi s) (s_bx s)) (nth j (s_bp s) 0) (nth (j + 1) (s_bp s) 0).

Definition csr_row (s : csr T) (i : nat) : list (nat * T) :=
  seg (combine (r_bj s) (r_bx s)) (nth i (r_bp s) 0) (nth (i + 1) (r_bp s) 0).

(** all stored entries of a CSC/CSR matrix as triplets *)
Definition csc_triplets (s : csc T) : list (nat * nat * T) :=
  flat_map (fun j => map (fun '(i, x) => (i, j, x)) (csc_column s j)) (seq 0 (s_ncol s)).

Definition csr_triplets (s : csr T) : list (nat * nat * T) :=
  flat_map (fun i => map (fun '(j, x) => (i, j, x)) (csr_row s i)) (seq 0 (r_nrow s)).

(** strictly increasing list of indices below [n] *)
Fixpoint increasing_from (lo : nat) (l : list nat) : Prop :=
  match l with
  | [] => True
  | a :: t => lo <= a /\ increasing_from (S a) t
  end.

(** well-formed compressed storage with [n] buckets and indices below [m] *)
Definition compressed_wf (n m : nat) (bp bi : list nat) (bx : list T) : Prop :=
  length bp = n + 1 /\ nth 0 bp 0 = 0 /\
  (forall b, b < n -> nth b bp 0 <= nth (b + 1) bp 0) /\
  nth n bp 0 <= length bi /\ nth n bp 0 <= length bx /\
  (forall b, b < n ->
     increasing_from 0 (seg bi (nth b bp 0) (nth (b + 1) bp 0)) /\
     Forall (fun i => i < m) (seg bi (nth b bp 0) (nth (b + 1) bp 0))).

(** the weaker condition under which the arrays can be traversed safely: pointers that never
    decrease and stay inside the arrays, indices in range; repeated or unsorted indices allowed *)
Definition compressed_safe (n m : nat) (bp bi : list nat) (bx : list T) : Prop :=
  length bp = n + 1 /\
  (forall b, b < n -> nth b bp 0 <= nth (b + 1) bp 0) /\
  nth n bp 0 <= length bi /\ nth n bp 0 <= length bx /\
  (forall b, b < n -> Forall (fun i => i < m) (seg bi (nth b bp 0) (nth (b + 1) bp 0))).

Definition csc_safe (s : csc T) : Prop :=
  (s_sym s <> SymNo -> s_nrow s = s_ncol s) /\
  compressed_safe (s_ncol s) (s_nrow s) (s_bp s) (s_bi s) (s_bx s).

Definition csr_safe (s : csr T) : Prop :=
  (r_sym s <> SymNo -> r_nrow s = r_ncol s) /\
  compressed_safe (r_nrow s) (r_ncol s) (r_bp s) (r_bj s) (r_bx s).

Definition csc_wf (s : csc T) : Prop :=
  1 <= s_nrow s /\ 1 <= s_ncol s /\ (s_sym s <> SymNo -> s_nrow s = s_ncol s) /\
  compressed_wf (s_ncol s) (s_nrow s) (s_bp s) (s_bi s) (s_bx s).

Definition csr_wf (s : csr T) : Prop :=
  1 <= r_nrow s /\ 1 <= r_ncol s /\ (r_sym s <> SymNo -> r_nrow s = r_ncol s) /\
  compressed_wf (r_nrow s) (r_ncol s) (r_bp s) (r_bj s) (r_bx s).

(** A compressed matrix produced by `from_coo`/`update_from_coo`: the array sizes
    that `update_from_coo` relies on (temporaries empty before the first conversion). *)
Definition csr_ready (s : csr T) : Prop :=
  length (r_bp s) = r_nrow s + 1 /\ length (r_bj s) = length (r_bx s) /\
  (r_w s = [] \/
   (length (r_rp s) = r_nrow s + 1 /\ length (r_rjx s) = length (r_bx s) /\
    length (r_rc s) = r_nrow s /\ length (r_w s) = Nat.max (r_nrow s) (r_ncol s))).

Definition csc_ready (s : csc T) : Prop :=
  length (s_bp s) = s_ncol s + 1 /\ length (s_bi s) = length (s_bx s) /\
  (s_w s = [] \/
   (length (s_rp s) = s_nrow s + 1 /\ length (s_rj s) = length (s_bx s) /\
    length (s_rx s) = length (s_bx s) /\
    length (s_rc s) = s_nrow s /\ length (s_w s) = Nat.max (s_nrow s) (s_ncol s))).

(** The compressed matrix holds exactly the content of the triplet list: column pointers
    start at zero, and between them each column is [spec_column] *)
Definition csc_holds (s : csc T) (sy : sym) (nrow ncol : nat) (ts : list (nat * nat * T)) : Prop :=
  s_sym s = sy /\ s_nrow s = nrow /\ s_ncol s = ncol /\
  length (s_bp s) = ncol + 1 /\ nth 0 (s_bp s) 0 = 0 /\
  nth ncol (s_bp s) 0 <= length (s_bi s) /\ nth ncol (s_bp s) 0 <= length (s_bx s) /\
  forall j, j < ncol ->
    nth (j + 1) (s_bp s) 0 = nth j (s_bp s) 0 + length (spec_column ts nrow j) /\
    csc_column s j = spec_column ts nrow j.

Definition csr_holds (s : csr T) (sy : sym) (nrow ncol : nat) (ts : list (nat * nat * T)) : Prop :=
  r_sym s = sy /\ r_nrow s = nrow /\ r_ncol s = ncol /\
  length (r_bp s) = nrow + 1 /\ nth 0 (r_bp s) 0 = 0 /\
  nth nrow (r_bp s) 0 <= length (r_bj s) /\ nth nrow (r_bp s) 0 <= length (r_bx s) /\
  forall i, i < nrow ->
    nth (i + 1) (r_bp s) 0 = nth i (r_bp s) 0 + length (spec_row ts ncol i) /\
    csr_row s i = spec_row ts ncol i.

End Spec.

Arguments row_of {T}. Arguments col_of {T}. Arguments val_of {T}. Arguments at_pos {T}.
Arguments vals_at {T}. Arguments expand {T}. Arguments coo_valid {T}.
Arguments OpPut {T}. Arguments OpReset {T}.
Arguments spec_accepts {T}. Arguments spec_step {T}. Arguments spec_run {T}.
Arguments coo_step {T}. Arguments coo_run {T}.
Arguments csc_column {T}. Arguments csr_row {T}. Arguments csc_triplets {T}. Arguments csr_triplets {T}.
Arguments csc_wf {T}. Arguments csr_wf {T}.
Arguments compressed_wf {T}. Arguments compressed_safe {T}. Arguments csc_safe {T}. Arguments csr_safe {T}. Arguments seg {A}.
Arguments csr_ready {T}. Arguments csc_ready {T}.
