(** Model of russell_sparse/src/{write_matrix_market,read_matrix_market}.rs.

    Simplifications:
    - a file is a [string] of ASCII characters; opening, creating and syncing files, directories and
      invalid UTF-8 are not modelled (the functions start or end at the text of the file);
    - floating-point numbers are an arbitrary type [V]; `{:?}` and `parse::<f64>` are the oracles
      [show] and [parse];
    - `i32` values are [Z] with the overflow checks of a debug build. *)
From Coq Require Import DecimalString Ascii.
From Coq Require Import Init.Decimal.
From Verif Require Import Base Dense_Model Sparse_Model.
Local Open Scope string_scope.
Local Open Scope nat_scope.

(* ------------------------------------------------------------------ *)
(** * Text *)

Definition newline : ascii := "010"%char.
Definition cr : ascii := "013"%char.
(** char::is_whitespace on ASCII: 9..13 and 32 *)
Definition is_ws (c : ascii) : bool :=
  let n := nat_of_ascii c in (9 <=? n) && (n <=? 13) || (n =? 32).
Definition nonempty (s : string) : bool := match s with EmptyString => false | _ => true end.
Definition snoc (s : string) (c : ascii) : string := s ++ String c EmptyString.

(** str::trim_start *)
Fixpoint trim_start (s : string) : string :=
  match s with
  | EmptyString => EmptyString
  | String c t => if is_ws c then trim_start t else s
  end.
(** str::split_whitespace *)
Fixpoint split_aux (acc s : string) : list string :=
  match s with
  | EmptyString => if nonempty acc then [acc] else []
  | String c t =>
      if is_ws c then (if nonempty acc then acc :: split_aux EmptyString t else split_aux EmptyString t)
      else split_aux (snoc acc c) t
  end.
Definition split_ws (s : string) : list string := split_aux EmptyString s.
(** BufRead::lines: the newline, and a carriage return before it, are removed *)
Fixpoint strip_cr (s : string) : string :=
  match s with
  | EmptyString => EmptyString
  | String c EmptyString => if Ascii.eqb c cr then EmptyString else s
  | String c t => String c (strip_cr t)
  end.
Fixpoint lines_aux (acc s : string) : list string :=
  match s with
  | EmptyString => if nonempty acc then [acc] else []
  | String c t => if Ascii.eqb c newline then strip_cr acc :: lines_aux EmptyString t else lines_aux (snoc acc c) t
  end.
Definition lines (s : string) : list string := lines_aux EmptyString s.

(** `{}` of a usize *)
Definition usz (n : nat) : string := NilEmpty.string_of_uint (N.to_uint (N.of_nat n)).

Definition I32_MAX : Z := 2147483647.
Definition I32_MIN : Z := -2147483648.
(** str::parse::<i32>: an optional sign, at least one digit, in range *)
Definition parse_digits (s : string) : option Z :=
  if nonempty s then
    match NilEmpty.uint_of_string s with
    | Some d => Some (Z.of_N (N.of_uint d))
    | None => None
    end
  else None.
Definition in_i32 (z : Z) : option Z := if ((I32_MIN <=? z) && (z <=? I32_MAX))%Z then Some z else None.
Definition parse_i32 (s : string) : option Z :=
  match s with
  | String "+"%char t => match parse_digits t with Some z => in_i32 z | None => None end
  | String "-"%char t => match parse_digits t with Some z => in_i32 (- z) | None => None end
  | _ => match parse_digits s with Some z => in_i32 z | None => None end
  end.

(* ------------------------------------------------------------------ *)
(** * Writer *)

Section Writer.
Variable T : Type.
(** "real" or "complex" *)
Variable kind : string.
(** the test used while counting and the test used while writing the MatrixMarket data:
    f64::abs(aij) > tol in write_matrix_market.rs:55,71,85,102,118; for complex matrices
    abs(re) > tol || abs(im) > tol in lines 198,214,228,245 but abs(re) > tol || abs(im) < tol in line 261 *)
Variables counts keeps : T -> bool.
(** the text of a value: `{:?}` (120-126), `{:?} {:?}` of the two parts (263-273); for the SMAT file
    `{:?}` (103) and `{:?}` of the norm (246) *)
Variables text vtext : T -> string.

(** for j in 0..ncol, for p in col_pointers[j]..col_pointers[j + 1] (51-54 and all the others) *)
Definition csc_scan {S} (s : csc T) (f : nat -> nat -> T -> S -> S) (st : S) : res S :=
  for_range 0 (s_ncol s) (fun j st =>
    p1 <- vget (s_bp s) j ;;
    p2 <- vget (s_bp s) (j + 1) ;;
    for_range p1 p2 (fun p st =>
      i <- vget (s_bi s) p ;;
      a <- vget (s_bx s) p ;;
      Ok (f i j a st)) st) st.

(** write_matrix_market.rs:48-91 and 191-234: number of entries *)
Definition mm_count (vis : bool) (s : csc T) : res nat :=
  if vis && triangular (s_sym s) then
    csc_scan s (fun i j a n => if counts a then (if negb (i =? j) then n + 1 + 1 else n + 1) else n) 0
  else if negb vis && sym_eqb (s_sym s) SymYesFull then
    csc_scan s (fun i j a n => if counts a then (if j <=? i then n + 1 else n) else n) 0
  else
    csc_scan s (fun i j a n => if counts a then n + 1 else n) 0.

Definition nl : string := String newline EmptyString.
Definition mm_row (i j : nat) (t : string) : string := usz i ++ " " ++ usz j ++ " " ++ t ++ nl.

(** write_matrix_market.rs:31-148 and 174-295: the text that is written *)
Definition mm_write (vis : bool) (s : csc T) : res string :=
  let buf := if vis then EmptyString
             else "%%MatrixMarket matrix coordinate " ++ kind ++ " " ++
                  (if sym_eqb (s_sym s) SymNo then "general" else "symmetric") ++ nl in
  nnz <- mm_count vis s ;;
  let buf := buf ++ usz (s_nrow s) ++ " " ++ usz (s_ncol s) ++ " " ++ usz nnz ++ nl in
  if vis then
    csc_scan s (fun i j a buf =>
      if counts a then
        let buf := buf ++ mm_row i j (vtext a) in
        if triangular (s_sym s) then
          if negb (i =? j) then buf ++ mm_row j i (vtext a) else buf
        else buf
      else buf) buf
  else
    csc_scan s (fun i j a buf =>
      if keeps a then
        match s_sym s with
        | SymNo => buf ++ mm_row (i + 1) (j + 1) (text a)
        | SymYesLower => buf ++ mm_row (i + 1) (j + 1) (text a)
        | SymYesUpper => buf ++ mm_row (j + 1) (i + 1) (text a)
        | SymYesFull => if j <=? i then buf ++ mm_row (i + 1) (j + 1) (text a) else buf
        end
      else buf) buf.
End Writer.

(* ------------------------------------------------------------------ *)
(** * Reader *)

(** enums.rs `enum MMsym` *)
Inductive mmsym := LeaveAsLower | SwapToUpper | MakeItFull.

(** read_matrix_market.rs:44-103 `parse_header`: (complex, symmetric) *)
Definition parse_header (line : string) : res (bool * bool) :=
  match split_ws line with
  | [] => Err "cannot find the keyword %%MatrixMarket on the first line"
  | k :: t =>
  if negb (String.eqb k "%%MatrixMarket") then Err "the header (first line) must start with %%MatrixMarket"
  else match t with
  | [] => Err "cannot find the first option in the header line"
  | o1 :: t =>
  if negb (String.eqb o1 "matrix") then Err "after %%MatrixMarket, the first option must be matrix"
  else match t with
  | [] => Err "cannot find the second option in the header line"
  | o2 :: t =>
  if negb (String.eqb o2 "coordinate") then Err "after %%MatrixMarket, the second option must be coordinate"
  else match t with
  | [] => Err "cannot find the third option in the header line"
  | o3 :: t =>
  cplx <- (if String.eqb o3 "real" then Ok false
           else if String.eqb o3 "complex" then Ok true
           else Err "after %%MatrixMarket, the third option must be real or complex") ;;
  match t with
  | [] => Err "cannot find the fourth option in the header line"
  | o4 :: _ =>
  if String.eqb o4 "general" then Ok (cplx, false)
  else if String.eqb o4 "symmetric" then Ok (cplx, true)
  else if String.eqb o4 "Hermitian" then
    (if negb cplx then Err "Hermitian keyword can only be used with the complex type" else Ok (cplx, false))
  else Err "after %%MatrixMarket, the fourth option must be general, symmetric, or Hermitian"
  end end end end end.

(** read_matrix_market.rs:107-110 and 139-142: comments and empty lines are skipped
    (a line holds no newline, so trim_end_matches does nothing) *)
Definition skipped (line : string) : bool :=
  match trim_start line with
  | EmptyString => true
  | String c _ => Ascii.eqb c "%"%char
  end.

Definition num (r : option Z) (msg : string) : res Z :=
  match r with Some z => Ok z | None => Err msg end.

(** read_matrix_market.rs:106-135 `parse_dimensions`: None when the line is skipped *)
Definition parse_dimensions (line : string) : res (option (Z * Z * Z)) :=
  if skipped line then Ok None
  else
    match split_ws (trim_start line) with
    | [] => Panic
    | a :: t =>
        m <- num (parse_i32 a) "cannot parse number of rows" ;;
        match t with
        | [] => Err "cannot read number of columns"
        | b :: t =>
            n <- num (parse_i32 b) "cannot parse number of columns" ;;
            match t with
            | [] => Err "cannot read number of non-zeros"
            | c :: _ =>
                nnz <- num (parse_i32 c) "cannot parse number of non-zeros" ;;
                if ((m <? 1) || (n <? 1) || (nnz <? 1))%Z then Err "found invalid (zero or negative) dimensions"
                else Ok (Some (m, n, nnz))
            end
        end
    end.

Section Reader.
Variable V : Type.
Variable vzero : V.
Variable parse : string -> option V.

Definition fnum (r : option V) (msg : string) : res V :=
  match r with Some z => Ok z | None => Err msg end.

(** `self.i -= 1` in a debug build *)
Definition dec32 (z : Z) : res Z := if (z =? I32_MIN)%Z then Panic else Ok (z - 1)%Z.

(** read_matrix_market.rs:138-183 `parse_values`: None when the line is skipped *)
Definition parse_values (cplx : bool) (m n nnz pos : Z) (line : string) : res (option (Z * Z * (V * V))) :=
  if skipped line then Ok None
  else if (pos =? nnz)%Z then Err "there are more values than specified"
  else
    match split_ws (trim_start line) with
    | [] => Panic
    | a :: t =>
        i <- num (parse_i32 a) "cannot parse i" ;;
        match t with
        | [] => Err "cannot read j"
        | b :: t =>
            j <- num (parse_i32 b) "cannot parse j" ;;
            match t with
            | [] => Err "cannot read aij"
            | c :: t =>
                aij <- fnum (parse c) "cannot parse aij" ;;
                bij <- (if cplx then
                          match t with
                          | [] => Err "cannot read bij"
                          | d :: _ => fnum (parse d) "cannot parse bij"
                          end
                        else Ok vzero) ;;
                i <- dec32 i ;;
                j <- dec32 j ;;
                if ((i <? 0) || (m <=? i) || (j <? 0) || (n <=? j))%Z then Err "found an invalid index"
                else Ok (Some (i, j, (aij, bij)))
            end
        end
    end.

(** coo.put(...).unwrap() *)
Definition put_or_panic {T} (c : coo T) (i j : Z) (x : T) : res (coo T) :=
  match coo_put c (Z.to_nat i) (Z.to_nat j) x with
  | (c', Ok _) => Ok c'
  | _ => Panic
  end.

(** read_matrix_market.rs:403-438 and 442-472: the loop over the remaining lines; [mk] makes a value *)
Fixpoint fill {T} (mk : V * V -> T) (h : mmsym) (cplx symm : bool) (m n nnz : Z) (ls : list string) (pos : Z) (c : coo T) : res (coo T) :=
  match ls with
  | [] => if (pos =? nnz)%Z then Ok c else Err "not all values have been found"
  | l :: t =>
      r <- parse_values cplx m n nnz pos l ;;
      match r with
      | None => fill mk h cplx symm m n nnz t pos c
      | Some (i, j, v) =>
          c <- (if symm then
                  match h with
                  | LeaveAsLower => put_or_panic c i j (mk v)
                  | SwapToUpper => put_or_panic c j i (mk v)
                  | MakeItFull =>
                      c <- put_or_panic c i j (mk v) ;;
                      if negb (i =? j)%Z then put_or_panic c j i (mk v) else Ok c
                  end
                else put_or_panic c i j (mk v)) ;;
          fill mk h cplx symm m n nnz t (pos + 1) c
      end
  end.

(** read_matrix_market.rs:371-376: the loop that looks for the dimensions; a missing line is unwrapped *)
Fixpoint find_dims (ls : list string) : res (Z * Z * Z * list string) :=
  match ls with
  | [] => Panic
  | l :: t =>
      r <- parse_dimensions l ;;
      match r with
      | Some d => Ok (d, t)
      | None => find_dims t
      end
  end.

Definition is_full (h : mmsym) : bool := match h with MakeItFull => true | _ => false end.

(** read_matrix_market.rs:346-475 `read_matrix_market` on the text of the file *)
Definition mm_read (h : mmsym) (text : string) : res (coo V + coo (V * V)) :=
  match lines text with
  | [] => Err "the file is empty"
  | header :: ls =>
      ' (cplx, symm) <- parse_header header ;;
      ' (m, n, nnz, ls) <- find_dims ls ;;
      if symm && negb (m =? n)%Z then
        Err "MatrixMarket data is invalid: the number of rows must equal the number of columns for symmetric matrices"
      else
        let sy := if symm then match h with LeaveAsLower => SymYesLower | SwapToUpper => SymYesUpper | MakeItFull => SymYesFull end
                  else SymNo in
        max <- (if symm && is_full h then (if (I32_MAX <? 2 * nnz)%Z then Panic else Ok (2 * nnz)%Z) else Ok nnz) ;;
        if cplx then
          c <- unwrap (coo_new (V * V) (vzero, vzero) (Z.to_nat m) (Z.to_nat n) (Z.to_nat max) sy) ;;
          c <- fill (fun v => v) h cplx symm m n nnz ls 0 c ;;
          Ok (inr c)
        else
          c <- unwrap (coo_new V vzero (Z.to_nat m) (Z.to_nat n) (Z.to_nat max) sy) ;;
          c <- fill fst h cplx symm m n nnz ls 0 c ;;
          Ok (inl c)
  end.
End Reader.
