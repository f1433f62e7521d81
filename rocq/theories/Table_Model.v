(** Model of russell_lab/src/base/read_table.rs and of NumMatrix::from_text_file
    (russell_lab/src/matrix/num_matrix.rs:545-610).

    Simplifications:
    - a file is a [string] of ASCII characters; opening files and invalid UTF-8 are not modelled
      (the functions start at the text of the file); text functions come from MM_Model;
    - `T::from_str` and `T::from_str_radix(_, 10)` are the oracle [parse];
    - the `HashMap<String, Vec<T>>` is an association list in the order of the insertions. *)
From Coq Require Import Ascii.
From Verif Require Import Base Dense_Model MM_Model.
Local Open Scope string_scope.
Local Open Scope list_scope.
Local Open Scope nat_scope.

(** str::starts_with("#") *)
Definition starts_hash (s : string) : bool :=
  match s with String c _ => Ascii.eqb c "#"%char | EmptyString => false end.

(** read_table.rs:139-143 and num_matrix.rs:565-569: comments and empty lines are skipped
    (a line holds no newline, so trim_end_matches does nothing) *)
Definition no_data (line : string) : bool :=
  starts_hash (trim_start line) || String.eqb (trim_start line) "".

Section Table.
Variable T : Type.
Variable parse : string -> option T.

Definition table : Type := list (string * list T).
(** HashMap::get *)
Fixpoint tab_get (t : table) (label : string) : option (list T) :=
  match t with
  | [] => None
  | (l, c) :: t' => if String.eqb l label then Some c else tab_get t' label
  end.
(** read_table.rs:183-188: push on an existing column, or insert a column with one value *)
Fixpoint tab_push (t : table) (label : string) (value : T) : table :=
  match t with
  | [] => [(label, [value])]
  | (l, c) :: t' => if String.eqb l label then (l, c ++ [value]) :: t' else (l, c) :: tab_push t' label value
  end.

(** read_table.rs:156-175: one label of the first row *)
Definition header_cell (labels : option (list string)) (hdr : list string) (ci : nat) (s : string) : res (list string) :=
  label <- match labels with
           | Some ls =>
               if length ls <=? ci then Err "there are more columns than labels"
               else
                 l <- vget ls ci ;;
                 if negb (String.eqb s l) then Err "column data is missing" else Ok l
           | None => if existsb (String.eqb s) hdr then Err "found duplicate column label" else Ok s
           end ;;
  Ok (hdr ++ [label]).
(** read_table.rs:176-189: one value of a later row *)
Definition body_cell (hdr : list string) (tab : table) (ci : nat) (s : string) : res table :=
  if length hdr <=? ci then Err "there are more columns than labels"
  else
    value <- match parse s with Some v => Ok v | None => Err "cannot parse value" end ;;
    label <- vget hdr ci ;;
    Ok (tab_push tab label value).
(** read_table.rs:148-194: the loop over the columns of a row; returns the labels, the table and the
    number of columns *)
Fixpoint table_cols (labels : option (list string)) (first : bool) (hdr : list string) (tab : table) (ci : nat)
  (toks : list string) : res (list string * table * nat) :=
  match toks with
  | [] => Ok (hdr, tab, ci)
  | s :: rest =>
      if starts_hash s then Ok (hdr, tab, ci)
      else if first then
        hdr' <- header_cell labels hdr ci s ;; table_cols labels first hdr' tab (ci + 1) rest
      else
        tab' <- body_cell hdr tab ci s ;; table_cols labels first hdr tab' (ci + 1) rest
  end.
(** read_table.rs:133-208: the loop over the lines *)
Fixpoint table_lines (labels : option (list string)) (first : bool) (number_of_columns : nat) (hdr : list string)
  (tab : table) (ls : list string) : res table :=
  match ls with
  | [] => Ok tab
  | line :: rest =>
      if no_data line then table_lines labels first number_of_columns hdr tab rest
      else
        ' r <- table_cols labels first hdr tab 0 (split_ws (trim_start line)) ;;
        let '(hdr', tab', ci) := r in
        if first then table_lines labels false ci hdr' tab' rest
        else if negb (ci =? number_of_columns) then Err "column data is missing"
        else table_lines labels false number_of_columns hdr' tab' rest
  end.
(** read_table.rs:115-211 `read_table` (and 47-52 `read_data`, which calls it with Some labels) *)
Definition read_table (labels : option (list string)) (text : string) : res table :=
  table_lines labels true 0 [] [] (lines text).

(** num_matrix.rs:575-587: the loop over the columns of a row *)
Fixpoint text_cols (data : list T) (ci : nat) (toks : list string) : res (list T * nat) :=
  match toks with
  | [] => Ok (data, ci)
  | s :: rest =>
      if starts_hash s then Ok (data, ci)
      else
        v <- match parse s with Some v => Ok v | None => Err "cannot parse value" end ;;
        text_cols (data ++ [v]) (ci + 1) rest
  end.
(** num_matrix.rs:559-600: the loop over the lines; returns the number of rows, the number of columns
    and the values *)
Fixpoint text_lines (row number_of_columns : nat) (data : list T) (ls : list string) : res (nat * nat * list T) :=
  match ls with
  | [] => Ok (row, number_of_columns, data)
  | line :: rest =>
      if no_data line then text_lines row number_of_columns data rest
      else
        ' r <- text_cols data 0 (split_ws (trim_start line)) ;;
        let '(data', ci) := r in
        if row =? 0 then text_lines (row + 1) ci data' rest
        else if negb (ci =? number_of_columns) then Err "column data is missing"
        else text_lines (row + 1) number_of_columns data' rest
  end.
(** num_matrix.rs:545-610 `from_text_file` *)
Definition d_from_text (zero : T) (text : string) : res (dmat T) :=
  ' r <- text_lines 0 0 [] (lines text) ;;
  let '(nrow, ncol, row_major) := r in
  data <- for_range 0 nrow (fun i data =>
            for_range 0 ncol (fun j data => x <- vget row_major (i * ncol + j) ;; vset data (i + j * nrow) x) data)
          (repeat zero (nrow * ncol)) ;;
  Ok (mkD nrow ncol data).

End Table.
