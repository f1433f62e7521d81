(** Vectors, matrices and numbers as text: russell_lab/src/base/formatters.rs (format_scientific,
    format_fortran, write_formatted_number), matrix/mat_to_{numpy,mathematica,static_array}.rs,
    vector/vec_to_static_array.rs, vector/vec_fmt_scientific.rs, matrix/mat_write_vismatrix.rs and the Display
    implementations of NumVector and NumMatrix.

    Simplifications:
    - text is a [string] of bytes (UTF-8 for the drawing characters); the texts of numbers are ASCII, so that
      `chars().count()` is their length;
    - numbers are an arbitrary type [V]; the standard formatting of a number (`{}`, `{:?}`, `{:.p$}`,
      `{:.p$e}`) is given by functions; `{:>w$}` of a number is its text, padded;
    - `write!` to a String does not fail;
    - in mat_write_vismatrix the numbers are real, and creating the directory and the file is not modelled. *)
From Coq Require Import Ascii Reals.
From Verif Require Import Base RBase Dense_Model MM_Model.
Local Open Scope string_scope.
Local Open Scope nat_scope.

(** `Option::unwrap` *)
Definition unwrap_o {A} (o : option A) : res A := match o with Some x => Ok x | None => Panic end.
(** [n] times the character [c] *)
Fixpoint fill (c : ascii) (n : nat) : string := match n with O => EmptyString | S n => String c (fill c n) end.
(** `{:>w$}` of a text; `{:0>w$}` is [pad "0"] *)
Definition pad (c : ascii) (w : nat) (s : string) : string := fill c (w - String.length s) ++ s.

(** `s.split_off(s.find('e').unwrap())`: the text before the first 'e' and the text from it on *)
Fixpoint split_e (s : string) : option (string * string) :=
  match s with
  | EmptyString => None
  | String c t => if Ascii.eqb c "e" then Some (EmptyString, s) else match split_e t with None => None | Some (a, b) => Some (String c a, b) end
  end.
(** `&s[k..]` *)
Fixpoint drop (k : nat) (s : string) : string := match k, s with O, _ => s | S k, String _ t => drop k t | S _, EmptyString => EmptyString end.

Section Numbers.
Context (V : Type).
(** `is_finite`, `{}`, `{:.p$}` and `{:.p$e}` of a number *)
Context (finite : V -> bool) (show : V -> string) (show_p : nat -> V -> string) (show_e : nat -> V -> string).

(** formatters.rs:154-168 `format_scientific` *)
Definition format_scientific (num : V) (width precision : nat) : res string :=
  if negb (finite num) then Ok (pad " " width (show num))
  else
    ' p <- unwrap_o (split_e (show_e precision num)) ;;
    let (result, exp) := p : string * string in
    let '(sign, exp) := if String.prefix "e-" exp then ("-", drop 2 exp) else ("+", drop 1 exp) in
    let result := result ++ ("E" ++ sign ++ pad "0" 2 exp) in
    Ok (pad " " width result).
(** formatters.rs:184-186 `format_fortran` *)
Definition format_fortran (num : V) : res string := format_scientific num 23 15.
(** formatters.rs:201-227 `write_formatted_number`, for a number type that converts to f64 *)
Definition write_formatted_number (buffer : string) (num : V) (width : nat) (precision scientific_precision : option nat) : res string :=
  match scientific_precision with
  | Some p => t <- format_scientific num width p ;; Ok (buffer ++ t)
  | None => match precision with Some p => Ok (buffer ++ pad " " width (show_p p num)) | None => Ok (buffer ++ pad " " width (show num)) end
  end.

(** mat_to_numpy.rs:32-52 `mat_to_numpy` *)
Definition mat_to_numpy (name : string) (a : dmat V) : res string :=
  let buf := name ++ " = np.array([" in
  buf <- for_range 0 (d_nrow a) (fun i buf =>
    let buf := if 0 <? i then buf ++ "]," else buf in
    for_range 0 (d_ncol a) (fun j buf =>
      let buf := if j =? 0 then buf ++ "[" else buf ++ "," in
      val <- d_get a i j ;;
      Ok (buf ++ show val)) buf) buf ;;
  Ok (buf ++ "]],dtype=float)").

(** mat_to_mathematica.rs:32-52 `mat_to_mathematica` *)
Definition mat_to_mathematica (name : string) (a : dmat V) : res string :=
  let buf := name ++ " = {" in
  buf <- for_range 0 (d_nrow a) (fun i buf =>
    let buf := if 0 <? i then buf ++ "}," else buf in
    for_range 0 (d_ncol a) (fun j buf =>
      let buf := if j =? 0 then buf ++ "{" else buf ++ "," in
      val <- d_get a i j ;;
      Ok (buf ++ show val)) buf) buf ;;
  Ok (buf ++ "}};" ++ nl).

(** mat_to_static_array.rs:39-62 `mat_to_static_array` *)
Definition mat_to_static_array (name : string) (a : dmat V) : res string :=
  let nrow := d_nrow a in
  let ncol := d_ncol a in
  let buf := "// " ++ name ++ ": nrow = " ++ usz nrow ++ ", ncol = " ++ usz ncol ++ nl in
  let buf := buf ++ "#[rustfmt::skip]" ++ nl in
  let buf := buf ++ "const " ++ name ++ ": [[f64; " ++ usz ncol ++ "]; " ++ usz nrow ++ "] = [" ++ nl in
  buf <- for_range 0 nrow (fun i buf =>
    let buf := if 0 <? i then buf ++ " ]," ++ nl else buf in
    for_range 0 ncol (fun j buf =>
      let buf := if j =? 0 then buf ++ "    [" else buf ++ "," in
      val <- d_get a i j ;;
      t <- format_scientific val 23 15 ;;
      Ok (buf ++ t)) buf) buf ;;
  let buf := buf ++ " ]," ++ nl in
  Ok (buf ++ "];" ++ nl).

(** vec_to_static_array.rs:30-45 `vec_to_static_array` *)
Definition vec_to_static_array (name : string) (v : list V) : res string :=
  let dim := length v in
  let buf := "// " ++ name ++ ": dim = " ++ usz dim ++ nl in
  let buf := buf ++ "#[rustfmt::skip]" ++ nl in
  let buf := buf ++ "const " ++ name ++ ": [f64; " ++ usz dim ++ "] = [" ++ nl in
  let buf := buf ++ "    " in
  buf <- for_range 0 dim (fun i buf =>
    let buf := if 0 <? i then buf ++ "," else buf in
    val <- vget v i ;;
    t <- format_scientific val 23 15 ;;
    Ok (buf ++ t)) buf ;;
  Ok (buf ++ "," ++ nl ++ "];" ++ nl).

(** vec_fmt_scientific.rs:6-37 `vec_fmt_scientific` *)
Definition vec_fmt_scientific (u : list V) (precision : nat) : res string :=
  if length u =? 0 then Ok "[]"
  else
    width <- for_range 0 (length u) (fun i width =>
      x <- vget u i ;;
      ' p <- unwrap_o (split_e (show_e precision x)) ;;
      Ok (Nat.max (String.length (fst p)) width)) 0 ;;
    let width := width + 4 in
    let width := width + 1 in
    let f := "┌" ++ fill " " (width + 1) ++ "┐" ++ nl in
    f <- for_range 0 (length u) (fun i f =>
      let f := if 0 <? i then f ++ " │" ++ nl else f in
      let f := f ++ "│" in
      x <- vget u i ;;
      t <- format_scientific x width precision ;;
      Ok (f ++ t)) f ;;
    let f := f ++ " │" ++ nl in
    Ok (f ++ "└" ++ fill " " (width + 1) ++ "┘").

(** the text of a number for the precision given to the formatter *)
Definition text_of (precision : option nat) (x : V) : string := match precision with Some p => show_p p x | None => show x end.

(** num_vector.rs:724-758 `fmt` of NumVector *)
Definition vec_display (u : list V) (precision : option nat) : res string :=
  if length u =? 0 then Ok "[]"
  else
    width <- for_range 0 (length u) (fun i width =>
      x <- vget u i ;;
      Ok (Nat.max (String.length (text_of precision x)) width)) 0 ;;
    let width := width + 1 in
    let f := "┌" ++ fill " " (width + 1) ++ "┐" ++ nl in
    f <- for_range 0 (length u) (fun i f =>
      let f := if 0 <? i then f ++ " │" ++ nl else f in
      let f := f ++ "│" in
      x <- vget u i ;;
      Ok (f ++ pad " " width (text_of precision x))) f ;;
    let f := f ++ " │" ++ nl in
    Ok (f ++ "└" ++ fill " " (width + 1) ++ "┘").

(** num_matrix.rs:961-1001 `fmt` of NumMatrix *)
Definition mat_display (a : dmat V) (precision : option nat) : res string :=
  if (d_nrow a =? 0) || (d_ncol a =? 0) then Ok "[]"
  else
    width <- for_range 0 (d_nrow a) (fun i width =>
      for_range 0 (d_ncol a) (fun j width =>
        x <- d_get a i j ;;
        Ok (Nat.max (String.length (text_of precision x)) width)) width) 0 ;;
    let width := width + 1 in
    let f := "┌" ++ fill " " (width * d_ncol a + 1) ++ "┐" ++ nl in
    f <- for_range 0 (d_nrow a) (fun i f =>
      let f := if 0 <? i then f ++ " │" ++ nl else f in
      for_range 0 (d_ncol a) (fun j f =>
        let f := if j =? 0 then f ++ "│" else f in
        x <- d_get a i j ;;
        Ok (f ++ pad " " width (text_of precision x))) f) f ;;
    let f := f ++ " │" ++ nl in
    Ok (f ++ "└" ++ fill " " (width * d_ncol a + 1) ++ "┘").
End Numbers.

(** mat_write_vismatrix.rs:45-81 `mat_write_vismatrix`: the text of the file; [debug] is `{:?}` *)
Definition vismatrix_text (debug : R -> string) (a : dmat R) (tol : R) : res string :=
  if Rltb tol 0 then Err "tol must be >= 0"
  else
    ' s <- for_range 0 (d_nrow a) (fun i s =>
      for_range 0 (d_ncol a) (fun j '(nnz, buffer) =>
        value <- d_get a i j ;;
        if Rltb tol (Rabs value) then Ok (nnz + 1, buffer ++ usz i ++ " " ++ usz j ++ " " ++ debug value ++ nl)
        else Ok (nnz, buffer)) s) (0, "") ;;
    let '(nnz, buffer) := s : nat * string in
    let header := usz (d_nrow a) ++ " " ++ usz (d_ncol a) ++ " " ++ usz nnz ++ nl in
    Ok (header ++ buffer).
