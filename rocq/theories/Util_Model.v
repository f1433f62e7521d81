(** russell_lab/src/base: find_min_max, find_valleys_and_peaks, generate2d,
    generate3d, format_nanoseconds. *)
From Coq Require Import ZArith.
From Verif Require Export RBase Dense_Model.
Close Scope R_scope.

(* ------------------------------------------------------------------ *)
Section Extrema.
(** `T: Num + PartialOrd`: only the operator `<` matters (`a > b` is `b < a`) *)
Variable T : Type.
Variable ltb : T -> T -> bool.

(** find_min_max.rs:48-54, one pass of the loop body *)
Definition min_max_step (x : list T) (i : nat) (s : nat * nat) : res (nat * nat) :=
  let '(index_min, index_max) := s in
  xi <- vget x i ;;
  xmin <- vget x index_min ;;
  if ltb xi xmin then Ok (i, index_max)
  else xmax <- vget x index_max ;;
       if ltb xmax xi then Ok (index_min, i) else Ok (index_min, index_max).

(** find_min_max.rs:37-58 `find_min_max`; [None] stands for the pair
    (usize::MAX, usize::MAX) *)
Definition find_min_max (x : list T) : res (option (nat * nat)) :=
  match length x with
  | 0 => Ok None
  | 1 => Ok (Some (0, 0))
  | n => s <- for_range 1 n (min_max_step x) (0, 0) ;; Ok (Some s)
  end.

(** find_valleys_and_peaks.rs:73-78: the variables of the loop *)
Record vp := mkVP { vp_valleys : list nat; vp_peaks : list nat; vp_down : bool; vp_up : bool; vp_mm : nat * nat }.

(** find_valleys_and_peaks.rs:79-107, loop body *)
Definition vp_step (x : list T) (i : nat) (s : vp) : res vp :=
  xi <- vget x i ;;
  xp <- vget x (i - 1) ;;
  s1 <- (if vp_down s then
           if ltb xp xi then Ok (mkVP (vp_valleys s ++ [i - 1]) (vp_peaks s) false true (vp_mm s)) else Ok s
         else if vp_up s then
           if ltb xi xp then Ok (mkVP (vp_valleys s) (vp_peaks s ++ [i - 1]) true false (vp_mm s)) else Ok s
         else if ltb xi xp then Ok (mkVP (vp_valleys s) (vp_peaks s) true (vp_up s) (vp_mm s))
         else if ltb xp xi then Ok (mkVP (vp_valleys s) (vp_peaks s) (vp_down s) true (vp_mm s))
         else Ok s) ;;
  mm <- min_max_step x i (vp_mm s1) ;;
  Ok (mkVP (vp_valleys s1) (vp_peaks s1) (vp_down s1) (vp_up s1) mm).

(** find_valleys_and_peaks.rs:49-111 `find_valleys_and_peaks` *)
Definition find_valleys_and_peaks (x : list T) : res (list nat * list nat * option (nat * nat)) :=
  match length x with
  | 0 | 1 | 2 => mm <- find_min_max x ;; Ok ([], [], mm)
  | 3 =>
      mm <- find_min_max x ;;
      x0 <- vget x 0 ;;
      x1 <- vget x 1 ;;
      x2 <- vget x 2 ;;
      if ltb x1 x0 && ltb x1 x2 then Ok ([1], [], mm)
      else if ltb x0 x1 && ltb x2 x1 then Ok ([], [1], mm)
      else Ok ([], [], mm)
  | n =>
      s <- for_range 1 n (vp_step x) (mkVP [] [] false false (0, 0)) ;;
      Ok (vp_valleys s, vp_peaks s, Some (vp_mm s))
  end.
End Extrema.

(* ------------------------------------------------------------------ *)
(** generators.rs:45-49, 50-54, 129-138: the spacing *)
Definition gen_step (lo hi : R) (n : nat) : R :=
  if n =? 1 then lo else ((hi - lo) / INR (n - 1))%R.

(** generators.rs:39-64 `generate2d`, exact arithmetic *)
Definition generate2d (xmin xmax ymin ymax : R) (nx ny : nat) : res (dmat R * dmat R) :=
  let x := d_new R 0%R ny nx in
  let y := d_new R 0%R ny nx in
  if (nx =? 0) || (ny =? 0) then Ok (x, y)
  else
    let dx := gen_step xmin xmax nx in
    let dy := gen_step ymin ymax ny in
    for_range 0 ny (fun i s =>
      let v := (ymin + INR i * dy)%R in
      for_range 0 nx (fun j '(x, y) =>
        let u := (xmin + INR j * dx)%R in
        x' <- d_set x i j u ;;
        y' <- d_set y i j v ;;
        Ok (x', y')) s) (x, y).

(** generators.rs:111-149 `generate3d`; the callback is a pure function *)
Definition generate3d (xmin xmax ymin ymax : R) (nx ny : nat) (calc_z : R -> R -> R)
  : res (dmat R * dmat R * dmat R) :=
  let x := d_new R 0%R ny nx in
  let y := d_new R 0%R ny nx in
  let z := d_new R 0%R ny nx in
  if (nx =? 0) || (ny =? 0) then Ok (x, y, z)
  else
    let dx := gen_step xmin xmax nx in
    let dy := gen_step ymin ymax ny in
    for_range 0 ny (fun i s =>
      let v := (ymin + INR i * dy)%R in
      for_range 0 nx (fun j '(x, y, z) =>
        let u := (xmin + INR j * dx)%R in
        x' <- d_set x i j u ;;
        y' <- d_set y i j v ;;
        z' <- d_set z i j (calc_z u v) ;;
        Ok (x', y', z')) s) (x, y, z).

(* ------------------------------------------------------------------ *)
Open Scope Z_scope.
(** formatters.rs:5-10 *)
Definition NS_PER_NANOSECOND : Z := 1.
Definition NS_PER_MICROSECOND : Z := 1000 * NS_PER_NANOSECOND.
Definition NS_PER_MILLISECOND : Z := 1000 * NS_PER_MICROSECOND.
Definition NS_PER_SECOND : Z := 1000 * NS_PER_MILLISECOND.
Definition NS_PER_MINUTE : Z := 60 * NS_PER_SECOND.
Definition NS_PER_HOUR : Z := 60 * NS_PER_MINUTE.

(** What is written: a number (numerator, denominator) followed by a unit.  The
    string itself is not modelled.  Values written as f64 are below 6e10, so
    the conversion is exact and the quotient is the nearest f64 to the
    fraction kept here. *)
Inductive tunit := Hour | Minute | Second | Milli | Micro | Nano.
Record piece := mkP { p_num : Z; p_den : Z; p_unit : tunit }.

(** [{:.digits$}] of num/den: the nearest multiple of 10^-digits.  Ties (which
    Rust resolves on the binary value) are rounded up here. *)
Definition show (digits : option nat) (num den : Z) (u : tunit) : piece :=
  match digits with
  | None => mkP num den u
  | Some k => let q := 10 ^ Z.of_nat k in mkP ((2 * num * q + den) / (2 * den)) q u
  end.

(** formatters.rs:13-21, 24-44 `format_nanoseconds_in_seconds(_with_digits)` *)
Definition format_in_seconds (digits : option nat) (value : Z) : list piece :=
  if value <? NS_PER_MICROSECOND then [mkP value 1 Nano]
  else if value <? NS_PER_MILLISECOND then [show digits value NS_PER_MICROSECOND Micro]
  else [show digits value NS_PER_MILLISECOND Milli].

(** formatters.rs:60-93 `format_nanoseconds` ([digits = None]) and 109-142
    `format_nanoseconds_with_digits` ([digits = Some _]); the two bodies differ
    only in the way the f64 is written *)
Definition format_ns (digits : option nat) (nanoseconds : Z) : list piece :=
  if nanoseconds =? 0 then [mkP 0 1 Nano]
  else if nanoseconds <? NS_PER_SECOND then format_in_seconds digits nanoseconds
  else
    let '(value, b1) :=
      if NS_PER_HOUR <=? nanoseconds then
        let hours := nanoseconds / NS_PER_HOUR in
        (nanoseconds - hours * NS_PER_HOUR, [mkP hours 1 Hour])
      else (nanoseconds, []) in
    let '(value, b2) :=
      if NS_PER_MINUTE <=? value then
        let minutes := value / NS_PER_MINUTE in
        (value - minutes * NS_PER_MINUTE, b1 ++ [mkP minutes 1 Minute])
      else (value, b1) in
    if 0 <? value then
      if value <? NS_PER_SECOND then b2 ++ format_in_seconds digits value
      else b2 ++ [show digits value NS_PER_SECOND Second]
    else b2.
