(** Model of russell_lab/src/base/sort.rs. *)
From Coq Require Import Floats.SpecFloat.
From Verif Require Import Base.

Section Fixed.
Variable T : Type.
Variable lt : T -> T -> bool.      (* `PartialOrd::lt` of the element type *)

(** sort.rs:15-22 `sort2` *)
Definition sort2 (x : T * T) : T * T :=
  let '(x0, x1) := x in
  if lt x1 x0 then (x1, x0) else (x0, x1).

(** sort.rs:35-48 `sort3`: compare-and-swap (1,0), (2,1), (1,0) *)
Definition sort3 (x : T * T * T) : T * T * T :=
  let '(x0, x1, x2) := x in
  let '(x0, x1) := if lt x1 x0 then (x1, x0) else (x0, x1) in
  let '(x1, x2) := if lt x2 x1 then (x2, x1) else (x1, x2) in
  let '(x0, x1) := if lt x1 x0 then (x1, x0) else (x0, x1) in
  (x0, x1, x2).

(** sort.rs:61-83 `sort4` *)
Definition sort4 (x : T * T * T * T) : T * T * T * T :=
  let '(x0, x1, x2, x3) := x in
  let '(x0, x1) := if lt x1 x0 then (x1, x0) else (x0, x1) in
  let '(x1, x2) := if lt x2 x1 then (x2, x1) else (x1, x2) in
  let '(x2, x3) := if lt x3 x2 then (x3, x2) else (x2, x3) in
  let '(x0, x1) := if lt x1 x0 then (x1, x0) else (x0, x1) in
  let '(x1, x2) := if lt x2 x1 then (x2, x1) else (x1, x2) in
  let '(x0, x1) := if lt x1 x0 then (x1, x0) else (x0, x1) in
  (x0, x1, x2, x3).
End Fixed.

(** `f64` as the IEEE-754 data of the standard library's [spec_float]
    (sign/mantissa/exponent, infinities, NaN); `partial_cmp` is [SFcompare]. *)
Definition is_nan (a : spec_float) : bool := match a with S754_nan => true | _ => false end.

(** sort.rs:86-96 `compare_f64` *)
Definition compare_f64 (a b : spec_float) : comparison :=
  match SFcompare a b with
  | Some c => c
  | None => if is_nan a && is_nan b then Eq else if is_nan a then Gt else Lt
  end.

(** `Ordering::then_with` *)
Definition then_with (a b : comparison) : comparison := match a with Eq => b | _ => a end.

(** `slice::sort_by`: std's stable sort, modelled as stable insertion sort
    (Sort_Thm shows that stability and sortedness determine the result uniquely) *)
Fixpoint insert_by {A} (cmp : A -> A -> comparison) (a : A) (l : list A) : list A :=
  match l with
  | [] => [a]
  | b :: t => match cmp a b with Gt => b :: insert_by cmp a t | _ => a :: b :: t end
  end.

Fixpoint sort_by {A} (cmp : A -> A -> comparison) (l : list A) : list A :=
  match l with
  | [] => []
  | a :: t => insert_by cmp a (sort_by cmp t)
  end.

Definition at_ (x : list spec_float) (i : nat) : spec_float := nth i x S754_nan.

(** sort.rs:118-122 `argsort_f64` *)
Definition argsort (x : list spec_float) : list nat :=
  sort_by (fun i j => compare_f64 (at_ x i) (at_ x j)) (seq 0 (length x)).

(** sort.rs:165-170 `argsort2_f64` *)
Definition argsort2 (y x : list spec_float) : res (list nat) :=
  _ <- assert_ (length y =? length x) ;;
  Ok (sort_by (fun i j => then_with (compare_f64 (at_ y i) (at_ y j)) (compare_f64 (at_ x i) (at_ x j)))
        (seq 0 (length y))).

(** sort.rs:218-228 `argsort3_f64` *)
Definition argsort3 (z y x : list spec_float) : res (list nat) :=
  _ <- assert_ (length z =? length y) ;;
  _ <- assert_ (length z =? length x) ;;
  Ok (sort_by (fun i j =>
         then_with (then_with (compare_f64 (at_ z i) (at_ z j)) (compare_f64 (at_ y i) (at_ y j)))
                   (compare_f64 (at_ x i) (at_ x j)))
        (seq 0 (length z))).
