(** Model of russell_pde/src/essential_bcs_1d.rs, essential_bcs_2d.rs, natural_bcs_1d.rs, natural_bcs_2d.rs. *)
From Verif Require Import Base Grid_Model.

(** enums.rs:3-8 `Side as usize` *)
Definition side_index (s : side) : nat := match s with Xmin => 0 | Xmax => 1 | Ymin => 2 | Ymax => 3 end.
(** enums.rs:16-24 `Side::from_index` *)
Definition side_from_index (i : nat) : res side :=
  match i with 0 => Ok Xmin | 1 => Ok Xmax | 2 => Ok Ymin | 3 => Ok Ymax | _ => Panic end.

Section Bcs.
Variable F : Type.       (** boundary functions: T -> T in 1D, T -> T -> T in 2D *)
Variable fzero : F.      (** the function `|_| 0.0` *)

(** essential_bcs_1d.rs:29-52 `struct EssentialBcs1d` *)
Record ebc1 := mkE1 { e1_px : bool; e1_fun : list F; e1_sides : list bool }.
(** natural_bcs_1d.rs:58-76, natural_bcs_2d.rs:61-79 *)
Record nbc := mkN { n_fun : list F; n_sides : list bool }.

(** essential_bcs_1d.rs:72-81 *)
Definition ebc1_new : ebc1 := mkE1 false [fzero; fzero] [false; false].
(** essential_bcs_1d.rs:105-111 *)
Definition ebc1_set_periodic (e : ebc1) (along_x : bool) : res ebc1 :=
  if along_x then
    s <- vset (e1_sides e) 0 false ;; s <- vset s 1 false ;; Ok (mkE1 along_x (e1_fun e) s)
  else Ok (mkE1 along_x (e1_fun e) (e1_sides e)).
(** essential_bcs_1d.rs:148-153 *)
Definition ebc1_set (e : ebc1) (s : side) (f : F) : res ebc1 :=
  fs <- vset (e1_fun e) (side_index s) f ;;
  ss <- vset (e1_sides e) (side_index s) true ;;
  Ok (mkE1 false fs ss).
(** essential_bcs_1d.rs:174-182 *)
Definition ebc1_set_homogeneous (e : ebc1) : res ebc1 :=
  s <- vset (e1_sides e) 0 true ;; s <- vset s 1 true ;; Ok (mkE1 false [fzero; fzero] s).

(** natural_bcs_1d.rs:95-103, natural_bcs_2d.rs:98-108 *)
Definition nbc1_new : nbc := mkN [fzero; fzero] [false; false].
Definition nbc2_new : nbc := mkN [fzero; fzero; fzero; fzero] [false; false; false; false].
(** natural_bcs_1d.rs:177-181, natural_bcs_2d.rs:199-203 `set` *)
Definition nbc_set (e : nbc) (s : side) (f : F) : res nbc :=
  fs <- vset (n_fun e) (side_index s) f ;;
  ss <- vset (n_sides e) (side_index s) true ;;
  Ok (mkN fs ss).

(** essential_bcs_1d.rs:222-242 `validate` *)
Definition ebc1_validate (e : ebc1) (n : nbc) : res unit :=
  e0 <- vget (e1_sides e) 0 ;; e1 <- vget (e1_sides e) 1 ;;
  n0 <- vget (n_sides n) 0 ;; n1 <- vget (n_sides n) 1 ;;
  if e0 && n0 then Err "Xmin side must not have both EBC and NBC"
  else if e1 && n1 then Err "Xmax side must not have both EBC and NBC"
  else if e1_px e then
    if n0 || n1 then Err "Periodic X does not allow NBC on Xmin or Xmax" else Ok tt
  else if negb e0 && negb n0 then Err "Xmin side is missing either EBC or NBC"
  else if negb e1 && negb n1 then Err "Xmax side is missing either EBC or NBC"
  else Ok tt.

(** essential_bcs_1d.rs:255-264 `get_nodes` *)
Definition ebc1_get_nodes (e : ebc1) (nx : nat) : res (list nat) :=
  for_range 0 2 (fun s nodes =>
    b <- vget (e1_sides e) s ;;
    if b then Ok (nodes ++ [if s =? 0 then 0 else nx - 1]) else Ok nodes) [].

(** natural_bcs_1d.rs:203-214 `enabled_m` *)
Definition nbc1_enabled (n : nbc) (m nx : nat) : res bool :=
  if m =? 0 then vget (n_sides n) 0
  else if m =? nx - 1 then vget (n_sides n) 1
  else Ok false.

(** essential_bcs_2d.rs:34-64 `struct EssentialBcs2d` *)
Record ebc2 := mkE2 { e2_px : bool; e2_py : bool; e2_fun : list F; e2_sides : list bool }.
(** essential_bcs_2d.rs:84-96 *)
Definition ebc2_new : ebc2 :=
  mkE2 false false [fzero; fzero; fzero; fzero] [false; false; false; false].
(** essential_bcs_2d.rs:127-138 *)
Definition ebc2_set_periodic (e : ebc2) (ax ay : bool) : res ebc2 :=
  s <- (if ax then s <- vset (e2_sides e) 0 false ;; vset s 1 false else Ok (e2_sides e)) ;;
  s <- (if ay then s <- vset s 2 false ;; vset s 3 false else Ok s) ;;
  Ok (mkE2 ax ay (e2_fun e) s).
(** essential_bcs_2d.rs:175-183 *)
Definition ebc2_set (e : ebc2) (s : side) (f : F) : res ebc2 :=
  let px := match s with Xmin | Xmax => false | _ => e2_px e end in
  let py := match s with Ymin | Ymax => false | _ => e2_py e end in
  fs <- vset (e2_fun e) (side_index s) f ;;
  ss <- vset (e2_sides e) (side_index s) true ;;
  Ok (mkE2 px py fs ss).
(** essential_bcs_2d.rs:215-228 *)
Definition ebc2_set_homogeneous (e : ebc2) : res ebc2 :=
  s <- vset (e2_sides e) 0 true ;; s <- vset s 1 true ;; s <- vset s 2 true ;; s <- vset s 3 true ;;
  Ok (mkE2 false false [fzero; fzero; fzero; fzero] s).

(** essential_bcs_2d.rs:271-309 `validate` *)
Definition ebc2_validate (e : ebc2) (n : nbc) : res unit :=
  e0 <- vget (e2_sides e) 0 ;; e1 <- vget (e2_sides e) 1 ;;
  e2 <- vget (e2_sides e) 2 ;; e3 <- vget (e2_sides e) 3 ;;
  n0 <- vget (n_sides n) 0 ;; n1 <- vget (n_sides n) 1 ;;
  n2 <- vget (n_sides n) 2 ;; n3 <- vget (n_sides n) 3 ;;
  if e0 && n0 then Err "Xmin side must not have both EBC and NBC"
  else if e1 && n1 then Err "Xmax side must not have both EBC and NBC"
  else if e2 && n2 then Err "Ymin side must not have both EBC and NBC"
  else if e3 && n3 then Err "Ymax side must not have both EBC and NBC"
  else
    _ <- (if e2_px e then
            if n0 || n1 then Err "Periodic X does not allow NBC on Xmin or Xmax" else Ok tt
          else if negb e0 && negb n0 then Err "Xmin side is missing either EBC or NBC"
          else if negb e1 && negb n1 then Err "Xmax side is missing either EBC or NBC"
          else Ok tt) ;;
    if e2_py e then
      if n2 || n3 then Err "Periodic Y does not allow NBC on Ymin or Ymax" else Ok tt
    else if negb e2 && negb n2 then Err "Ymin side is missing either EBC or NBC"
    else if negb e3 && negb n3 then Err "Ymax side is missing either EBC or NBC"
    else Ok tt.

(** essential_bcs_2d.rs:324-337 `get_nodes`; [on_side] is `grid.get_nodes_on_side` *)
Definition ebc2_get_nodes (e : ebc2) (on_side : side -> list nat) : res (list nat) :=
  for_range 0 4 (fun index nodes =>
    b <- vget (e2_sides e) index ;;
    if b then
      s <- side_from_index index ;;
      for_each (on_side s) (fun m nodes =>
        if existsb (Nat.eqb m) nodes then Ok nodes else Ok (nodes ++ [m])) nodes
    else Ok nodes) [].

(** natural_bcs_2d.rs:226-251 `enabled_ij`, including the four branches that follow the
    edge tests *)
Definition nbc2_enabled (n : nbc) (i j nx ny : nat) : res bool :=
  s0 <- vget (n_sides n) 0 ;; s1 <- vget (n_sides n) 1 ;;
  s2 <- vget (n_sides n) 2 ;; s3 <- vget (n_sides n) 3 ;;
  Ok (if i =? 0 then s0
      else if i =? nx - 1 then s1
      else if j =? 0 then s2
      else if j =? ny - 1 then s3
      else if (i =? 0) && (j =? 0) then s0 || s2
      else if (i =? 0) && (j =? ny - 1) then s0 || s3
      else if (i =? nx - 1) && (j =? 0) then s1 || s2
      else if (i =? nx - 1) && (j =? ny - 1) then s1 || s3
      else false).

End Bcs.
