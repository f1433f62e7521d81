(** Model of russell_pde/src/grid_1d.rs and grid_2d.rs. *)
From Verif Require Import Base.

(** russell_pde `enum Side` *)
Inductive side := Xmin | Xmax | Ymin | Ymax.

Section Grid.
Variable T : Type.
Variables (add sub mul div : T -> T -> T) (of_nat : nat -> T).
Variable le : T -> T -> bool.  (** `<=` *)

(** grid_1d.rs:56-82 `struct Grid1d` *)
Record grid1 := mkG1 { g1_nx : nat; g1_coords : list T; g1_xmin : list nat; g1_xmax : list nat }.

(** grid_1d.rs:127-131 (= grid_2d.rs:236-240): error if xx[i] <= xx[i-1] for some i *)
Definition check_increasing (xx : list T) (msg : string) : res unit :=
  for_range 1 (length xx) (fun i _ =>
    a <- vget xx i ;; b <- vget xx (i - 1) ;;
    if le a b then Err msg else Ok tt) tt.

(** grid_1d.rs:122-138 `new` *)
Definition grid1_new (xx : list T) : res grid1 :=
  let nx := length xx in
  if nx <? 2 then Err "nx must be >= 2"
  else
    _ <- check_increasing xx "xx must be strictly increasing" ;;
    Ok (mkG1 nx xx [0] [nx - 1]).

(** grid_1d.rs:182-201 `new_uniform` *)
Definition grid1_new_uniform (xmin xmax : T) (nx : nat) : res grid1 :=
  if nx <? 2 then Err "nx must be >= 2"
  else if le xmax xmin then Err "xmax must be > xmin"
  else
    let dx := div (sub xmax xmin) (of_nat (nx - 1)) in
    Ok (mkG1 nx (map (fun i => add xmin (mul (of_nat i) dx)) (seq 0 nx)) [0] [nx - 1]).

(** grid_1d.rs:274-276, 287-289, 302-304 *)
Definition grid1_is_xmin (g : grid1) (m : nat) : bool := m =? 0.
Definition grid1_is_xmax (g : grid1) (m : nat) : bool := m =? g1_nx g - 1.
Definition grid1_on_boundary (g : grid1) (m : nat) : bool := (m =? 0) || (m =? g1_nx g - 1).

(** grid_1d.rs:324-330 `get_nodes_on_side` *)
Definition grid1_nodes (g : grid1) (s : side) : res (list nat) :=
  match s with Xmin => Ok (g1_xmin g) | Xmax => Ok (g1_xmax g) | _ => Panic end.

(** grid_1d.rs:405-407 `coord` *)
Definition grid1_coord (g : grid1) (m : nat) : res T := vget (g1_coords g) m.

(** grid_2d.rs:88-144 `struct Grid2d` *)
Record grid2 := mkG2 {
  g2_bounds : T * T * T * T;
  g2_nx : nat; g2_ny : nat; g2_npoint : nat;
  g2_coords : list (T * T);
  g2_xmin : list nat; g2_xmax : list nat; g2_ymin : list nat; g2_ymax : list nat;
  g2_cgl : bool }.

(** grid_2d.rs:148-173 `do_allocate` *)
Definition grid2_alloc (b : T * T * T * T) (nx ny : nat) (coords : list (T * T)) (cgl : bool) : grid2 :=
  mkG2 b nx ny (nx * ny) coords
    (map (fun j => j * nx) (seq 0 ny))
    (map (fun j => j * nx + (nx - 1)) (seq 0 ny))
    (seq 0 nx)
    (map (fun i => (ny - 1) * nx + i) (seq 0 nx))
    cgl.

(** grid_2d.rs:222-250 `new` *)
Definition grid2_new (xx yy : list T) : res grid2 :=
  let nx := length xx in
  let ny := length yy in
  if nx <? 2 then Err "nx must be >= 2"
  else if ny <? 2 then Err "ny must be >= 2"
  else
    xmin <- vget xx 0 ;; xmax <- vget xx (nx - 1) ;;
    ymin <- vget yy 0 ;; ymax <- vget yy (ny - 1) ;;
    _ <- check_increasing xx "xx must be strictly increasing" ;;
    coords <- for_range 0 ny (fun j coords =>
      y <- vget yy j ;;
      _ <- (if 0 <? j then yl <- vget yy (j - 1) ;; if le y yl then Err "yy must be strictly increasing" else Ok tt
            else Ok tt) ;;
      for_range 0 nx (fun i coords => x <- vget xx i ;; Ok (coords ++ [(x, y)])) coords) [] ;;
    Ok (grid2_alloc (xmin, xmax, ymin, ymax) nx ny coords false).

(** grid_2d.rs:310-334 `new_uniform` *)
Definition grid2_new_uniform (xmin xmax ymin ymax : T) (nx ny : nat) : res grid2 :=
  if nx <? 2 then Err "nx must be >= 2"
  else if ny <? 2 then Err "ny must be >= 2"
  else if le xmax xmin then Err "xmax must be > xmin"
  else if le ymax ymin then Err "ymax must be > ymin"
  else
    let dx := div (sub xmax xmin) (of_nat (nx - 1)) in
    let dy := div (sub ymax ymin) (of_nat (ny - 1)) in
    coords <- for_range 0 ny (fun j coords =>
      let y := add ymin (mul (of_nat j) dy) in
      for_range 0 nx (fun i coords => Ok (coords ++ [(add xmin (mul (of_nat i) dx), y)])) coords) [] ;;
    Ok (grid2_alloc (xmin, xmax, ymin, ymax) nx ny coords false).

(** grid_2d.rs:477-479 `get_m`, 501-505 `get_ij` *)
Definition grid2_get_m (g : grid2) (i j : nat) : nat := i + j * g2_nx g.
Definition grid2_get_ij (g : grid2) (m : nat) : nat * nat := (m mod g2_nx g, m / g2_nx g).

(** grid_2d.rs:516-518, 529-531, 542-544, 555-557, 573-577 *)
Definition grid2_is_xmin (g : grid2) (m : nat) : bool := m mod g2_nx g =? 0.
Definition grid2_is_xmax (g : grid2) (m : nat) : bool := m mod g2_nx g =? g2_nx g - 1.
Definition grid2_is_ymin (g : grid2) (m : nat) : bool := m / g2_nx g =? 0.
Definition grid2_is_ymax (g : grid2) (m : nat) : bool := m / g2_nx g =? g2_ny g - 1.
Definition grid2_on_boundary (g : grid2) (m : nat) : bool :=
  let i := m mod g2_nx g in
  let j := m / g2_nx g in
  (i =? 0) || (i =? g2_nx g - 1) || (j =? 0) || (j =? g2_ny g - 1).

(** grid_2d.rs:596-603 `get_nodes_on_side` *)
Definition grid2_nodes (g : grid2) (s : side) : list nat :=
  match s with Xmin => g2_xmin g | Xmax => g2_xmax g | Ymin => g2_ymin g | Ymax => g2_ymax g end.

(** grid_2d.rs:636-644 `is_corner` *)
Definition grid2_is_corner (g : grid2) (m : nat) : bool :=
  if (m =? 0) || (m =? g2_npoint g - 1) then true
  else
    let i := m mod g2_nx g in
    let j := m / g2_nx g in
    ((i =? 0) && (j =? g2_ny g - 1)) || ((i =? g2_nx g - 1) && (j =? 0)).

(** grid_2d.rs:720-722 `coord` *)
Definition grid2_coord (g : grid2) (m : nat) : res (T * T) := vget (g2_coords g) m.

End Grid.
