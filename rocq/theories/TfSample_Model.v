(** Model of russell_pde/src/transfinite_samples.rs: the boundary curves and
    surfaces of the sample maps and their derivatives, given to the constructors of
    Transfinite_Model.v. `f64` is read as a real number. The mutex around the 2D map
    of quarter_ring_3d only serves the scratch buffers and is left out. *)
From Coq Require Import Reals List.
From Verif Require Import Base RBase Transfinite_Model.
Import ListNotations.
Open Scope R_scope.

(** the components a closure writes *)
Definition c2 (a b : R) (i : nat) : R := nth i [a; b] 0.
Definition c3 (a b c : R) (i : nat) : R := nth i [a; b; c] 0.
Definition curve (x0 x1 : R -> R) : fun1 := fun i u => c2 (x0 u) (x1 u) i.
Definition surface (x0 x1 x2 : R -> R -> R) : fun2 := fun i u v => c3 (x0 u v) (x1 u v) (x2 u v) i.

(** transfinite_samples.rs:24-82; the input slices have at least two entries *)
Definition quadrilateral_2d (xa xb xc xd : R * R) : res tf2 :=
  let '(xa_0, xa_1) := xa in let '(xb_0, xb_1) := xb in let '(xc_0, xc_1) := xc in let '(xd_0, xd_1) := xd in
  let scale0_0 := (xd_0 - xa_0) / 2 in let scale0_1 := (xd_1 - xa_1) / 2 in
  let scale1_0 := (xc_0 - xb_0) / 2 in let scale1_1 := (xc_1 - xb_1) / 2 in
  let scale2_0 := (xb_0 - xa_0) / 2 in let scale2_1 := (xb_1 - xa_1) / 2 in
  let scale3_0 := (xc_0 - xd_0) / 2 in let scale3_1 := (xc_1 - xd_1) / 2 in
  unwrap (tf2_new
    [curve (fun s => xa_0 + (1 + s) * scale0_0) (fun s => xa_1 + (1 + s) * scale0_1);
     curve (fun s => xb_0 + (1 + s) * scale1_0) (fun s => xb_1 + (1 + s) * scale1_1);
     curve (fun r => xa_0 + (1 + r) * scale2_0) (fun r => xa_1 + (1 + r) * scale2_1);
     curve (fun r => xd_0 + (1 + r) * scale3_0) (fun r => xd_1 + (1 + r) * scale3_1)]
    [curve (fun _ => scale0_0) (fun _ => scale0_1);
     curve (fun _ => scale1_0) (fun _ => scale1_1);
     curve (fun _ => scale2_0) (fun _ => scale2_1);
     curve (fun _ => scale3_0) (fun _ => scale3_1)]
    None).

(** transfinite_samples.rs:128-210 *)
Definition quarter_ring_2d (a b : R) : res tf2 :=
  let theta s := PI * (1 + s) / 4 in
  unwrap (tf2_new
    [curve (fun s => a * cos (theta s)) (fun s => a * sin (theta s));
     curve (fun s => b * cos (theta s)) (fun s => b * sin (theta s));
     curve (fun r => a + 0.5 * (1 + r) * (b - a)) (fun r => 0);
     curve (fun r => 0) (fun r => a + 0.5 * (1 + r) * (b - a))]
    [curve (fun s => - a * sin (theta s) * PI / 4) (fun s => a * cos (theta s) * PI / 4);
     curve (fun s => - b * sin (theta s) * PI / 4) (fun s => b * cos (theta s) * PI / 4);
     curve (fun _ => 0.5 * (b - a)) (fun _ => 0);
     curve (fun _ => 0) (fun _ => 0.5 * (b - a))]
    (Some
    [curve (fun s => - a * cos (theta s) * PI * PI / 16) (fun s => - a * sin (theta s) * PI * PI / 16);
     curve (fun s => - b * cos (theta s) * PI * PI / 16) (fun s => - b * sin (theta s) * PI * PI / 16);
     curve (fun _ => 0) (fun _ => 0);
     curve (fun _ => 0) (fun _ => 0)])).

(** transfinite_samples.rs:257-339 *)
Definition half_ring_2d (a b : R) : res tf2 :=
  let theta s := PI * (s + 1) / 2 in
  unwrap (tf2_new
    [curve (fun s => a * cos (theta s)) (fun s => a * sin (theta s));
     curve (fun s => b * cos (theta s)) (fun s => b * sin (theta s));
     curve (fun r => a + (b - a) * (r + 1) / 2) (fun r => 0);
     curve (fun r => - a - (b - a) * (r + 1) / 2) (fun r => 0)]
    [curve (fun s => - a * sin (theta s) * PI / 2) (fun s => a * cos (theta s) * PI / 2);
     curve (fun s => - b * sin (theta s) * PI / 2) (fun s => b * cos (theta s) * PI / 2);
     curve (fun _ => (b - a) / 2) (fun _ => 0);
     curve (fun _ => - (b - a) / 2) (fun _ => 0)]
    (Some
    [curve (fun s => - a * cos (theta s) * PI * PI / 4) (fun s => - a * sin (theta s) * PI * PI / 4);
     curve (fun s => - b * cos (theta s) * PI * PI / 4) (fun s => - b * sin (theta s) * PI * PI / 4);
     curve (fun _ => 0) (fun _ => 0);
     curve (fun _ => 0) (fun _ => 0)])).

(** transfinite_samples.rs:346-425 *)
Definition quarter_perforated_lozenge_2d (a b : R) : res tf2 :=
  let theta s := PI * (1 + s) / 4 in
  unwrap (tf2_new
    [curve (fun s => a * cos (theta s)) (fun s => a * sin (theta s));
     curve (fun s => b * 0.5 * (1 - s)) (fun s => b * 0.5 * (1 + s));
     curve (fun r => a + 0.5 * (1 + r) * (b - a)) (fun r => 0);
     curve (fun r => 0) (fun r => a + 0.5 * (1 + r) * (b - a))]
    [curve (fun s => - a * sin (theta s) * PI / 4) (fun s => a * cos (theta s) * PI / 4);
     curve (fun _ => - b * 0.5) (fun _ => b * 0.5);
     curve (fun _ => 0.5 * (b - a)) (fun _ => 0);
     curve (fun _ => 0) (fun _ => 0.5 * (b - a))]
    (Some
    [curve (fun s => - a * cos (theta s) * PI * PI / 16) (fun s => - a * sin (theta s) * PI * PI / 16);
     curve (fun _ => 0) (fun _ => 0);
     curve (fun _ => 0) (fun _ => 0);
     curve (fun _ => 0) (fun _ => 0)])).

(** a surface that does not depend on the parameters *)
Definition flat (x0 x1 x2 : R) : fun2 := surface (fun _ _ => x0) (fun _ _ => x1) (fun _ _ => x2).

(** transfinite_samples.rs:428-526 *)
Definition brick_3d (lx ly lz : R) : res tf3 :=
  unwrap (tf3_new
    [surface (fun s t => 0) (fun s t => (1 + s) * ly / 2) (fun s t => (1 + t) * lz / 2);
     surface (fun s t => lx) (fun s t => (1 + s) * ly / 2) (fun s t => (1 + t) * lz / 2);
     surface (fun r t => (1 + r) * lx / 2) (fun r t => 0) (fun r t => (1 + t) * lz / 2);
     surface (fun r t => (1 + r) * lx / 2) (fun r t => ly) (fun r t => (1 + t) * lz / 2);
     surface (fun r s => (1 + r) * lx / 2) (fun r s => (1 + s) * ly / 2) (fun r s => 0);
     surface (fun r s => (1 + r) * lx / 2) (fun r s => (1 + s) * ly / 2) (fun r s => lz)]
    [(flat 0 (ly / 2) 0, flat 0 0 (lz / 2));
     (flat 0 (ly / 2) 0, flat 0 0 (lz / 2));
     (flat (lx / 2) 0 0, flat 0 0 (lz / 2));
     (flat (lx / 2) 0 0, flat 0 0 (lz / 2));
     (flat (lx / 2) 0 0, flat 0 (ly / 2) 0);
     (flat (lx / 2) 0 0, flat 0 (ly / 2) 0)]
    None).

(** transfinite_samples.rs:533-787 *)
Definition quarter_ring_3d (a b h : R) : res tf3 :=
  surf <- quarter_ring_2d a b ;;
  let theta t := (1 + t) * PI / 4 in
  let pt s t := tf2_point surf s t in
  let d1 s t := tf2_point_and_derivs surf false s t in
  let dr s t := snd (fst (fst (d1 s t))) in
  let ds s t := snd (fst (d1 s t)) in
  let d2 s t := match snd (tf2_point_and_derivs surf true s t) with Some d => d | None => ((0, 0), (0, 0), (0, 0)) end in
  let rr s t := fst (fst (d2 s t)) in
  let ss s t := snd (fst (d2 s t)) in
  let rs s t := snd (d2 s t) in
  let on_face (p : R -> R -> R * R) (x0 : R) := surface (fun s t => x0) (fun s t => fst (p s t)) (fun s t => snd (p s t)) in
  unwrap (tf3_new
    [on_face pt 0;
     on_face pt h;
     surface (fun r t => (1 + r) * h / 2) (fun r t => a * cos (theta t)) (fun r t => a * sin (theta t));
     surface (fun r t => (1 + r) * h / 2) (fun r t => b * cos (theta t)) (fun r t => b * sin (theta t));
     surface (fun r s => (1 + r) * h / 2) (fun r s => a + (1 + s) * (b - a) / 2) (fun r s => 0);
     surface (fun r s => (1 + r) * h / 2) (fun r s => 0) (fun r s => a + (1 + s) * (b - a) / 2)]
    [(on_face dr 0, on_face ds 0);
     (on_face dr 0, on_face ds 0);
     (flat (h / 2) 0 0, surface (fun r t => 0) (fun r t => - a * sin (theta t) * PI / 4) (fun r t => a * cos (theta t) * PI / 4));
     (flat (h / 2) 0 0, surface (fun r t => 0) (fun r t => - b * sin (theta t) * PI / 4) (fun r t => b * cos (theta t) * PI / 4));
     (flat (h / 2) 0 0, flat 0 ((b - a) / 2) 0);
     (flat (h / 2) 0 0, flat 0 0 ((b - a) / 2))]
    (Some
    [(on_face rr 0, on_face ss 0, on_face rs 0);
     (on_face rr 0, on_face ss 0, on_face rs 0);
     (flat 0 0 0, surface (fun r t => 0) (fun r t => - a * cos (theta t) * PI * PI / 16) (fun r t => - a * sin (theta t) * PI * PI / 16), flat 0 0 0);
     (flat 0 0 0, surface (fun r t => 0) (fun r t => - b * cos (theta t) * PI * PI / 16) (fun r t => - b * sin (theta t) * PI * PI / 16), flat 0 0 0);
     (flat 0 0 0, flat 0 0 0, flat 0 0 0);
     (flat 0 0 0, flat 0 0 0, flat 0 0 0)])).
