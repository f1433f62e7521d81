(** Model of russell_pde/src/fdm_1d.rs and fdm_2d.rs. *)
From Verif Require Import Base Dense_Model Sparse_Model Eqs_Model Grid_Model Bcs_Model.

Section Fdm.
Variable T : Type.
Variables zero one two half tol : T.     (** 0.0, 1.0, 2.0, 0.5, 10.0*f64::EPSILON *)
Variables add sub mul div : T -> T -> T.
Variables opp abs : T -> T.
Variable lt : T -> T -> bool.            (** [lt a b] is `b > a` *)

(** `x.put(i, j, v).unwrap()` *)
Definition put_unwrap (a : coo T) (i j : nat) (x : T) : res (coo T) :=
  match coo_put a i j x with (a', Ok _) => Ok a' | _ => Panic end.

(** grid_1d.rs:360-373 `get_dx`; the start value NEG_INFINITY is [None] *)
Definition grid1_get_dx (g : grid1 T) : res (option T) :=
  r <- for_range 1 (g1_nx T g) (fun i st =>
    match st with
    | None => Ok None                         (* already returned None *)
    | Some dx =>
      x <- vget (g1_coords T g) i ;; xl <- vget (g1_coords T g) (i - 1) ;;
      match dx with
      | None => let dx := sub x xl in if lt zero dx then Ok (Some (Some dx)) else Panic
      | Some d => if lt tol (abs (sub (sub x xl) d)) then Ok None else Ok (Some (Some d))
      end
    end) (Some None) ;;
  match r with
  | None => Ok None
  | Some None => Panic                        (* NEG_INFINITY is returned; nx >= 2 excludes it *)
  | Some (Some d) => Ok (Some d)
  end.

(** grid_2d.rs:659-685 `get_dx_dy` *)
Definition dx_step (diff : T) (dx : option T) : res (option (option T)) :=
  match dx with
  | None => if lt zero diff then Ok (Some (Some diff)) else Panic
  | Some d => if lt tol (abs (sub diff d)) then Ok None else Ok (Some (Some d))
  end.
Definition grid2_get_dx_dy (g : grid2 T) : res (option (T * T)) :=
  r <- for_range 1 (g2_ny T g) (fun j st =>
    for_range 1 (g2_nx T g) (fun i st =>
      match st with
      | None => Ok None
      | Some (dx, dy) =>
        let m := i + j * g2_nx T g in
        '(x, y) <- vget (g2_coords T g) m ;;
        '(xl, _) <- vget (g2_coords T g) (m - 1) ;;
        '(_, yb) <- vget (g2_coords T g) (m - g2_nx T g) ;;
        rx <- dx_step (sub x xl) dx ;;
        match rx with
        | None => Ok None
        | Some dx =>
          ry <- dx_step (sub y yb) dy ;;
          match ry with None => Ok None | Some dy => Ok (Some (dx, dy)) end
        end
      end) st) (Some (None, None)) ;;
  match r with
  | None => Ok None
  | Some (Some dx, Some dy) => Ok (Some (dx, dy))
  | Some _ => Panic                           (* excluded by nx, ny >= 2 *)
  end.

(** ** assembly, shared by both dimensions

    The two files contain the same text except for the number of molecule points,
    the capacities and the weights, which are parameters here:
    [nbrs m] are the nodes `nn[b]`, b = 0, 1, ... of `loop_over_bandwidth(m, ...)`,
    [val m b n] the value computed in the callback. *)
Section Asm.
Variables (tri_band full_band chk_band : nat).
Variable nbrs : nat -> list nat.
Variable val : nat -> nat -> nat -> res T.
Variable h : eqs.

Definition indexed (l : list nat) : list (nat * nat) := combine (seq 0 (length l)) l.

(** the symmetric storage skips the other triangle: fdm_1d.rs:565, 622; fdm_2d.rs:636, 688 *)
Definition skip (s : sym) (m n : nat) : bool :=
  (sym_eqb s SymYesLower && (m <? n)) || (sym_eqb s SymYesUpper && (n <? m)).

(** fdm_1d.rs:538-578, fdm_2d.rs:603-649 `get_matrices_sps` *)
Definition asm_sps (extra_nnz : nat) (s : sym) : res (coo T * option (coo T)) :=
  let nu := eqs_nu h in
  let np := eqs_np h in
  let band := if triangular s then tri_band else full_band in
  kk_bar <- unwrap (coo_new T zero nu nu (band * nu + extra_nnz) s) ;;
  kk_check <- unwrap (if np =? 0 then coo_new T zero 1 1 1 SymNo
                      else coo_new T zero nu np (chk_band * np) SymNo) ;;
  '(kk_bar, kk_check) <- for_each (eq_u_sorted h) (fun m st =>
    iu <- eqs_iu h m ;;
    for_each (indexed (nbrs m)) (fun '(b, n) '(kk_bar, kk_check) =>
      v <- val m b n ;;
      p <- eqs_is_prescribed h n ;;
      if p : bool then
        jp <- eqs_ip h n ;;
        kk_check <- put_unwrap kk_check iu jp v ;; Ok (kk_bar, kk_check)
      else if skip s m n then Ok (kk_bar, kk_check)
      else
        ju <- eqs_iu h n ;;
        kk_bar <- put_unwrap kk_bar iu ju v ;; Ok (kk_bar, kk_check)) st) (kk_bar, kk_check) ;;
  if np =? 0 then Ok (kk_bar, None) else Ok (kk_bar, Some kk_check).

(** fdm_1d.rs:608-664, fdm_2d.rs:672-734 `get_matrices_lmm` *)
Definition asm_lmm (extra_nnz : nat) (get_cc : bool) (s : sym) : res (coo T * option (coo T)) :=
  let neq := eq_neq h in
  let nlag := eqs_np h in
  let ndim := neq + nlag in
  let band := if triangular s then tri_band else full_band in
  mm <- unwrap (coo_new T zero ndim ndim (band * neq + 2 * nlag + extra_nnz) s) ;;
  mm <- for_range 0 neq (fun m mm =>
    for_each (indexed (nbrs m)) (fun '(b, n) mm =>
      if skip s m n then Ok mm
      else v <- val m b n ;; put_unwrap mm m n v) mm) mm ;;
  mm <- for_each (eq_p_sorted h) (fun m mm =>
    ip <- eqs_ip h m ;;
    match s with
    | SymYesLower => put_unwrap mm (neq + ip) m one
    | SymYesUpper => put_unwrap mm m (neq + ip) one
    | _ => mm <- put_unwrap mm (neq + ip) m one ;; put_unwrap mm m (neq + ip) one
    end) mm ;;
  if get_cc && (0 <? nlag) then
    cc <- unwrap (coo_new T zero nlag neq nlag SymNo) ;;
    cc <- for_each (eq_p_sorted h) (fun m cc => ip <- eqs_ip h m ;; put_unwrap cc ip m one) cc ;;
    Ok (mm, Some cc)
  else Ok (mm, None).

End Asm.

(** fdm_1d.rs:730-742, fdm_2d.rs:813-825 `get_joined_vector_sps` *)
Definition joined_sps (h : eqs) (a_bar a_check : list T) : res (list T) :=
  a <- for_each (eq_u_sorted h) (fun m a => iu <- eqs_iu h m ;; v <- vget a_bar iu ;; vset a m v)
         (repeat zero (eq_neq h)) ;;
  for_each (eq_p_sorted h) (fun m a => ip <- eqs_ip h m ;; v <- vget a_check ip ;; vset a m v) a.

(** `f[i] += x` *)
Definition vadd (f : list T) (i : nat) (x : T) : res (list T) := o <- vget f i ;; vset f i (add o x).

(** ** 1D *)

(** fdm_1d.rs:207-252 `struct Fdm1d` (solver options omitted) *)
Record fdm1 := mkF1 {
  f1_grid : grid1 T; f1_e : ebc1 (T -> T); f1_n : nbc (T -> T);
  f1_eqs : eqs; f1_mol : list T; f1_dx : T }.

(** fdm_1d.rs:275-305 `new` *)
Definition fdm1_new (grid : grid1 T) (e : ebc1 (T -> T)) (n : nbc (T -> T)) (kx : T) : res fdm1 :=
  o <- grid1_get_dx grid ;;
  match o with
  | None => Err "grid must have uniform spacing"
  | Some dx =>
    nodes <- ebc1_get_nodes (T -> T) e (g1_nx T grid) ;;
    h <- eqs_recompute (eqs_new (g1_nx T grid)) nodes ;;
    let dx2 := mul dx dx in
    let alpha := div (mul two kx) dx2 in
    let beta := div (opp kx) dx2 in
    Ok (mkF1 grid e n h [alpha; beta; beta] dx)
  end.

(** fdm_1d.rs:838-861 `loop_over_bandwidth`: the array nn. The subtractions cannot underflow
    because nx >= 2 in every grid. *)
Definition nbrs1 (px : bool) (nx m : nat) : list nat :=
  let fin_x := nx - 1 in
  if px then [m; if negb (m =? 0) then m - 1 else m + fin_x; if negb (m =? fin_x) then m + 1 else m - fin_x]
  else [m; if negb (m =? 0) then m - 1 else m + 1; if negb (m =? fin_x) then m + 1 else m - 1].

(** fdm_1d.rs:554-560, 625-631 *)
Definition val1 (mol : list T) (alpha : T) (px : bool) (nx m b n : nat) : res T :=
  v <- vget mol b ;;
  let v := if m =? n then add v alpha else v in
  Ok (if negb px && ((m =? 0) || (m =? nx - 1)) then div v two else v).

Definition fdm1_get_matrices_sps (f : fdm1) (alpha : T) (extra_nnz : nat) (s : sym) :=
  let px := e1_px _ (f1_e f) in
  let nx := g1_nx T (f1_grid f) in
  asm_sps 2 3 2 (nbrs1 px nx) (val1 (f1_mol f) alpha px nx) (f1_eqs f) extra_nnz s.
Definition fdm1_get_matrices_lmm (f : fdm1) (alpha : T) (extra_nnz : nat) (get_cc : bool) (s : sym) :=
  let px := e1_px _ (f1_e f) in
  let nx := g1_nx T (f1_grid f) in
  asm_lmm 2 3 (nbrs1 px nx) (val1 (f1_mol f) alpha px nx) (f1_eqs f) extra_nnz get_cc s.

(** fdm_1d.rs:691-704 (= 766-778): the contributions to the right-hand side at node [m], stored at [k] *)
Definition fdm1_rhs (f : fdm1) (source : T -> T) (m k : nat) (ff : list T) : res (list T) :=
  x <- grid1_coord T (f1_grid f) m ;;
  '(ff, den) <-
    (if negb (e1_px _ (f1_e f)) then
       if grid1_is_xmin T (f1_grid f) m then
         w <- vget (n_fun _ (f1_n f)) 0 ;;
         ff <- vadd ff k (div (opp (w x)) (f1_dx f)) ;; Ok (ff, mul one two)
       else if grid1_is_xmax T (f1_grid f) m then
         w <- vget (n_fun _ (f1_n f)) 1 ;;
         ff <- vadd ff k (div (opp (w x)) (f1_dx f)) ;; Ok (ff, mul one two)
       else Ok (ff, one)
     else Ok (ff, one)) ;;
  vadd ff k (div (source x) den).

(** fdm_1d.rs:706-714 (= 780-788): prescribed values, stored at [off + ip] *)
Definition fdm1_presc (f : fdm1) (off : nat) (a : list T) : res (list T) :=
  for_range 0 2 (fun index a =>
    b <- vget (e1_sides _ (f1_e f)) index ;;
    if b : bool then
      let m := if index =? 0 then 0 else g1_nx T (f1_grid f) - 1 in
      ip <- eqs_ip (f1_eqs f) m ;;
      x <- grid1_coord T (f1_grid f) m ;;
      u <- vget (e1_fun _ (f1_e f)) index ;;
      vset a (off + ip) (u x)
    else Ok a) a.

(** fdm_1d.rs:680-716 `get_vectors_sps`: (a_bar, a_check, f_bar) *)
Definition fdm1_get_vectors_sps (f : fdm1) (source : T -> T) : res (list T * list T * list T) :=
  let nu := eqs_nu (f1_eqs f) in
  let np := eqs_np (f1_eqs f) in
  f_bar <- for_each (eq_u_sorted (f1_eqs f)) (fun m fb =>
    iu <- eqs_iu (f1_eqs f) m ;; fdm1_rhs f source m iu fb) (repeat zero nu) ;;
  a_check <- fdm1_presc f 0 (repeat zero np) ;;
  Ok (repeat zero nu, a_check, f_bar).

(** fdm_1d.rs:758-790 `get_vectors_lmm`: (aa, ff) *)
Definition fdm1_get_vectors_lmm (f : fdm1) (source : T -> T) : res (list T * list T) :=
  let neq := eq_neq (f1_eqs f) in
  let ndim := neq + eqs_np (f1_eqs f) in
  ff <- for_range 0 (g1_nx T (f1_grid f)) (fun m ff => fdm1_rhs f source m m ff) (repeat zero ndim) ;;
  ff <- fdm1_presc f neq ff ;;
  Ok (repeat zero ndim, ff).

(** ** 2D *)

(** fdm_2d.rs:279-331 `struct Fdm2d` (solver options omitted) *)
Record fdm2 := mkF2 {
  f2_grid : grid2 T; f2_e : ebc2 (T -> T -> T); f2_n : nbc (T -> T -> T);
  f2_eqs : eqs; f2_mol : list T; f2_dx : T; f2_dy : T }.

(** fdm_2d.rs:355-392 `new` *)
Definition fdm2_new (grid : grid2 T) (e : ebc2 (T -> T -> T)) (n : nbc (T -> T -> T)) (kx ky : T) : res fdm2 :=
  o <- grid2_get_dx_dy grid ;;
  match o with
  | None => Err "grid must have uniform spacing"
  | Some (dx, dy) =>
    nodes <- ebc2_get_nodes (T -> T -> T) e (grid2_nodes T grid) ;;
    h <- eqs_recompute (eqs_new (g2_npoint T grid)) nodes ;;
    let dx2 := mul dx dx in
    let dy2 := mul dy dy in
    let alpha := mul two (add (div kx dx2) (div ky dy2)) in
    let beta := div (opp kx) dx2 in
    let gamma := div (opp ky) dy2 in
    Ok (mkF2 grid e n h [alpha; beta; beta; gamma; gamma] dx dy)
  end.

(** fdm_2d.rs:944-979 `loop_over_bandwidth`: the array nn *)
Definition nbrs2 (px py : bool) (nx ny m : nat) : list nat :=
  let fin_x := nx - 1 in
  let fin_y := ny - 1 in
  let i := m mod nx in
  let j := m / nx in
  let lr := if px then [if negb (i =? 0) then m - 1 else m + fin_x; if negb (i =? fin_x) then m + 1 else m - fin_x]
            else [if negb (i =? 0) then m - 1 else m + 1; if negb (i =? fin_x) then m + 1 else m - 1] in
  let bt := if py then [if negb (j =? 0) then m - nx else m + fin_y * nx; if negb (j =? fin_y) then m + nx else m - fin_y * nx]
            else [if negb (j =? 0) then m - nx else m + nx; if negb (j =? fin_y) then m + nx else m - nx] in
  m :: lr ++ bt.

(** fdm_2d.rs:621-631, 691-701 *)
Definition val2 (mol : list T) (alpha : T) (px py : bool) (nx ny m b n : nat) : res T :=
  v <- vget mol b ;;
  let v := if m =? n then add v alpha else v in
  let i := m mod nx in
  let j := m / nx in
  let v := if negb px && ((i =? 0) || (i =? nx - 1)) then div v two else v in
  Ok (if negb py && ((j =? 0) || (j =? ny - 1)) then div v two else v).

Definition fdm2_get_matrices_sps (f : fdm2) (alpha : T) (extra_nnz : nat) (s : sym) :=
  let px := e2_px _ (f2_e f) in let py := e2_py _ (f2_e f) in
  let nx := g2_nx T (f2_grid f) in let ny := g2_ny T (f2_grid f) in
  asm_sps 3 5 4 (nbrs2 px py nx ny) (val2 (f2_mol f) alpha px py nx ny) (f2_eqs f) extra_nnz s.
Definition fdm2_get_matrices_lmm (f : fdm2) (alpha : T) (extra_nnz : nat) (get_cc : bool) (s : sym) :=
  let px := e2_px _ (f2_e f) in let py := e2_py _ (f2_e f) in
  let nx := g2_nx T (f2_grid f) in let ny := g2_ny T (f2_grid f) in
  asm_lmm 3 5 (nbrs2 px py nx ny) (val2 (f2_mol f) alpha px py nx ny) (f2_eqs f) extra_nnz get_cc s.

(** fdm_2d.rs:761-786 and 848-875: the contributions to the right-hand side at node [m], stored at [k].
    (the second copy uses `if`/`if` where the first uses `if`/`else if`; the two sides are disjoint) *)
Definition fdm2_rhs (f : fdm2) (source : T -> T -> T) (m k : nat) (ff : list T) : res (list T) :=
  let g := f2_grid f in
  '(x, y) <- grid2_coord T g m ;;
  let cf := if grid2_is_corner T g m then half else one in
  let flux i d ff := w <- vget (n_fun _ (f2_n f)) i ;; vadd ff k (div (mul (opp cf) (w x y)) d) in
  '(ff, den) <-
    (if negb (e2_px _ (f2_e f)) then
       if grid2_is_xmin T g m then ff <- flux 0 (f2_dx f) ff ;; Ok (ff, mul one two)
       else if grid2_is_xmax T g m then ff <- flux 1 (f2_dx f) ff ;; Ok (ff, mul one two)
       else Ok (ff, one)
     else Ok (ff, one)) ;;
  '(ff, den) <-
    (if negb (e2_py _ (f2_e f)) then
       if grid2_is_ymin T g m then ff <- flux 2 (f2_dy f) ff ;; Ok (ff, mul den two)
       else if grid2_is_ymax T g m then ff <- flux 3 (f2_dy f) ff ;; Ok (ff, mul den two)
       else Ok (ff, den)
     else Ok (ff, den)) ;;
  vadd ff k (div (source x y) den).

(** fdm_2d.rs:788-797 (= 877-886) *)
Definition fdm2_presc (f : fdm2) (off : nat) (a : list T) : res (list T) :=
  for_range 0 4 (fun index a =>
    b <- vget (e2_sides _ (f2_e f)) index ;;
    if b : bool then
      s <- side_from_index index ;;
      for_each (grid2_nodes T (f2_grid f) s) (fun m a =>
        ip <- eqs_ip (f2_eqs f) m ;;
        '(x, y) <- grid2_coord T (f2_grid f) m ;;
        u <- vget (e2_fun _ (f2_e f)) index ;;
        vset a (off + ip) (u x y)) a
    else Ok a) a.

(** fdm_2d.rs:750-799 `get_vectors_sps` *)
Definition fdm2_get_vectors_sps (f : fdm2) (source : T -> T -> T) : res (list T * list T * list T) :=
  let nu := eqs_nu (f2_eqs f) in
  let np := eqs_np (f2_eqs f) in
  f_bar <- for_each (eq_u_sorted (f2_eqs f)) (fun m fb =>
    iu <- eqs_iu (f2_eqs f) m ;; fdm2_rhs f source m iu fb) (repeat zero nu) ;;
  a_check <- fdm2_presc f 0 (repeat zero np) ;;
  Ok (repeat zero nu, a_check, f_bar).

(** fdm_2d.rs:841-888 `get_vectors_lmm` *)
Definition fdm2_get_vectors_lmm (f : fdm2) (source : T -> T -> T) : res (list T * list T) :=
  let neq := eq_neq (f2_eqs f) in
  let ndim := neq + eqs_np (f2_eqs f) in
  ff <- for_range 0 (length (g2_coords T (f2_grid f))) (fun m ff => fdm2_rhs f source m m ff) (repeat zero ndim) ;;
  ff <- fdm2_presc f neq ff ;;
  Ok (repeat zero ndim, ff).

(** ** solution drivers; [solve] stands for `solver.actual.factorize` followed by `solve` *)
Section Solve.
Variable solve : coo T -> list T -> res (list T).

(** fdm_1d.rs:363-386 (and fdm_2d.rs:439-462) after validation *)
Definition solve_sps (mats : res (coo T * option (coo T))) (vecs : res (list T * list T * list T)) (h : eqs)
    : res (list T) :=
  '(kk_bar, kk_check) <- mats ;;
  '(a_bar, a_check, f_bar) <- vecs ;;
  match kk_check with
  | None => Panic                            (* kk_check.unwrap() *)
  | Some kk_check =>
    f_bar <- coo_mat_vec_mul_update T add mul kk_check f_bar (opp one) a_check ;;
    a_bar <- solve kk_bar f_bar ;;
    joined_sps h a_bar a_check
  end.
Definition fdm1_solve_sps (f : fdm1) (alpha : T) (source : T -> T) (s : sym) : res (list T) :=
  _ <- ebc1_validate _ (f1_e f) (f1_n f) ;;
  solve_sps (fdm1_get_matrices_sps f alpha 0 s) (fdm1_get_vectors_sps f source) (f1_eqs f).
Definition fdm2_solve_sps (f : fdm2) (alpha : T) (source : T -> T -> T) (s : sym) : res (list T) :=
  _ <- ebc2_validate _ (f2_e f) (f2_n f) ;;
  solve_sps (fdm2_get_matrices_sps f alpha 0 s) (fdm2_get_vectors_sps f source) (f2_eqs f).

(** fdm_1d.rs:431-453, fdm_2d.rs:497-517 *)
Definition solve_lmm (mats : res (coo T * option (coo T))) (vecs : res (list T * list T)) (h : eqs) : res (list T) :=
  '(mm, _) <- mats ;;
  '(aa, ff) <- vecs ;;
  aa <- solve mm ff ;;
  Ok (firstn (eq_neq h) aa).
Definition fdm1_solve_lmm (f : fdm1) (alpha : T) (source : T -> T) (s : sym) : res (list T) :=
  _ <- ebc1_validate _ (f1_e f) (f1_n f) ;;
  solve_lmm (fdm1_get_matrices_lmm f alpha (eq_neq (f1_eqs f)) false s) (fdm1_get_vectors_lmm f source) (f1_eqs f).
Definition fdm2_solve_lmm (f : fdm2) (alpha : T) (source : T -> T -> T) (s : sym) : res (list T) :=
  _ <- ebc2_validate _ (f2_e f) (f2_n f) ;;
  solve_lmm (fdm2_get_matrices_lmm f alpha 0 false s) (fdm2_get_vectors_lmm f source) (f2_eqs f).
End Solve.

End Fdm.
