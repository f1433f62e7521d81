(** C86: the two-dimensional spectral collocation solver. *)
From Coquelicot Require Import Coquelicot.
From Verif Require Import Base RBase RSum Poly Dense_Model Sparse_Model Sparse_Spec Sparse_CooProofs Sparse_Ops Sparse_Ring Eqs_Model Eqs_Thm Grid_Model Grid_Thm Bcs_Model Bcs_Thm
  Fdm_Model Fdm_Asm Fdm_Stencil Fdm_Cap Fdm_Entries Fdm_Coef Fdm_Thm Fdm_Vec Fdm_Equiv Jacobi_Thm Cheb_Model Cheb_Thm InterpLagrange_Model InterpLagrange_Thm Spc_Model Spc_Asm Spc_Diff.
From Coq Require Import Reals Lra Lia.
Local Open Scope nat_scope.

(** ** specification *)
(** [f] was built by `new` from the boundary conditions set by the calls [hist] and [hn] (last call first) *)
Definition spc2_from (f : spc2) (hist : list (bc_op F2)) (hn : list (side * F2)) (xmin xmax ymin ymax : R) (nx ny : nat) (kx ky : R) : Prop :=
  exists e n, run2 F2 z2 hist = Ok e /\ runn F2 (nbc2_new F2 z2) hn = Ok n /\ spc2_new xmin xmax ymin ymax nx ny e n kx ky = Ok f.

(** every side has either prescribed values or prescribed fluxes *)
Definition well_posed2 (hist : list (bc_op F2)) (hn : list (side * F2)) : Prop :=
  forall s, has (spec_fun F2 z2 hist s) /\ ~ has (spec_nat F2 hn s) \/ ~ has (spec_fun F2 z2 hist s) /\ has (spec_nat F2 hn s).

(** sum of a quantity over the sides of the rectangle that contain node (i,j) *)
Definition over_sides (nx ny i j : nat) (q : side -> R) : R :=
  ((if i =? 0 then q Xmin else 0) + (if i =? nx - 1 then q Xmax else 0) +
   (if j =? 0 then q Ymin else 0) + (if j =? ny - 1 then q Ymax else 0))%R.
Definition on_boundary (nx ny i j : nat) : Prop := i = 0 \/ i = nx - 1 \/ j = 0 \/ j = ny - 1.

(** flow -k grad phi along the outward normal of a side *)
Definition out_flow (kx ky dphidx dphidy : R) (s : side) : R :=
  match s with Xmin => kx * dphidx | Xmax => - kx * dphidx | Ymin => ky * dphidy | Ymax => - ky * dphidy end%R.

(** a function that is a polynomial of degree below nx in x and below ny in y *)
Definition is_poly2 (nx ny : nat) (phi : R -> R -> R) : Prop :=
  (forall y, is_poly nx (fun x => phi x y)) /\ (forall x, is_poly ny (fun y => phi x y)).
(** its partial derivatives *)
Definition partials (phi px pxx py pyy : R -> R -> R) : Prop :=
  (forall x y, is_derive (fun t => phi t y) x (px x y)) /\ (forall x y, is_derive (fun t => px t y) x (pxx x y)) /\
  (forall x y, is_derive (fun t => phi x t) y (py x y)) /\ (forall x y, is_derive (fun t => py x t) y (pyy x y)).

(** [phi] satisfies the equation at the interior grid points, takes the prescribed values at the nodes of the sides that have
    some (at a corner of two such sides the later one in the order Xmin, Xmax, Ymin, Ymax), and at the other boundary nodes the
    flows through the sides add up to the given fluxes *)
Definition collocates2 (hist : list (bc_op F2)) (hn : list (side * F2)) (xmin xmax ymin ymax : R) (nx ny : nat) (kx ky alpha : R)
    (source : R -> R -> R) (phi px pxx py pyy : R -> R -> R) : Prop :=
  forall i j, i < nx -> j < ny -> let x := xnode xmin xmax nx i in let y := xnode ymin ymax ny j in
  (0 < i < nx - 1 -> 0 < j < ny - 1 -> (- kx * pxx x y - ky * pyy x y + alpha * phi x y = source x y)%R) /\
  (presc2 R 0%R hist nx ny i j -> phi x y = bval2 hist nx ny (xnode xmin xmax nx) (xnode ymin ymax ny) i j) /\
  (on_boundary nx ny i j -> ~ presc2 R 0%R hist nx ny i j ->
     over_sides nx ny i j (out_flow kx ky (px x y) (py x y)) =
     over_sides nx ny i j (fun s => match spec_nat F2 hn s with Some w => w x y | None => 0%R end)).

(** values of [phi] at the grid points *)
Definition nodal2 (xmin xmax ymin ymax : R) (nx ny : nat) (phi : R -> R -> R) : list R :=
  map (fun m => phi (xnode xmin xmax nx (m mod nx)) (xnode ymin ymax ny (m / nx))) (seq 0 (nx * ny)).

(** ** proofs *)
Lemma nodal2_length a b c d nx ny phi : length (nodal2 a b c d nx ny phi) = nx * ny.
Proof. unfold nodal2. now rewrite map_length, seq_length. Qed.
Lemma nodal2_nth a b c d nx ny phi m : m < nx * ny ->
  nth m (nodal2 a b c d nx ny phi) 0%R = phi (xnode a b nx (m mod nx)) (xnode c d ny (m / nx)).
Proof.
  intros H. unfold nodal2. set (g := fun m => phi (xnode a b nx (m mod nx)) (xnode c d ny (m / nx))).
  rewrite (nth_indep _ 0%R (g 0)) by (now rewrite map_length, seq_length). rewrite (map_nth g). now rewrite seq_nth.
Qed.

Lemma cgl_grid nx ny : 2 <= nx -> 2 <= ny -> exists g, grid2_new_cgl nx ny = Ok g /\ grid2_is R g nx ny (cgl nx) (cgl ny) /\ length (g2_coords R g) = nx * ny.
Proof.
  intros Hx Hy. unfold grid2_new_cgl. destruct (Nat.ltb_spec nx 2); [lia|]. destruct (Nat.ltb_spec ny 2); [lia|].
  destruct (C29_lobatto_points (nx - 1) ltac:(lia)) as (uu & -> & Lu & Vu). destruct (C29_lobatto_points (ny - 1) ltac:(lia)) as (vv & -> & Lv & Vv). cbn [bind].
  destruct (for_range_inv (fun k l => l = cells R nx k (cgl nx) (cgl ny)) (fun j coords =>
      for_range 0 nx (fun i coords => u <- vget uu i ;; v <- vget vv j ;; Ok (coords ++ [(u, v)])%list) coords) 0 ny []) as (l & E & ->).
  - lia.
  - reflexivity.
  - intros j l Hj ->. eexists. split.
    + apply (push_row R (fun i => (cgl nx i, cgl ny j))). intros i c Hi. rewrite (vget_ok uu i 0%R), (vget_ok vv j 0%R) by lia. cbn [bind].
      rewrite Vu, Vv by lia. reflexivity.
    + unfold cells. rewrite seq_S, map_app, concat_app. cbn. now rewrite app_nil_r.
  - rewrite E. cbn [bind]. eexists. split; [reflexivity|]. split.
    + apply alloc_is; auto; try exact INR; try exact Rltb; try exact 0%R. intros i j Hi Hj. apply cells_get; auto; try exact INR; try exact Rltb; try exact 0%R.
    + cbn [grid2_alloc g2_coords]. rewrite cells_length; try exact INR; try exact Rltb; try exact 0%R. lia.
Qed.

Lemma sum2 nx ny (f : nat -> R) : nsum (nx * ny) f = sumn ny (fun l => sumn nx (fun k => f (k + l * nx))).
Proof.
  rewrite nsum_sumn. induction ny as [|ny IH]; [rewrite Nat.mul_0_r; reflexivity|].
  replace (nx * S ny) with (nx * ny + nx) by lia. rewrite sumn_app, IH. cbn [sumn]. f_equal. apply sumn_ext. intros k Hk. f_equal. lia.
Qed.
Lemma row_x nx ny j (X : nat -> R) v : j < ny ->
  sumn ny (fun l => sumn nx (fun k => (if j =? l then X k else 0) * v k l))%R = sumn nx (fun k => X k * v k j)%R.
Proof.
  intros Hj. rewrite (sumn_single _ _ j Hj); [now rewrite Nat.eqb_refl|]. intros l Hl N. apply sumn_zero. intros k Hk.
  rewrite (proj2 (Nat.eqb_neq j l)) by auto. ring.
Qed.
Lemma row_y nx ny i (Y : nat -> R) v : i < nx ->
  sumn ny (fun l => sumn nx (fun k => (if i =? k then Y l else 0) * v k l))%R = sumn ny (fun l => Y l * v i l)%R.
Proof.
  intros Hi. apply sumn_ext. intros l Hl. rewrite (sumn_single _ _ i Hi); [now rewrite Nat.eqb_refl|]. intros k Hk N.
  rewrite (proj2 (Nat.eqb_neq i k)) by auto. ring.
Qed.
Lemma row_d nx ny i j c v : i < nx -> j < ny ->
  sumn ny (fun l => sumn nx (fun k => (if (i =? k) && (j =? l) then c else 0) * v k l))%R = (c * v i j)%R.
Proof.
  intros Hi Hj. rewrite (sumn_single _ _ j Hj).
  - rewrite (sumn_single _ _ i Hi); [now rewrite !Nat.eqb_refl|]. intros k Hk N. rewrite (proj2 (Nat.eqb_neq i k)) by auto. cbn [andb]. ring.
  - intros l Hl N. apply sumn_zero. intros k Hk. rewrite (proj2 (Nat.eqb_neq j l)) by auto. rewrite andb_false_r. ring.
Qed.

Lemma idx_eq nx i j k l : i < nx -> k < nx -> (i + j * nx =? k + l * nx) = (i =? k) && (j =? l).
Proof.
  intros Hi Hk. apply Fdm_Vec.bool_eq. rewrite andb_true_iff, !Nat.eqb_eq. split; [|intros [-> ->]; auto]. intros E.
  assert (E1 := f_equal (fun q => q mod nx) E). assert (E2 := f_equal (fun q => q / nx) E). cbv beta in E1, E2.
  rewrite !mod_idx in E1 by auto. rewrite !div_idx in E2 by auto. auto.
Qed.

Lemma nodes2_describe hist nx ny grid fx fy e nodes h : run2 F2 z2 hist = Ok e -> grid2_is R grid nx ny fx fy ->
  ebc2_get_nodes F2 e (grid2_nodes R grid) = Ok nodes -> eqs_recompute (eqs_new (nx * ny)) nodes = Ok h ->
  describes h (nx * ny) nodes /\ forall i j, i < nx -> j < ny -> In (i + j * nx) nodes <-> presc2 R 0%R hist nx ny i j.
Proof.
  intros Re GI E2 E3. destruct (C43_get_nodes2 F2 z2 hist e (grid2_nodes R grid) Re) as (p' & E2' & ND & IN).
  rewrite E2 in E2'. inversion E2'; subst p'; clear E2'. split.
  - assert (B : Forall (fun e => e < nx * ny) nodes).
    { apply Forall_forall. intros m Hm. apply IN in Hm. destruct Hm as (s & _ & Hm). destruct GI as (_ & _ & _ & _ & _ & _ & _ & _ & G9). apply G9 in Hm. tauto. }
    destruct (C41_numbering (nx * ny) [nodes]) as (h' & E3' & DD). { constructor; auto. now apply Forall_forall. }
    cbn [eqs_run app bind last] in E3', DD. rewrite E3 in E3'. cbn in E3'. inversion E3'; subst h'. exact DD.
  - intros i j Hi Hj. rewrite IN. unfold presc2.
    assert (NS := fun s => nodes_on_side R 0%R Rplus Rminus Rmult Rdiv Ropp Rabs Rltb grid nx ny fx fy s i j GI Hi Hj). split.
    + intros (s & Hs & Q). apply NS in Q. destruct s; tauto.
    + intros [[A B]|[[A B]|[[A B]|[A B]]]]; [exists Xmin|exists Xmax|exists Ymin|exists Ymax]; split; auto; now apply NS.
Qed.

(** `new` accepts exactly the documented arguments and does not panic *)
Theorem C86_new : forall hist hn e n xmin xmax ymin ymax nx ny kx ky, run2 F2 z2 hist = Ok e -> runn F2 (nbc2_new F2 z2) hn = Ok n ->
  ((exists f, spc2_new xmin xmax ymin ymax nx ny e n kx ky = Ok f) <->
     2 <= nx <= N.to_nat 2049 /\ 2 <= ny <= N.to_nat 2049 /\ spec_per F2 hist true = false /\ spec_per F2 hist false = false) /\
  spc2_new xmin xmax ymin ymax nx ny e n kx ky <> Panic.
Proof.
  intros hist hn e n xmin xmax ymin ymax nx ny kx ky Re Rn. unfold spc2_new.
  assert (T : N.to_nat 2049 = S (N.to_nat 2048)) by lia.
  destruct (Nat.ltb_spec nx 2). { split; [split; [intros (? & [=])|lia]|discriminate]. }
  destruct (Nat.ltb_spec ny 2). { split; [split; [intros (? & [=])|lia]|discriminate]. }
  destruct (Nat.ltb_spec (N.to_nat 2048) (nx - 1)). { split; [split; [intros (? & [=])|lia]|discriminate]. }
  destruct (Nat.ltb_spec (N.to_nat 2048) (ny - 1)). { split; [split; [intros (? & [=])|lia]|discriminate]. }
  cbn [orb].
  destruct (C43_history2 F2 z2 hist) as (e' & Re' & PX & PY & _). rewrite Re in Re'. inversion Re'; subst e'; clear Re'.
  destruct (cgl_grid nx ny) as (grid & -> & GI & LC); auto. cbn [unwrap bind]. rewrite PX, PY.
  destruct (spec_per F2 hist true), (spec_per F2 hist false); cbn [orb]; try (split; [split; [intros (? & [=])|intros (_ & _ & ? & ?); discriminate]|discriminate]).
  destruct (C43_get_nodes2 F2 z2 hist e (grid2_nodes R grid) Re) as (p & -> & ND & IN). cbn [bind].
  assert (NP : g2_npoint R grid = nx * ny) by apply GI. rewrite NP.
  destruct (C41_numbering (nx * ny) [p]) as (h' & E3 & DD).
  { constructor; auto. apply Forall_forall. apply Forall_forall. intros m Hm. apply IN in Hm. destruct Hm as (s & _ & Hm). destruct GI as (_ & _ & _ & _ & _ & _ & _ & _ & G9). apply G9 in Hm. tauto. }
  cbn [eqs_run app bind] in E3. destruct (eqs_recompute (eqs_new (nx * ny)) p) as [h| |]; try discriminate. cbn [bind].
  destruct (interp_ok nx ltac:(lia) ltac:(lia)) as (s0 & s1 & s2 & d1 & d2 & D1 & D2 & -> & E4 & E5 & _). cbn [bind].
  destruct (interp_ok ny ltac:(lia) ltac:(lia)) as (t0 & t1 & t2 & c1 & c2 & C1 & C2 & -> & E6 & E7 & _). cbn [bind].
  rewrite E4. cbn [bind]. rewrite E6. cbn [bind]. rewrite E5. cbn [bind]. rewrite E7. cbn [bind].
  split; [|discriminate]. split; [intros _; splits; auto; lia|eauto].
Qed.

Section Two.
Variables (f : spc2) (hist : list (bc_op F2)) (hn : list (side * F2)) (xmin xmax ymin ymax : R) (nx ny : nat) (kx ky : R).
Hypothesis FR : spc2_from f hist hn xmin xmax ymin ymax nx ny kx ky.
Notation h := (s2_eqs f).
Notation fx := (xnode xmin xmax nx).
Notation fy := (xnode ymin ymax ny).
Notation w k := (nth k (n_fun _ (s2_n f)) z2).

Lemma spc2_inv : 2 <= nx /\ 2 <= ny /\ exists p d1r d2r D1x D2x d1s d2s D1y D2y, describes h (nx * ny) p /\
  (forall i j, i < nx -> j < ny -> In (i + j * nx) p <-> presc2 R 0%R hist nx ny i j) /\
  s2_xmin f = xmin /\ s2_xmax f = xmax /\ s2_ymin f = ymin /\ s2_ymax f = ymax /\ s2_mkx f = (- kx)%R /\ s2_mky f = (- ky)%R /\
  grid2_is R (s2_grid f) nx ny (cgl nx) (cgl ny) /\ length (g2_coords R (s2_grid f)) = nx * ny /\
  run2 F2 z2 hist = Ok (s2_e f) /\ runn F2 (nbc2_new F2 z2) hn = Ok (s2_n f) /\ spec_per F2 hist true = false /\ spec_per F2 hist false = false /\
  diff_ok (s2_interp_x f) nx d1r d2r D1x D2x /\ diff_ok (s2_interp_y f) ny d1s d2s D1y D2y.
Proof using FR.
  destruct FR as (e & n & Re & Rn & H). clear FR. unfold spc2_new in H.
  destruct (Nat.ltb_spec nx 2); [discriminate|]. destruct (Nat.ltb_spec ny 2); [discriminate|]. split; auto. split; auto.
  destruct (Nat.ltb_spec (N.to_nat 2048) (nx - 1)); [discriminate|]. destruct (Nat.ltb_spec (N.to_nat 2048) (ny - 1)); [discriminate|]. cbn [orb] in H.
  destruct (C43_history2 F2 z2 hist) as (e' & Re' & PX & PY & _). rewrite Re in Re'. inversion Re'; subst e'; clear Re'.
  destruct (cgl_grid nx ny) as (grid & EG & GI & LC); auto. rewrite EG in H. cbn [unwrap bind] in H. rewrite PX, PY in H.
  destruct (spec_per F2 hist true); [discriminate|]. destruct (spec_per F2 hist false); [discriminate|]. cbn [orb] in H.
  apply bind_ok in H. destruct H as (p & E2 & H). assert (NP : g2_npoint R grid = nx * ny) by apply GI. rewrite NP in H.
  apply bind_ok in H. destruct H as (hh & E3 & H).
  destruct (nodes2_describe hist nx ny grid _ _ e p hh Re GI E2 E3) as [DD IN].
  destruct (interp_ok nx ltac:(lia) ltac:(lia)) as (s0 & s1 & s2 & d1 & d2 & D1 & D2 & Q1 & E4 & E5 & DX).
  destruct (interp_ok ny ltac:(lia) ltac:(lia)) as (t0 & t1 & t2 & c1 & c2 & C1 & C2 & Q2 & E6 & E7 & DY).
  rewrite Q1 in H. cbn [bind] in H. rewrite Q2 in H. cbn [bind] in H. rewrite E4 in H. cbn [bind] in H. rewrite E6 in H. cbn [bind] in H.
  rewrite E5 in H. cbn [bind] in H. rewrite E7 in H. cbn [bind] in H. inversion H; subst f; clear H.
  cbn [s2_xmin s2_xmax s2_ymin s2_ymax s2_mkx s2_mky s2_grid s2_e s2_n s2_eqs s2_interp_x s2_interp_y].
  exists p, d1, d2, D1, D2, c1, c2, C1, C2. splits; auto.
Qed.

(** does node (i,j) carry flux conditions? *)
Definition en2 (i j : nat) : bool :=
  if i =? 0 then isS (spec_nat F2 hn Xmin) else if i =? nx - 1 then isS (spec_nat F2 hn Xmax)
  else if j =? 0 then isS (spec_nat F2 hn Ymin) else if j =? ny - 1 then isS (spec_nat F2 hn Ymax) else false.

(** coefficient of node (k,l) in the row of node (i,j) *)
Definition A2 (D1x D2x D1y D2y : nat -> nat -> R) (alpha : R) (i j k l : nat) : R :=
  let cx := (2 / (xmax - xmin))%R in let cy := (2 / (ymax - ymin))%R in
  if en2 i j then
    ((if j =? l then ((if i =? 0 then kx else 0) + (if i =? nx - 1 then - kx else 0)) * (D1x i k * cx) else 0) +
     (if i =? k then ((if j =? 0 then ky else 0) + (if j =? ny - 1 then - ky else 0)) * (D1y j l * cy) else 0))%R
  else
    ((if j =? l then - kx * (D2x i k * (cx * cx)) else 0) + (if i =? k then - ky * (D2y j l * (cy * cy)) else 0) +
     (if (i =? k) && (j =? l) then alpha else 0))%R.
Definition A2n D1x D2x D1y D2y alpha (m n : nat) : R := A2 D1x D2x D1y D2y alpha (m mod nx) (m / nx) (n mod nx) (n / nx).

(** right-hand side and prescribed value by node number *)
Definition g2 (source : R -> R -> R) (i j : nat) : R :=
  if (i =? 0) || (i =? nx - 1) || (j =? 0) || (j =? ny - 1) then over_sides nx ny i j (fun s => w (side_index s) (fx i) (fy j)) else source (fx i) (fy j).
Definition g2n source m := g2 source (m mod nx) (m / nx).
Definition bv2n m := bval2 hist nx ny fx fy (m mod nx) (m / nx).

Lemma val2_spc alpha d1r d2r D1x D2x d1s d2s D1y D2y m n : diff_ok (s2_interp_x f) nx d1r d2r D1x D2x -> diff_ok (s2_interp_y f) ny d1s d2s D1y D2y ->
  m < nx * ny -> n < nx * ny -> spc2_val f alpha d1r d1s d2r d2s m n = Ok (A2n D1x D2x D1y D2y alpha m n).
Proof using FR.
  intros DX DY Hm Hn. destruct spc2_inv as (Hx & Hy & p & _ & _ & _ & _ & _ & _ & _ & _ & D & IP & X1 & X2 & X3 & X4 & X5 & X6 & GI & LC & _ & Rn & _).
  destruct (C43_history_natural2 F2 z2 hn) as (n' & Rn' & _ & _ & SH). rewrite Rn in Rn'. inversion Rn' as [EN]. clear Rn'.
  destruct (idx_split nx ny m) as (i & j & Hi & Hj & ->); [lia|auto|]. destruct (idx_split nx ny n) as (k & l & Hk & Hl & ->); [lia|auto|].
  assert (GX : g2_nx R (s2_grid f) = nx) by apply GI. assert (GY : g2_ny R (s2_grid f) = ny) by apply GI.
  assert (EB : nbc2_enabled F2 (s2_n f) i j nx ny = Ok (en2 i j)).
  { unfold nbc2_enabled, en2. rewrite EN. assert (S0 := shows_bool _ _ _ _ _ (SH Xmin)). assert (S1 := shows_bool _ _ _ _ _ (SH Xmax)).
    assert (S2 := shows_bool _ _ _ _ _ (SH Ymin)). assert (S3 := shows_bool _ _ _ _ _ (SH Ymax)). cbn [side_index] in S0, S1, S2, S3.
    rewrite S0, S1, S2, S3. cbn [bind]. unfold isS. destruct (i =? 0), (i =? nx - 1), (j =? 0), (j =? ny - 1); reflexivity. }
  unfold spc2_val, grid2_get_ij. rewrite GX, GY, !mod_idx, !div_idx by auto. rewrite X1, X2, X3, X4, X5, X6, EB. cbn [bind].
  rewrite (entries_get _ _ _ _ _ (do_e1 _ _ _ _ _ _ DX) Hi Hk), (entries_get _ _ _ _ _ (do_e2 _ _ _ _ _ _ DX) Hi Hk).
  rewrite (entries_get _ _ _ _ _ (do_e1 _ _ _ _ _ _ DY) Hj Hl), (entries_get _ _ _ _ _ (do_e2 _ _ _ _ _ _ DY) Hj Hl). cbn [bind].
  unfold A2n, A2. rewrite !mod_idx, !div_idx by auto. rewrite idx_eq by auto. clear EB.
  destruct (en2 i j).
  - destruct (i =? 0), (i =? nx - 1), (j =? 0), (j =? ny - 1), (j =? l), (i =? k); cbn [andb bind]; f_equal; ring.
  - destruct (j =? l), (i =? k); cbn [andb bind]; f_equal; ring.
Qed.

Lemma opt_add (c : bool) q x y ff k : q < length (n_fun _ (s2_n f)) -> k < length ff ->
  exists b, (if c then u <- vget (n_fun _ (s2_n f)) q ;; vadd R Rplus ff k (u x y) else Ok ff) = Ok b /\ adds ff k (if c then w q x y else 0)%R b.
Proof using.
  intros Hq Hk. destruct c.
  - rewrite (vget_ok _ q z2) by auto. cbn [bind]. apply vadd_adds. auto.
  - exists ff. split; auto. split; auto. intros r. destruct (r =? k); lra.
Qed.

Lemma rhs2_spc source m k ff : m < nx * ny -> k < length ff -> nth k ff 0%R = 0%R ->
  exists ff', spc2_rhs f source m k ff = Ok ff' /\ length ff' = length ff /\ forall r, nth r ff' 0%R = if r =? k then g2n source m else nth r ff 0%R.
Proof using FR.
  intros Hm Hk Z. destruct spc2_inv as (Hx & Hy & p & _ & _ & _ & _ & _ & _ & _ & _ & D & IP & X1 & X2 & X3 & X4 & X5 & X6 & GI & LC & _ & Rn & _).
  destruct (C43_history_natural2 F2 z2 hn) as (n' & Rn' & LF & _ & SH). rewrite Rn in Rn'. inversion Rn' as [EN]. clear Rn'. rewrite <- EN in LF.
  destruct (idx_split nx ny m) as (i & j & Hi & Hj & ->); [lia|auto|].
  assert (GX : g2_nx R (s2_grid f) = nx) by apply GI. assert (GY : g2_ny R (s2_grid f) = ny) by apply GI.
  destruct GI as (_ & _ & _ & _ & _ & G6 & _). specialize (G6 i j Hi Hj). unfold grid2_get_m in G6. rewrite GX in G6.
  unfold spc2_rhs. rewrite G6. cbn [bind]. rewrite X1, X2, X3, X4, !map_xnode. unfold grid2_on_boundary, grid2_is_xmin, grid2_is_xmax, grid2_is_ymin, grid2_is_ymax.
  rewrite GX, GY. unfold g2n, g2. rewrite !mod_idx, !div_idx by auto.
  destruct ((i =? 0) || (i =? nx - 1) || (j =? 0) || (j =? ny - 1)).
  - destruct (opt_add (i =? 0) 0 (fx i) (fy j) ff k ltac:(lia) Hk) as (b1 & -> & B1). cbn [bind]. assert (K1 := adds_len _ _ _ _ B1 Hk).
    destruct (opt_add (i =? nx - 1) 1 (fx i) (fy j) b1 k ltac:(lia) K1) as (b2 & -> & B2). cbn [bind]. assert (K2 := adds_len _ _ _ _ B2 K1).
    destruct (opt_add (j =? 0) 2 (fx i) (fy j) b2 k ltac:(lia) K2) as (b3 & -> & B3). cbn [bind]. assert (K3 := adds_len _ _ _ _ B3 K2).
    destruct (opt_add (j =? ny - 1) 3 (fx i) (fy j) b3 k ltac:(lia) K3) as (b4 & -> & B4). exists b4. split; auto.
    assert (AA : adds ff k (over_sides nx ny i j (fun s => w (side_index s) (fx i) (fy j))) b4).
    { eapply adds_trans; [eapply adds_trans; [eapply adds_trans; [exact B1|exact B2|reflexivity]|exact B3|reflexivity]|exact B4|]. reflexivity. }
    destruct AA as [LA NA]. split; auto. intros r. rewrite NA. destruct (Nat.eqb_spec r k) as [->|]; auto. rewrite Z. ring.
  - rewrite vset_ok by auto. eexists. split; [reflexivity|]. split; [apply upd_length|]. intros r. rewrite nth_upd by auto. reflexivity.
Qed.

Lemma presc2_spc a off : off + eqs_np h <= length a ->
  exists a', spc2_presc f off a = Ok a' /\ length a' = length a /\
    (forall k, k < eqs_np h -> nth (off + k) a' 0%R = bv2n (P h k)) /\
    (forall r, r < off -> nth r a' 0%R = nth r a 0%R).
Proof using FR.
  intros La. destruct spc2_inv as (Hx & Hy & p & _ & _ & _ & _ & _ & _ & _ & _ & D & IP & X1 & X2 & X3 & X4 & X5 & X6 & GI & LC & Re & _).
  destruct (C43_history2 F2 z2 hist) as (e' & Re' & _ & _ & LF & LS & SH). rewrite Re in Re'. inversion Re'; subst e'; clear Re'.
  pose (on := fun s m => match s with Xmin => m mod nx =? 0 | Xmax => m mod nx =? nx - 1 | Ymin => m / nx =? 0 | Ymax => m / nx =? ny - 1 end).
  set (grid := s2_grid f) in *.
  assert (ON : forall s m, m < nx * ny -> existsb (Nat.eqb m) (grid2_nodes R grid s) = on s m).
  { intros s m Hm. destruct (idx_split nx ny m) as (i & j & Hi & Hj & ->); [lia|auto|].
    apply Fdm_Vec.bool_eq. rewrite existsb_exists.
    assert (Q := nodes_on_side R 0%R Rplus Rminus Rmult Rdiv Ropp Rabs Rltb grid nx ny _ _ s i j GI Hi Hj). unfold on.
    transitivity (In (i + j * nx) (grid2_nodes R grid s)).
    - split; [intros (y & Hy' & E); apply Nat.eqb_eq in E; now subst y|]. intros I. exists (i + j * nx). split; auto. apply Nat.eqb_refl.
    - rewrite Q. destruct s; rewrite ?mod_idx, ?div_idx, Nat.eqb_eq by auto; reflexivity. }
  assert (STEP : forall s b, off + eqs_np h <= length b ->
    exists b', (c <- vget (e2_sides _ (s2_e f)) (side_index s) ;;
       if c : bool then
        s' <- side_from_index (side_index s) ;;
        for_each (grid2_nodes R grid s') (fun m a =>
          ip <- eqs_ip h m ;; '(r, s0) <- grid2_coord R grid m ;; u <- vget (e2_fun _ (s2_e f)) (side_index s) ;;
          vset a (off + ip) (u (spc_map (s2_xmin f) (s2_xmax f) r) (spc_map (s2_ymin f) (s2_ymax f) s0))) b
       else Ok b) = Ok b' /\ length b' = length b /\
      (forall k, k < eqs_np h -> nth (off + k) b' 0%R =
         match spec_fun F2 z2 hist s with
         | Some u => if on s (P h k) then u (fx (P h k mod nx)) (fy (P h k / nx)) else nth (off + k) b 0%R
         | None => nth (off + k) b 0%R end) /\
      (forall r, r < off -> nth r b' 0%R = nth r b 0%R)).
  { intros s b Lb. assert (Q := SH s). unfold shows in Q. destruct (spec_fun F2 z2 hist s) as [u|] eqn:SF.
    - destruct Q as [Q1 Q2]. unfold vget at 1. rewrite Q1. cbn [bind].
      replace (side_from_index (side_index s)) with (Ok s) by (destruct s; reflexivity). cbn [bind].
      assert (MP : forall m, In m (grid2_nodes R grid s) -> m < nx * ny /\ In m p).
      { intros m Hm. assert (Lm : m < nx * ny).
        { destruct GI as (_ & _ & _ & _ & _ & _ & _ & _ & G9). apply G9 in Hm. tauto. }
        split; auto. destruct (idx_split nx ny m) as (i & j & Hi & Hj & ->); [lia|auto|].
        apply IP; auto. apply (nodes_on_side R 0%R Rplus Rminus Rmult Rdiv Ropp Rabs Rltb grid nx ny _ _ s i j GI Hi Hj) in Hm. unfold presc2, has.
        destruct s; rewrite SF; intuition discriminate. }
      destruct (presc_loop h (nx * ny) p D (grid2_nodes R grid s)
        (fun m a => ip <- eqs_ip h m ;; '(r, s0) <- grid2_coord R grid m ;; u <- vget (e2_fun _ (s2_e f)) (side_index s) ;;
           vset a (off + ip) (u (spc_map (s2_xmin f) (s2_xmax f) r) (spc_map (s2_ymin f) (s2_ymax f) s0)))
        (fun m => u (fx (m mod nx)) (fy (m / nx))) off (length b)) with (a := b) as (b' & E & L & K1 & K2); auto.
      { intros m a0 Hm L0. destruct (MP m Hm) as [Lm Pm]. destruct (ip_ok h (nx * ny) p D m Lm Pm) as (-> & Lk & _). cbn [bind].
        destruct (idx_split nx ny m) as (i & j & Hi & Hj & ->); [lia|auto|].
        destruct GI as (G1 & _ & _ & _ & _ & G6 & _). specialize (G6 i j Hi Hj). unfold grid2_get_m in G6. rewrite G1 in G6. rewrite G6. cbn [bind].
        unfold vget. rewrite Q2. cbn [bind]. rewrite mod_idx, div_idx by auto. rewrite X1, X2, X3, X4, !map_xnode. apply vset_ok. lia. }
      exists b'. splits; auto. intros k Hk. rewrite K1 by auto. unfold P. rewrite ON by (now apply (p_nth h (nx * ny) p D)). reflexivity.
    - unfold vget at 1. rewrite Q. cbn [bind]. exists b. splits; auto. }
  unfold spc2_presc. fold grid. unfold for_range. cbn [Nat.sub for_n].
  destruct (STEP Xmin a La) as (a1 & E1 & L1 & V1 & O1). cbn [side_index] in E1. rewrite E1. cbn [bind]. clear E1.
  destruct (STEP Xmax a1 ltac:(lia)) as (a2 & E2 & L2 & V2 & O2). cbn [side_index] in E2. rewrite E2. cbn [bind]. clear E2.
  destruct (STEP Ymin a2 ltac:(lia)) as (a3 & E3 & L3 & V3 & O3). cbn [side_index] in E3. rewrite E3. cbn [bind]. clear E3.
  destruct (STEP Ymax a3 ltac:(lia)) as (a4 & E4 & L4 & V4 & O4). cbn [side_index] in E4. rewrite E4. cbn [bind]. clear E4 STEP.
  exists a4. splits; auto; [congruence| |intros; rewrite O4, O3, O2, O1; auto].
  intros k Hk. rewrite V4, V3, V2, V1 by auto. unfold bv2n, bval2, on.
  destruct (p_nth h (nx * ny) p D k Hk) as [A B]. unfold P. set (q := nth k (eq_p_sorted h) 0) in *. clearbody q.
  destruct (idx_split nx ny q) as (i & j & Hi & Hj & ->); [lia|auto|].
  apply IP in B; auto. unfold presc2, has in B. rewrite mod_idx, div_idx by auto.
  destruct (spec_fun F2 z2 hist Xmin), (spec_fun F2 z2 hist Xmax), (spec_fun F2 z2 hist Ymin), (spec_fun F2 z2 hist Ymax);
    destruct (Nat.eqb_spec j (ny - 1)); auto; destruct (Nat.eqb_spec j 0); auto; destruct (Nat.eqb_spec i (nx - 1)); auto; destruct (Nat.eqb_spec i 0); auto;
    exfalso; intuition congruence.
Qed.

Lemma vec2_sps source : exists a0 ac fb, spc2_get_vectors_sps f source = Ok (a0, ac, fb) /\
  length ac = eqs_np h /\ length fb = eqs_nu h /\
  (forall i, i < eqs_nu h -> nth i fb 0%R = g2n source (U h i)) /\ (forall k, k < eqs_np h -> nth k ac 0%R = bv2n (P h k)).
Proof using FR.
  destruct spc2_inv as (Hx & Hy & p & _ & _ & _ & _ & _ & _ & _ & _ & D & _). unfold spc2_get_vectors_sps.
  destruct (store (eq_u_sorted h) (fun m fb => iu <- eqs_iu h m ;; spc2_rhs f source m iu fb) (rank_u h) (g2n source) (eqs_nu h)) with (a := repeat 0%R (eqs_nu h)) as (fb & E & L & N & V).
  - intros m a Hm La Z. apply (U_spec h (nx * ny) p D) in Hm. destruct Hm as [Hm Pm].
    destruct (iu_ok h (nx * ny) p D m Hm Pm) as (-> & Lk & _). cbn [bind].
    destruct (rhs2_spc source m (rank_u h m) a Hm ltac:(lia) Z) as (a' & E & Q1 & Q2). exists a'. splits; auto; congruence.
  - eapply nodup_rank; eauto.
  - apply repeat_length.
  - intros m _. apply nth_repeat.
  - rewrite E. cbn [bind]. destruct (presc2_spc (repeat 0%R (eqs_np h)) 0) as (ac & EA & LA & VA & _).
    { rewrite repeat_length. lia. }
    rewrite EA. cbn [bind]. exists (repeat 0%R (eqs_nu h)), ac, fb. splits; auto.
    + now rewrite repeat_length in LA.
    + intros i Hi. specialize (V (nth i (eq_u_sorted h) 0) (U_in h i Hi)). rewrite (rank_u_nth h (nx * ny) p D) in V by auto. exact V.
Qed.

Lemma vec2_lmm source : exists b0 ff, spc2_get_vectors_lmm f source = Ok (b0, ff) /\ length ff = nx * ny + eqs_np h /\
  (forall m, m < nx * ny -> nth m ff 0%R = g2n source m) /\ (forall k, k < eqs_np h -> nth (nx * ny + k) ff 0%R = bv2n (P h k)).
Proof using FR.
  destruct spc2_inv as (Hx & Hy & p & _ & _ & _ & _ & _ & _ & _ & _ & D & _ & _ & _ & _ & _ & _ & _ & _ & LC & _). unfold spc2_get_vectors_lmm. assert (NE : eq_neq h = nx * ny) by apply D. rewrite NE, LC.
  change (for_range 0 (nx * ny)) with (@for_range (list R) 0 (0 + nx * ny)). rewrite for_range_each.
  destruct (store (seq 0 (nx * ny)) (fun m ff => spc2_rhs f source m m ff) (fun m => m) (g2n source) (nx * ny + eqs_np h)) with (a := repeat 0%R (nx * ny + eqs_np h)) as (ff & E & L & N & V).
  - intros m a Hm La Z. apply in_seq in Hm.
    destruct (rhs2_spc source m m a ltac:(lia) ltac:(lia) Z) as (a' & E & Q1 & Q2). exists a'. splits; auto; congruence.
  - apply nodup_seq_id.
  - apply repeat_length.
  - intros m _. apply nth_repeat.
  - rewrite E. cbn [bind]. destruct (presc2_spc ff (nx * ny)) as (ac & EA & LA & VA & OA); [lia|].
    rewrite EA. cbn [bind]. exists (repeat 0%R (nx * ny + eqs_np h)), ac. splits; auto; [congruence|].
    intros m Hm. rewrite OA by auto. apply (V m). apply in_seq. lia.
Qed.

Lemma mats2 alpha : exists d1r d2r D1x D2x d1s d2s D1y D2y, diff_ok (s2_interp_x f) nx d1r d2r D1x D2x /\ diff_ok (s2_interp_y f) ny d1s d2s D1y D2y /\
  (forall extra, spc2_get_matrices_sps f alpha extra = spc_sps (spc2_val f alpha d1r d1s d2r d2s) h (nx * ny * (nx * ny)) extra) /\
  (forall extra cc, spc2_get_matrices_lmm f alpha extra cc = spc_lmm (spc2_val f alpha d1r d1s d2r d2s) h (nx * ny * (nx * ny)) extra cc).
Proof using FR.
  destruct spc2_inv as (Hx & Hy & p & d1r & d2r & D1x & D2x & d1s & d2s & D1y & D2y & D & IP & X1 & X2 & X3 & X4 & X5 & X6 & GI & LC & _ & _ & _ & _ & DX & DY).
  assert (GX : g2_nx R (s2_grid f) = nx) by apply GI. assert (GY : g2_ny R (s2_grid f) = ny) by apply GI.
  exists d1r, d2r, D1x, D2x, d1s, d2s, D1y, D2y. unfold spc2_get_matrices_sps, spc2_get_matrices_lmm.
  rewrite (do_g1 _ _ _ _ _ _ DX), (do_g2 _ _ _ _ _ _ DX), (do_g1 _ _ _ _ _ _ DY), (do_g2 _ _ _ _ _ _ DY), GX, GY. cbn [unwrap bind].
  replace (nx * nx * ny * ny) with (nx * ny * (nx * ny)) by ring. splits; auto.
Qed.

(** the row of node (i,j) applied to the nodal values of a polynomial *)
Lemma row2 D1x D2x d1r d2r D1y D2y d1s d2s alpha phi px pxx py pyy i j :
  diff_ok (s2_interp_x f) nx d1r d2r D1x D2x -> diff_ok (s2_interp_y f) ny d1s d2s D1y D2y -> xmin <> xmax -> ymin <> ymax ->
  is_poly2 nx ny phi -> partials phi px pxx py pyy -> i < nx -> j < ny ->
  nsum (nx * ny) (fun n => A2n D1x D2x D1y D2y alpha (i + j * nx) n * nth n (nodal2 xmin xmax ymin ymax nx ny phi) 0)%R =
  (if en2 i j then over_sides nx ny i j (out_flow kx ky (px (fx i) (fy j)) (py (fx i) (fy j)))
   else - kx * pxx (fx i) (fy j) - ky * pyy (fx i) (fy j) + alpha * phi (fx i) (fy j))%R.
Proof using.
  intros DX DY NX NY [P1 P2] (H1 & H2 & H3 & H4) Hi Hj.
  set (cx := (2 / (xmax - xmin))%R). set (cy := (2 / (ymax - ymin))%R).
  assert (Q1 := phys1 _ _ _ _ _ _ xmin xmax DX NX (fun t => phi t (fy j)) i (px (fx i) (fy j)) (P1 _) Hi (H1 _ _)). fold cx in Q1. cbv beta in Q1.
  assert (Q2 := phys2 _ _ _ _ _ _ xmin xmax DX NX (fun t => phi t (fy j)) (fun t => px t (fy j)) i (pxx (fx i) (fy j)) (P1 _) Hi (fun t => H1 t _) (H2 _ _)). fold cx in Q2. cbv beta in Q2.
  assert (Q3 := phys1 _ _ _ _ _ _ ymin ymax DY NY (fun t => phi (fx i) t) j (py (fx i) (fy j)) (P2 _) Hj (H3 _ _)). fold cy in Q3. cbv beta in Q3.
  assert (Q4 := phys2 _ _ _ _ _ _ ymin ymax DY NY (fun t => phi (fx i) t) (fun t => py (fx i) t) j (pyy (fx i) (fy j)) (P2 _) Hj (fun t => H3 _ t) (H4 _ _)). fold cy in Q4. cbv beta in Q4.
  rewrite nsum_sumn in Q1, Q2, Q3, Q4. rewrite sum2.
  rewrite (sumn_ext ny _ (fun l => sumn nx (fun k => A2 D1x D2x D1y D2y alpha i j k l * phi (fx k) (fy l)))%R).
  2:{ intros l Hl. apply sumn_ext. intros k Hk. rewrite nodal2_nth by (apply idx_lt; auto). unfold A2n. now rewrite !mod_idx, !div_idx by auto. }
  unfold A2. fold cx cy. destruct (en2 i j).
  - set (ax := ((if i =? 0 then kx else 0) + (if i =? nx - 1 then - kx else 0))%R). set (ay := ((if j =? 0 then ky else 0) + (if j =? ny - 1 then - ky else 0))%R).
    transitivity (ax * px (fx i) (fy j) + ay * py (fx i) (fy j))%R.
    + rewrite <- Q1, <- Q3, <- !sumn_scal.
      rewrite (sumn_ext nx _ (fun k => ax * (D1x i k * cx) * phi (fx k) (fy j))%R) by (intros; ring).
      rewrite (sumn_ext ny (fun l => ay * (D1y j l * cy * phi (fx i) (fy l)))%R (fun l => ay * (D1y j l * cy) * phi (fx i) (fy l))%R) by (intros; ring).
      rewrite <- (row_x nx ny j (fun k => ax * (D1x i k * cx))%R (fun k l => phi (fx k) (fy l)) Hj).
      rewrite <- (row_y nx ny i (fun l => ay * (D1y j l * cy))%R (fun k l => phi (fx k) (fy l)) Hi).
      rewrite <- sumn_plus. apply sumn_ext. intros l Hl. rewrite <- sumn_plus. apply sumn_ext. intros k Hk. ring.
    + unfold ax, ay, over_sides, out_flow. destruct (i =? 0), (i =? nx - 1), (j =? 0), (j =? ny - 1); ring.
  - replace (- kx * pxx (fx i) (fy j) - ky * pyy (fx i) (fy j) + alpha * phi (fx i) (fy j))%R
      with (- kx * pxx (fx i) (fy j) + - ky * pyy (fx i) (fy j) + alpha * phi (fx i) (fy j))%R by ring.
    rewrite <- Q2, <- Q4, <- !sumn_scal.
    rewrite (sumn_ext nx _ (fun k => - kx * (D2x i k * (cx * cx)) * phi (fx k) (fy j))%R) by (intros; ring).
    rewrite (sumn_ext ny (fun l => - ky * (D2y j l * (cy * cy) * phi (fx i) (fy l)))%R (fun l => - ky * (D2y j l * (cy * cy)) * phi (fx i) (fy l))%R) by (intros; ring).
    rewrite <- (row_x nx ny j (fun k => - kx * (D2x i k * (cx * cx)))%R (fun k l => phi (fx k) (fy l)) Hj).
    rewrite <- (row_y nx ny i (fun l => - ky * (D2y j l * (cy * cy)))%R (fun k l => phi (fx k) (fy l)) Hi).
    rewrite <- (row_d nx ny i j alpha (fun k l => phi (fx k) (fy l)) Hi Hj).
    rewrite <- !sumn_plus. apply sumn_ext. intros l Hl. rewrite <- !sumn_plus. apply sumn_ext. intros k Hk. ring.
Qed.

Lemma grid_collocates2 D1x D2x d1r d2r D1y D2y d1s d2s p alpha source phi px pxx py pyy :
  diff_ok (s2_interp_x f) nx d1r d2r D1x D2x -> diff_ok (s2_interp_y f) ny d1s d2s D1y D2y -> describes h (nx * ny) p ->
  (forall i j, i < nx -> j < ny -> In (i + j * nx) p <-> presc2 R 0%R hist nx ny i j) -> xmin <> xmax -> ymin <> ymax ->
  is_poly2 nx ny phi -> partials phi px pxx py pyy -> well_posed2 hist hn ->
  (grid_equations (nx * ny) p (A2n D1x D2x D1y D2y alpha) (g2n source) bv2n (nodal2 xmin xmax ymin ymax nx ny phi) <->
   collocates2 hist hn xmin xmax ymin ymax nx ny kx ky alpha source phi px pxx py pyy).
Proof using FR.
  intros DX DY D IP NX NY Po Pa WP. destruct spc2_inv as (Hx & Hy & _ & _ & _ & _ & _ & _ & _ & _ & _ & _ & _ & _ & _ & _ & _ & _ & _ & _ & _ & _ & Rn & _).
  destruct (C43_history_natural2 F2 z2 hn) as (n' & Rn' & _ & _ & SH). rewrite Rn in Rn'. inversion Rn' as [EN]. clear Rn'. rewrite <- EN in SH. clear EN.
  assert (ROW := fun i j => row2 D1x D2x d1r d2r D1y D2y d1s d2s alpha phi px pxx py pyy i j DX DY NX NY Po Pa).
  (* flux values of the sides that carry a flux condition *)
  assert (NW : forall s x y, ~ has (spec_fun F2 z2 hist s) -> has (spec_nat F2 hn s) /\ w (side_index s) x y = match spec_nat F2 hn s with Some u => u x y | None => 0%R end).
  { intros s x y N. destruct (WP s) as [[Q _]|[_ Q]]; [contradiction|]. split; auto. assert (S := SH s). unfold shows in S. destruct (spec_nat F2 hn s) as [u|]; [|now destruct Q].
    destruct S as [_ S]. now rewrite (nth_error_nth _ _ z2 S). }
  assert (BD : forall i j, i < nx -> j < ny -> on_boundary nx ny i j -> ~ presc2 R 0%R hist nx ny i j ->
     en2 i j = true /\ g2 source i j = over_sides nx ny i j (fun s => match spec_nat F2 hn s with Some u => u (fx i) (fy j) | None => 0%R end)).
  { intros i j Hi Hj B NP. unfold presc2 in NP.
    assert (ES : forall s, has (spec_nat F2 hn s) -> isS (spec_nat F2 hn s) = true) by (intros s Q; destruct (spec_nat F2 hn s); [auto|now destruct Q]).
    assert (N0 : i = 0 -> ~ has (spec_fun F2 z2 hist Xmin)) by tauto. assert (N1 : i = nx - 1 -> ~ has (spec_fun F2 z2 hist Xmax)) by tauto.
    assert (N2 : j = 0 -> ~ has (spec_fun F2 z2 hist Ymin)) by tauto. assert (N3 : j = ny - 1 -> ~ has (spec_fun F2 z2 hist Ymax)) by tauto.
    split.
    - unfold en2. destruct (Nat.eqb_spec i 0); [apply ES, (NW Xmin 0%R 0%R); auto|]. destruct (Nat.eqb_spec i (nx - 1)); [apply ES, (NW Xmax 0%R 0%R); auto|].
      destruct (Nat.eqb_spec j 0); [apply ES, (NW Ymin 0%R 0%R); auto|]. destruct (Nat.eqb_spec j (ny - 1)); [apply ES, (NW Ymax 0%R 0%R); auto|].
      exfalso. unfold on_boundary in B. tauto.
    - unfold g2. replace ((i =? 0) || (i =? nx - 1) || (j =? 0) || (j =? ny - 1)) with true.
      2:{ symmetry. rewrite !orb_true_iff, !Nat.eqb_eq. unfold on_boundary in B. tauto. }
      unfold over_sides. f_equal; [f_equal; [f_equal|]|].
      + destruct (Nat.eqb_spec i 0); auto. apply (NW Xmin); auto.
      + destruct (Nat.eqb_spec i (nx - 1)); auto. apply (NW Xmax); auto.
      + destruct (Nat.eqb_spec j 0); auto. apply (NW Ymin); auto.
      + destruct (Nat.eqb_spec j (ny - 1)); auto. apply (NW Ymax); auto. }
  assert (IT : forall i j, i < nx -> j < ny -> 0 < i < nx - 1 -> 0 < j < ny - 1 -> ~ presc2 R 0%R hist nx ny i j /\ en2 i j = false /\ g2 source i j = source (fx i) (fy j)).
  { intros i j Hi Hj Bi Bj. split; [unfold presc2; lia|]. unfold en2, g2.
    rewrite (proj2 (Nat.eqb_neq i 0)), (proj2 (Nat.eqb_neq i (nx - 1))), (proj2 (Nat.eqb_neq j 0)), (proj2 (Nat.eqb_neq j (ny - 1))) by lia. auto. }
  split.
  - intros (_ & HU & HP) i j Hi Hj x y. assert (Hm : i + j * nx < nx * ny) by (now apply idx_lt). splits.
    + intros Bi Bj. destruct (IT i j Hi Hj Bi Bj) as (N & E1 & E2). specialize (HU _ Hm). rewrite IP in HU by auto. specialize (HU N). rewrite ROW, E1 in HU by auto.
      unfold g2n in HU. rewrite mod_idx, div_idx, E2 in HU by auto. exact HU.
    + intros Q. specialize (HP _ Hm). rewrite IP in HP by auto. specialize (HP Q). rewrite nodal2_nth in HP by auto. unfold bv2n in HP. rewrite !mod_idx, !div_idx in HP by auto. exact HP.
    + intros B N. destruct (BD i j Hi Hj B N) as (E1 & E2). specialize (HU _ Hm). rewrite IP in HU by auto. specialize (HU N). rewrite ROW, E1 in HU by auto.
      unfold g2n in HU. rewrite mod_idx, div_idx, E2 in HU by auto. exact HU.
  - intros H. split; [apply nodal2_length|]. split; intros m Hm; (destruct (idx_split nx ny m) as (i & j & Hi & Hj & ->); [lia|auto|]); rewrite IP by auto; intros Q; destruct (H i j Hi Hj) as (K1 & K2 & K3).
    + rewrite ROW by auto. unfold g2n. rewrite mod_idx, div_idx by auto.
      destruct (Nat.eq_dec i 0) as [Z|]; [|destruct (Nat.eq_dec i (nx - 1)) as [Z|]; [|destruct (Nat.eq_dec j 0) as [Z|]; [|destruct (Nat.eq_dec j (ny - 1)) as [Z|]]]].
      1-4: assert (B : on_boundary nx ny i j) by (unfold on_boundary; tauto); destruct (BD i j Hi Hj B Q) as (E1 & E2); rewrite E1, E2; now apply K3.
      destruct (IT i j Hi Hj ltac:(lia) ltac:(lia)) as (_ & E1 & E2). rewrite E1, E2. apply K1; lia.
    + rewrite nodal2_nth by auto. unfold bv2n. rewrite !mod_idx, !div_idx by auto. now apply K2.
Qed.

(** the polynomial through a nodal vector, with its derivatives *)
Lemma nodal_poly2 a : xmin <> xmax -> ymin <> ymax -> length a = nx * ny -> exists phi, is_poly2 nx ny phi /\ a = nodal2 xmin xmax ymin ymax nx ny phi.
Proof using FR.
  intros NX NY La. destruct spc2_inv as (Hx & Hy & _). destruct (lagrange_basis xmin xmax nx NX ltac:(lia)) as (L & LP & LN). destruct (lagrange_basis ymin ymax ny NY ltac:(lia)) as (M & MP & MN).
  exists (fun x y => sumn ny (fun l => sumn nx (fun k => nth (k + l * nx) a 0 * L k x * M l y)))%R. split; [split|].
  - intros y. apply (is_poly_sum nx ny (fun l x => sumn nx (fun k => nth (k + l * nx) a 0 * L k x * M l y)))%R. intros l Hl.
    apply (is_poly_sum nx nx (fun k x => nth (k + l * nx) a 0 * L k x * M l y)%R). intros k Hk.
    apply is_poly_ext with (fun x => (nth (k + l * nx) a 0 * M l y) * L k x)%R; [|intros; ring]. apply is_poly_scal. auto.
  - intros x. apply (is_poly_sum ny ny (fun l y => sumn nx (fun k => nth (k + l * nx) a 0 * L k x * M l y)))%R. intros l Hl.
    apply (is_poly_sum ny nx (fun k y => nth (k + l * nx) a 0 * L k x * M l y)%R). intros k Hk. apply is_poly_scal. auto.
  - apply nth_ext with (d := 0%R) (d' := 0%R); [now rewrite nodal2_length|]. intros m Hm. rewrite nodal2_nth by lia.
    destruct (idx_split nx ny m) as (i & j & Hi & Hj & ->); [lia|lia|]. rewrite mod_idx, div_idx by auto.
    rewrite (sumn_ext ny _ (fun l => sumn nx (fun k => (if (i =? k) && (j =? l) then 1 else 0) * nth (k + l * nx) a 0))%R).
    2:{ intros l Hl. apply sumn_ext. intros k Hk. rewrite LN, MN by auto. destruct (i =? k), (j =? l); cbn [andb]; ring. }
    rewrite (row_d nx ny i j 1%R (fun k l => nth (k + l * nx) a 0%R)) by auto. ring.
Qed.
End Two.

Lemma poly2_partials nx ny phi : is_poly2 nx ny phi -> exists px pxx py pyy, partials phi px pxx py pyy.
Proof.
  intros [P1 P2].
  assert (DD : forall n g, is_poly n g -> (forall t, is_derive g t (Derive g t)) /\ (forall t, is_derive (Derive g) t (Derive (Derive g) t))).
  { intros n g Hg. destruct (poly_derivs n g Hg) as (g1 & g2 & E1 & E2).
    assert (EQ : forall t, Derive g t = g1 t) by (intros t; now apply is_derive_unique). split.
    - intros t. rewrite EQ. apply E1.
    - intros t. assert (K : is_derive (Derive g) t (g2 t)). { apply is_derive_ext with g1; auto. } rewrite (is_derive_unique _ _ _ K). exact K. }
  exists (fun x y => Derive (fun t => phi t y) x), (fun x y => Derive (Derive (fun t => phi t y)) x), (fun x y => Derive (fun t => phi x t) y), (fun x y => Derive (Derive (fun t => phi x t)) y).
  unfold partials. splits; intros x y.
  - apply (proj1 (DD nx (fun t => phi t y) (P1 y))).
  - apply (proj2 (DD nx (fun t => phi t y) (P1 y))).
  - apply (proj1 (DD ny (fun t => phi x t) (P2 x))).
  - apply (proj2 (DD ny (fun t => phi x t) (P2 x))).
Qed.

(** ** theorems *)
(** Both systems hold exactly the collocation equations: the nodal values of a polynomial solve the reduced system, or the
    Lagrange system for some multipliers, if and only if the polynomial satisfies the equation at the interior points and
    the boundary conditions. *)
Theorem C86_collocation : forall f hist hn xmin xmax ymin ymax nx ny kx ky alpha source (phi px pxx py pyy : R -> R -> R),
  spc2_from f hist hn xmin xmax ymin ymax nx ny kx ky ->
  xmin <> xmax -> ymin <> ymax -> well_posed2 hist hn -> is_poly2 nx ny phi -> partials phi px pxx py pyy ->
  (0 < eqs_nu (s2_eqs f) -> 0 < eqs_np (s2_eqs f) -> forall extra, exists kb kc a0 ac fb,
    spc2_get_matrices_sps f alpha extra = Ok (kb, kc) /\ spc2_get_vectors_sps f source = Ok (a0, ac, fb) /\
    ((exists ab, reduced_solution kb kc ac fb ab /\ joined_sps R 0%R (s2_eqs f) ab ac = Ok (nodal2 xmin xmax ymin ymax nx ny phi)) <->
     collocates2 hist hn xmin xmax ymin ymax nx ny kx ky alpha source phi px pxx py pyy)) /\
  (forall extra cc, exists mm oc b0 ff,
    spc2_get_matrices_lmm f alpha extra cc = Ok (mm, oc) /\ spc2_get_vectors_lmm f source = Ok (b0, ff) /\
    ((exists lam, length lam = eqs_np (s2_eqs f) /\ solution mm ff (nodal2 xmin xmax ymin ymax nx ny phi ++ lam)) <->
     collocates2 hist hn xmin xmax ymin ymax nx ny kx ky alpha source phi px pxx py pyy)).
Proof.
  intros f hist hn xmin xmax ymin ymax nx ny kx ky alpha source phi px pxx py pyy FR NX NY WP Po Pa.
  destruct (mats2 f hist hn xmin xmax ymin ymax nx ny kx ky FR alpha) as (d1r & d2r & D1x & D2x & d1s & d2s & D1y & D2y & DX & DY & MS & ML).
  destruct (spc2_inv f hist hn xmin xmax ymin ymax nx ny kx ky FR) as (Hx & Hy & p & _ & _ & _ & _ & _ & _ & _ & _ & D & IP & _).
  assert (VAL := fun m n => val2_spc f hist hn xmin xmax ymin ymax nx ny kx ky FR alpha d1r d2r D1x D2x d1s d2s D1y D2y m n DX DY).
  assert (GC := grid_collocates2 f hist hn xmin xmax ymin ymax nx ny kx ky FR D1x D2x d1r d2r D1y D2y d1s d2s p alpha source phi px pxx py pyy DX DY D IP NX NY Po Pa WP).
  assert (VS := vec2_sps f hist hn xmin xmax ymin ymax nx ny kx ky FR source). assert (VL := vec2_lmm f hist hn xmin xmax ymin ymax nx ny kx ky FR source). split.
  - intros NU NP extra. destruct (spc_sps_entries (s2_eqs f) (nx * ny) p D _ _ VAL extra NU NP) as (kb & kc & E & _).
    assert (VS' := VS). destruct VS' as (a0 & ac & fb & EV & _). exists kb, kc, a0, ac, fb. rewrite MS. splits; auto. rewrite <- GC.
    apply (reduced_grid (s2_eqs f) (nx * ny) p D _ _ VAL _ _ (spc_sps (spc2_val f alpha d1r d1s d2r d2s) (s2_eqs f) (nx * ny * (nx * ny)) extra) (spc2_get_vectors_sps f source) ltac:(eauto) VS _ kb kc a0 ac fb NU NP E EV).
  - intros extra cc. assert (N0 : 0 < nx * ny) by nia. destruct (spc_lmm_entries (s2_eqs f) (nx * ny) p D _ _ VAL extra cc N0) as (mm & oc & E & _).
    assert (VL' := VL). destruct VL' as (b0 & ff & EV & _). exists mm, oc, b0, ff. rewrite ML. splits; auto. rewrite <- GC.
    apply (lagrange_grid (s2_eqs f) (nx * ny) p D _ _ VAL _ _ (spc_lmm (spc2_val f alpha d1r d1s d2r d2s) (s2_eqs f) (nx * ny * (nx * ny)) extra cc) (spc2_get_vectors_lmm f source) ltac:(eauto) VL _ mm oc b0 ff N0 E EV). apply nodal2_length.
Qed.

(** Whatever a driver returns with an exact linear solver is the nodal vector of a polynomial, of degree below nx in x and below
    ny in y, that satisfies the equation at the interior grid points and the boundary conditions. *)
Theorem C86_solve : forall solve f hist hn xmin xmax ymin ymax nx ny kx ky alpha source a,
  spc2_from f hist hn xmin xmax ymin ymax nx ny kx ky -> xmin <> xmax -> ymin <> ymax -> exact_solver solve ->
  0 < eqs_nu (s2_eqs f) /\ 0 < eqs_np (s2_eqs f) /\ spc2_solve_sps solve f alpha source = Ok a \/ spc2_solve_lmm solve f alpha source = Ok a ->
  exists phi px pxx py pyy, is_poly2 nx ny phi /\ partials phi px pxx py pyy /\
    a = nodal2 xmin xmax ymin ymax nx ny phi /\ collocates2 hist hn xmin xmax ymin ymax nx ny kx ky alpha source phi px pxx py pyy.
Proof.
  intros solve f hist hn xmin xmax ymin ymax nx ny kx ky alpha source a FR NX NY EX H.
  destruct (mats2 f hist hn xmin xmax ymin ymax nx ny kx ky FR alpha) as (d1r & d2r & D1x & D2x & d1s & d2s & D1y & D2y & DX & DY & MS & ML).
  destruct (spc2_inv f hist hn xmin xmax ymin ymax nx ny kx ky FR) as (Hx & Hy & p & _ & _ & _ & _ & _ & _ & _ & _ & D & IP & _ & _ & _ & _ & _ & _ & _ & _ & Re & Rn & PX & PY & _).
  assert (VAL := fun m n => val2_spc f hist hn xmin xmax ymin ymax nx ny kx ky FR alpha d1r d2r D1x D2x d1s d2s D1y D2y m n DX DY).
  assert (VS := vec2_sps f hist hn xmin xmax ymin ymax nx ny kx ky FR source). assert (VL := vec2_lmm f hist hn xmin xmax ymin ymax nx ny kx ky FR source).
  set (gg := g2n f xmin xmax ymin ymax nx ny source) in *. set (bb := bv2n hist xmin xmax ymin ymax nx ny) in *.
  assert (Q : well_posed2 hist hn /\ grid_equations (nx * ny) p (A2n hn xmin xmax ymin ymax nx ny kx ky D1x D2x D1y D2y alpha) gg bb a).
  { assert (WP : ebc2_validate F2 (s2_e f) (s2_n f) = Ok tt -> well_posed2 hist hn).
    { intros V. apply (C43_validate2 F2 z2 hist hn _ _ Re Rn) in V. rewrite PX, PY in V. destruct V as [[V0 V1] [V2 V3]]. intros []; auto. }
    assert (N0 : 0 < nx * ny) by nia.
    destruct H as [(NU & NP & H)|H].
    - unfold spc2_solve_sps in H. apply bind_ok in H. destruct H as ([] & V & H). split; auto. rewrite MS in H.
      apply (driver_sps (s2_eqs f) (nx * ny) p D _ _ VAL gg bb (spc_sps (spc2_val f alpha d1r d1s d2r d2s) (s2_eqs f) (nx * ny * (nx * ny)) 0) (spc2_get_vectors_sps f source) ltac:(eauto) VS solve EX a NU NP H).
    - unfold spc2_solve_lmm in H. apply bind_ok in H. destruct H as ([] & V & H). split; auto. rewrite ML in H.
      apply (driver_lmm (s2_eqs f) (nx * ny) p D _ _ VAL gg bb (spc_lmm (spc2_val f alpha d1r d1s d2r d2s) (s2_eqs f) (nx * ny * (nx * ny)) 0 false) (spc2_get_vectors_lmm f source) ltac:(eauto) VL solve EX a N0 H). }
  destruct Q as [WP GE]. destruct (nodal_poly2 f hist hn xmin xmax ymin ymax nx ny kx ky FR a NX NY (proj1 GE)) as (phi & Po & Ea). subst a.
  destruct (poly2_partials nx ny phi Po) as (px & pxx & py & pyy & Pa). exists phi, px, pxx, py, pyy. splits; auto.
  apply (grid_collocates2 f hist hn xmin xmax ymin ymax nx ny kx ky FR D1x D2x d1r d2r D1y D2y d1s d2s p alpha source phi px pxx py pyy DX DY D IP NX NY Po Pa WP). exact GE.
Qed.

Lemma flow2 f hist hn xmin xmax ymin ymax nx ny kx ky a : spc2_from f hist hn xmin xmax ymin ymax nx ny kx ky -> length a = nx * ny ->
  exists d1r d2r D1x D2x d1s d2s D1y D2y, diff_ok (s2_interp_x f) nx d1r d2r D1x D2x /\ diff_ok (s2_interp_y f) ny d1s d2s D1y D2y /\
  exists wx wy, spc2_flow f a = Ok (wx, wy) /\ length wx = nx * ny /\ length wy = nx * ny /\
    forall i j, i < nx -> j < ny ->
      nth (i + j * nx) wx 0%R = sumn nx (fun k => - kx * D1x i k * (2 / (xmax - xmin)) * nth (k + j * nx) a 0)%R /\
      nth (i + j * nx) wy 0%R = sumn ny (fun l => - ky * D1y j l * (2 / (ymax - ymin)) * nth (i + l * nx) a 0)%R.
Proof.
  intros FR La.
  destruct (spc2_inv f hist hn xmin xmax ymin ymax nx ny kx ky FR) as (Hx & Hy & p & d1r & d2r & D1x & D2x & d1s & d2s & D1y & D2y & D & IP & X1 & X2 & X3 & X4 & X5 & X6 & GI & LC & _ & _ & _ & _ & DX & DY).
  exists d1r, d2r, D1x, D2x, d1s, d2s, D1y, D2y. split; auto. split; auto. clear IP. assert (NEQ : eq_neq (s2_eqs f) = nx * ny) by apply D. clear D.
  unfold spc2_flow. rewrite NEQ, La, Nat.eqb_refl. cbn [negb]. rewrite (do_g1 _ _ _ _ _ _ DX), (do_g1 _ _ _ _ _ _ DY). cbn [unwrap bind].
  assert (GX : g2_nx R (s2_grid f) = nx) by apply GI. unfold grid2_get_ij. rewrite GX, X1, X2, X3, X4, X5, X6. clear GI LC NEQ.
  set (cx := (2 / (xmax - xmin))%R). set (cy := (2 / (ymax - ymin))%R).
  set (SX := fun i j => sumn nx (fun k => - kx * D1x i k * cx * nth (k + j * nx) a 0)%R). set (SY := fun i j => sumn ny (fun l => - ky * D1y j l * cy * nth (i + l * nx) a 0)%R).
  match goal with |- exists wx wy, for_range 0 _ ?F ?S = _ /\ _ => set (G := F); set (S0 := S) end.
  destruct (for_range_inv (fun m (ww : list R * list R) => length (fst ww) = nx * ny /\ length (snd ww) = nx * ny /\
      forall r, r < m -> nth r (fst ww) 0%R = SX (r mod nx) (r / nx) /\ nth r (snd ww) 0%R = SY (r mod nx) (r / nx)) G 0 (nx * ny) S0) as ((wx & wy) & E & L1 & L2 & N).
  - lia.
  - unfold S0. cbn [fst snd]. rewrite !repeat_length. splits; auto. intros; lia.
  - intros m (wx & wy) Hm (L1 & L2 & N). cbn [fst snd] in *.
    destruct (idx_split nx ny m) as (i & j & Hi & Hj & EM); [lia|lia|].
    assert (IN : for_range 0 (nx * ny) (fun n '(w0, w1) => akl <- vget a n ;;
        w0 <- (if (m / nx =? n / nx) then d <- d_get d1r (m mod nx) (n mod nx) ;; Ok (w0 + - kx * d * cx * akl)%R else Ok w0) ;;
        w1 <- (if (m mod nx =? n mod nx) then d <- d_get d1s (m / nx) (n / nx) ;; Ok (w1 + - ky * d * cy * akl)%R else Ok w1) ;;
        Ok (w0, w1)) (0%R, 0%R) = Ok (SX (m mod nx) (m / nx), SY (m mod nx) (m / nx))).
    { rewrite EM, mod_idx, div_idx by auto.
      rewrite (for_range_val (fun q => (sumn q (fun n => (if (j =? n / nx)%nat then - kx * D1x i (n mod nx)%nat * cx else 0) * nth n a 0)%R, sumn q (fun n => (if (i =? n mod nx)%nat then - ky * D1y j (n / nx)%nat * cy else 0) * nth n a 0)%R))); [|lia|reflexivity|].
      - f_equal. f_equal.
        + rewrite <- nsum_sumn, sum2. unfold SX. rewrite <- (row_x nx ny j (fun k => - kx * D1x i k * cx)%R (fun k l => nth (k + l * nx) a 0%R) Hj).
          apply sumn_ext. intros l Hl. apply sumn_ext. intros k Hk. now rewrite mod_idx, div_idx by auto.
        + rewrite <- nsum_sumn, sum2. unfold SY. rewrite <- (row_y nx ny i (fun l => - ky * D1y j l * cy)%R (fun k l => nth (k + l * nx) a 0%R) Hi).
          apply sumn_ext. intros l Hl. apply sumn_ext. intros k Hk. now rewrite mod_idx, div_idx by auto.
      - intros n Hn. rewrite (vget_ok a n 0%R) by lia. cbn [bind sumn]. destruct (idx_split nx ny n) as (k & l & Hk & Hl & EN); [lia|lia|].
        assert (M1 : n mod nx = k) by (rewrite EN; apply mod_idx; auto). assert (M2 : n / nx = l) by (rewrite EN; apply div_idx; auto). rewrite M1, M2.
        rewrite (entries_get _ _ _ _ _ (do_e1 _ _ _ _ _ _ DX)), (entries_get _ _ _ _ _ (do_e1 _ _ _ _ _ _ DY)) by auto. cbn [bind].
        destruct (j =? l), (i =? k); cbn [bind]; f_equal; f_equal; ring. }
    unfold G. rewrite IN. cbn [bind]. rewrite !vset_ok by lia. cbn [bind]. eexists. split; [reflexivity|]. cbn [fst snd]. rewrite !upd_length. splits; auto.
    intros r Hr. rewrite !nth_upd by lia. destruct (Nat.eqb_spec r m) as [->|]; auto. apply N. lia.
  - cbn [fst snd] in *. exists wx, wy. splits; auto. intros i j Hi Hj. assert (Q := N (i + j * nx) (idx_lt nx ny i j Hi Hj)). rewrite mod_idx, div_idx in Q by auto. exact Q.
Qed.

(** the flow at the grid points is -kx and -ky times the partial derivatives, for every polynomial *)
Theorem C86_flow : forall f hist hn xmin xmax ymin ymax nx ny kx ky (phi px pxx py pyy : R -> R -> R), spc2_from f hist hn xmin xmax ymin ymax nx ny kx ky ->
  xmin <> xmax -> ymin <> ymax -> is_poly2 nx ny phi -> partials phi px pxx py pyy ->
  spc2_flow f (nodal2 xmin xmax ymin ymax nx ny phi) =
    Ok (nodal2 xmin xmax ymin ymax nx ny (fun x y => - kx * px x y)%R, nodal2 xmin xmax ymin ymax nx ny (fun x y => - ky * py x y)%R).
Proof.
  intros f hist hn xmin xmax ymin ymax nx ny kx ky phi px pxx py pyy FR NX NY [P1 P2] (H1 & _ & H3 & _).
  destruct (flow2 _ _ _ _ _ _ _ _ _ _ _ (nodal2 xmin xmax ymin ymax nx ny phi) FR (nodal2_length _ _ _ _ _ _ _)) as (d1r & d2r & D1x & D2x & d1s & d2s & D1y & D2y & DX & DY & wx & wy & -> & L1 & L2 & N).
  destruct (spc2_inv f hist hn xmin xmax ymin ymax nx ny kx ky FR) as (Hx & Hy & _).
  f_equal. f_equal; (apply nth_ext with (d := 0%R) (d' := 0%R); [now rewrite nodal2_length|]; intros m Hm; rewrite nodal2_nth by lia;
    destruct (idx_split nx ny m) as (i & j & Hi & Hj & ->); [lia|lia|]; rewrite mod_idx, div_idx by auto).
  - rewrite (proj1 (N i j Hi Hj)).
    rewrite <- (phys1 _ _ _ _ _ _ xmin xmax DX NX (fun t => phi t (xnode ymin ymax ny j)) i (px (xnode xmin xmax nx i) (xnode ymin ymax ny j)) (P1 _) Hi (H1 _ _)), nsum_sumn, <- sumn_scal.
    apply sumn_ext. intros k Hk. rewrite nodal2_nth by (apply idx_lt; auto). rewrite mod_idx, div_idx by auto. ring.
  - rewrite (proj2 (N i j Hi Hj)).
    rewrite <- (phys1 _ _ _ _ _ _ ymin ymax DY NY (fun t => phi (xnode xmin xmax nx i) t) j (py (xnode xmin xmax nx i) (xnode ymin ymax ny j)) (P2 _) Hj (H3 _ _)), nsum_sumn, <- sumn_scal.
    apply sumn_ext. intros l Hl. rewrite nodal2_nth by (apply idx_lt; auto). rewrite mod_idx, div_idx by auto. ring.
Qed.

Theorem C86_flow_length : forall f hist hn xmin xmax ymin ymax nx ny kx ky a, spc2_from f hist hn xmin xmax ymin ymax nx ny kx ky ->
  (length a <> nx * ny <-> exists e, spc2_flow f a = Err e) /\ spc2_flow f a <> Panic.
Proof.
  intros f hist hn xmin xmax ymin ymax nx ny kx ky a FR. destruct (Nat.eq_dec (length a) (nx * ny)) as [La|La].
  - destruct (flow2 _ _ _ _ _ _ _ _ _ _ _ a FR La) as (d1r & d2r & D1x & D2x & d1s & d2s & D1y & D2y & DX & DY & wx & wy & -> & _).
    split; [|discriminate]. split; [contradiction|intros (e & [=])].
  - destruct (spc2_inv f hist hn xmin xmax ymin ymax nx ny kx ky FR) as (Hx & Hy & p & _ & _ & _ & _ & _ & _ & _ & _ & D & _).
    unfold spc2_flow. assert (NEQ : eq_neq (s2_eqs f) = nx * ny) by apply D. rewrite NEQ. destruct (Nat.eqb_spec (length a) (nx * ny)) as [|_]; [contradiction|]. cbn [negb].
    split; [split; eauto|discriminate].
Qed.

(** ** findings *)
(** `get_matrices_sps`, and with it `solve_sps`, panics when no side has prescribed values: flux conditions on all sides with alpha > 0 are a well-posed problem, accepted
    by `validate` *)
Theorem C86_flux_only_refuted : ~ (forall solve f hist hn xmin xmax ymin ymax nx ny kx ky alpha source, spc2_from f hist hn xmin xmax ymin ymax nx ny kx ky ->
  (xmin < xmax)%R -> (ymin < ymax)%R -> well_posed2 hist hn -> (0 < alpha)%R -> spc2_solve_sps solve f alpha source <> Panic).
Proof.
  intros H. pose (hn := [(Xmin, z2 : F2); (Xmax, z2 : F2); (Ymin, z2 : F2); (Ymax, z2 : F2)]).
  destruct (C43_history_natural2 F2 z2 hn) as (n & Rn & _).
  destruct (C86_new [] hn (ebc2_new F2 z2) n 0%R 1%R 0%R 1%R 3 3 1%R 1%R) as ((_ & (f & E)) & _); auto. { splits; try lia; reflexivity. }
  assert (FR : spc2_from f [] hn 0%R 1%R 0%R 1%R 3 3 1%R 1%R) by (exists (ebc2_new F2 z2), n; splits; auto).
  assert (WP : well_posed2 [] hn). { intros s. right. unfold has. destruct s; cbn; split; congruence. }
  apply (H (fun _ _ => Err "") f [] hn 0%R 1%R 0%R 1%R 3 3 1%R 1%R 1%R z2 FR); auto; try lra.
  destruct (mats2 f _ _ _ _ _ _ _ _ _ _ FR 1%R) as (d1r & d2r & D1x & D2x & d1s & d2s & D1y & D2y & DX & DY & MS & _).
  destruct (spc2_inv f _ _ _ _ _ _ _ _ _ _ FR) as (Hx & Hy & p & _ & _ & _ & _ & _ & _ & _ & _ & D & IP & _ & _ & _ & _ & _ & _ & _ & _ & Re & Rn' & PX & PY & _).
  unfold spc2_solve_sps. rewrite (proj2 (proj1 (C43_validate2 F2 z2 [] hn (s2_e f) (s2_n f) Re Rn'))).
  2:{ rewrite PX, PY. split; split; apply WP. }
  cbn [bind]. unfold spc_solve_sps. rewrite MS.
  assert (NP : eqs_np (s2_eqs f) = 0).
  { destruct (eqs_np (s2_eqs f)) eqn:Q; auto. destruct (p_nth _ _ _ D 0 ltac:(lia)) as [B1 B]. destruct (idx_split 3 3 _ ltac:(lia) B1) as (i & j & Hi & Hj & EM). rewrite EM in B.
    apply IP in B; auto. unfold presc2, has in B. cbn in B. intuition congruence. }
  unfold spc_sps. rewrite NP. unfold coo_new at 2. cbn [Nat.eqb Nat.ltb Nat.leb].
  destruct (coo_new R 0%R (eqs_nu (s2_eqs f)) _ _ _) as [c| |]; cbn [unwrap bind]; try reflexivity.
  repeat match goal with |- context [if ?b then _ else _] => destruct b end; reflexivity.
Qed.

(** and it panics when every node has a prescribed value (two grid points along an axis, all sides prescribed) *)
Theorem C86_all_prescribed_refuted : ~ (forall solve f hist hn xmin xmax ymin ymax nx ny kx ky alpha source, spc2_from f hist hn xmin xmax ymin ymax nx ny kx ky ->
  (xmin < xmax)%R -> (ymin < ymax)%R -> well_posed2 hist hn -> spc2_solve_sps solve f alpha source <> Panic).
Proof.
  intros H. pose (hist := [OpHomogeneous F2]).
  destruct (C43_history2 F2 z2 hist) as (e & Re & _).
  destruct (C86_new hist [] e (nbc2_new F2 z2) 0%R 1%R 0%R 1%R 2 3 1%R 1%R) as ((_ & (f & E)) & _); auto. { splits; try lia; reflexivity. }
  assert (FR : spc2_from f hist [] 0%R 1%R 0%R 1%R 2 3 1%R 1%R) by (exists e, (nbc2_new F2 z2); splits; auto).
  assert (WP : well_posed2 hist []). { intros s. left. unfold has. destruct s; cbn; split; congruence. }
  apply (H (fun _ _ => Err "") f hist [] 0%R 1%R 0%R 1%R 2 3 1%R 1%R 1%R z2 FR); auto; try lra.
  destruct (mats2 f _ _ _ _ _ _ _ _ _ _ FR 1%R) as (d1r & d2r & D1x & D2x & d1s & d2s & D1y & D2y & DX & DY & MS & _).
  destruct (spc2_inv f _ _ _ _ _ _ _ _ _ _ FR) as (Hx & Hy & p & _ & _ & _ & _ & _ & _ & _ & _ & D & IP & _ & _ & _ & _ & _ & _ & _ & _ & Re' & Rn' & PX & PY & _).
  unfold spc2_solve_sps. rewrite (proj2 (proj1 (C43_validate2 F2 z2 hist [] (s2_e f) (s2_n f) Re' Rn'))).
  2:{ rewrite PX, PY. split; split; apply WP. }
  cbn [bind]. unfold spc_solve_sps. rewrite MS.
  assert (NU : eqs_nu (s2_eqs f) = 0).
  { destruct (eqs_nu (s2_eqs f)) eqn:Q; auto. destruct (u_nth _ _ _ D 0 ltac:(lia)) as [B1 B]. destruct (idx_split 2 3 _ ltac:(lia) B1) as (i & j & Hi & Hj & EM). rewrite EM in B.
    exfalso. apply B, IP; auto. unfold presc2, has. cbn. destruct i as [|[|i]]; [left|right; left|lia]; split; auto; discriminate. }
  unfold spc_sps. rewrite NU. reflexivity.
Qed.

(** ** non-vacuity: -2 phi_xx - phi_yy + phi = x y on [0,1]x[0,2], phi = x y: zero on Xmin and Ymin, flux -2 y on Xmax, -x on Ymax *)
Example C86_example : exists f, let hist := [OpSet F2 Xmin z2; OpSet F2 Ymin z2] in let hn := [(Xmax, (fun x y => -2 * y)%R : F2); (Ymax, (fun x y => - x)%R : F2)] in
  spc2_from f hist hn 0%R 1%R 0%R 2%R 4 5 2%R 1%R /\ 0 < eqs_nu (s2_eqs f) /\ 0 < eqs_np (s2_eqs f) /\ well_posed2 hist hn /\
  is_poly2 4 5 Rmult /\ partials Rmult (fun x y => y) (fun x y => 0%R) (fun x y => x) (fun x y => 0%R) /\
  collocates2 hist hn 0 1 0 2 4 5 2 1 1 Rmult Rmult (fun x y => y) (fun x y => 0%R) (fun x y => x) (fun x y => 0%R).
Proof.
  pose (hist := [OpSet F2 Xmin z2; OpSet F2 Ymin z2]). pose (hn := [(Xmax, (fun x y => -2 * y)%R : F2); (Ymax, (fun x y => - x)%R : F2)]).
  destruct (C43_history2 F2 z2 hist) as (e & Re & _). destruct (C43_history_natural2 F2 z2 hn) as (n & Rn & _).
  destruct (C86_new hist hn e n 0%R 1%R 0%R 2%R 4 5 2%R 1%R) as ((_ & (f & E)) & _); auto. { splits; try lia; reflexivity. }
  assert (FR : spc2_from f hist hn 0%R 1%R 0%R 2%R 4 5 2%R 1%R) by (exists e, n; splits; auto).
  exists f. cbv zeta. split; auto. destruct (spc2_inv f _ _ _ _ _ _ _ _ _ _ FR) as (Hx & Hy & p & _ & _ & _ & _ & _ & _ & _ & _ & D & IP & _).
  splits.
  - destruct (iu_ok _ _ _ D (1 + 1 * 4)) as (_ & L & _); [lia| |lia]. rewrite IP by lia. unfold presc2. lia.
  - destruct (ip_ok _ _ _ D (0 + 1 * 4)) as (_ & L & _); [lia| |lia]. rewrite IP by lia. left. cbn. split; [discriminate|auto].
  - intros []; unfold has; cbn; [left|right|left|right]; split; congruence.
  - split; intros t; [exists [0%R; t]|exists [0%R; t]]; (split; [cbn; lia|]); intros u; cbn; ring.
  - unfold partials. splits; intros x y; auto_derive; auto; ring.
  - intros i j Hi Hj. cbv zeta. assert (X0 : xnode 0 1 4 0 = 0%R) by (apply xnode_first; lia). assert (Y0 : xnode 0 2 5 0 = 0%R) by (apply xnode_first; lia). splits.
    + intros _ _. ring.
    + unfold presc2, has, bval2. cbn. intros Q. destruct (j =? 4), (i =? 3); (destruct (Nat.eqb_spec j 0) as [->|]; [rewrite Y0; ring|]; destruct (Nat.eqb_spec i 0) as [->|]; [rewrite X0; ring|];
      exfalso; intuition congruence).
    + unfold presc2, on_boundary, has, over_sides, out_flow. cbn. intros B N.
      destruct (Nat.eqb_spec i 0) as [->|]; [exfalso; apply N; left; split; [discriminate|auto]|].
      destruct (Nat.eqb_spec j 0) as [->|]; [exfalso; apply N; right; right; left; split; [discriminate|auto]|].
      destruct (i =? 3), (j =? 4); ring.
Qed.

Print Assumptions C86_new.
Print Assumptions C86_collocation.
Print Assumptions C86_solve.
Print Assumptions C86_flow.
Print Assumptions C86_flow_length.
Print Assumptions C86_flux_only_refuted.
Print Assumptions C86_all_prescribed_refuted.
