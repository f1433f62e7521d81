(** Every uniform grid with any boundary condition history gives a solver (so that the hypotheses of C45-C47 are met);
    the domain facts of C46 hold on such grids. *)
From Coq Require Import Sorting.Permutation Sorting.Sorted.
From Verif Require Import Base RBase Dense_Model Sparse_Model Sparse_Spec Sparse_CooProofs Sparse_Ops Sparse_Ring Eqs_Model Eqs_Thm Grid_Model Grid_Thm Bcs_Model Bcs_Thm
  Fdm_Model Fdm_Asm Fdm_Stencil Fdm_Cap Fdm_Entries Fdm_Coef Fdm_Thm Fdm_Vec Fdm_Equiv Fdm_Cons.
Local Open Scope nat_scope.

Section Ex.
Variable tol : R.
Hypothesis tol_pos : (0 <= tol)%R.

Lemma Rltb_true a b : (a < b)%R -> Rltb a b = true.
Proof. intros. destruct (Rltb_spec a b); auto. lra. Qed.
Lemma Rltb_false a b : (b <= a)%R -> Rltb a b = false.
Proof. intros. destruct (Rltb_spec a b); auto. lra. Qed.

Lemma get_dx_uniform g nx h : g1_nx R g = nx -> 2 <= nx -> length (g1_coords R g) = nx -> (0 < h)%R ->
  (forall i, i + 1 < nx -> (nth (i + 1) (g1_coords R g) 0 - nth i (g1_coords R g) 0 = h)%R) ->
  grid1_get_dx R 0%R tol Rminus Rabs Rltb g = Ok (Some h).
Proof using tol_pos.
  intros Hn Hx LC Hh U. unfold grid1_get_dx. rewrite Hn.
  pose (I := fun i (st : option (option R)) => if i =? 1 then st = Some None else st = Some (Some h)).
  set (body := fun i st => _).
  destruct (for_range_inv I body 1 nx (Some None)) as (s & E & Q); [lia|reflexivity| |].
  - intros i st Hi Hst. unfold I in Hst. unfold body.
    assert (D : (nth i (g1_coords R g) 0 - nth (i - 1) (g1_coords R g) 0 = h)%R).
    { assert (Q := U (i - 1) ltac:(lia)). replace (i - 1 + 1) with i in Q by lia. exact Q. }
    exists (Some (Some h)). split; [|unfold I; rewrite (proj2 (Nat.eqb_neq (S i) 1)) by lia; reflexivity].
    destruct (Nat.eqb_spec i 1).
    + subst st. rewrite !(vget_ok _ _ 0%R) by lia. cbn [bind]. rewrite D. now rewrite Rltb_true.
    + subst st. rewrite !(vget_ok _ _ 0%R) by lia. cbn [bind]. rewrite D.
      rewrite Rltb_false; auto. replace (h - h)%R with 0%R by ring. rewrite Rabs_R0. auto.
  - rewrite E. cbn [bind]. unfold I in Q. rewrite (proj2 (Nat.eqb_neq nx 1)) in Q by lia. now subst s.
Qed.

Theorem C45_fdm1_total_uniform : forall xmin xmax nx hist hn kx,
  2 <= nx -> (xmin < xmax)%R -> Forall (x_only F1) hist -> Forall (fun p => axis_x (fst p) = true) hn ->
  exists grid f, grid1_new_uniform R Rplus Rminus Rmult Rdiv INR Rleb xmin xmax nx = Ok grid /\
    solver1 tol f hist hn grid kx /\ g1_nx R grid = nx /\ f1_dx R f = ((xmax - xmin) / INR (nx - 1))%R /\
    (forall m, m < nx -> nth m (g1_coords R grid) 0%R = (nth 0 (g1_coords R grid) 0 + INR m * f1_dx R f)%R).
Proof using tol_pos.
  intros xmin xmax nx hist hn kx Hx HL X XN.
  assert (G : exists grid, grid1_new_uniform R Rplus Rminus Rmult Rdiv INR Rleb xmin xmax nx = Ok grid).
  { unfold grid1_new_uniform. destruct (Nat.ltb_spec nx 2); [lia|].
    destruct (Rleb_spec xmax xmin); [lra|]. eauto. }
  destruct G as (grid & G). destruct (C42_grid1_uniform_R xmin xmax nx grid G) as (_ & _ & GN & GL & G0 & G1 & GD & GI).
  assert (H1 : (0 < INR (nx - 1))%R) by (apply lt_0_INR; lia).
  assert (Hh : (0 < (xmax - xmin) / INR (nx - 1))%R) by (apply Rdiv_lt_0_compat; lra).
  destruct (C43_history1 F1 z1 hist X) as (e & Re & _).
  destruct (C43_history_natural1 F1 z1 hn XN) as (n & Rn & _).
  destruct (C43_get_nodes1 F1 z1 hist e nx X Re Hx) as (p & EP & ND & IN).
  destruct (C41_numbering nx [p]) as (h & EH & _).
  { assert (B : Forall (fun e => e < nx) p) by (apply Forall_forall; intros m Hm; apply IN in Hm; lia).
    constructor; auto. now apply Forall_forall. }
  cbn [eqs_run] in EH. apply bind_ok in EH. destruct EH as (h' & EH & _).
  exists grid. eexists. split; [exact G|]. rewrite GN. split.
  - unfold solver1. splits; auto; [congruence|]. exists n. split; auto. unfold fdm1_from. splits; auto; [lia|].
    exists e. split; auto. unfold fdm1_new. rewrite (get_dx_uniform grid nx _ GN Hx GL Hh GD). cbn [bind]. rewrite GN, EP. cbn [bind]. rewrite EH. cbn [bind]. reflexivity.
  - cbn [f1_dx]. splits; auto. intros m Hm. induction m as [|m IH]; [cbn; ring|].
    assert (Q := GD m ltac:(lia)). replace (m + 1) with (S m) in Q by lia. rewrite S_INR. rewrite IH in Q by lia. lra.
Qed.

Lemma get_dxdy_uniform g nx ny fx fy hx hy : grid2_is R g nx ny fx fy -> 2 <= nx -> 2 <= ny -> length (g2_coords R g) = nx * ny ->
  (0 < hx)%R -> (0 < hy)%R -> (forall i, i + 1 < nx -> (fx (i + 1)%nat - fx i = hx)%R) -> (forall j, j + 1 < ny -> (fy (j + 1)%nat - fy j = hy)%R) ->
  grid2_get_dx_dy R 0%R tol Rminus Rabs Rltb g = Ok (Some (hx, hy)).
Proof using tol_pos.
  intros GI Hx Hy LC Px Py UX UY. assert (GX : g2_nx R g = nx) by apply GI. assert (GY : g2_ny R g = ny) by apply GI.
  assert (VG : forall i j, i < nx -> j < ny -> vget (g2_coords R g) (i + j * nx) = Ok (fx i, fy j)).
  { intros i j Hi Hj. destruct GI as (_ & _ & _ & _ & _ & G6 & _). specialize (G6 i j Hi Hj). unfold grid2_get_m, grid2_coord in G6. now rewrite GX in G6. }
  unfold grid2_get_dx_dy. rewrite GX, GY.
  pose (ok := fun st : option (option R * option R) => st = Some (Some hx, Some hy)).
  set (inner := fun j st => for_range 1 nx _ st).
  assert (IN : forall j st, 1 <= j < ny -> st = Some (None, None) \/ ok st -> exists st', inner j st = Ok st' /\ ok st').
  { intros j st Hj Hst. unfold inner.
    pose (I := fun i (t : option (option R * option R)) => if i =? 1 then t = Some (None, None) \/ ok t else ok t).
    match goal with |- exists st', for_range 1 nx ?b st = _ /\ _ => destruct (for_range_inv I b 1 nx st) as (s & E & Q) end; [lia|exact Hst| |].
    - intros i t Hi Ht. exists (Some (Some hx, Some hy)). split.
      + assert (K : t = Some (None, None) \/ ok t). { unfold I in Ht. destruct (i =? 1); auto. }
        assert (V1 := VG i j ltac:(lia) ltac:(lia)).
        assert (V2 : vget (g2_coords R g) (i + j * nx - 1) = Ok (fx (i - 1), fy j)).
        { rewrite <- VG by lia. f_equal. lia. }
        assert (V3 : vget (g2_coords R g) (i + j * nx - nx) = Ok (fx i, fy (j - 1))).
        { rewrite <- VG by lia. f_equal. nia. }
        assert (DX : (fx i - fx (i - 1)%nat = hx)%R) by (assert (Q := UX (i - 1) ltac:(lia)); now replace (i - 1 + 1) with i in Q by lia).
        assert (DY : (fy j - fy (j - 1)%nat = hy)%R) by (assert (Q := UY (j - 1) ltac:(lia)); now replace (j - 1 + 1) with j in Q by lia).
        destruct K as [->| ->]; rewrite V1, V2, V3; cbn [bind]; rewrite DX, DY; unfold dx_step.
        * rewrite (Rltb_true _ _ Px). cbn [bind]. now rewrite (Rltb_true _ _ Py).
        * replace (hx - hx)%R with 0%R by ring. rewrite Rabs_R0, Rltb_false by auto. cbn [bind].
          replace (hy - hy)%R with 0%R by ring. rewrite Rabs_R0, Rltb_false by auto. reflexivity.
      + unfold I. destruct (S i =? 1); unfold ok; auto.
    - exists s. split; auto. unfold I in Q. now rewrite (proj2 (Nat.eqb_neq nx 1)) in Q by lia. }
  destruct (for_range_inv (fun j (st : option (option R * option R)) => if j =? 1 then st = Some (None, None) else ok st) inner 1 ny (Some (None, None))) as (s & E & Q);
    [lia|reflexivity| |].
  - intros j st Hj Hst. destruct (IN j st Hj) as (st' & E & K). { destruct (j =? 1); auto. }
    exists st'. split; auto. now rewrite (proj2 (Nat.eqb_neq (S j) 1)) by lia.
  - rewrite E. cbn [bind]. rewrite (proj2 (Nat.eqb_neq ny 1)) in Q by lia. unfold ok in Q. now subst s.
Qed.

Lemma uniform_coords_length xmin xmax ymin ymax nx ny g :
  grid2_new_uniform R Rplus Rminus Rmult Rdiv INR Rleb xmin xmax ymin ymax nx ny = Ok g -> length (g2_coords R g) = nx * ny.
Proof.
  intros H. unfold grid2_new_uniform in H.
  destruct (Nat.ltb_spec nx 2); [discriminate|]. destruct (Nat.ltb_spec ny 2); [discriminate|].
  destruct (Rleb _ _); [discriminate|]. destruct (Rleb _ _); [discriminate|]. cbn zeta in H.
  apply bind_ok in H. destruct H as (coords & E & H). inversion H; subst g; clear H. cbn [g2_coords grid2_alloc].
  rewrite (Nat.mul_comm nx ny).
  refine (for_range_partial (fun j (l : list (R * R)) => length l = j * nx) _ _ _ _ _ _ E _ _); [lia|reflexivity|].
  intros j l l' Hj Hl E'.
  assert (Q : length l' = j * nx + nx); [|lia].
  refine (for_range_partial (fun i (l : list (R * R)) => length l = j * nx + i) _ _ _ _ _ _ E' _ _); [lia|lia|].
  intros i t t' Hi Ht Et. inversion Et; subst. rewrite app_length. cbn [length]. lia.
Qed.

Theorem C45_fdm2_total_uniform : forall xmin xmax ymin ymax nx ny hist hn kx ky,
  2 <= nx -> 2 <= ny -> (xmin < xmax)%R -> (ymin < ymax)%R ->
  let hx := ((xmax - xmin) / INR (nx - 1))%R in
  let hy := ((ymax - ymin) / INR (ny - 1))%R in
  let fx i := (xmin + INR i * hx)%R in
  let fy j := (ymin + INR j * hy)%R in
  exists grid f, grid2_new_uniform R Rplus Rminus Rmult Rdiv INR Rleb xmin xmax ymin ymax nx ny = Ok grid /\
    solver2 tol f hist hn grid nx ny fx fy kx ky /\ f2_dx R f = hx /\ f2_dy R f = hy.
Proof using tol_pos.
  intros xmin xmax ymin ymax nx ny hist hn kx ky Hx Hy Lx Ly hx hy fx fy.
  assert (H1 : (0 < INR (nx - 1))%R) by (apply lt_0_INR; lia).
  assert (H2 : (0 < INR (ny - 1))%R) by (apply lt_0_INR; lia).
  assert (Px : (0 < hx)%R) by (apply Rdiv_lt_0_compat; lra).
  assert (Py : (0 < hy)%R) by (apply Rdiv_lt_0_compat; lra).
  destruct (C42_grid2_uniform R Rplus Rminus Rmult Rdiv INR Rleb 0%R xmin xmax ymin ymax nx ny Hx Hy) as (grid & G & GI).
  { destruct (Rleb_spec xmax xmin); auto; lra. } { destruct (Rleb_spec ymax ymin); auto; lra. }
  assert (GL := uniform_coords_length _ _ _ _ _ _ _ G).
  destruct (C43_history2 F2 z2 hist) as (e & Re & _).
  destruct (C43_history_natural2 F2 z2 hn) as (n & Rn & _).
  destruct (C43_get_nodes2 F2 z2 hist e (grid2_nodes R grid) Re) as (p & EP & ND & IN).
  assert (B : Forall (fun e => e < nx * ny) p).
  { apply Forall_forall. intros m Hm. apply IN in Hm. destruct Hm as (s & _ & Hm).
    destruct GI as (_ & _ & _ & _ & _ & _ & _ & _ & G9). apply G9 in Hm. tauto. }
  destruct (C41_numbering (nx * ny) [p]) as (h & EH & _).
  { constructor; auto. now apply Forall_forall. }
  cbn [eqs_run] in EH. apply bind_ok in EH. destruct EH as (h' & EH & _).
  assert (NP : g2_npoint R grid = nx * ny) by apply GI.
  exists grid. eexists. split; [exact G|]. split.
  - unfold solver2. split; auto. exists n. split; auto. unfold fdm2_from. splits; auto.
    exists e. split; auto. unfold fdm2_new. rewrite (get_dxdy_uniform grid nx ny fx fy hx hy GI Hx Hy GL Px Py).
    + cbn [bind]. rewrite EP. cbn [bind]. rewrite NP. rewrite EH. cbn [bind]. reflexivity.
    + intros i Hi. unfold fx. rewrite plus_INR. cbn [INR]. ring.
    + intros j Hj. unfold fy. rewrite plus_INR. cbn [INR]. ring.
  - split; reflexivity.
Qed.

(** the configuration of the corner refutation is reachable: y periodic, flux 1 at Xmin, u = 1 at Xmax *)
Definition corner_hist : list (bc_op F2) := [OpPeriodic F2 false true; OpSet F2 Xmax (fun _ _ => 1%R)].
Definition corner_hn : list (side * F2) := [(Xmin, fun _ _ => 1%R)].

Example C46_corner_config_reachable : exists grid f fx fy,
  solver2 tol f corner_hist corner_hn grid 3 3 fx fy 1 1 /\
  spec_per F2 corner_hist true = false /\ spec_per F2 corner_hist false = true /\
  ebc2_validate _ (f2_e R f) (f2_n R f) = Ok tt /\
  (forall i, i < 3 -> fx i = (fx 0%nat + INR i * f2_dx R f)%R) /\ nth 0 (n_fun _ (f2_n R f)) z2 (fx 0) (fy 0) = 1%R.
Proof using tol_pos.
  destruct (C45_fdm2_total_uniform 0 1 0 1 3 3 corner_hist corner_hn 1 1) as (grid & f & G & S & DX & DY); try lra; try lia.
  exists grid, f. do 2 eexists. split; [exact S|]. destruct S as (_ & n & Rn & H).
  destruct (fdm2_from_inv _ _ _ _ _ _ _ _ _ _ _ f _ _ _ _ _ _ _ _ _ H) as (p & dx & dy & D & ND & IP & GG & NN & Re & M & _).
  cbn in Rn. injection Rn as Rn'. cbn in Re. injection Re as Re'. rewrite <- Rn' in NN.
  splits; try reflexivity.
  - rewrite NN, <- Re'. reflexivity.
  - intros i Hi. rewrite DX. cbn [INR]. lra.
  - rewrite NN. reflexivity.
Qed.

(** a 1D configuration with unknown and prescribed nodes and a flux *)
Example C46_config1_reachable : exists grid f,
  solver1 tol f [OpSet F1 Xmin (fun x => x)] [(Xmax, fun _ => (-1)%R)] grid 1 /\ g1_nx R grid = 3 /\
  eqs_nu (f1_eqs R f) = 2 /\ eqs_np (f1_eqs R f) = 1 /\ ebc1_validate _ (f1_e R f) (f1_n R f) = Ok tt /\
  (forall m, m < 3 -> nth m (g1_coords R grid) 0%R = (nth 0 (g1_coords R grid) 0 + INR m * f1_dx R f)%R).
Proof using tol_pos.
  destruct (C45_fdm1_total_uniform 0 2 3 [OpSet F1 Xmin (fun x => x)] [(Xmax, fun _ => (-1)%R)] 1) as (grid & f & G & S & NX & DX & U); try lra; try lia;
    [repeat constructor|repeat constructor|].
  exists grid, f. split; [exact S|]. destruct S as (_ & _ & n & Rn & X & Hx & e & Re & N).
  cbn in Rn. inversion Rn; subst n; clear Rn. cbn in Re. inversion Re; subst e; clear Re.
  unfold fdm1_new in N. apply bind_ok in N. destruct N as ([dx|] & E1 & N); [|discriminate].
  rewrite NX in N. cbn in N. inversion N; subst f. cbn. splits; auto.
Qed.
End Ex.

Print Assumptions C45_fdm1_sps.
Print Assumptions C45_fdm2_total_uniform.
Print Assumptions C46_fdm2_rows_quadratic.
Print Assumptions C46_periodic_corner_refuted.
Print Assumptions C47_solvers_agree2.
