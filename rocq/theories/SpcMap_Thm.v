(** C96: the spectral collocation solver on a mapped domain. *)
From Coquelicot Require Import Coquelicot.
From Verif Require Import Base RBase RSum Poly Dense_Model Sparse_Model Sparse_Spec Sparse_CooProofs Sparse_Ops Sparse_Ring Eqs_Model Eqs_Thm Grid_Model Grid_Thm Bcs_Model Bcs_Thm
  Fdm_Model Fdm_Asm Fdm_Stencil Fdm_Cap Fdm_Entries Fdm_Coef Fdm_Thm Fdm_Vec Fdm_Equiv Jacobi_Thm Cheb_Model Cheb_Thm InterpLagrange_Model InterpLagrange_Thm Spc_Model Spc_Asm Spc_Diff Spc2_Thm
  LabVec_Model Inverse_Model Transfinite_Model Transfinite_Thm Metrics_Model Metrics_Thm SpcMap_Model.
From Coq Require Import Reals Lra Lia.
Local Open Scope nat_scope.

(** ** specification *)
(** [f] was built by `new` from the boundary conditions set by the calls [hist] and [hn] (last call first) *)
Definition spm_from (f : spm) (map : tf2) (hist : list (bc_op F2)) (hn : list (side * F2)) (nr ns : nat) (k : R) : Prop :=
  exists e n, run2 F2 z2 hist = Ok e /\ runn F2 (nbc2_new F2 z2) hn = Ok n /\ spm_new map nr ns e n k = Ok f.

(** the map sends (r,s) to (X,Y) and reports the true partial derivatives *)
Definition true_map (map : tf2) (X Y : jet2) : Prop := is_jet2 X /\ is_jet2 Y /\ forall r s,
  tf2_point map r s = (j_f X r s, j_f Y r s) /\
  tf2_point_and_derivs map true r s = ((j_f X r s, j_f Y r s), (j_r X r s, j_r Y r s), (j_s X r s, j_s Y r s),
    Some ((j_rr X r s, j_rr Y r s), (j_ss X r s, j_ss Y r s), (j_rs X r s, j_rs Y r s))).
(** its Jacobian determinant, and maps whose Jacobian is not tiny at the grid points *)
Definition jacobian (X Y : jet2) (r s : R) : R := (j_r X r s * j_s Y r s - j_r Y r s * j_s X r s)%R.
Definition regular (X Y : jet2) (nr ns : nat) : Prop := forall i j, i < nr -> j < ns -> (/ 10 ^ 15 < jacobian X Y (cgl nr i) (cgl ns j) ^ 2)%R.

(** [n] is the outward unit normal of a side at the point with the base vectors (xr,yr) and (xs,ys) *)
Definition is_normal (sd : side) (xr yr xs ys : R) (n : R * R) : Prop :=
  (fst n * fst n + snd n * snd n = 1)%R /\
  match sd with
  | Xmin => (fst n * xs + snd n * ys = 0 /\ fst n * xr + snd n * yr < 0)%R
  | Xmax => (fst n * xs + snd n * ys = 0 /\ 0 < fst n * xr + snd n * yr)%R
  | Ymin => (fst n * xr + snd n * yr = 0 /\ fst n * xs + snd n * ys < 0)%R
  | Ymax => (fst n * xr + snd n * yr = 0 /\ 0 < fst n * xs + snd n * ys)%R
  end.
(** flow -k grad phi along the normal *)
Definition normal_flow (k px py : R) (n : R * R) : R := (- k * (px * fst n + py * snd n))%R.
(** what the solver puts in its place: the derivative along the coordinate line that crosses the side, divided by the normal component of its direction *)
Definition imposed_flow (k px py xr yr xs ys : R) (sd : side) (n : R * R) : R :=
  match sd with
  | Xmin | Xmax => - k * ((px * xr + py * yr) / (fst n * xr + snd n * yr))
  | Ymin | Ymax => - k * ((px * xs + py * ys) / (fst n * xs + snd n * ys))
  end%R.

(** the value prescribed at node (i,j), which sits at (x,y); at a corner the later side in the order Xmin, Xmax, Ymin, Ymax counts *)
Definition prescribed_value (hist : list (bc_op F2)) (nr ns i j : nat) (x y : R) : R :=
  let on (c : bool) s := if c then spec_fun F2 z2 hist s else None in
  match on (j =? ns - 1) Ymax, on (j =? 0) Ymin, on (i =? nr - 1) Xmax, on (i =? 0) Xmin with
  | Some u, _, _, _ | None, Some u, _, _ | None, None, Some u, _ | None, None, None, Some u => u x y
  | _, _, _, _ => 0%R
  end.

(** The conditions at node (i,j) for a field [phi] on the mapped domain: -k (phi_xx + phi_yy) + alpha phi = source at an interior node, the prescribed value at a
    node that has one, and at the other boundary nodes the flows through the sides add up to the given fluxes; [flow] says how the flow through a side is measured *)
Definition collocates_at (flow : R -> R -> R -> R -> R -> R -> side -> R * R -> R) (hist : list (bc_op F2)) (hn : list (side * F2)) (X Y : jet2) (nr ns : nat) (k alpha : R)
    (source phi px py pxx pyy : R -> R -> R) (i j : nat) : Prop :=
  let r := cgl nr i in let s := cgl ns j in let x := j_f X r s in let y := j_f Y r s in
  (0 < i < nr - 1 -> 0 < j < ns - 1 -> (- k * (pxx x y + pyy x y) + alpha * phi x y = source x y)%R) /\
  (presc2 R 0%R hist nr ns i j -> phi x y = prescribed_value hist nr ns i j x y) /\
  (on_boundary nr ns i j -> ~ presc2 R 0%R hist nr ns i j -> forall nv : side -> R * R,
     (forall sd, is_normal sd (j_r X r s) (j_r Y r s) (j_s X r s) (j_s Y r s) (nv sd)) ->
     over_sides nr ns i j (fun sd => flow (px x y) (py x y) (j_r X r s) (j_r Y r s) (j_s X r s) (j_s Y r s) sd (nv sd)) =
     over_sides nr ns i j (fun sd => match spec_nat F2 hn sd with Some w => w x y | None => 0%R end)).
Definition imposed (k : R) (px py xr yr xs ys : R) (sd : side) (n : R * R) : R := imposed_flow k px py xr yr xs ys sd n.
Definition normal (k : R) (px py xr yr xs ys : R) (sd : side) (n : R * R) : R := normal_flow k px py n.

(** the field [phi] seen from the reference square has at (r,s) the value and the derivatives up to order two of P *)
Definition represents (X Y P : jet2) (r s : R) (phi px py pxx pyy pxy : R -> R -> R) : Prop := smooth2 phi px py pxx pyy pxy /\
  exists Q, is_jet2 Q /\ (forall r s, j_f Q r s = phi (j_f X r s) (j_f Y r s)) /\
    j_f Q r s = j_f P r s /\ j_r Q r s = j_r P r s /\ j_s Q r s = j_s P r s /\ j_rr Q r s = j_rr P r s /\ j_ss Q r s = j_ss P r s /\ j_rs Q r s = j_rs P r s.

(** values of [phi] at the mapped grid points *)
Definition nodal_map (X Y : jet2) (nr ns : nat) (phi : R -> R -> R) : list R :=
  map (fun m => phi (j_f X (cgl nr (m mod nr)) (cgl ns (m / nr))) (j_f Y (cgl nr (m mod nr)) (cgl ns (m / nr)))) (seq 0 (nr * ns)).

(** ** pull-back of the boundary conditions to the reference square *)
Section Pull.
Variable c : F2 -> F2.
Hypothesis Cz : c z2 = z2.
Definition op_map (o : bc_op F2) : bc_op F2 := match o with OpSet s u => OpSet F2 s (c u) | OpHomogeneous => OpHomogeneous F2 | OpPeriodic a b => OpPeriodic F2 a b end.
Definition e_map (e : ebc2 F2) : ebc2 F2 := mkE2 F2 (e2_px _ e) (e2_py _ e) (map c (e2_fun _ e)) (e2_sides _ e).
Definition n_map (n : nbc F2) : nbc F2 := mkN F2 (map c (n_fun _ n)) (n_sides _ n).
Definition nat_map (h : list (side * F2)) : list (side * F2) := map (fun p => (fst p, c (snd p))) h.

Lemma vset_map l i u l' : vset l i u = Ok l' -> vset (map c l) i (c u) = Ok (map c l').
Proof using.
  unfold vset. rewrite map_length. destruct (i <? length l); [|discriminate]. intros [= <-]. f_equal. revert i. induction l as [|a l IH]; intros [|i]; cbn; auto. now rewrite IH.
Qed.
Lemma run2_map hist : forall e, run2 F2 z2 hist = Ok e -> run2 F2 z2 (map op_map hist) = Ok (e_map e).
Proof using Cz.
  induction hist as [|o hist IH]; intros e H; cbn [run2 map] in *.
  - inversion H. unfold e_map, ebc2_new. cbn. now rewrite Cz.
  - apply bind_ok in H. destruct H as (e0 & E0 & H). rewrite (IH _ E0). cbn [bind]. destruct o as [s u| |ax ay]; cbn [op_map apply2] in *.
    + unfold ebc2_set in *. apply bind_ok in H. destruct H as (fs & E1 & H). apply bind_ok in H. destruct H as (ss & E2 & H). inversion H; subst e. unfold e_map. cbn [e2_px e2_py e2_fun e2_sides] in *.
      rewrite (vset_map _ _ _ _ E1). cbn [bind]. rewrite E2. reflexivity.
    + unfold ebc2_set_homogeneous, e_map in *. cbn [e2_sides] in *.
      repeat (apply bind_ok in H; destruct H as (? & ? & H)). repeat match goal with K : vset _ _ _ = Ok _ |- _ => rewrite K; cbn [bind]; clear K end. inversion H; subst e. cbn. now rewrite Cz.
    + unfold ebc2_set_periodic, e_map in *. cbn [e2_sides e2_fun] in *. apply bind_ok in H. destruct H as (s1 & -> & H). cbn [bind]. apply bind_ok in H. destruct H as (s2 & -> & H). cbn [bind]. now inversion H.
Qed.
Lemma runn_map hn : forall n, runn F2 (nbc2_new F2 z2) hn = Ok n -> runn F2 (nbc2_new F2 z2) (nat_map hn) = Ok (n_map n).
Proof using Cz.
  induction hn as [|[s u] hn IH]; intros n H; cbn [runn map nat_map fst snd] in *.
  - inversion H. unfold n_map, nbc2_new. cbn. now rewrite Cz.
  - apply bind_ok in H. destruct H as (n0 & E0 & H). fold (nat_map hn). rewrite (IH _ E0). cbn [bind]. unfold nbc_set in *. apply bind_ok in H. destruct H as (fs & E1 & H). apply bind_ok in H. destruct H as (ss & E2 & H). inversion H; subst n.
    unfold n_map. cbn [n_fun n_sides] in *. rewrite (vset_map _ _ _ _ E1). cbn [bind]. rewrite E2. reflexivity.
Qed.
Lemma spec_fun_map hist s : spec_fun F2 z2 (map op_map hist) s = option_map c (spec_fun F2 z2 hist s).
Proof using Cz.
  induction hist as [|[s' u| |ax ay] hist IH]; cbn [map op_map spec_fun]; auto.
  - destruct (_ =? _); auto.
  - cbn. now rewrite Cz.
  - destruct (if axis_x s then ax else ay); auto.
Qed.
Lemma spec_per_map hist x : spec_per F2 (map op_map hist) x = spec_per F2 hist x.
Proof using. induction hist as [|[s' u| |ax ay] hist IH]; cbn [map op_map spec_per]; auto. destruct (Bool.eqb _ _); auto. Qed.
Lemma spec_nat_map hn s : spec_nat F2 (nat_map hn) s = option_map c (spec_nat F2 hn s).
Proof using. induction hn as [|[s' u] hn IH]; cbn [nat_map map spec_nat fst snd]; auto. destruct (_ =? _); auto. Qed.
Lemma has_map {A B} (h : A -> B) (o : option A) : has (option_map h o) <-> has o.
Proof using. unfold has. destruct o; cbn; split; congruence. Qed.
Lemma presc2_map hist nr ns i j : presc2 R 0%R (map op_map hist) nr ns i j <-> presc2 R 0%R hist nr ns i j.
Proof using Cz. unfold presc2. change (fun _ _ : R => 0%R) with z2. rewrite !spec_fun_map, !has_map. reflexivity. Qed.
Lemma well_posed_map hist hn : well_posed2 (map op_map hist) (nat_map hn) <-> well_posed2 hist hn.
Proof using Cz. unfold well_posed2. split; intros H s; specialize (H s); rewrite !spec_fun_map, !spec_nat_map, !has_map in *; auto. Qed.
End Pull.

(** a function on the mapped domain seen from the reference square *)
Definition comp_map (map : tf2) (u : F2) : F2 := fun r s => let '(x, y) := tf2_point map r s in u x y.
Lemma comp_map_z map : comp_map map z2 = z2.
Proof. reflexivity. Qed.
Definition pull (f : spm) : spc2 :=
  mkS2 (-1) 1 (-1) 1 (sm_grid f) (e_map (comp_map (sm_map f)) (sm_e f)) (n_map (comp_map (sm_map f)) (sm_n f)) (sm_mk f) (sm_mk f) (sm_eqs f) (sm_interp_r f) (sm_interp_s f).

Lemma new_pull map nr ns e n k :
  match spm_new map nr ns e n k with
  | Ok f => spc2_new (-1) 1 (-1) 1 nr ns (e_map (comp_map map) e) (n_map (comp_map map) n) k k = Ok (pull f) /\ sm_map f = map /\ sm_mk f = (- k)%R /\ sm_e f = e /\ sm_n f = n
  | Err _ => exists m, spc2_new (-1) 1 (-1) 1 nr ns (e_map (comp_map map) e) (n_map (comp_map map) n) k k = Err m
  | Panic => spc2_new (-1) 1 (-1) 1 nr ns (e_map (comp_map map) e) (n_map (comp_map map) n) k k = Panic
  end.
Proof.
  unfold spm_new, spc2_new. cbn [e2_px e2_py e_map]. change (ebc2_get_nodes F2 (e_map (comp_map map) e)) with (ebc2_get_nodes F2 e).
  destruct (nr <? 2); [eauto|]. destruct (ns <? 2); [eauto|]. destruct (_ || _); [eauto|].
  destruct (unwrap (grid2_new_cgl nr ns)) as [g| |]; cbn [bind]; eauto.
  destruct (e2_px F2 e || e2_py F2 e); [eauto|]. change (R -> R -> R) with F2.
  destruct (ebc2_get_nodes F2 e (grid2_nodes R g)) as [nodes| |]; cbn [bind]; eauto.
  destruct (eqs_recompute _ _) as [h| |]; cbn [bind]; eauto.
  destruct (unwrap (lg_new (nr - 1) None)) as [i1| |]; cbn [bind]; eauto.
  destruct (unwrap (lg_new (ns - 1) None)) as [i2| |]; cbn [bind]; eauto.
  destruct (lg_calc_dd1 i1) as [i3| |]; cbn [bind]; eauto.
  destruct (lg_calc_dd1 i2) as [i4| |]; cbn [bind]; eauto.
  destruct (lg_calc_dd2 i3) as [i5| |]; cbn [bind]; eauto.
  destruct (lg_calc_dd2 i4) as [i6| |]; cbn [bind]; eauto 10.
Qed.
Lemma pull_from f map hist hn nr ns k : spm_from f map hist hn nr ns k ->
  sm_map f = map /\ sm_mk f = (- k)%R /\ run2 F2 z2 hist = Ok (sm_e f) /\ runn F2 (nbc2_new F2 z2) hn = Ok (sm_n f) /\
  spc2_from (pull f) (List.map (op_map (comp_map map)) hist) (nat_map (comp_map map) hn) (-1) 1 (-1) 1 nr ns k k.
Proof.
  intros (e & n & Re & Rn & H). assert (SP := new_pull map nr ns e n k). rewrite H in SP. destruct SP as (SP & Q1 & Q2 & Q3 & Q4). splits; auto; try (now rewrite Q3); try (now rewrite Q4).
  exists (e_map (comp_map map) e), (n_map (comp_map map) n). splits; auto.
  - apply run2_map; auto.
  - apply runn_map; auto.
Qed.

Lemma map_ref r : spc_map (-1) 1 r = r.
Proof. unfold spc_map. field. Qed.
Lemma xnode_ref n k : xnode (-1) 1 n k = cgl n k.
Proof. unfold xnode. field. Qed.

Lemma vget_map {A B} (c : A -> B) l i : vget (map c l) i = match vget l i with Ok a => Ok (c a) | Err e => Err e | Panic => Panic end.
Proof. unfold vget. rewrite nth_error_map. destruct (nth_error l i); reflexivity. Qed.
Lemma bind_ext {A B} (x : res A) (g1 g2 : A -> res B) : (forall a, g1 a = g2 a) -> bind x g1 = bind x g2.
Proof. intros H. destruct x; cbn; auto. Qed.
Lemma bind_cong {A B} (x y : res A) (g1 g2 : A -> res B) : x = y -> (forall a, g1 a = g2 a) -> bind x g1 = bind y g2.
Proof. intros <- H. now apply bind_ext. Qed.
Lemma rhs_pull f source m k ff : spm_rhs f source m k ff = spc2_rhs (pull f) (comp_map (sm_map f) source) m k ff.
Proof.
  unfold spm_rhs, spc2_rhs, pull. cbn [s2_grid s2_n s2_xmin s2_xmax s2_ymin s2_ymax]. destruct (grid2_coord R (sm_grid f) m) as [[r s]| |]; cbn [bind]; auto. rewrite !map_ref.
  unfold n_map. cbn [n_fun]. rewrite !vget_map. unfold comp_map at 1. change (R -> R -> R) with F2. destruct (tf2_point (sm_map f) r s) as [x y] eqn:EP. 
  assert (AP : forall u : F2, comp_map (sm_map f) u r s = u x y) by (intros u; unfold comp_map; now rewrite EP).
  destruct (grid2_on_boundary R (sm_grid f) m); [|now rewrite AP].
  assert (ST : forall (b : bool) q ff, (if b then w <- vget (n_fun F2 (sm_n f)) q ;; vadd R Rplus ff k (w x y) else Ok ff) =
     (if b then w <- match vget (n_fun F2 (sm_n f)) q with Ok a => Ok (comp_map (sm_map f) a) | Err e => Err e | Panic => Panic end ;; vadd R Rplus ff k (w r s) else Ok ff)).
  { intros [] q gg; auto. destruct (vget (n_fun F2 (sm_n f)) q) as [u| |]; cbn [bind]; auto. now rewrite AP. }
  rewrite ST. apply bind_ext. intros f1. rewrite ST. apply bind_ext. intros f2. rewrite ST. apply bind_ext. intros f3. now rewrite ST.
Qed.

Lemma for_range_ext' {S} (g1 g2 : nat -> S -> res S) lo hi x : (forall i y, lo <= i -> g1 i y = g2 i y) -> for_range lo hi g1 x = for_range lo hi g2 x.
Proof.
  unfold for_range. generalize (hi - lo) as n. intros n. revert lo x. induction n as [|n IH]; intros lo x H; cbn [for_n]; auto. rewrite H by auto. apply bind_ext. intros a. apply IH. intros i y Hi. apply H. lia.
Qed.
Lemma for_each_ext' {A S} (g1 g2 : A -> S -> res S) l x : (forall i y, g1 i y = g2 i y) -> for_each l g1 x = for_each l g2 x.
Proof. intros H. apply Fdm_Asm.for_each_ext. auto. Qed.
Lemma presc_pull f off a : spm_presc f off a = spc2_presc (pull f) off a.
Proof.
  unfold spm_presc, spc2_presc, pull. cbn [s2_grid s2_e s2_eqs s2_xmin s2_xmax s2_ymin s2_ymax e_map e2_sides e2_fun]. apply for_range_ext'. intros q b _. apply bind_ext. intros c. destruct c; auto.
  apply bind_ext. intros sd. apply for_each_ext'. intros m x. apply bind_ext. intros ip. apply bind_ext. intros [r s]. rewrite vget_map, !map_ref. change (R -> R -> R) with F2.
  destruct (vget (e2_fun F2 (sm_e f)) q) as [u| |]; cbn [bind]; auto.
Qed.
Lemma vec_sps_pull f source : spm_get_vectors_sps f source = spc2_get_vectors_sps (pull f) (comp_map (sm_map f) source).
Proof.
  unfold spm_get_vectors_sps, spc2_get_vectors_sps. cbn [pull s2_eqs]. apply bind_cong; [apply for_each_ext'; intros; apply bind_ext; intros; apply rhs_pull|].
  intros x. now rewrite presc_pull.
Qed.
Lemma vec_lmm_pull f source : spm_get_vectors_lmm f source = spc2_get_vectors_lmm (pull f) (comp_map (sm_map f) source).
Proof.
  unfold spm_get_vectors_lmm, spc2_get_vectors_lmm. cbn [pull s2_eqs s2_grid]. apply bind_cong; [apply for_range_ext'; intros; apply rhs_pull|].
  intros x. now rewrite presc_pull.
Qed.

(** ** the metrics at the nodes *)
Lemma proj_x mt a b c d : mt_ctr mt = [[a; b]; [c; d]] -> (a * a + b * b <> 0)%R ->
  spm_proj mt Xmin 0 = Ok (- sqrt (a * a + b * b))%R /\ spm_proj mt Xmax 0 = Ok (sqrt (a * a + b * b)).
Proof.
  intros E N. assert (P : (0 < a * a + b * b)%R) by (destruct (Rle_lt_or_eq_dec 0 (a * a + b * b)); [nra|auto|congruence]).
  assert (SP := sqrt_lt_R0 _ P). assert (SS := sqrt_sqrt _ (Rlt_le _ _ P)).
  unfold spm_proj, spm_unit_normal. rewrite E. cbn. rewrite !Rmult_1_l.
  replace (-1 * a * (-1 * a) + -1 * b * (-1 * b))%R with (a * a + b * b)%R by ring. set (q := sqrt (a * a + b * b)) in *. split; f_equal.
  - transitivity (- (a * a + b * b) / q)%R; [field; lra|]. rewrite <- SS. field. lra.
  - transitivity ((a * a + b * b) / q)%R; [field; lra|]. rewrite <- SS. field. lra.
Qed.
Lemma proj_y mt a b c d : mt_ctr mt = [[a; b]; [c; d]] -> (c * c + d * d <> 0)%R ->
  spm_proj mt Ymin 1 = Ok (- sqrt (c * c + d * d))%R /\ spm_proj mt Ymax 1 = Ok (sqrt (c * c + d * d)).
Proof.
  intros E N. assert (P : (0 < c * c + d * d)%R) by (destruct (Rle_lt_or_eq_dec 0 (c * c + d * d)); [nra|auto|congruence]).
  assert (SP := sqrt_lt_R0 _ P). assert (SS := sqrt_sqrt _ (Rlt_le _ _ P)).
  unfold spm_proj, spm_unit_normal. rewrite E. cbn. rewrite !Rmult_1_l.
  replace (-1 * c * (-1 * c) + -1 * d * (-1 * d))%R with (c * c + d * d)%R by ring. set (q := sqrt (c * c + d * d)) in *. split; f_equal.
  - transitivity (- (c * c + d * d) / q)%R; [field; lra|]. rewrite <- SS. field. lra.
  - transitivity ((c * c + d * d) / q)%R; [field; lra|]. rewrite <- SS. field. lra.
Qed.

Definition sd_min (sd : side) : bool := match sd with Xmin | Ymin => true | _ => false end.
Lemma sqrt_pow2_abs x : sqrt (x ^ 2) = Rabs x.
Proof. rewrite <- Rsqr_pow2. apply sqrt_Rsqr_abs. Qed.
Lemma flip_normal sd xr yr xs ys n : is_normal sd xr yr xs ys n -> is_normal (match sd with Xmin => Ymin | Xmax => Ymax | Ymin => Xmin | Ymax => Xmax end) xs ys xr yr n.
Proof. destruct sd; auto. Qed.

(** from reference coordinates to the mapped domain *)
Lemma normal_x sd xr yr xs ys n : (sd = Xmin \/ sd = Xmax) -> is_normal sd xr yr xs ys n -> let J := (xr * ys - yr * xs)%R in J <> 0%R ->
  (/ (fst n * xr + snd n * yr) = (if sd_min sd then -1 else 1) * sqrt ((xs * xs + ys * ys) / J ^ 2))%R /\ (fst n * xr + snd n * yr <> 0)%R.
Proof.
  intros HS (U & O) J JN. destruct n as [n0 n1]. cbn [fst snd] in *. set (q := (n0 * xr + n1 * yr)%R) in *.
  assert (O' : (n0 * xs + n1 * ys = 0)%R) by (destruct HS; subst sd; tauto).
  set (t := (n0 * ys - n1 * xs)%R).
  assert (EX : xs = (- n1 * t)%R). { transitivity ((n0 * n0 + n1 * n1) * xs)%R; [rewrite U; ring|]. transitivity (n0 * (n0 * xs + n1 * ys) - n1 * t)%R; [unfold t; ring|rewrite O'; ring]. }
  assert (EY : ys = (n0 * t)%R). { transitivity ((n0 * n0 + n1 * n1) * ys)%R; [rewrite U; ring|]. transitivity (n1 * (n0 * xs + n1 * ys) + n0 * t)%R; [unfold t; ring|rewrite O'; ring]. }
  assert (EJ : J = (q * t)%R). { unfold J, q. rewrite EX, EY. ring. }
  assert (QN : q <> 0%R) by (intros Z; apply JN; rewrite EJ, Z; ring). assert (TN : t <> 0%R) by (intros Z; apply JN; rewrite EJ, Z; ring).
  assert (EQ : ((xs * xs + ys * ys) / J ^ 2 = (/ q) ^ 2)%R). { rewrite EJ. transitivity ((n0 * n0 + n1 * n1) * (t * t) / (q * t) ^ 2)%R; [f_equal; rewrite EX, EY; ring|rewrite U; field; auto]. }
  rewrite EQ. rewrite sqrt_pow2_abs. split; auto. destruct HS; subst sd; cbn [sd_min]; destruct O as [_ O].
  - rewrite Rabs_left; [ring|]. now apply Rinv_lt_0_compat.
  - rewrite Rabs_right; [ring|]. left. now apply Rinv_0_lt_compat.
Qed.
Lemma normal_y sd xr yr xs ys n : (sd = Ymin \/ sd = Ymax) -> is_normal sd xr yr xs ys n -> let J := (xr * ys - yr * xs)%R in J <> 0%R ->
  (/ (fst n * xs + snd n * ys) = (if sd_min sd then -1 else 1) * sqrt ((xr * xr + yr * yr) / J ^ 2))%R /\ (fst n * xs + snd n * ys <> 0)%R.
Proof.
  intros HS N J JN. assert (N' := flip_normal _ _ _ _ _ _ N). assert (JN' : (xs * yr - ys * xr <> 0)%R) by (intros Z; apply JN; unfold J; lra).
  destruct HS; subst sd; (eapply normal_x in N'; [|auto|exact JN']); cbv zeta in N'; replace ((xs * yr - ys * xr) ^ 2)%R with (J ^ 2)%R in N' by (unfold J; ring); exact N'.
Qed.
Lemma normal_exists sd xr yr xs ys : (xr * ys - yr * xs <> 0)%R -> exists n, is_normal sd xr yr xs ys n.
Proof.
  intros JN. assert (N1 : forall sd xr yr xs ys, (sd = Xmin \/ sd = Xmax) -> (xr * ys - yr * xs <> 0)%R -> exists n, is_normal sd xr yr xs ys n).
  { clear. intros sd xr yr xs ys HS JN. set (J := (xr * ys - yr * xs)%R) in *. assert (P : (0 < xs * xs + ys * ys)%R).
    { destruct (Rle_lt_or_eq_dec 0 (xs * xs + ys * ys)) as [|Z]; [nra|auto|]. exfalso. assert (xs = 0%R) by nra. assert (ys = 0%R) by nra. apply JN. unfold J. nra. }
    set (q := sqrt (xs * xs + ys * ys)). assert (QP : (0 < q)%R) by (apply sqrt_lt_R0; auto). assert (QQ : (q * q = xs * xs + ys * ys)%R) by (apply sqrt_sqrt; lra).
    set (w := (J / Rabs J / q)%R). assert (AJ : (0 < Rabs J)%R) by (now apply Rabs_pos_lt).
    assert (WW : (w * w * (q * q) = 1)%R). { unfold w. transitivity ((J * J) / (Rabs J * Rabs J))%R; [field; lra|]. rewrite <- Rabs_mult, (Rabs_pos_eq (J * J)) by nra. field. auto. }
    assert (WJ : (0 < w * J)%R). { unfold w. replace (J / Rabs J / q * J)%R with (J * J / (Rabs J * q))%R by (field; lra). apply Rdiv_lt_0_compat; [nra|apply Rmult_lt_0_compat; auto]. }
    destruct HS; subst sd; [exists (- (w * ys), w * xs)%R|exists (w * ys, - (w * xs))%R]; unfold is_normal; cbn [fst snd]; unfold J in WJ; (split; [rewrite QQ in WW; nra|split; nra]). }
  destruct sd; auto.
  - destruct (N1 Xmin xs ys xr yr) as [n N]; auto; [intros Z; apply JN; lra|]. exists n. apply (flip_normal Xmin) in N. exact N.
  - destruct (N1 Xmax xs ys xr yr) as [n N]; auto; [intros Z; apply JN; lra|]. exists n. apply (flip_normal Xmax) in N. exact N.
Qed.

Section M.
Variables (lapack : dmat R -> res (R * dmat R)) (f : spm) (map : tf2) (hist : list (bc_op F2)) (hn : list (side * F2)) (nr ns : nat) (k : R) (X Y : jet2).
Hypothesis FR : spm_from f map hist hn nr ns k.
Hypothesis TM : true_map map X Y.
Hypothesis RG : regular X Y nr ns.
Notation h := (sm_eqs f).
Notation hist' := (List.map (op_map (comp_map map)) hist).
Notation hn' := (nat_map (comp_map map) hn).

Lemma FP : spc2_from (pull f) hist' hn' (-1) 1 (-1) 1 nr ns k k.
Proof using FR. apply (pull_from f map hist hn nr ns k FR). Qed.

Definition MT (i j : nat) : metrics := match spm_metrics lapack f (i + j * nr) with Ok m => m | _ => mt_new 2 false end.
Definition LL (q i j : nat) : R := match mt_ell (MT i j) q with Ok x => x | _ => 0%R end.

Lemma metrics_at i j : i < nr -> j < ns -> let r := cgl nr i in let s := cgl ns j in
  let a := j_r X r s in let b := j_r Y r s in let c := j_s X r s in let d := j_s Y r s in let J := jacobian X Y r s in
  spm_metrics lapack f (i + j * nr) = Ok (MT i j) /\
  (exists g, mt_calculate_2d lapack (mt_new 2 false) [a; b] [c; d] (Some [j_rr X r s; j_rr Y r s]) (Some [j_ss X r s; j_ss Y r s]) (Some [j_rs X r s; j_rs Y r s]) = Ok (MT i j, Ok g)) /\
  sized 2 false (MT i j) /\ J <> 0%R /\
  mt_ctr (MT i j) = [[d / J; - c / J]; [- b / J; a / J]]%R /\
  mt_gg (MT i j) = mkD 2 2 [(c * c + d * d) / J ^ 2; - (a * c + b * d) / J ^ 2; - (a * c + b * d) / J ^ 2; (a * a + b * b) / J ^ 2]%R /\
  mt_ell (MT i j) 0 = Ok (LL 0 i j) /\ mt_ell (MT i j) 1 = Ok (LL 1 i j).
Proof using FR TM RG.
  intros Hi Hj r s a b c d J. assert (Q := pull_from f map hist hn nr ns k FR). destruct Q as (EM & _ & _ & _ & FP').
  destruct (spc2_inv (pull f) _ _ _ _ _ _ _ _ _ _ FP') as (Hx & Hy & p & _ & _ & _ & _ & _ & _ & _ & _ & D & IP & X1 & X2 & X3 & X4 & X5 & X6 & GI & LC & _). cbn [pull s2_grid] in GI.
  assert (GX : g2_nx R (sm_grid f) = nr) by apply GI. destruct GI as (_ & _ & _ & _ & _ & G6 & _). specialize (G6 i j Hi Hj). unfold grid2_get_m in G6. rewrite GX in G6.
  destruct TM as (JX & JY & TD). destruct (TD r s) as [_ T2].
  assert (RJ := RG i j Hi Hj). fold r s J in RJ.
  assert (JN : J <> 0%R). { intros Z. rewrite Z in RJ. assert (0 < / 10 ^ 15)%R by (apply Rinv_0_lt_compat; lra). cbn in RJ. lra. }
  assert (S : sized 2 false (mt_new 2 false)) by (apply C95_sizes; exact lapack).
  destruct (calc2 lapack (mt_new 2 false) false a b c d (Some [j_rr X r s; j_rr Y r s]) (Some [j_ss X r s; j_ss Y r s]) (Some [j_rs X r s; j_rs Y r s]) S) as (m' & E & SZ & C); [intros _; splits; discriminate|].
  assert (EJ : (a * d - b * c)%R = J) by reflexivity. rewrite EJ in *. destruct (Rleb_spec (J ^ 2) ZERO_DETERMINANT) as [L|L]; [exfalso; unfold ZERO_DETERMINANT in L; lra|].
  destruct (C L) as (_ & C2 & _ & C4 & _).
  assert (E' : mt_calculate_2d lapack (mt_new 2 false) [a; b] [c; d] (Some [j_rr X r s; j_rr Y r s]) (Some [j_ss X r s; j_ss Y r s]) (Some [j_rs X r s; j_rs Y r s]) = Ok (m', Ok (J ^ 2)%R)) by exact E.
  assert (EMM : spm_metrics lapack f (i + j * nr) = Ok m').
  { unfold spm_metrics. rewrite G6. cbn [bind]. rewrite EM. fold r s. rewrite T2. unfold vec2. cbn [fst snd]. fold a b c d. rewrite E'. reflexivity. }
  assert (MM : MT i j = m') by (unfold MT; now rewrite EMM). assert (L0 := ell2 m' 0 SZ ltac:(lia)). assert (L1 := ell2 m' 1 SZ ltac:(lia)).
  unfold LL. rewrite MM. rewrite L0, L1. splits; eauto.
Qed.

(** coefficient of node (kk,l) in the row of node (i,j) *)
Definition S0 (i j : nat) : R := sqrt (entry (mt_gg (MT i j)) 0 0).
Definition S1 (i j : nat) : R := sqrt (entry (mt_gg (MT i j)) 1 1).
Definition A3 (D1r D2r D1s D2s : nat -> nat -> R) (alpha : R) (i j kk l : nat) : R :=
  if en2 hn' nr ns i j then
    ((if j =? l then ((if i =? 0 then k * S0 i j else 0) + (if i =? nr - 1 then - k * S0 i j else 0)) * D1r i kk else 0) +
     (if i =? kk then ((if j =? 0 then k * S1 i j else 0) + (if j =? ns - 1 then - k * S1 i j else 0)) * D1s j l else 0))%R
  else
    ((if j =? l then - k * (entry (mt_gg (MT i j)) 0 0 * D2r i kk - LL 0 i j * D1r i kk) else 0) +
     (if i =? kk then - k * (entry (mt_gg (MT i j)) 1 1 * D2s j l - LL 1 i j * D1s j l) else 0) +
     - k * (2 * entry (mt_gg (MT i j)) 0 1) * (D1r i kk * D1s j l) + (if (i =? kk) && (j =? l) then alpha else 0))%R.
Definition A3n D1r D2r D1s D2s alpha (m n : nat) : R := A3 D1r D2r D1s D2s alpha (m mod nr) (m / nr) (n mod nr) (n / nr).

Lemma val3 alpha d1r d2r D1r D2r d1s d2s D1s D2s m n : diff_ok (sm_interp_r f) nr d1r d2r D1r D2r -> diff_ok (sm_interp_s f) ns d1s d2s D1s D2s ->
  m < nr * ns -> n < nr * ns -> spm_val lapack f alpha d1r d1s d2r d2s m n = Ok (A3n D1r D2r D1s D2s alpha m n).
Proof using FR TM RG.
  intros DX DY Hm Hn. destruct (spc2_inv (pull f) _ _ _ _ _ _ _ _ _ _ FP) as (Hx & Hy & p & _ & _ & _ & _ & _ & _ & _ & _ & D & IP & X1 & X2 & X3 & X4 & X5 & X6 & GI & LC & _ & Rn & _).
  cbn [pull s2_grid s2_n s2_mkx] in GI, Rn, X5.
  destruct (C43_history_natural2 F2 z2 hn') as (n' & Rn' & _ & _ & SH). rewrite Rn in Rn'. inversion Rn' as [EN]. clear Rn'.
  destruct (idx_split nr ns m) as (i & j & Hi & Hj & ->); [lia|auto|]. destruct (idx_split nr ns n) as (kk & l & Hk & Hl & ->); [lia|auto|].
  assert (GX : g2_nx R (sm_grid f) = nr) by apply GI. assert (GY : g2_ny R (sm_grid f) = ns) by apply GI.
  assert (EB : nbc2_enabled F2 (sm_n f) i j nr ns = Ok (en2 hn' nr ns i j)).
  { change (nbc2_enabled F2 (sm_n f) i j nr ns) with (nbc2_enabled F2 (n_map (comp_map (sm_map f)) (sm_n f)) i j nr ns).
    unfold nbc2_enabled, en2. rewrite EN. assert (T0 := shows_bool _ _ _ _ _ (SH Xmin)). assert (T1 := shows_bool _ _ _ _ _ (SH Xmax)).
    assert (T2 := shows_bool _ _ _ _ _ (SH Ymin)). assert (T3 := shows_bool _ _ _ _ _ (SH Ymax)). cbn [side_index] in T0, T1, T2, T3.
    rewrite T0, T1, T2, T3. cbn [bind]. unfold isS. destruct (i =? 0), (i =? nr - 1), (j =? 0), (j =? ns - 1); reflexivity. }
  destruct (metrics_at i j Hi Hj) as (EM & _ & SZ & JN & CT & GG & L0 & L1). cbv zeta in *.
  set (r := cgl nr i) in *. set (s := cgl ns j) in *. set (a := j_r X r s) in *. set (b := j_r Y r s) in *. set (c := j_s X r s) in *. set (d := j_s Y r s) in *. set (J := jacobian X Y r s) in *.
  assert (E0 : entry (mt_gg (MT i j)) 0 0 = (d / J * (d / J) + - c / J * (- c / J))%R) by (rewrite GG; unfold entry; cbn; field; auto).
  assert (E1 : entry (mt_gg (MT i j)) 1 1 = (- b / J * (- b / J) + a / J * (a / J))%R) by (rewrite GG; unfold entry; cbn; field; auto).
  assert (JE : J = (a * d - b * c)%R) by reflexivity.
  assert (N0 : (d / J * (d / J) + - c / J * (- c / J) <> 0)%R).
  { intros Z. assert (Z' : (d * d + c * c = 0)%R). { transitivity ((d / J * (d / J) + - c / J * (- c / J)) * (J * J))%R; [field; auto|rewrite Z; ring]. } assert (d = 0%R) by nra. assert (c = 0%R) by nra. apply JN. rewrite JE. nra. }
  assert (N1 : (- b / J * (- b / J) + a / J * (a / J) <> 0)%R).
  { intros Z. assert (Z' : (b * b + a * a = 0)%R). { transitivity ((- b / J * (- b / J) + a / J * (a / J)) * (J * J))%R; [field; auto|rewrite Z; ring]. } assert (b = 0%R) by nra. assert (a = 0%R) by nra. apply JN. rewrite JE. nra. }
  destruct (proj_x _ _ _ _ _ CT N0) as [PX0 PX1]. destruct (proj_y _ _ _ _ _ CT N1) as [PY0 PY1].
  assert (DG : forall p q, p < 2 -> q < 2 -> d_get (mt_gg (MT i j)) p q = Ok (entry (mt_gg (MT i j)) p q)).
  { intros p0 q0 Hp0 Hq0. rewrite GG. destruct p0 as [|[|]]; [| |lia]; (destruct q0 as [|[|]]; [| |lia]); reflexivity. }
  unfold spm_val, grid2_get_ij. rewrite GX, GY, !mod_idx, !div_idx by auto. rewrite EM. cbn [bind]. rewrite !DG by lia. cbn [bind]. rewrite L0, L1. cbn [bind]. rewrite EB. cbn [bind]. rewrite X5.
  rewrite (entries_get _ _ _ _ _ (do_e1 _ _ _ _ _ _ DX) Hi Hk), (entries_get _ _ _ _ _ (do_e2 _ _ _ _ _ _ DX) Hi Hk).
  rewrite (entries_get _ _ _ _ _ (do_e1 _ _ _ _ _ _ DY) Hj Hl), (entries_get _ _ _ _ _ (do_e2 _ _ _ _ _ _ DY) Hj Hl). cbn [bind].
  rewrite PX0, PX1, PY0, PY1. cbn [bind]. unfold A3n, A3, S0, S1, delta. rewrite !mod_idx, !div_idx by auto. rewrite idx_eq by auto. rewrite E0, E1.
  set (s0 := sqrt _). set (s1 := sqrt _). clear EB.
  destruct (en2 hn' nr ns i j).
  - destruct (i =? 0), (i =? nr - 1), (j =? 0), (j =? ns - 1), (j =? l), (i =? kk); cbn [andb bind]; f_equal; ring.
  - destruct (j =? l), (i =? kk); cbn [andb bind]; f_equal; ring.
Qed.

Lemma mats3 alpha : exists d1r d2r D1r D2r d1s d2s D1s D2s, diff_ok (sm_interp_r f) nr d1r d2r D1r D2r /\ diff_ok (sm_interp_s f) ns d1s d2s D1s D2s /\
  (forall extra, spm_get_matrices_sps lapack f alpha extra = spc_sps (spm_val lapack f alpha d1r d1s d2r d2s) h (nr * ns * (nr * ns)) extra) /\
  (forall extra cc, spm_get_matrices_lmm lapack f alpha extra cc = spc_lmm (spm_val lapack f alpha d1r d1s d2r d2s) h (nr * ns * (nr * ns)) extra cc).
Proof using FR.
  destruct (spc2_inv (pull f) _ _ _ _ _ _ _ _ _ _ FP) as (Hx & Hy & p & d1r & d2r & D1x & D2x & d1s & d2s & D1y & D2y & D & IP & X1 & X2 & X3 & X4 & X5 & X6 & GI & LC & _ & _ & _ & _ & DX & DY).
  cbn [pull s2_grid s2_interp_x s2_interp_y] in *.
  assert (GX : g2_nx R (sm_grid f) = nr) by apply GI. assert (GY : g2_ny R (sm_grid f) = ns) by apply GI.
  exists d1r, d2r, D1x, D2x, d1s, d2s, D1y, D2y. unfold spm_get_matrices_sps, spm_get_matrices_lmm.
  rewrite (do_g1 _ _ _ _ _ _ DX), (do_g2 _ _ _ _ _ _ DX), (do_g1 _ _ _ _ _ _ DY), (do_g2 _ _ _ _ _ _ DY), GX, GY. cbn [unwrap bind].
  replace (nr * nr * ns * ns) with (nr * ns * (nr * ns)) by ring. splits; auto.
Qed.

(** the flow through a side as the solver measures it, in reference coordinates *)
Definition ref_flow (pr ps s0 s1 : R) (sd : side) : R := match sd with Xmin => k * (s0 * pr) | Xmax => - k * (s0 * pr) | Ymin => k * (s1 * ps) | Ymax => - k * (s1 * ps) end%R.
Definition ref_lap (P : jet2) (i j : nat) : R := let r := cgl nr i in let s := cgl ns j in
  (entry (mt_gg (MT i j)) 0 0 * j_rr P r s + 2 * entry (mt_gg (MT i j)) 0 1 * j_rs P r s + entry (mt_gg (MT i j)) 1 1 * j_ss P r s - LL 0 i j * j_r P r s - LL 1 i j * j_s P r s)%R.

Lemma row3 D1r D2r d1r d2r D1s D2s d1s d2s alpha P i j :
  diff_ok (sm_interp_r f) nr d1r d2r D1r D2r -> diff_ok (sm_interp_s f) ns d1s d2s D1s D2s -> is_poly2 nr ns (j_f P) -> is_jet2 P -> i < nr -> j < ns ->
  nsum (nr * ns) (fun n => A3n D1r D2r D1s D2s alpha (i + j * nr) n * nth n (nodal2 (-1) 1 (-1) 1 nr ns (j_f P)) 0)%R =
  (if en2 hn' nr ns i j then over_sides nr ns i j (ref_flow (j_r P (cgl nr i) (cgl ns j)) (j_s P (cgl nr i) (cgl ns j)) (S0 i j) (S1 i j))
   else - k * ref_lap P i j + alpha * j_f P (cgl nr i) (cgl ns j))%R.
Proof using.
  intros DX DY [P1 P2] JP Hi Hj. set (r := cgl nr i). set (s := cgl ns j). set (phi := j_f P) in *.
  assert (XR : forall r0, (r0 < nr)%nat -> forall s0, nsum nr (fun q => D1r r0 q * phi (cgl nr q) s0)%R = j_r P (cgl nr r0) s0).
  { intros r0 H0 s0. apply (do_x1 _ _ _ _ _ _ DX (fun t => phi t s0) r0); auto. apply JP. }
  assert (Q1 := XR i Hi s). fold r in Q1.
  assert (Q2 := do_x2 _ _ _ _ _ _ DX (fun t => phi t s) (fun t => j_r P t s) i (j_rr P r s) (P1 _) Hi (fun t => proj1 (JP t s)) (proj1 (proj2 (proj2 (JP r s))))). cbv beta in Q2.
  assert (Q3 := do_x1 _ _ _ _ _ _ DY (fun t => phi r t) j (j_s P r s) (P2 _) Hj (proj1 (proj2 (JP r s)))). cbv beta in Q3.
  assert (Q4 := do_x2 _ _ _ _ _ _ DY (fun t => phi r t) (fun t => j_s P r t) j (j_ss P r s) (P2 _) Hj (fun t => proj1 (proj2 (JP r t))) (proj1 (proj2 (proj2 (proj2 (JP r s)))))). cbv beta in Q4.
  assert (Q5 := do_x1 _ _ _ _ _ _ DY (fun t => j_r P r t) j (j_rs P r s)). cbv beta in Q5. specialize (Q5 ltac:(
    apply is_poly_ext with (fun t => sumn nr (fun q => D1r i q * phi (cgl nr q) t)%R); [apply (is_poly_sum ns nr (fun q t => D1r i q * phi (cgl nr q) t)%R); intros q Hq; apply is_poly_scal; apply P2|intros t; rewrite <- nsum_sumn; apply (XR i Hi t)])
    Hj (proj2 (proj2 (proj2 (proj2 (JP r s)))))).
  rewrite nsum_sumn in Q1, Q2, Q3, Q4, Q5. rewrite sum2.
  rewrite (sumn_ext ns _ (fun l => sumn nr (fun q => A3 D1r D2r D1s D2s alpha i j q l * phi (cgl nr q) (cgl ns l)))%R).
  2:{ intros l Hl. apply sumn_ext. intros q Hq. rewrite nodal2_nth by (apply idx_lt; auto). unfold A3n. now rewrite !mod_idx, !div_idx, !xnode_ref by auto. }
  unfold A3. set (e := en2 hn' nr ns i j). clearbody e. destruct e.
  - set (ax := ((if i =? 0 then k * S0 i j else 0) + (if i =? nr - 1 then - k * S0 i j else 0))%R). set (ay := ((if j =? 0 then k * S1 i j else 0) + (if j =? ns - 1 then - k * S1 i j else 0))%R).
    transitivity (ax * j_r P r s + ay * j_s P r s)%R.
    + rewrite <- Q1, <- Q3, <- !sumn_scal.
      rewrite (sumn_ext nr _ (fun q => ax * D1r i q * phi (cgl nr q) s)%R) by (intros; ring).
      rewrite (sumn_ext ns (fun l => ay * (D1s j l * phi r (cgl ns l)))%R (fun l => ay * D1s j l * phi r (cgl ns l))%R) by (intros; ring).
      unfold r, s. rewrite <- (row_x nr ns j (fun q => ax * D1r i q)%R (fun q l => phi (cgl nr q) (cgl ns l)) Hj).
      rewrite <- (row_y nr ns i (fun l => ay * D1s j l)%R (fun q l => phi (cgl nr q) (cgl ns l)) Hi).
      rewrite <- sumn_plus. apply sumn_ext. intros l Hl. rewrite <- sumn_plus. apply sumn_ext. intros q Hq. ring.
    + unfold ax, ay, over_sides, ref_flow. destruct (i =? 0), (i =? nr - 1), (j =? 0), (j =? ns - 1); ring.
  - unfold ref_lap. fold r s. set (g00 := entry (mt_gg (MT i j)) 0 0). set (g01 := entry (mt_gg (MT i j)) 0 1). set (g11 := entry (mt_gg (MT i j)) 1 1). set (l0 := LL 0 i j). set (l1 := LL 1 i j).
    transitivity (- k * (g00 * j_rr P r s - l0 * j_r P r s) + - k * (g11 * j_ss P r s - l1 * j_s P r s) + - k * (2 * g01) * j_rs P r s + alpha * phi r s)%R; [|ring].
    assert (M1 : (- k * (g00 * j_rr P r s - l0 * j_r P r s))%R = sumn nr (fun q => - k * (g00 * D2r i q - l0 * D1r i q) * phi (cgl nr q) s)%R).
    { rewrite <- Q1, <- Q2. rewrite (sumn_ext nr (fun q => - k * (g00 * D2r i q - l0 * D1r i q) * phi (cgl nr q) s)%R (fun q => (- k * g00) * (D2r i q * phi (cgl nr q) s) + (k * l0) * (D1r i q * phi (cgl nr q) s))%R) by (intros; ring).
      rewrite sumn_plus, !sumn_scal. ring. }
    assert (M2 : (- k * (g11 * j_ss P r s - l1 * j_s P r s))%R = sumn ns (fun q => - k * (g11 * D2s j q - l1 * D1s j q) * phi r (cgl ns q))%R).
    { rewrite <- Q3, <- Q4. rewrite (sumn_ext ns (fun q => - k * (g11 * D2s j q - l1 * D1s j q) * phi r (cgl ns q))%R (fun q => (- k * g11) * (D2s j q * phi r (cgl ns q)) + (k * l1) * (D1s j q * phi r (cgl ns q)))%R) by (intros; ring).
      rewrite sumn_plus, !sumn_scal. ring. }
    assert (M3 : (- k * (2 * g01) * j_rs P r s)%R = sumn ns (fun l => sumn nr (fun q => - k * (2 * g01) * (D1r i q * D1s j l) * phi (cgl nr q) (cgl ns l)))%R).
    { rewrite <- Q5, <- sumn_scal. apply sumn_ext. intros l Hl. unfold r. rewrite <- (XR i Hi (cgl ns l)), nsum_sumn.
      rewrite (sumn_ext nr (fun q => - k * (2 * g01) * (D1r i q * D1s j l) * phi (cgl nr q) (cgl ns l))%R (fun q => (- k * (2 * g01) * D1s j l) * (D1r i q * phi (cgl nr q) (cgl ns l)))%R) by (intros; ring).
      rewrite sumn_scal. ring. }
    rewrite M1, M2, M3. unfold s at 1.
    rewrite <- (row_x nr ns j (fun q => - k * (g00 * D2r i q - l0 * D1r i q))%R (fun q l => phi (cgl nr q) (cgl ns l)) Hj).
    unfold r. rewrite <- (row_y nr ns i (fun l => - k * (g11 * D2s j l - l1 * D1s j l))%R (fun q l => phi (cgl nr q) (cgl ns l)) Hi).
    unfold s. rewrite <- (row_d nr ns i j alpha (fun q l => phi (cgl nr q) (cgl ns l)) Hi Hj).
    rewrite <- !sumn_plus. apply sumn_ext. intros l Hl. rewrite <- !sumn_plus. apply sumn_ext. intros q Hq. ring.
Qed.

Lemma bval_pull i j : bval2 hist' nr ns (xnode (-1) 1 nr) (xnode (-1) 1 ns) i j = prescribed_value hist nr ns i j (j_f X (cgl nr i) (cgl ns j)) (j_f Y (cgl nr i) (cgl ns j)).
Proof using TM.
  unfold bval2, prescribed_value. rewrite !spec_fun_map by reflexivity. rewrite !xnode_ref. destruct TM as (_ & _ & TD). destruct (TD (cgl nr i) (cgl ns j)) as [T _].
  assert (AP : forall u : F2, comp_map map u (cgl nr i) (cgl ns j) = u (j_f X (cgl nr i) (cgl ns j)) (j_f Y (cgl nr i) (cgl ns j))) by (intros u; unfold comp_map; now rewrite T).
  destruct (j =? ns - 1), (j =? 0), (i =? nr - 1), (i =? 0);
  destruct (spec_fun F2 z2 hist Ymax), (spec_fun F2 z2 hist Ymin), (spec_fun F2 z2 hist Xmax), (spec_fun F2 z2 hist Xmin); cbn [option_map]; auto.
Qed.

(** the conditions at a node in reference coordinates *)
Definition ref_at (alpha : R) (source : R -> R -> R) (P : jet2) (i j : nat) : Prop :=
  let r := cgl nr i in let s := cgl ns j in let x := j_f X r s in let y := j_f Y r s in
  (0 < i < nr - 1 -> 0 < j < ns - 1 -> (- k * ref_lap P i j + alpha * j_f P r s = source x y)%R) /\
  (presc2 R 0%R hist nr ns i j -> j_f P r s = prescribed_value hist nr ns i j x y) /\
  (on_boundary nr ns i j -> ~ presc2 R 0%R hist nr ns i j ->
     over_sides nr ns i j (ref_flow (j_r P r s) (j_s P r s) (S0 i j) (S1 i j)) =
     over_sides nr ns i j (fun sd => match spec_nat F2 hn sd with Some w => w x y | None => 0%R end)).

Notation gg source := (g2n (pull f) (-1) 1 (-1) 1 nr ns (comp_map map source)).
Notation bb := (bv2n hist' (-1) 1 (-1) 1 nr ns).

Lemma grid_ref D1r D2r d1r d2r D1s D2s d1s d2s p alpha source P :
  diff_ok (sm_interp_r f) nr d1r d2r D1r D2r -> diff_ok (sm_interp_s f) ns d1s d2s D1s D2s -> describes h (nr * ns) p ->
  (forall i j, i < nr -> j < ns -> In (i + j * nr) p <-> presc2 R 0%R hist nr ns i j) -> is_poly2 nr ns (j_f P) -> is_jet2 P -> well_posed2 hist hn ->
  (grid_equations (nr * ns) p (A3n D1r D2r D1s D2s alpha) (gg source) bb (nodal2 (-1) 1 (-1) 1 nr ns (j_f P)) <->
   forall i j, i < nr -> j < ns -> ref_at alpha source P i j).
Proof using FR TM.
  intros DX DY D IP Po JP WP. destruct (spc2_inv (pull f) _ _ _ _ _ _ _ _ _ _ FP) as (Hx & Hy & _ & _ & _ & _ & _ & _ & _ & _ & _ & _ & _ & _ & _ & _ & _ & _ & _ & _ & _ & _ & Rn & _).
  destruct (C43_history_natural2 F2 z2 hn') as (n' & Rn' & _ & _ & SH). rewrite Rn in Rn'. inversion Rn' as [EN]. clear Rn'. rewrite <- EN in SH. clear EN.
  assert (ROW := fun i j => row3 D1r D2r d1r d2r D1s D2s d1s d2s alpha P i j DX DY Po JP).
  destruct TM as (_ & _ & TD).
  assert (AP : forall (u : F2) i j, comp_map map u (xnode (-1) 1 nr i) (xnode (-1) 1 ns j) = u (j_f X (cgl nr i) (cgl ns j)) (j_f Y (cgl nr i) (cgl ns j))) by (intros u i j; rewrite !xnode_ref; unfold comp_map; now rewrite (proj1 (TD _ _))).
  assert (NW : forall s i j, ~ has (spec_fun F2 z2 hist s) -> has (spec_nat F2 hn s) /\
     nth (side_index s) (n_fun F2 (s2_n (pull f))) z2 (xnode (-1) 1 nr i) (xnode (-1) 1 ns j) = match spec_nat F2 hn s with Some u => u (j_f X (cgl nr i) (cgl ns j)) (j_f Y (cgl nr i) (cgl ns j)) | None => 0%R end).
  { intros s i j N. destruct (WP s) as [[Q _]|[_ Q]]; [contradiction|]. split; auto. assert (S := SH s). unfold shows in S. rewrite spec_nat_map in S. destruct (spec_nat F2 hn s) as [u|]; [|now destruct Q]. cbn [option_map] in S.
    destruct S as [_ S]. cbn [pull s2_n]. rewrite (nth_error_nth _ _ z2 S). apply AP. }
  assert (BD : forall i j, i < nr -> j < ns -> on_boundary nr ns i j -> ~ presc2 R 0%R hist nr ns i j ->
     en2 hn' nr ns i j = true /\ g2 (pull f) (-1) 1 (-1) 1 nr ns (comp_map map source) i j = over_sides nr ns i j (fun s => match spec_nat F2 hn s with Some u => u (j_f X (cgl nr i) (cgl ns j)) (j_f Y (cgl nr i) (cgl ns j)) | None => 0%R end)).
  { intros i j Hi Hj B NP. unfold presc2 in NP.
    assert (ES : forall s, has (spec_nat F2 hn s) -> isS (spec_nat F2 hn' s) = true) by (intros s Q; rewrite spec_nat_map; destruct (spec_nat F2 hn s); [auto|now destruct Q]).
    assert (N0 : i = 0 -> ~ has (spec_fun F2 z2 hist Xmin)) by tauto. assert (N1 : i = nr - 1 -> ~ has (spec_fun F2 z2 hist Xmax)) by tauto.
    assert (N2 : j = 0 -> ~ has (spec_fun F2 z2 hist Ymin)) by tauto. assert (N3 : j = ns - 1 -> ~ has (spec_fun F2 z2 hist Ymax)) by tauto.
    split.
    - unfold en2. destruct (Nat.eqb_spec i 0); [apply ES, (NW Xmin 0 0); auto|]. destruct (Nat.eqb_spec i (nr - 1)); [apply ES, (NW Xmax 0 0); auto|].
      destruct (Nat.eqb_spec j 0); [apply ES, (NW Ymin 0 0); auto|]. destruct (Nat.eqb_spec j (ns - 1)); [apply ES, (NW Ymax 0 0); auto|].
      exfalso. unfold on_boundary in B. tauto.
    - unfold g2. replace ((i =? 0) || (i =? nr - 1) || (j =? 0) || (j =? ns - 1)) with true.
      2:{ symmetry. rewrite !orb_true_iff, !Nat.eqb_eq. unfold on_boundary in B. tauto. }
      unfold over_sides. f_equal; [f_equal; [f_equal|]|].
      + destruct (Nat.eqb_spec i 0); auto. apply (NW Xmin); auto.
      + destruct (Nat.eqb_spec i (nr - 1)); auto. apply (NW Xmax); auto.
      + destruct (Nat.eqb_spec j 0); auto. apply (NW Ymin); auto.
      + destruct (Nat.eqb_spec j (ns - 1)); auto. apply (NW Ymax); auto. }
  assert (IT : forall i j, i < nr -> j < ns -> 0 < i < nr - 1 -> 0 < j < ns - 1 -> ~ presc2 R 0%R hist nr ns i j /\ en2 hn' nr ns i j = false /\
     g2 (pull f) (-1) 1 (-1) 1 nr ns (comp_map map source) i j = source (j_f X (cgl nr i) (cgl ns j)) (j_f Y (cgl nr i) (cgl ns j))).
  { intros i j Hi Hj Bi Bj. split; [unfold presc2; lia|]. unfold en2, g2.
    rewrite (proj2 (Nat.eqb_neq i 0)), (proj2 (Nat.eqb_neq i (nr - 1))), (proj2 (Nat.eqb_neq j 0)), (proj2 (Nat.eqb_neq j (ns - 1))) by lia. split; auto. cbn [orb]. apply AP. }
  split.
  - intros (_ & HU & HP) i j Hi Hj. unfold ref_at. cbv zeta. assert (Hm : i + j * nr < nr * ns) by (now apply idx_lt). splits.
    + intros Bi Bj. destruct (IT i j Hi Hj Bi Bj) as (N & E1 & E2). specialize (HU _ Hm). rewrite IP in HU by auto. specialize (HU N). rewrite ROW, E1 in HU by auto.
      unfold g2n in HU. rewrite mod_idx, div_idx, E2 in HU by auto. exact HU.
    + intros Q. specialize (HP _ Hm). rewrite IP in HP by auto. specialize (HP Q). rewrite nodal2_nth in HP by auto. unfold bv2n in HP. rewrite !mod_idx, !div_idx in HP by auto. rewrite bval_pull, !xnode_ref in HP. exact HP.
    + intros B N. destruct (BD i j Hi Hj B N) as (E1 & E2). specialize (HU _ Hm). rewrite IP in HU by auto. specialize (HU N). rewrite ROW, E1 in HU by auto.
      unfold g2n in HU. rewrite mod_idx, div_idx, E2 in HU by auto. exact HU.
  - intros H. split; [apply nodal2_length|]. split; intros m Hm; (destruct (idx_split nr ns m) as (i & j & Hi & Hj & ->); [lia|auto|]); rewrite IP by auto; intros Q; destruct (H i j Hi Hj) as (K1 & K2 & K3).
    + rewrite ROW by auto. unfold g2n. rewrite mod_idx, div_idx by auto.
      destruct (Nat.eq_dec i 0) as [Z|]; [|destruct (Nat.eq_dec i (nr - 1)) as [Z|]; [|destruct (Nat.eq_dec j 0) as [Z|]; [|destruct (Nat.eq_dec j (ns - 1)) as [Z|]]]].
      1-4: assert (B : on_boundary nr ns i j) by (unfold on_boundary; tauto); destruct (BD i j Hi Hj B Q) as (E1 & E2); rewrite E1, E2; now apply K3.
      destruct (IT i j Hi Hj ltac:(lia) ltac:(lia)) as (_ & E1 & E2). rewrite E1, E2. apply K1; lia.
    + rewrite nodal2_nth by auto. unfold bv2n. rewrite !mod_idx, !div_idx by auto. rewrite bval_pull, !xnode_ref. now apply K2.
Qed.


Lemma ref_iff alpha source P i j phi px py pxx pyy pxy : i < nr -> j < ns -> represents X Y P (cgl nr i) (cgl ns j) phi px py pxx pyy pxy ->
  (ref_at alpha source P i j <-> collocates_at (imposed k) hist hn X Y nr ns k alpha source phi px py pxx pyy i j).
Proof using FR TM RG.
  intros Hi Hj (SM & Q & JQ & EQ & Q0 & Q1 & Q2 & Q3 & Q4 & Q5). destruct (metrics_at i j Hi Hj) as (EM & (g & EG) & SZ & JN & CT & GG & L0 & L1). cbv zeta in *.
  assert (TM' := TM). destruct TM' as (JX & JY & _).
  assert (S : sized 2 false (mt_new 2 false)) by (apply C95_sizes; exact lapack).
  destruct (C95_laplacian_2d lapack _ _ _ X Y _ _ phi px py pxx pyy pxy Q S JX JY SM JQ EQ EG) as (_ & _ & L0' & L1' & E0 & E1 & LAP). rewrite L0 in E0. rewrite L1 in E1. inversion E0; subst L0'. inversion E1; subst L1'. clear E0 E1.
  destruct (chain2 phi px py pxx pyy pxy X Y Q SM JX JY JQ EQ (cgl nr i) (cgl ns j)) as (C1 & C2 & _). cbv zeta in C1, C2.
  rewrite Q1, Q2, Q3, Q4, Q5 in *. assert (EP : j_f P (cgl nr i) (cgl ns j) = phi (j_f X (cgl nr i) (cgl ns j)) (j_f Y (cgl nr i) (cgl ns j))) by (rewrite <- Q0; apply EQ). clear Q0 Q1 Q2 Q3 Q4 Q5 EQ JQ Q EG.
  set (r := cgl nr i) in *. set (s := cgl ns j) in *. set (x := j_f X r s) in *. set (y := j_f Y r s) in *.
  assert (FL : forall sd n, is_normal sd (j_r X r s) (j_r Y r s) (j_s X r s) (j_s Y r s) n ->
    ref_flow (j_r P r s) (j_s P r s) (S0 i j) (S1 i j) sd = imposed k (px x y) (py x y) (j_r X r s) (j_r Y r s) (j_s X r s) (j_s Y r s) sd n).
  { intros sd n HN. unfold imposed, imposed_flow, ref_flow, S0, S1. rewrite GG, C1, C2. unfold entry. cbn [d_nrow d_data nth Nat.mul Nat.add]. unfold jacobian, Rdiv.
    destruct sd; (destruct (normal_x _ _ _ _ _ _ (or_introl eq_refl) HN JN) as [V _] || destruct (normal_x _ _ _ _ _ _ (or_intror eq_refl) HN JN) as [V _] ||
      destruct (normal_y _ _ _ _ _ _ (or_introl eq_refl) HN JN) as [V _] || destruct (normal_y _ _ _ _ _ _ (or_intror eq_refl) HN JN) as [V _]); cbn [sd_min] in V; cbv zeta in V; unfold Rdiv in V; rewrite V; ring. }
  unfold ref_at, collocates_at. cbv zeta. fold r s x y. unfold ref_lap. cbv zeta. fold r s. rewrite <- LAP, EP.
  assert (OS : forall nv : side -> R * R, (forall sd, is_normal sd (j_r X r s) (j_r Y r s) (j_s X r s) (j_s Y r s) (nv sd)) ->
    over_sides nr ns i j (ref_flow (j_r P r s) (j_s P r s) (S0 i j) (S1 i j)) = over_sides nr ns i j (fun sd => imposed k (px x y) (py x y) (j_r X r s) (j_r Y r s) (j_s X r s) (j_s Y r s) sd (nv sd))).
  { intros nv NV. unfold over_sides. rewrite <- !FL by auto. reflexivity. }
  assert (NE : exists nv : side -> R * R, forall sd, is_normal sd (j_r X r s) (j_r Y r s) (j_s X r s) (j_s Y r s) (nv sd)).
  { assert (NE := fun sd => normal_exists sd (j_r X r s) (j_r Y r s) (j_s X r s) (j_s Y r s) JN). destruct (NE Xmin) as [n0 N0]. destruct (NE Xmax) as [n1 N1]. destruct (NE Ymin) as [n2 N2]. destruct (NE Ymax) as [n3 N3].
    exists (fun sd => match sd with Xmin => n0 | Xmax => n1 | Ymin => n2 | Ymax => n3 end). intros []; auto. }
  split; intros (K1 & K2 & K3); splits; auto.
  - intros B N nv NV. rewrite <- OS by auto. auto.
  - intros B N. destruct NE as [nv NV]. rewrite (OS nv NV). auto.
Qed.
End M.

(** a smooth field seen from the reference square *)
Lemma comp_jet phi px py pxx pyy pxy X Y : smooth2 phi px py pxx pyy pxy -> is_jet2 X -> is_jet2 Y -> exists Q, is_jet2 Q /\ (forall r s, j_f Q r s = phi (j_f X r s) (j_f Y r s)) /\
  forall r s, let at_ (h : R -> R -> R) := h (j_f X r s) (j_f Y r s) in
  (j_r Q r s = at_ px * j_r X r s + at_ py * j_r Y r s /\ j_s Q r s = at_ px * j_s X r s + at_ py * j_s Y r s /\
   j_rr Q r s = qf2 (at_ pxx) (at_ pyy) (at_ pxy) (j_r X r s) (j_r Y r s) (j_r X r s) (j_r Y r s) + (at_ px * j_rr X r s + at_ py * j_rr Y r s) /\
   j_rs Q r s = qf2 (at_ pxx) (at_ pyy) (at_ pxy) (j_r X r s) (j_r Y r s) (j_s X r s) (j_s Y r s) + (at_ px * j_rs X r s + at_ py * j_rs Y r s) /\
   j_ss Q r s = qf2 (at_ pxx) (at_ pyy) (at_ pxy) (j_s X r s) (j_s Y r s) (j_s X r s) (j_s Y r s) + (at_ px * j_ss X r s + at_ py * j_ss Y r s))%R.
Proof.
  intros (H1 & H2 & H3) HX HY.
  pose (F := fun (h : R -> R -> R) r s => h (j_f X r s) (j_f Y r s)).
  exists (mkJ2 (F phi) (fun r s => F px r s * j_r X r s + F py r s * j_r Y r s)%R (fun r s => F px r s * j_s X r s + F py r s * j_s Y r s)%R
    (fun r s => qf2 (F pxx r s) (F pyy r s) (F pxy r s) (j_r X r s) (j_r Y r s) (j_r X r s) (j_r Y r s) + (F px r s * j_rr X r s + F py r s * j_rr Y r s))%R
    (fun r s => qf2 (F pxx r s) (F pyy r s) (F pxy r s) (j_s X r s) (j_s Y r s) (j_s X r s) (j_s Y r s) + (F px r s * j_ss X r s + F py r s * j_ss Y r s))%R
    (fun r s => qf2 (F pxx r s) (F pyy r s) (F pxy r s) (j_r X r s) (j_r Y r s) (j_s X r s) (j_s Y r s) + (F px r s * j_rs X r s + F py r s * j_rs Y r s))%R).
  split; [|split; [reflexivity|intros; cbn; splits; reflexivity]].
  intros r s. cbn [j_f j_r j_s j_rr j_ss j_rs]. destruct (HX r s) as (X1 & X2 & X3 & X4 & X5). destruct (HY r s) as (Y1 & Y2 & Y3 & Y4 & Y5).
  assert (D1 := H1 _ _ _ _ _ X1 Y1). assert (D2 := H1 _ _ _ _ _ X2 Y2). assert (E1 := H2 _ _ _ _ _ X1 Y1). assert (E2 := H2 _ _ _ _ _ X2 Y2). assert (G1 := H3 _ _ _ _ _ X1 Y1). assert (G2 := H3 _ _ _ _ _ X2 Y2).
  cbv beta in D1, D2, E1, E2, G1, G2. splits; auto; (eapply is_derive_val; [apply d2mul; try eassumption|]); unfold qf2, F; cbv beta; ring.
Qed.
Lemma quad_smooth (e p q A B C x0 y0 : R) : smooth2 (fun x y => e + (p * (x - x0) + q * (y - y0)) + (A * (x - x0) * (x - x0) / 2 + B * (x - x0) * (y - y0) + C * (y - y0) * (y - y0) / 2))%R
     (fun x y => p + A * (x - x0) + B * (y - y0))%R (fun x y => q + B * (x - x0) + C * (y - y0))%R (fun _ _ => A) (fun _ _ => C) (fun _ _ => B).
Proof.
  unfold smooth2, has_grad2. splits; intros c1 c2 t d1 d2 H1 H2; apply is_derive_unique in H1 as U1; apply is_derive_unique in H2 as U2; assert (Ex1 : ex_derive c1 t) by (now exists d1); assert (Ex2 : ex_derive c2 t) by (now exists d2);
    (auto_derive; [repeat split; auto|match goal with |- @eq _ ?a ?b => change (@eq R a b) end; change (Derive (fun x => c1 x) t) with (Derive c1 t); change (Derive (fun x => c2 x) t) with (Derive c2 t); rewrite ?U1, ?U2; unfold Rminus, Rdiv; field]).
Qed.
(** at a point where the Jacobian does not vanish, every second-order expansion comes from a smooth field *)
Lemma represents_exists X Y P r s : is_jet2 X -> is_jet2 Y -> jacobian X Y r s <> 0%R -> exists phi px py pxx pyy pxy, represents X Y P r s phi px py pxx pyy pxy.
Proof.
  intros HX HY JN. unfold jacobian in JN. set (a := j_r X r s) in *. set (b := j_r Y r s) in *. set (c := j_s X r s) in *. set (d := j_s Y r s) in *. set (J := (a * d - b * c)%R) in *.
  set (x0 := j_f X r s). set (y0 := j_f Y r s).
  set (p := ((d * j_r P r s - b * j_s P r s) / J)%R). set (q := ((- c * j_r P r s + a * j_s P r s) / J)%R).
  set (srr := (j_rr P r s - (p * j_rr X r s + q * j_rr Y r s))%R). set (srs := (j_rs P r s - (p * j_rs X r s + q * j_rs Y r s))%R). set (sss := (j_ss P r s - (p * j_ss X r s + q * j_ss Y r s))%R).
  set (A := ((srr * d * d - 2 * srs * b * d + sss * b * b) / (J * J))%R). set (C := ((srr * c * c - 2 * srs * a * c + sss * a * a) / (J * J))%R). set (B := ((- srr * c * d + srs * (a * d + b * c) - sss * a * b) / (J * J))%R).
  assert (SM : smooth2 (fun x y => j_f P r s + (p * (x - x0) + q * (y - y0)) + (A * (x - x0) * (x - x0) / 2 + B * (x - x0) * (y - y0) + C * (y - y0) * (y - y0) / 2))%R
     (fun x y => p + A * (x - x0) + B * (y - y0))%R (fun x y => q + B * (x - x0) + C * (y - y0))%R (fun _ _ => A) (fun _ _ => C) (fun _ _ => B)).
  { apply quad_smooth. }
  destruct (comp_jet _ _ _ _ _ _ X Y SM HX HY) as (Q & JQ & EQ & V). destruct (V r s) as (V1 & V2 & V3 & V4 & V5). cbv zeta beta in *.
  eexists _, _, _, _, _, _. split; [exact SM|]. exists Q. splits; auto.
  - rewrite EQ. fold x0 y0. unfold Rminus, Rdiv. ring.
  - rewrite V1. fold x0 y0 a b. unfold p, q. replace (x0 - x0)%R with 0%R by ring. replace (y0 - y0)%R with 0%R by ring. unfold J in *. field. auto.
  - rewrite V2. fold x0 y0 c d. unfold p, q. replace (x0 - x0)%R with 0%R by ring. replace (y0 - y0)%R with 0%R by ring. unfold J in *. field. auto.
  - rewrite V3. fold x0 y0 a b. replace (x0 - x0)%R with 0%R by ring. replace (y0 - y0)%R with 0%R by ring. rewrite !Rmult_0_r, !Rplus_0_r. unfold qf2.
    transitivity (srr + (p * j_rr X r s + q * j_rr Y r s))%R; [|unfold srr; ring]. f_equal. unfold A, B, C. unfold J in *. field. auto.
  - rewrite V5. fold x0 y0 c d. replace (x0 - x0)%R with 0%R by ring. replace (y0 - y0)%R with 0%R by ring. rewrite !Rmult_0_r, !Rplus_0_r. unfold qf2.
    transitivity (sss + (p * j_ss X r s + q * j_ss Y r s))%R; [|unfold sss; ring]. f_equal. unfold A, B, C. unfold J in *. field. auto.
  - rewrite V4. fold x0 y0 a b c d. replace (x0 - x0)%R with 0%R by ring. replace (y0 - y0)%R with 0%R by ring. rewrite !Rmult_0_r, !Rplus_0_r. unfold qf2.
    transitivity (srs + (p * j_rs X r s + q * j_rs Y r s))%R; [|unfold srs; ring]. f_equal. unfold A, B, C. unfold J in *. field. auto.
Qed.

Lemma nodal_map_eq X Y P phi nr ns : (forall r s, j_f P r s = phi (j_f X r s) (j_f Y r s)) -> nodal2 (-1) 1 (-1) 1 nr ns (j_f P) = nodal_map X Y nr ns phi.
Proof. intros E. unfold nodal2, nodal_map. apply map_ext. intros m. rewrite !xnode_ref. apply E. Qed.
Lemma nodal_ref P nr ns : nodal2 (-1) 1 (-1) 1 nr ns (j_f P) = map (fun m => j_f P (cgl nr (m mod nr)) (cgl ns (m / nr))) (seq 0 (nr * ns)).
Proof. unfold nodal2. apply map_ext. intros m. now rewrite !xnode_ref. Qed.
Lemma poly_ext2 nr ns (g1 g2 : R -> R -> R) : is_poly2 nr ns g1 -> (forall r s, g1 r s = g2 r s) -> is_poly2 nr ns g2.
Proof. intros [A B] E. split; intros t; [apply is_poly_ext with (fun r => g1 r t)|apply is_poly_ext with (fun s => g1 t s)]; auto. Qed.

(** every nodal vector comes from a polynomial with its derivatives *)
Lemma nodal_jet nr ns a : 1 <= nr -> 1 <= ns -> length a = nr * ns -> exists P, is_jet2 P /\ is_poly2 nr ns (j_f P) /\ a = nodal2 (-1) 1 (-1) 1 nr ns (j_f P).
Proof.
  intros Hr Hs La. destruct (lagrange_basis (-1) 1 nr ltac:(lra) Hr) as (L & LP & LN). destruct (lagrange_basis (-1) 1 ns ltac:(lra) Hs) as (M & MP & MN).
  assert (DL : forall n (B : nat -> R -> R), (forall j, j < n -> is_poly n (B j)) -> exists B1 B2 : nat -> R -> R, forall j, j < n -> (forall t, is_derive (B j) t (B1 j t)) /\ (forall t, is_derive (B1 j) t (B2 j t))).
  { intros n B HB. exists (fun j => Derive (B j)), (fun j => Derive (Derive (B j))). intros j Hj. destruct (poly_derivs n (B j) (HB j Hj)) as (g1 & g2 & E1 & E2).
    assert (EQ : forall t, Derive (B j) t = g1 t) by (intros t; now apply is_derive_unique). split.
    - intros t. rewrite EQ. apply E1.
    - intros t. assert (K : is_derive (Derive (B j)) t (g2 t)) by (apply is_derive_ext with g1; auto). rewrite (is_derive_unique _ _ _ K). exact K. }
  destruct (DL nr L LP) as (L1 & L2 & HL). destruct (DL ns M MP) as (M1 & M2 & HM). clear DL.
  pose (S := fun (U V : nat -> R -> R) (x y : R) => sumn ns (fun l => sumn nr (fun q => nth (q + l * nr) a 0 * U q x * V l y))%R).
  assert (SX : forall (U U' V : nat -> R -> R) x y, (forall q, q < nr -> is_derive (U q) x (U' q x)) -> is_derive (fun t => S U V t y) x (S U' V x y)).
  { intros U U' V x y HU. unfold S. apply (is_derive_sumn ns (fun l t => sumn nr (fun q => nth (q + l * nr) a 0 * U q t * V l y))%R (fun l => sumn nr (fun q => nth (q + l * nr) a 0 * U' q x * V l y))%R). intros l Hl.
    apply (is_derive_sumn nr (fun q t => nth (q + l * nr) a 0 * U q t * V l y)%R (fun q => nth (q + l * nr) a 0 * U' q x * V l y)%R). intros q Hq.
    apply is_derive_ext with (fun t => scal (nth (q + l * nr) a 0 * V l y)%R (U q t)); [intros t; unfold scal; cbn; unfold mult; cbn; ring|].
    eapply is_derive_val; [apply (is_derive_scal (U q) x (nth (q + l * nr) a 0 * V l y)%R (U' q x)); auto|ring]. }
  assert (SY : forall (U V V' : nat -> R -> R) x y, (forall l, l < ns -> is_derive (V l) y (V' l y)) -> is_derive (fun t => S U V x t) y (S U V' x y)).
  { intros U V V' x y HV. unfold S. apply (is_derive_sumn ns (fun l t => sumn nr (fun q => nth (q + l * nr) a 0 * U q x * V l t))%R (fun l => sumn nr (fun q => nth (q + l * nr) a 0 * U q x * V' l y))%R). intros l Hl.
    apply (is_derive_sumn nr (fun q t => nth (q + l * nr) a 0 * U q x * V l t)%R (fun q => nth (q + l * nr) a 0 * U q x * V' l y)%R). intros q Hq.
    apply (is_derive_scal (V l) y (nth (q + l * nr) a 0 * U q x)%R (V' l y)); auto. }
  exists (mkJ2 (S L M) (S L1 M) (S L M1) (S L2 M) (S L M2) (S L1 M1)). split; [|split].
  - intros r s. cbn [j_f j_r j_s j_rr j_ss j_rs]. splits.
    + apply SX. intros q Hq. apply (HL q Hq).
    + apply SY. intros l Hl. apply (HM l Hl).
    + apply SX. intros q Hq. apply (HL q Hq).
    + apply SY. intros l Hl. apply (HM l Hl).
    + apply SY. intros l Hl. apply (HM l Hl).
  - cbn [j_f]. unfold S. split.
    + intros y. apply (is_poly_sum nr ns (fun l x => sumn nr (fun k => nth (k + l * nr) a 0 * L k x * M l y)))%R. intros l Hl.
      apply (is_poly_sum nr nr (fun k x => nth (k + l * nr) a 0 * L k x * M l y)%R). intros k Hk.
      apply is_poly_ext with (fun x => (nth (k + l * nr) a 0 * M l y) * L k x)%R; [|intros; ring]. apply is_poly_scal. auto.
    + intros x. apply (is_poly_sum ns ns (fun l y => sumn nr (fun k => nth (k + l * nr) a 0 * L k x * M l y)))%R. intros l Hl.
      apply (is_poly_sum ns nr (fun k y => nth (k + l * nr) a 0 * L k x * M l y)%R). intros k Hk. apply is_poly_scal. auto.
  - cbn [j_f]. unfold S. apply nth_ext with (d := 0%R) (d' := 0%R); [now rewrite nodal2_length|]. intros m Hm. rewrite nodal2_nth by lia.
    destruct (idx_split nr ns m) as (i & j & Hi & Hj & ->); [lia|lia|]. rewrite mod_idx, div_idx by auto.
    rewrite (sumn_ext ns _ (fun l => sumn nr (fun k => (if (i =? k) && (j =? l) then 1 else 0) * nth (k + l * nr) a 0))%R).
    2:{ intros l Hl. apply sumn_ext. intros k Hk. rewrite LN, MN by auto. destruct (i =? k), (j =? l); cbn [andb]; ring. }
    rewrite (row_d nr ns i j 1%R (fun k l => nth (k + l * nr) a 0%R)) by auto. ring.
Qed.

(** ** theorems *)
(** `new` accepts exactly the documented arguments and does not panic *)
Theorem C96_new : forall map hist hn e n nr ns k, run2 F2 z2 hist = Ok e -> runn F2 (nbc2_new F2 z2) hn = Ok n ->
  ((exists f, spm_new map nr ns e n k = Ok f) <->
     2 <= nr <= N.to_nat 2049 /\ 2 <= ns <= N.to_nat 2049 /\ spec_per F2 hist true = false /\ spec_per F2 hist false = false) /\
  spm_new map nr ns e n k <> Panic.
Proof.
  intros map hist hn e n nr ns k Re Rn. assert (NP := new_pull map nr ns e n k).
  destruct (C86_new _ _ _ _ (-1) 1 (-1) 1 nr ns k k (run2_map (comp_map map) (comp_map_z map) hist e Re) (runn_map (comp_map map) (comp_map_z map) hn n Rn)) as [H1 H2]. rewrite !spec_per_map in H1. rewrite <- H1.
  destruct (spm_new map nr ns e n k) as [f|m|].
  - destruct NP as (NP & _). rewrite NP. split; [split; eauto|discriminate].
  - destruct NP as (m' & NP). rewrite NP. split; [split; intros (? & ?); discriminate|discriminate].
  - contradiction.
Qed.

(** A transfinite map built from boundary curves with their true first and second derivatives reports its true derivatives. *)
Theorem C96_true_map : forall bnd drv sec g, tf2_new bnd drv (Some sec) = Ok g ->
  (forall i, i < 2 -> forall k, k < 4 -> deriv1_of (nth k bnd zero1) (nth k drv zero1) i /\ deriv1_of (nth k drv zero1) (nth k sec zero1) i) ->
  exists X Y, true_map g X Y.
Proof.
  intros bnd drv sec g H D. pose (J := fun i => mkJ2 (tf2_x_p g i) (tf2_dx_dr g i) (tf2_dx_ds g i) (tf2_d2x_dr2 g i) (tf2_d2x_ds2 g i) (tf2_d2x_drs g i)). exists (J 0), (J 1).
  assert (S : t2_sec g = Some sec).
  { unfold tf2_new in H. destruct (negb (length bnd =? 4)); [discriminate|]. destruct (negb (length drv =? 4)); [discriminate|]. destruct (negb (length sec =? 4)); [discriminate|]. inversion H. reflexivity. }
  assert (JJ : forall i, i < 2 -> is_jet2 (J i)).
  { intros i Hi r s. assert (T := C48_derivatives_2d bnd drv (Some sec) g H i Hi (fun k Hk => proj1 (D i Hi k Hk)) true r s). cbv zeta in T. unfold tf2_point_and_derivs in T. rewrite S in T. cbn [fst snd] in T.
    destruct T as (_ & T1 & T2 & _ & T3 & _ & T4). destruct (T4 sec eq_refl (fun k Hk => proj2 (D i Hi k Hk))) as [T5 T6]. clear T4.
    unfold J. cbn [j_f j_r j_s j_rr j_ss j_rs]. destruct i as [|[|i]]; [| |lia]; cbn in T1, T2, T3, T5, T6; splits; apply is_derive_Reals; assumption. }
  split; [apply JJ; lia|]. split; [apply JJ; lia|]. intros r s. split; [reflexivity|]. unfold tf2_point_and_derivs. rewrite S. reflexivity.
Qed.

(** Both systems hold exactly the conditions at the nodes: the nodal values of a smooth field that is a polynomial in the reference coordinates solve the reduced
    system, or the Lagrange system for some multipliers, if and only if the field satisfies the equation on the mapped domain at the interior points and the boundary conditions. *)
Theorem C96_collocation : forall lapack f map hist hn nr ns k X Y alpha source phi px py pxx pyy pxy,
  spm_from f map hist hn nr ns k -> true_map map X Y -> regular X Y nr ns -> well_posed2 hist hn ->
  smooth2 phi px py pxx pyy pxy -> is_poly2 nr ns (fun r s => phi (j_f X r s) (j_f Y r s)) ->
  let collocates := forall i j, i < nr -> j < ns -> collocates_at (imposed k) hist hn X Y nr ns k alpha source phi px py pxx pyy i j in
  (0 < eqs_nu (sm_eqs f) -> 0 < eqs_np (sm_eqs f) -> forall extra, exists kb kc a0 ac fb,
    spm_get_matrices_sps lapack f alpha extra = Ok (kb, kc) /\ spm_get_vectors_sps f source = Ok (a0, ac, fb) /\
    ((exists ab, reduced_solution kb kc ac fb ab /\ joined_sps R 0%R (sm_eqs f) ab ac = Ok (nodal_map X Y nr ns phi)) <-> collocates)) /\
  (forall extra cc, exists mm oc b0 ff,
    spm_get_matrices_lmm lapack f alpha extra cc = Ok (mm, oc) /\ spm_get_vectors_lmm f source = Ok (b0, ff) /\
    ((exists lam, length lam = eqs_np (sm_eqs f) /\ solution mm ff (nodal_map X Y nr ns phi ++ lam)) <-> collocates)).
Proof.
  intros lapack f map hist hn nr ns k X Y alpha source phi px py pxx pyy pxy FR TM RG WP SM PO collocates.
  assert (JX := proj1 TM). assert (JY := proj1 (proj2 TM)). destruct (comp_jet phi px py pxx pyy pxy X Y SM JX JY) as (P & JP & EP & _).
  assert (PO' : is_poly2 nr ns (j_f P)) by (apply (poly_ext2 nr ns (fun r s => phi (j_f X r s) (j_f Y r s))); auto).
  rewrite <- !(nodal_map_eq X Y P phi nr ns EP).
  destruct (mats3 lapack f map hist hn nr ns k FR alpha) as (d1r & d2r & D1r & D2r & d1s & d2s & D1s & D2s & DX & DY & MS & ML).
  destruct (pull_from f map hist hn nr ns k FR) as (EM & _ & _ & _ & FP').
  destruct (spc2_inv (pull f) _ _ _ _ _ _ _ _ _ _ FP') as (Hx & Hy & p & _ & _ & _ & _ & _ & _ & _ & _ & D & IP & _). cbn [pull s2_eqs] in D.
  assert (IP' : forall i j, i < nr -> j < ns -> In (i + j * nr) p <-> presc2 R 0%R hist nr ns i j) by (intros i j Hi Hj; rewrite IP by auto; now apply presc2_map).
  assert (VAL := fun m n => val3 lapack f map hist hn nr ns k X Y FR TM RG alpha d1r d2r D1r D2r d1s d2s D1s D2s m n DX DY).
  assert (GC : grid_equations (nr * ns) p (A3n lapack f map hn nr ns k D1r D2r D1s D2s alpha) (g2n (pull f) (-1) 1 (-1) 1 nr ns (comp_map map source)) (bv2n (List.map (op_map (comp_map map)) hist) (-1) 1 (-1) 1 nr ns) (nodal2 (-1) 1 (-1) 1 nr ns (j_f P)) <-> collocates).
  { rewrite (grid_ref lapack f map hist hn nr ns k X Y FR TM D1r D2r d1r d2r D1s D2s d1s d2s p alpha source P DX DY D IP' PO' JP WP). unfold collocates.
    assert (RI : forall i j, i < nr -> j < ns -> ref_at lapack f hist hn nr ns k X Y alpha source P i j <-> collocates_at (imposed k) hist hn X Y nr ns k alpha source phi px py pxx pyy i j).
    { intros i j Hi Hj. apply (ref_iff lapack f map hist hn nr ns k X Y FR TM RG alpha source P i j phi px py pxx pyy pxy Hi Hj). split; auto. exists P. splits; auto. }
    split; intros H i j Hi Hj; apply RI; auto. }
  assert (VS := vec2_sps (pull f) _ _ _ _ _ _ _ _ _ _ FP' (comp_map map source)). assert (VL := vec2_lmm (pull f) _ _ _ _ _ _ _ _ _ _ FP' (comp_map map source)).
  assert (Q1 : spc2_get_vectors_sps (pull f) (comp_map map source) = spm_get_vectors_sps f source) by (now rewrite vec_sps_pull, EM).
  assert (Q2 : spc2_get_vectors_lmm (pull f) (comp_map map source) = spm_get_vectors_lmm f source) by (now rewrite vec_lmm_pull, EM).
  rewrite Q1 in VS. rewrite Q2 in VL. cbn [pull s2_eqs] in VS, VL. split.
  - intros NU NP extra. destruct (spc_sps_entries (sm_eqs f) (nr * ns) p D _ _ VAL extra NU NP) as (kb & kc & E & _).
    assert (VS' := VS). destruct VS' as (a0 & ac & fb & EV & _). exists kb, kc, a0, ac, fb. rewrite MS. splits; auto. rewrite <- GC.
    apply (reduced_grid (sm_eqs f) (nr * ns) p D _ _ VAL _ _ (spc_sps (spm_val lapack f alpha d1r d1s d2r d2s) (sm_eqs f) (nr * ns * (nr * ns)) extra) (spm_get_vectors_sps f source) ltac:(eauto) VS _ kb kc a0 ac fb NU NP E EV).
  - intros extra cc. assert (N0 : 0 < nr * ns) by nia. destruct (spc_lmm_entries (sm_eqs f) (nr * ns) p D _ _ VAL extra cc N0) as (mm & oc & E & _).
    assert (VL' := VL). destruct VL' as (b0 & ff & EV & _). exists mm, oc, b0, ff. rewrite ML. splits; auto. rewrite <- GC.
    apply (lagrange_grid (sm_eqs f) (nr * ns) p D _ _ VAL _ _ (spc_lmm (spm_val lapack f alpha d1r d1s d2r d2s) (sm_eqs f) (nr * ns * (nr * ns)) extra cc) (spm_get_vectors_lmm f source) ltac:(eauto) VL _ mm oc b0 ff N0 E EV). apply nodal2_length.
Qed.

(** What the drivers return holds the node values of a polynomial in the reference coordinates; at every node every field on the mapped domain with this value and these
    derivatives, and there is one, satisfies the equation or the boundary conditions. *)
Theorem C96_solve : forall lapack solve f map hist hn nr ns k X Y alpha source a,
  spm_from f map hist hn nr ns k -> true_map map X Y -> regular X Y nr ns -> exact_solver solve ->
  0 < eqs_nu (sm_eqs f) /\ 0 < eqs_np (sm_eqs f) /\ spm_solve_sps lapack solve f alpha source = Ok a \/ spm_solve_lmm lapack solve f alpha source = Ok a ->
  exists P, is_jet2 P /\ is_poly2 nr ns (j_f P) /\ a = List.map (fun m => j_f P (cgl nr (m mod nr)) (cgl ns (m / nr))) (seq 0 (nr * ns)) /\
    forall i j, i < nr -> j < ns ->
      (exists phi px py pxx pyy pxy, represents X Y P (cgl nr i) (cgl ns j) phi px py pxx pyy pxy) /\
      forall phi px py pxx pyy pxy, represents X Y P (cgl nr i) (cgl ns j) phi px py pxx pyy pxy ->
        collocates_at (imposed k) hist hn X Y nr ns k alpha source phi px py pxx pyy i j.
Proof.
  intros lapack solve f map hist hn nr ns k X Y alpha source a FR TM RG EX H.
  assert (JX := proj1 TM). assert (JY := proj1 (proj2 TM)).
  destruct (mats3 lapack f map hist hn nr ns k FR alpha) as (d1r & d2r & D1r & D2r & d1s & d2s & D1s & D2s & DX & DY & MS & ML).
  destruct (pull_from f map hist hn nr ns k FR) as (EM & _ & Re & Rn & FP').
  destruct (spc2_inv (pull f) _ _ _ _ _ _ _ _ _ _ FP') as (Hx & Hy & p & _ & _ & _ & _ & _ & _ & _ & _ & D & IP & _ & _ & _ & _ & _ & _ & _ & _ & _ & _ & PX & PY & _). cbn [pull s2_eqs] in D. rewrite spec_per_map in PX, PY.
  assert (IP' : forall i j, i < nr -> j < ns -> In (i + j * nr) p <-> presc2 R 0%R hist nr ns i j) by (intros i j Hi Hj; rewrite IP by auto; now apply presc2_map).
  assert (VAL := fun m n => val3 lapack f map hist hn nr ns k X Y FR TM RG alpha d1r d2r D1r D2r d1s d2s D1s D2s m n DX DY).
  assert (VS := vec2_sps (pull f) _ _ _ _ _ _ _ _ _ _ FP' (comp_map map source)). assert (VL := vec2_lmm (pull f) _ _ _ _ _ _ _ _ _ _ FP' (comp_map map source)).
  assert (Q1 : spc2_get_vectors_sps (pull f) (comp_map map source) = spm_get_vectors_sps f source) by (now rewrite vec_sps_pull, EM).
  assert (Q2 : spc2_get_vectors_lmm (pull f) (comp_map map source) = spm_get_vectors_lmm f source) by (now rewrite vec_lmm_pull, EM).
  rewrite Q1 in VS. rewrite Q2 in VL. cbn [pull s2_eqs] in VS, VL.
  assert (Q : well_posed2 hist hn /\ grid_equations (nr * ns) p (A3n lapack f map hn nr ns k D1r D2r D1s D2s alpha) (g2n (pull f) (-1) 1 (-1) 1 nr ns (comp_map map source)) (bv2n (List.map (op_map (comp_map map)) hist) (-1) 1 (-1) 1 nr ns) a).
  { assert (WP : ebc2_validate F2 (sm_e f) (sm_n f) = Ok tt -> well_posed2 hist hn).
    { intros V. apply (C43_validate2 F2 z2 hist hn _ _ Re Rn) in V. rewrite PX, PY in V. destruct V as [[V0 V1] [V2 V3]]. intros []; auto. }
    assert (N0 : 0 < nr * ns) by nia.
    destruct H as [(NU & NP & H)|H].
    - unfold spm_solve_sps in H. apply bind_ok in H. destruct H as ([] & V & H). split; auto. rewrite MS in H.
      apply (driver_sps (sm_eqs f) (nr * ns) p D _ _ VAL _ _ (spc_sps (spm_val lapack f alpha d1r d1s d2r d2s) (sm_eqs f) (nr * ns * (nr * ns)) 0) (spm_get_vectors_sps f source) ltac:(eauto) VS solve EX a NU NP H).
    - unfold spm_solve_lmm in H. apply bind_ok in H. destruct H as ([] & V & H). split; auto. rewrite ML in H.
      apply (driver_lmm (sm_eqs f) (nr * ns) p D _ _ VAL _ _ (spc_lmm (spm_val lapack f alpha d1r d1s d2r d2s) (sm_eqs f) (nr * ns * (nr * ns)) 0 false) (spm_get_vectors_lmm f source) ltac:(eauto) VL solve EX a N0 H). }
  destruct Q as [WP GE]. destruct (nodal_jet nr ns a ltac:(lia) ltac:(lia) (proj1 GE)) as (P & JP & Po & Ea). subst a. exists P. splits; auto; [apply nodal_ref|].
  assert (GE' := proj1 (grid_ref lapack f map hist hn nr ns k X Y FR TM D1r D2r d1r d2r D1s D2s d1s d2s p alpha source P DX DY D IP' Po JP WP) GE).
  intros i j Hi Hj. destruct (metrics_at lapack f map hist hn nr ns k X Y FR TM RG i j Hi Hj) as (_ & _ & _ & JN & _). cbv zeta in JN. split.
  - apply represents_exists; auto.
  - intros phi px py pxx pyy pxy RP. apply (ref_iff lapack f map hist hn nr ns k X Y FR TM RG alpha source P i j phi px py pxx pyy pxy Hi Hj RP). apply GE'; auto.
Qed.

(** the flow at the grid points is -k grad phi, for every smooth field that is a polynomial in the reference coordinates *)
Lemma flow3 lapack f map hist hn nr ns k X Y P : spm_from f map hist hn nr ns k -> true_map map X Y -> regular X Y nr ns -> is_jet2 P -> is_poly2 nr ns (j_f P) ->
  let W (u v : R -> R -> R) := List.map (fun m => let r := cgl nr (m mod nr) in let s := cgl ns (m / nr) in - k * ((u r s * j_r P r s + v r s * j_s P r s) / jacobian X Y r s))%R (seq 0 (nr * ns)) in
  spm_flow lapack f (nodal2 (-1) 1 (-1) 1 nr ns (j_f P)) = Ok (W (j_s Y) (fun r s => - j_r Y r s)%R, W (fun r s => - j_s X r s)%R (j_r X)).
Proof.
  intros FR TM RG JP [P1 P2] W. set (a := nodal2 (-1) 1 (-1) 1 nr ns (j_f P)). assert (La : length a = nr * ns) by apply nodal2_length.
  destruct (pull_from f map hist hn nr ns k FR) as (EM & EK & _ & _ & FP').
  destruct (spc2_inv (pull f) _ _ _ _ _ _ _ _ _ _ FP') as (Hx & Hy & p & d1r & d2r & D1r & D2r & d1s & d2s & D1s & D2s & D & IP & _ & _ & _ & _ & _ & _ & GI & _ & _ & _ & _ & _ & DX & DY).
  cbn [pull s2_eqs s2_grid s2_interp_x s2_interp_y] in *. assert (NEQ : eq_neq (sm_eqs f) = nr * ns) by apply D. clear D IP.
  assert (GX : g2_nx R (sm_grid f) = nr) by apply GI.
  unfold spm_flow. rewrite NEQ, La, Nat.eqb_refl. cbn [negb]. rewrite (do_g1 _ _ _ _ _ _ DX), (do_g1 _ _ _ _ _ _ DY). cbn [unwrap bind]. rewrite EK.
  unfold grid2_get_ij. rewrite GX.
  set (w := fun (u v : R -> R -> R) m => let r := cgl nr (m mod nr) in let s := cgl ns (m / nr) in (- k * ((u r s * j_r P r s + v r s * j_s P r s) / jacobian X Y r s))%R).
  match goal with |- for_range 0 _ ?F ?S = _ => set (G := F); set (St := S) end.
  destruct (for_range_inv (fun m (ww : list R * list R) => length (fst ww) = nr * ns /\ length (snd ww) = nr * ns /\
      forall q, q < m -> nth q (fst ww) 0%R = w (j_s Y) (fun r s => - j_r Y r s)%R q /\ nth q (snd ww) 0%R = w (fun r s => - j_s X r s)%R (j_r X) q) G 0 (nr * ns) St) as ((wx & wy) & E & L1 & L2 & N).
  - lia.
  - unfold St. cbn [fst snd]. rewrite !repeat_length. splits; auto. intros; lia.
  - intros m (wx & wy) Hm (L1 & L2 & N). cbn [fst snd] in *.
    destruct (idx_split nr ns m) as (i & j & Hi & Hj & Em); [lia|lia|].
    destruct (metrics_at lapack f map hist hn nr ns k X Y FR TM RG i j Hi Hj) as (MM & _ & _ & JN & CT & _). cbv zeta in JN, CT.
    rewrite <- Em in MM. unfold G. rewrite MM. cbn [bind]. rewrite CT.
    assert (M1 : m mod nr = i) by (rewrite Em; apply mod_idx; auto). assert (M2 : m / nr = j) by (rewrite Em; apply div_idx; auto). rewrite M1, M2.
    set (J := jacobian X Y (cgl nr i) (cgl ns j)) in *. set (xr := j_r X (cgl nr i) (cgl ns j)). set (yr := j_r Y (cgl nr i) (cgl ns j)). set (xs := j_s X (cgl nr i) (cgl ns j)). set (ys := j_s Y (cgl nr i) (cgl ns j)).
    assert (XR : nsum nr (fun q => D1r i q * j_f P (cgl nr q) (cgl ns j))%R = j_r P (cgl nr i) (cgl ns j)) by (apply (do_x1 _ _ _ _ _ _ DX (fun t => j_f P t (cgl ns j)) i); auto; apply JP).
    assert (XS : nsum ns (fun q => D1s j q * j_f P (cgl nr i) (cgl ns q))%R = j_s P (cgl nr i) (cgl ns j)) by (apply (do_x1 _ _ _ _ _ _ DY (fun t => j_f P (cgl nr i) t) j); auto; apply JP).
    rewrite nsum_sumn in XR, XS.
    assert (AV : forall q l, q < nr -> l < ns -> nth (q + l * nr) a 0%R = j_f P (cgl nr q) (cgl ns l)).
    { intros q l Hq Hl. unfold a. rewrite nodal2_nth by (apply idx_lt; auto). now rewrite mod_idx, div_idx, !xnode_ref by auto. }
    assert (SUM : forall g h : R, sumn (nr * ns) (fun n => - k * (D1r i (n mod nr)%nat * delta j (n / nr)%nat * g + delta i (n mod nr)%nat * D1s j (n / nr)%nat * h) * nth n a 0)%R = (- k * (g * j_r P (cgl nr i) (cgl ns j) + h * j_s P (cgl nr i) (cgl ns j)))%R).
    { intros g h. rewrite <- nsum_sumn, sum2. rewrite <- XR, <- XS.
      rewrite (sumn_ext ns _ (fun l => sumn nr (fun q => (if j =? l then - k * g * D1r i q else 0) * j_f P (cgl nr q) (cgl ns l)) + sumn nr (fun q => (if i =? q then - k * h * D1s j l else 0) * j_f P (cgl nr q) (cgl ns l)))%R).
      2:{ intros l Hl. rewrite <- sumn_plus. apply sumn_ext. intros q Hq. rewrite mod_idx, div_idx, AV by auto. unfold delta. destruct (j =? l), (i =? q); ring. }
      rewrite sumn_plus, (row_x nr ns j (fun q => - k * g * D1r i q)%R (fun q l => j_f P (cgl nr q) (cgl ns l)) Hj), (row_y nr ns i (fun l => - k * h * D1s j l)%R (fun q l => j_f P (cgl nr q) (cgl ns l)) Hi).
      rewrite (sumn_ext nr _ (fun q => (- k * g) * (D1r i q * j_f P (cgl nr q) (cgl ns j)))%R) by (intros; ring). rewrite (sumn_ext ns _ (fun l => (- k * h) * (D1s j l * j_f P (cgl nr i) (cgl ns l)))%R) by (intros; ring).
      rewrite !sumn_scal. ring. }
    match goal with |- exists _, bind (for_range 0 _ ?F _) _ = _ /\ _ => assert (IN : for_range 0 (nr * ns) F (0%R, 0%R) = Ok (w (j_s Y) (fun r s => - j_r Y r s)%R m, w (fun r s => - j_s X r s)%R (j_r X) m)) end.
    { rewrite (for_range_val (fun q => (sumn q (fun n => - k * (D1r i (n mod nr)%nat * delta j (n / nr)%nat * (ys / J) + delta i (n mod nr)%nat * D1s j (n / nr)%nat * (- yr / J)) * nth n a 0)%R,
                                        sumn q (fun n => - k * (D1r i (n mod nr)%nat * delta j (n / nr)%nat * (- xs / J) + delta i (n mod nr)%nat * D1s j (n / nr)%nat * (xr / J)) * nth n a 0)%R))); [|lia|reflexivity|].
      - rewrite !SUM. unfold w. rewrite M1, M2. fold J xr yr xs ys. f_equal. f_equal; field; auto.
      - intros n Hn. rewrite (vget_ok a n 0%R) by lia. cbn [bind]. destruct (idx_split nr ns n) as (q & l & Hq & Hl & EN); [lia|lia|].
        assert (K1 : n mod nr = q) by (rewrite EN; apply mod_idx; auto). assert (K2 : n / nr = l) by (rewrite EN; apply div_idx; auto).
        cbn [sumn]. rewrite K1, K2. rewrite (entries_get _ _ _ _ _ (do_e1 _ _ _ _ _ _ DX)), (entries_get _ _ _ _ _ (do_e1 _ _ _ _ _ _ DY)) by auto. cbn. reflexivity. }
    rewrite IN. cbn [bind]. rewrite !vset_ok by lia. cbn [bind]. eexists. split; [reflexivity|]. cbn [fst snd]. rewrite !upd_length. splits; auto.
    intros q Hq. rewrite !nth_upd by lia. destruct (Nat.eqb_spec q m) as [->|]; auto. apply N. lia.
  - rewrite E. cbn [fst snd] in *. assert (MW : forall (l : list R) (v : nat -> R), length l = nr * ns -> (forall q, q < nr * ns -> nth q l 0%R = v q) -> l = List.map v (seq 0 (nr * ns))).
    { intros l v Ll Hl. apply nth_ext with (d := 0%R) (d' := v 0); [now rewrite map_length, seq_length|]. intros m Hm. rewrite map_nth, seq_nth by lia. apply Hl. lia. }
    f_equal. f_equal; unfold W; apply MW; auto; intros q Hq; apply (N q Hq).
Qed.

Theorem C96_flow : forall lapack f map hist hn nr ns k X Y phi px py pxx pyy pxy,
  spm_from f map hist hn nr ns k -> true_map map X Y -> regular X Y nr ns -> smooth2 phi px py pxx pyy pxy -> is_poly2 nr ns (fun r s => phi (j_f X r s) (j_f Y r s)) ->
  spm_flow lapack f (nodal_map X Y nr ns phi) = Ok (nodal_map X Y nr ns (fun x y => - k * px x y)%R, nodal_map X Y nr ns (fun x y => - k * py x y)%R).
Proof.
  intros lapack f map hist hn nr ns k X Y phi px py pxx pyy pxy FR TM RG SM PO.
  assert (JX := proj1 TM). assert (JY := proj1 (proj2 TM)). destruct (comp_jet phi px py pxx pyy pxy X Y SM JX JY) as (P & JP & EP & DP).
  assert (PO' : is_poly2 nr ns (j_f P)) by (apply (poly_ext2 nr ns (fun r s => phi (j_f X r s) (j_f Y r s))); auto).
  rewrite <- (nodal_map_eq X Y P phi nr ns EP). rewrite (flow3 lapack f map hist hn nr ns k X Y P FR TM RG JP PO').
  assert (Q : forall m, In m (seq 0 (nr * ns)) -> jacobian X Y (cgl nr (m mod nr)) (cgl ns (m / nr)) <> 0%R).
  { intros m Hm. apply in_seq in Hm. destruct (pull_from f map hist hn nr ns k FR) as (_ & _ & _ & _ & FP'). destruct (spc2_inv (pull f) _ _ _ _ _ _ _ _ _ _ FP') as (Hx & Hy & _).
    destruct (idx_split nr ns m) as (i & j & Hi & Hj & Em); [lia|lia|]. rewrite Em, mod_idx, div_idx by auto.
    apply (metrics_at (fun _ => Panic) f map hist hn nr ns k X Y FR TM RG i j Hi Hj). }
  f_equal. f_equal; unfold nodal_map; apply map_ext_in; intros m Hm; specialize (Q m Hm); destruct (DP (cgl nr (m mod nr)) (cgl ns (m / nr))) as (-> & -> & _); unfold jacobian in *; field; auto.
Qed.

Theorem C96_flow_length : forall lapack f map hist hn nr ns k X Y a, spm_from f map hist hn nr ns k -> true_map map X Y -> regular X Y nr ns ->
  (length a <> nr * ns <-> exists e, spm_flow lapack f a = Err e) /\ spm_flow lapack f a <> Panic.
Proof.
  intros lapack f map hist hn nr ns k X Y a FR TM RG. destruct (pull_from f map hist hn nr ns k FR) as (_ & _ & _ & _ & FP').
  destruct (spc2_inv (pull f) _ _ _ _ _ _ _ _ _ _ FP') as (Hx & Hy & p & _ & _ & _ & _ & _ & _ & _ & _ & D & _). cbn [pull s2_eqs] in D.
  destruct (Nat.eq_dec (length a) (nr * ns)) as [La|La].
  - destruct (nodal_jet nr ns a ltac:(lia) ltac:(lia) La) as (P & JP & Po & ->). rewrite (flow3 lapack f map hist hn nr ns k X Y P FR TM RG JP Po).
    split; [|discriminate]. split; [contradiction|intros (e & [=])].
  - unfold spm_flow. assert (NEQ : eq_neq (sm_eqs f) = nr * ns) by apply D. rewrite NEQ. destruct (Nat.eqb_spec (length a) (nr * ns)) as [|_]; [contradiction|]. cbn [negb].
    split; [split; eauto|discriminate].
Qed.

(** The flow that the natural conditions impose is the flow along the outward normal exactly when the two coordinate lines meet at a right angle or
    the field does not vary along the side (or k = 0). *)
Theorem C96_normal_flux : forall k px py xr yr xs ys sd n, (xr * ys - yr * xs <> 0)%R -> is_normal sd xr yr xs ys n ->
  let along := match sd with Xmin | Xmax => px * xs + py * ys | Ymin | Ymax => px * xr + py * yr end%R in
  imposed_flow k px py xr yr xs ys sd n = normal_flow k px py n <-> (k * along * (xr * xs + yr * ys) = 0)%R.
Proof.
  assert (M : forall k px py xr yr xs ys n0 n1 : R, (xr * ys - yr * xs <> 0 -> n0 * n0 + n1 * n1 = 1 -> n0 * xs + n1 * ys = 0 -> n0 * xr + n1 * yr <> 0 ->
    (- k * ((px * xr + py * yr) / (n0 * xr + n1 * yr)) = - k * (px * n0 + py * n1) <-> k * (px * xs + py * ys) * (xr * xs + yr * ys) = 0))%R).
  { intros k px py xr yr xs ys n0 n1 JN U O QN. set (q := (n0 * xr + n1 * yr)%R) in *. set (m := (xs * xs + ys * ys)%R).
    assert (MP : (m <> 0)%R). { unfold m. intros Z. apply JN. assert (xs = 0 /\ ys = 0)%R as [-> ->] by (split; nra). ring. }
    assert (A1 : (n0 * n0 * m = ys * ys)%R). { assert (Z : (n0 * n0 * m - ys * ys = (n0 * xs + n1 * ys) * (n0 * xs - n1 * ys) + (n0 * n0 + n1 * n1 - 1) * (ys * ys))%R) by (unfold m; ring). rewrite O, U in Z. lra. }
    assert (A2 : (n1 * n1 * m = xs * xs)%R). { assert (Z : (n1 * n1 * m - xs * xs = (n0 * xs + n1 * ys) * (n1 * ys - n0 * xs) + (n0 * n0 + n1 * n1 - 1) * (xs * xs))%R) by (unfold m; ring). rewrite O, U in Z. lra. }
    assert (A3 : (n0 * n1 * m = - (xs * ys))%R). { assert (Z : (n0 * n1 * m + xs * ys = (n0 * xs + n1 * ys) * (n1 * xs + n0 * ys) - (n0 * n0 + n1 * n1 - 1) * (xs * ys))%R) by (unfold m; ring). rewrite O, U in Z. lra. }
    assert (D : ((px * xr + py * yr) * m = q * (px * n0 + py * n1) * m + (xr * xs + yr * ys) * (px * xs + py * ys))%R).
    { transitivity (px * (xr * m) + py * (yr * m))%R; [ring|]. transitivity (px * (xr * (n0 * n0 * m) + yr * (n0 * n1 * m)) + py * (xr * (n0 * n1 * m) + yr * (n1 * n1 * m)) + (xr * xs + yr * ys) * (px * xs + py * ys))%R; [|unfold q; ring].
      rewrite A1, A2, A3. unfold m. ring. }
    assert (V : (- k * ((px * xr + py * yr) / q) - - k * (px * n0 + py * n1) = - (k * (px * xs + py * ys) * (xr * xs + yr * ys)) / (m * q))%R).
    { replace ((px * xr + py * yr) / q)%R with (((px * xr + py * yr) * m) / (m * q))%R by (field; auto). rewrite D. field. auto. }
    split; intros H.
    - assert (Z : (- (k * (px * xs + py * ys) * (xr * xs + yr * ys)) / (m * q) = 0)%R) by lra. apply Rmult_integral in Z. destruct Z as [Z|Z]; [lra|]. exfalso. revert Z. apply Rinv_neq_0_compat. now apply Rmult_integral_contrapositive.
    - rewrite H in V. replace (- 0 / (m * q))%R with 0%R in V by (field; auto). lra. }
  intros k px py xr yr xs ys sd n JN (U & O). cbv zeta. unfold imposed_flow, normal_flow. destruct n as [n0 n1]. cbn [fst snd] in *.
  destruct sd; destruct O as [O1 O2].
  - apply M; auto. lra.
  - apply M; auto. lra.
  - rewrite (M k px py xs ys xr yr n0 n1) by (auto; lra). replace (xs * xr + ys * yr)%R with (xr * xs + yr * ys)%R by ring. tauto.
  - rewrite (M k px py xs ys xr yr n0 n1) by (auto; lra). replace (xs * xr + ys * yr)%R with (xr * xs + yr * ys)%R by ring. tauto.
Qed.

(** so with coordinate lines that meet at right angles on the boundary the natural conditions are the stated ones: the outward flow equals the given flux *)
Theorem C96_orthogonal : forall hist hn X Y nr ns k alpha source phi px py pxx pyy i j,
  (let r := cgl nr i in let s := cgl ns j in jacobian X Y r s <> 0 /\ (on_boundary nr ns i j -> j_r X r s * j_s X r s + j_r Y r s * j_s Y r s = 0))%R ->
  collocates_at (imposed k) hist hn X Y nr ns k alpha source phi px py pxx pyy i j <-> collocates_at (normal k) hist hn X Y nr ns k alpha source phi px py pxx pyy i j.
Proof.
  intros hist hn X Y nr ns k alpha source phi px py pxx pyy i j [JN OR]. unfold collocates_at. cbv zeta.
  assert (E : forall nv : side -> R * R, (on_boundary nr ns i j) -> (forall sd, is_normal sd (j_r X (cgl nr i) (cgl ns j)) (j_r Y (cgl nr i) (cgl ns j)) (j_s X (cgl nr i) (cgl ns j)) (j_s Y (cgl nr i) (cgl ns j)) (nv sd)) ->
    forall u v sd, imposed k u v (j_r X (cgl nr i) (cgl ns j)) (j_r Y (cgl nr i) (cgl ns j)) (j_s X (cgl nr i) (cgl ns j)) (j_s Y (cgl nr i) (cgl ns j)) sd (nv sd) = normal k u v (j_r X (cgl nr i) (cgl ns j)) (j_r Y (cgl nr i) (cgl ns j)) (j_s X (cgl nr i) (cgl ns j)) (j_s Y (cgl nr i) (cgl ns j)) sd (nv sd)).
  { intros nv B N u v sd. unfold imposed, normal. apply C96_normal_flux; auto. rewrite OR by auto. ring. }
  split; intros (H1 & H2 & H3); splits; auto; intros B NP nv N; rewrite <- (H3 B NP nv N); unfold over_sides; now rewrite !(E nv B N).
Qed.

(** ** findings *)
(** the parallelogram x = a r + b s, y = d s *)
Definition lin_x (a b : R) : jet2 := mkJ2 (fun r s => a * r + b * s)%R (fun _ _ => a) (fun _ _ => b) (fun _ _ => 0%R) (fun _ _ => 0%R) (fun _ _ => 0%R).
Definition lin_y (d : R) : jet2 := mkJ2 (fun r s => d * s)%R (fun _ _ => 0%R) (fun _ _ => d) (fun _ _ => 0%R) (fun _ _ => 0%R) (fun _ _ => 0%R).
Definition comp (u v : R -> R) : fun1 := fun i t => match i with 0 => u t | _ => v t end.
Definition lin_bnd (a b d : R) : list fun1 := [comp (fun s => - a + b * s) (fun s => d * s); comp (fun s => a + b * s) (fun s => d * s); comp (fun r => a * r - b) (fun _ => - d); comp (fun r => a * r + b) (fun _ => d)]%R.
Definition lin_drv (a b d : R) : list fun1 := [comp (fun s => b) (fun s => d); comp (fun s => b) (fun s => d); comp (fun r => a) (fun _ => 0); comp (fun r => a) (fun _ => 0)]%R.
Lemma lin_map a b d : exists g, tf2_new (lin_bnd a b d) (lin_drv a b d) (Some [zero1; zero1; zero1; zero1]) = Ok g /\ true_map g (lin_x a b) (lin_y d).
Proof.
  eexists. split; [reflexivity|]. unfold true_map. split; [|split].
  - intros r s. cbn. splits; auto_derive; auto; ring.
  - intros r s. cbn. splits; auto_derive; auto; ring.
  - intros r s. unfold tf2_point, tf2_point_and_derivs, tf2_both. cbn [t2_sec]. unfold tf2_x_p, tf2_x, tf2_dx_dr, tf2_dx_ds, tf2_d2x_dr2, tf2_d2x_ds2, tf2_d2x_drs, crn2, bnd2, drv2, sec2, lin_bnd, lin_drv, lin_x, lin_y.
    cbn [nth t2_bnd t2_drv t2_sec t2_crn j_f j_r j_s j_rr j_ss j_rs]. unfold comp, zero1. split; repeat apply f_equal2; try apply (f_equal Some); repeat apply f_equal2; field.
Qed.
Notation par_x := (lin_x 1 (/ 2)).
Notation par_y := (lin_y 1).
Lemma par_regular nr ns : regular par_x par_y nr ns.
Proof. intros i j _ _. unfold jacobian. cbn. apply Rle_lt_trans with (/ 10)%R; [|lra]. apply Rinv_le_contravar; lra. Qed.

(** The exact solution can fail to solve the discrete system although it is a polynomial: on a domain with oblique sides the natural conditions do not impose the flow along
    the outward normal (documented as wn = w.n). Here phi = y on the parallelogram x = r + s/2, y = s with k = 1; the flow through the right side is 1/sqrt 5. *)
Theorem C96_oblique_flux_refuted : ~ (forall lapack f map hist hn nr ns k X Y alpha source phi px py pxx pyy pxy,
  spm_from f map hist hn nr ns k -> true_map map X Y -> regular X Y nr ns -> well_posed2 hist hn ->
  smooth2 phi px py pxx pyy pxy -> is_poly2 nr ns (fun r s => phi (j_f X r s) (j_f Y r s)) ->
  (forall i j, i < nr -> j < ns -> collocates_at (normal k) hist hn X Y nr ns k alpha source phi px py pxx pyy i j) ->
  forall extra cc mm oc b0 ff, spm_get_matrices_lmm lapack f alpha extra cc = Ok (mm, oc) -> spm_get_vectors_lmm f source = Ok (b0, ff) ->
  exists lam, length lam = eqs_np (sm_eqs f) /\ solution mm ff (nodal_map X Y nr ns phi ++ lam)).
Proof.
  intros H. destruct (lin_map 1 (/ 2) 1) as (g & _ & TM). pose (u := (fun _ y => y) : F2). pose (w := (fun _ _ => / sqrt 5)%R : F2).
  pose (hist := [OpSet F2 Xmin u; OpSet F2 Ymin u; OpSet F2 Ymax u]). pose (hn := [(Xmax, w)]).
  destruct (C43_history2 F2 z2 hist) as (e & Re & _). destruct (C43_history_natural2 F2 z2 hn) as (n & Rn & _).
  destruct (C96_new g hist hn e n 3 3 1%R Re Rn) as ((_ & (f & E)) & _). { splits; try lia; reflexivity. }
  assert (FR : spm_from f g hist hn 3 3 1%R) by (exists e, n; splits; auto). assert (RG := par_regular 3 3).
  assert (WP : well_posed2 hist hn). { intros []; unfold has; cbn; [left|right|left|left]; split; congruence. }
  assert (SM : smooth2 (fun x y => y) (fun _ _ => 0%R) (fun _ _ => 1%R) (fun _ _ => 0%R) (fun _ _ => 0%R) (fun _ _ => 0%R)).
  { assert (K : forall (v t : R), is_derive (fun _ : R => v) t 0%R) by (intros; auto_derive; auto).
    assert (E1 : forall p q : R, q = (0 * p + 1 * q)%R) by (intros; ring). assert (E2 : forall p q : R, 0%R = (0 * p + 0 * q)%R) by (intros; ring).
    unfold smooth2, has_grad2. splits; intros c1 c2 t d1 d2 H1 H2; (eapply is_derive_val; [eauto|first [exact (E1 d1 d2)|exact (E2 d1 d2)]]). }
  assert (PO : is_poly2 3 3 (fun r s => j_f par_y r s)).
  { split; intros t; [exists [t]|exists [0%R; 1%R]]; (split; [cbn; lia|]); intros v; cbn; ring. }
  destruct (C96_collocation (fun _ => Panic) f g hist hn 3 3 1%R par_x par_y 0%R z2 (fun x y => y) (fun _ _ => 0%R) (fun _ _ => 1%R) (fun _ _ => 0%R) (fun _ _ => 0%R) (fun _ _ => 0%R) FR TM RG WP SM PO) as [_ CL].
  destruct (CL 0 false) as (mm & oc & b0 & ff & EM & EV & IFF).
  assert (QS : (0 < sqrt 5)%R) by (apply sqrt_lt_R0; lra). assert (QI : (0 < / sqrt 5)%R) by now apply Rinv_0_lt_compat.
  assert (COL : forall i j, i < 3 -> j < 3 -> collocates_at (normal 1) hist hn par_x par_y 3 3 1 0 z2 (fun x y => y) (fun _ _ => 0%R) (fun _ _ => 1%R) (fun _ _ => 0%R) (fun _ _ => 0%R) i j).
  { intros i j Hi Hj. unfold collocates_at. cbv zeta. splits.
    - intros _ _. ring.
    - unfold presc2, has, prescribed_value. cbn. intros Q. destruct (j =? 2) eqn:J2, (j =? 0) eqn:J0, (i =? 0) eqn:I0, (i =? 2); try reflexivity; exfalso; apply Nat.eqb_neq in J2, J0, I0; intuition congruence.
    - intros B NP nv N. unfold presc2, on_boundary, has in *. cbn in NP.
      destruct (Nat.eqb_spec i 0) as [->|I0]; [exfalso; apply NP; left; split; [discriminate|auto]|].
      destruct (Nat.eqb_spec j 0) as [->|J0]; [exfalso; apply NP; right; right; left; split; [discriminate|auto]|].
      destruct (Nat.eqb_spec j 2) as [->|J2]; [exfalso; apply NP; right; right; right; split; [discriminate|auto]|].
      assert (i = 2) by lia. subst i. assert (j = 1) by lia. subst j. unfold over_sides. cbn. destruct (N Xmax) as (U & O1 & O2). cbn in U, O1, O2. destruct (nv Xmax) as [n0 n1]. unfold normal, normal_flow. cbn [fst snd] in *.
      unfold w. assert (S5 : (- n1 = / sqrt 5)%R). { apply Rsqr_inj; [lra|lra|]. unfold Rsqr. rewrite <- Rinv_mult. rewrite sqrt_sqrt by lra. nra. }
      rewrite <- S5. ring. }
  destruct (H (fun _ => Panic) f g hist hn 3 3 1%R par_x par_y 0%R z2 (fun x y => y) (fun _ _ => 0%R) (fun _ _ => 1%R) (fun _ _ => 0%R) (fun _ _ => 0%R) (fun _ _ => 0%R) FR TM RG WP SM PO COL 0 false mm oc b0 ff EM EV) as (lam & LL1 & SO).
  destruct IFF as [IFF _]. assert (Z := IFF ltac:(exists lam; split; assumption) 2 1 ltac:(lia) ltac:(lia)). destruct Z as (_ & _ & Z).
  assert (NX : forall sd, exists n, is_normal sd 1 0 (/ 2) 1 n) by (intros sd; apply normal_exists; lra).
  destruct (NX Xmin) as (n1 & N1), (NX Xmax) as (n2 & N2), (NX Ymin) as (n3 & N3), (NX Ymax) as (n4 & N4).
  specialize (Z ltac:(unfold on_boundary; lia) ltac:(unfold presc2, has; cbn; intuition congruence) (fun sd => match sd with Xmin => n1 | Xmax => n2 | Ymin => n3 | Ymax => n4 end)).
  specialize (Z ltac:(intros []; assumption)). unfold over_sides, imposed, imposed_flow in Z. cbn in Z. unfold w in Z. destruct N2 as (_ & _ & O). 
  replace ((0 * 1 + 1 * 0) / (fst n2 * 1 + snd n2 * 0))%R with 0%R in Z by (field; lra). lra.
Qed.

(** A small domain makes `get_matrices_sps` and `get_matrices_lmm` panic: the metric determinant is compared with 1e-15, an absolute bound, and the error is unwrapped. Square of side c = 0.0001 *)
Theorem C96_small_domain_refuted : ~ (forall lapack f map hist hn nr ns k X Y alpha, spm_from f map hist hn nr ns k -> true_map map X Y ->
  (forall r s, jacobian X Y r s <> 0%R) -> well_posed2 hist hn -> spm_get_matrices_lmm lapack f alpha 0 false <> Panic).
Proof.
  intros H. pose (c := (/ 10 ^ 4)%R). assert (CP : (0 < c)%R) by (apply Rinv_0_lt_compat; lra).
  pose (X := lin_x c 0). pose (Y := lin_y c). destruct (lin_map c 0 c) as (g & _ & TM). fold X Y in TM.
  destruct (C43_history2 F2 z2 [OpHomogeneous F2]) as (e & Re & _).
  destruct (C96_new g [OpHomogeneous F2] [] e (nbc2_new F2 z2) 3 3 1%R Re eq_refl) as ((_ & (f & E)) & _). { splits; try lia; reflexivity. }
  assert (FR : spm_from f g [OpHomogeneous F2] [] 3 3 1%R) by (exists e, (nbc2_new F2 z2); splits; auto).
  apply (H (fun _ => Panic) f g [OpHomogeneous F2] [] 3 3 1%R X Y 0%R FR TM).
  { intros r s. unfold jacobian. cbn -[c]. intros Z. assert (0 < c * c)%R by now apply Rmult_lt_0_compat. lra. }
  { intros sd. left. unfold has. destruct sd; cbn; split; congruence. }
  destruct (mats3 (fun _ => Panic) f g _ _ 3 3 1%R FR 0%R) as (d1r & d2r & D1r & D2r & d1s & d2s & D1s & D2s & DX & DY & _ & ML). rewrite ML.
  destruct (pull_from f g _ _ 3 3 1%R FR) as (EM & _ & _ & _ & FP').
  destruct (spc2_inv (pull f) _ _ _ _ _ _ _ _ _ _ FP') as (_ & _ & p & _ & _ & _ & _ & _ & _ & _ & _ & D & IP & X1 & X2 & X3 & X4 & X5 & X6 & GI & LC & _). cbn [pull s2_grid s2_eqs] in GI, D.
  assert (GX : g2_nx R (sm_grid f) = 3) by apply GI. destruct GI as (_ & _ & _ & _ & _ & G6 & _). specialize (G6 0 0 ltac:(lia) ltac:(lia)). unfold grid2_get_m in G6. rewrite GX in G6.
  assert (MP : spm_metrics (fun _ => Panic) f 0 = Panic).
  { unfold spm_metrics. change (0 + 0 * 3) with 0 in G6. rewrite G6. cbn [bind]. rewrite EM. destruct TM as (_ & _ & TD). destruct (TD (cgl 3 0) (cgl 3 0)) as [_ ->]. unfold vec2. cbn [fst snd X Y j_r j_s j_rr j_ss j_rs].
    assert (S : sized 2 false (mt_new 2 false)) by (apply C95_sizes; exact (fun _ => Panic)).
    destruct (calc2 (fun _ => Panic) (mt_new 2 false) false c 0 0 c (Some [0%R; 0%R]) (Some [0%R; 0%R]) (Some [0%R; 0%R]) S) as (m' & E' & _); [intros _; splits; discriminate|].
    change (bind (mt_calculate (fun _ => Panic) (mt_new 2 false) [c; 0%R] [0%R; c] None (Some [0%R; 0%R]) (Some [0%R; 0%R]) None (Some [0%R; 0%R]) None None) (fun '(mt, g0) => _ <- unwrap g0 ;; Ok mt) = Panic).
    rewrite E'. destruct (Rleb_spec ((c * c - 0 * 0) ^ 2) ZERO_DETERMINANT) as [L|L]; [reflexivity|]. exfalso. revert L. unfold ZERO_DETERMINANT, c. apply Rle_not_lt.
    replace ((/ 10 ^ 4 * / 10 ^ 4 - 0 * 0) ^ 2)%R with (/ 10 ^ 16)%R by field. apply Rinv_le_contravar; lra. }
  unfold spc_lmm. assert (NEQ : eq_neq (sm_eqs f) = 9) by apply D. rewrite NEQ.
  assert (PV : spm_val (fun _ => Panic) f 0 d1r d1s d2r d2s 0 0 = Panic) by (unfold spm_val; destruct (grid2_get_ij R (sm_grid f) 0); rewrite MP; reflexivity).
  destruct (coo_new _ _ _ _ _ _) as [mm| |]; cbn [unwrap bind]; [|reflexivity|reflexivity].
  unfold for_range at 1 2. cbn [Nat.sub for_n]. now rewrite PV.
Qed.

(** ** non-vacuity: the parallelogram with phi = x y (not harmonic in the reference coordinates), and a square, whose lines meet at right angles *)
Example C96_example : exists g f, let hist := [OpHomogeneous F2; OpSet F2 Xmin (fun x y => x * y)%R] in
  tf2_new (lin_bnd 1 (/ 2) 1) (lin_drv 1 (/ 2) 1) (Some [zero1; zero1; zero1; zero1]) = Ok g /\ spm_from f g hist [] 4 5 2 /\ true_map g (lin_x 1 (/ 2)) (lin_y 1) /\
  regular (lin_x 1 (/ 2)) (lin_y 1) 4 5 /\ well_posed2 hist [] /\ 0 < eqs_nu (sm_eqs f) /\ 0 < eqs_np (sm_eqs f) /\
  is_poly2 4 5 (fun r s => j_f (lin_x 1 (/ 2)) r s * j_f (lin_y 1) r s)%R.
Proof.
  destruct (lin_map 1 (/ 2) 1) as (g & EG & TM). exists g. pose (hist := [OpHomogeneous F2; OpSet F2 Xmin (fun x y => x * y)%R]).
  destruct (C43_history2 F2 z2 hist) as (e & Re & _).
  destruct (C96_new g hist [] e (nbc2_new F2 z2) 4 5 2%R Re eq_refl) as ((_ & (f & E)) & _). { splits; try lia; reflexivity. }
  assert (FR : spm_from f g hist [] 4 5 2%R) by (exists e, (nbc2_new F2 z2); splits; auto). exists f. cbv zeta. fold hist.
  destruct (pull_from f g _ _ 4 5 2%R FR) as (EM & _ & _ & _ & FP').
  destruct (spc2_inv (pull f) _ _ _ _ _ _ _ _ _ _ FP') as (Hx & Hy & p & _ & _ & _ & _ & _ & _ & _ & _ & D & IP & _). cbn [pull s2_eqs] in D.
  splits; auto.
  - apply par_regular.
  - intros sd. left. unfold has. destruct sd; cbn; split; congruence.
  - destruct (iu_ok _ _ _ D (1 + 1 * 4)) as (_ & L & _); [lia| |lia]. rewrite IP by lia. unfold presc2. lia.
  - destruct (ip_ok _ _ _ D (0 + 1 * 4)) as (_ & L & _); [lia| |lia]. rewrite IP by lia. left. cbn. split; [discriminate|auto].
  - split; intros t; [exists [(/ 2 * t * t); t]%R|exists [0; t; / 2]%R]; (split; [cbn; lia|]); intros u; cbn; field.
Qed.
Example C96_orthogonal_example : forall nr ns i j, (let r := cgl nr i in let s := cgl ns j in jacobian (lin_x 2 0) (lin_y 3) r s <> 0 /\ (on_boundary nr ns i j -> j_r (lin_x 2 0) r s * j_s (lin_x 2 0) r s + j_r (lin_y 3) r s * j_s (lin_y 3) r s = 0))%R.
Proof. intros. unfold jacobian. cbn. split; [lra|intros _; ring]. Qed.

Print Assumptions C96_new.
Print Assumptions C96_true_map.
Print Assumptions C96_collocation.
Print Assumptions C96_solve.
Print Assumptions C96_flow.
Print Assumptions C96_flow_length.
Print Assumptions C96_normal_flux.
Print Assumptions C96_orthogonal.
Print Assumptions C96_oblique_flux_refuted.
Print Assumptions C96_small_domain_refuted.
