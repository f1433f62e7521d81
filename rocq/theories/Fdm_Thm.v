(** C45 (matrices), C46 (consistency) and C47 (equivalence of the two systems), exact real arithmetic. *)
From Coq Require Import Sorting.Permutation Sorting.Sorted.
From Verif Require Import Base RBase Dense_Model Sparse_Model Sparse_Spec Sparse_CooProofs Sparse_Ring Eqs_Model Eqs_Thm Grid_Model Grid_Thm Bcs_Model Bcs_Thm
  Fdm_Model Fdm_Asm Fdm_Stencil Fdm_Cap Fdm_Entries Fdm_Coef.
Local Open Scope nat_scope.

(** ** the solvers over R; [tol] is any non-negative tolerance *)
Section Thm.
Variable tol : R.
Notation F1 := (R -> R).
Notation F2 := (R -> R -> R).
Notation z1 := (fun _ : R => 0%R).
Notation z2 := (fun _ _ : R => 0%R).

(** a 1D solver reached by the API: any grid, essential and natural histories *)
Definition solver1 (f : fdm1 R) (hist : list (bc_op F1)) (hn : list (side * F1)) (grid : grid1 R) (kx : R) : Prop :=
  length (g1_coords R grid) = g1_nx R grid /\
  Forall (fun p => axis_x (fst p) = true) hn /\
  exists n, runn F1 (nbc1_new F1 z1) hn = Ok n /\
    fdm1_from R 0%R 2%R tol Rminus Rmult Rdiv Ropp Rabs Rltb f hist grid n kx.
Definition solver2 (f : fdm2 R) (hist : list (bc_op F2)) (hn : list (side * F2)) (grid : grid2 R) nx ny fx fy (kx ky : R) : Prop :=
  length (g2_coords R grid) = nx * ny /\
  exists n, runn F2 (nbc2_new F2 z2) hn = Ok n /\
    fdm2_from R 0%R 2%R tol Rplus Rminus Rmult Rdiv Ropp Rabs Rltb f hist grid nx ny fx fy n kx ky.

Notation sps1 f alpha extra s := (fdm1_get_matrices_sps R 0%R 2%R Rplus Rdiv f alpha extra s).
Notation lmm1 f alpha extra cc s := (fdm1_get_matrices_lmm R 0%R 1%R 2%R Rplus Rdiv f alpha extra cc s).
Notation sps2 f alpha extra s := (fdm2_get_matrices_sps R 0%R 2%R Rplus Rdiv f alpha extra s).
Notation lmm2 f alpha extra cc s := (fdm2_get_matrices_lmm R 0%R 1%R 2%R Rplus Rdiv f alpha extra cc s).

(** the grid spacing is that of the first two points *)
Lemma get_dx_first g dx : 2 <= g1_nx R g -> grid1_get_dx R 0%R tol Rminus Rabs Rltb g = Ok (Some dx) ->
  dx = (nth 1 (g1_coords R g) 0 - nth 0 (g1_coords R g) 0)%R /\ (0 < dx)%R.
Proof.
  intros Hx H. unfold grid1_get_dx in H. apply bind_ok in H. destruct H as (r & E & H).
  set (x1 := (nth 1 (g1_coords R g) 0 - nth 0 (g1_coords R g) 0)%R).
  assert (Q : match r with Some (Some dx) => dx = x1 /\ (0 < dx)%R | Some None => False | None => True end).
  { pose (I := fun i (st : option (option R)) => match st with Some (Some dx) => dx = x1 /\ (0 < dx)%R | Some None => i = 1 | None => True end).
    assert (Q : I (g1_nx R g) r).
    { refine (for_range_partial I _ _ _ _ _ _ E eq_refl _); [lia|].
      intros i st st' Hi Hst Est. destruct st as [[d0|]|]; unfold I in *; cbn in *.
      - apply bind_ok in Est. destruct Est as (x & _ & Est). apply bind_ok in Est. destruct Est as (xl & _ & Est).
        destruct (Rltb _ _); inversion Est; subst; auto.
      - subst i. apply bind_ok in Est. destruct Est as (x & X1 & Est). apply bind_ok in Est. destruct Est as (xl & X0 & Est).
        destruct (Rltb_spec 0 (x - xl)); inversion Est; subst; clear Est.
        assert (V : forall l i (x : R), vget l i = Ok x -> nth i l 0%R = x).
        { intros l i y Y. unfold vget in Y. destruct (nth_error l i) eqn:N; inversion Y; subst. now apply nth_error_nth. }
        apply V in X1, X0. unfold x1. rewrite X1. cbn in X0. rewrite X0. auto.
      - inversion Est; subst. auto. }
    unfold I in Q. destruct r as [[d0|]|]; auto. lia. }
  destruct r as [[d0|]|]; inversion H; subst; auto.
Qed.

(** ** C45 *)
Theorem C45_fdm1_sps : forall f hist hn grid kx alpha extra s, solver1 f hist hn grid kx -> 0 < eqs_nu (f1_eqs R f) ->
  let U i := nth i (eq_u_sorted (f1_eqs R f)) 0 in
  let P k := nth k (eq_p_sorted (f1_eqs R f)) 0 in
  let A := A1 (spec_per F1 hist true) (g1_nx R grid) kx (f1_dx R f) alpha in
  exists kb kc, sps1 f alpha extra s = Ok (kb, kc) /\
    coo_valid kb /\ c_nrow kb = eqs_nu (f1_eqs R f) /\ c_ncol kb = eqs_nu (f1_eqs R f) /\ c_sym kb = s /\
    (forall i j, i < eqs_nu (f1_eqs R f) -> j < eqs_nu (f1_eqs R f) -> entryR (expand s (coo_triplets kb)) i j = A (U i) (U j)) /\
    (match kc with
     | None => eqs_np (f1_eqs R f) = 0
     | Some kc => coo_valid kc /\ c_nrow kc = eqs_nu (f1_eqs R f) /\ c_ncol kc = eqs_np (f1_eqs R f) /\ c_sym kc = SymNo /\
         forall i k, i < eqs_nu (f1_eqs R f) -> k < eqs_np (f1_eqs R f) -> entryR (coo_triplets kc) i k = A (U i) (P k)
     end).
Proof.
  intros f hist hn grid kx alpha extra s (LC & HN & n & RN & H) NU U P A.
  assert (Hx : 2 <= g1_nx R grid) by apply H.
  destruct (fdm1_from_inv _ _ _ _ _ _ _ _ _ _ f hist grid n kx H) as (p0 & dx0 & _ & _ & _ & _ & _ & _ & _ & DX & GD & _).
  destruct (fdm1_sps_triplets R 0%R 2%R tol Rplus _ _ _ _ _ _ f hist grid n kx H) as (p & dx & D & IP & GD' & Q).
  assert (dx = dx0) by congruence. subst dx0. subst dx. destruct (Q alpha extra s NU) as (kb & kc & E & V & R1 & R2 & R3 & T & M). clear Q.
  exists kb, kc. splits; auto.
  - intros i j Hi Hj. rewrite T. rewrite (entry_bar_full _ _ _ _ _ D); auto.
    + apply coef1; auto. now apply (u_nth _ _ _ D).
    + intros m b q Hm Hb. destruct (item1 _ _ _ _ _ Hx Hm Hb) as [[_ ->]|[[_ ->]|[_ ->]]]; auto using left_lt, right_lt.
    + intros m q Hm Hq. etransitivity; [apply coef1; auto|]. rewrite A1_sym by auto. symmetry. apply coef1; auto.
  - destruct kc as [kc|]; auto. destruct M as (M1 & M2 & M3 & M4 & M5 & M6). splits; auto.
    intros i k Hi Hk. rewrite M6. rewrite (entry_chk _ _ _ _ _ D); auto.
    + apply coef1; auto. now apply (u_nth _ _ _ D).
    + intros m b q Hm Hb. destruct (item1 _ _ _ _ _ Hx Hm Hb) as [[_ ->]|[[_ ->]|[_ ->]]]; auto using left_lt, right_lt.
Qed.

(** the block matrix [[A, C^T], [C, 0]] where C picks the prescribed nodes *)
Definition block (A : nat -> nat -> R) (P : nat -> nat) (neq : nat) (i j : nat) : R :=
  if i <? neq then (if j <? neq then A i j else if i =? P (j - neq) then 1%R else 0%R)
  else if j <? neq then (if j =? P (i - neq) then 1%R else 0%R) else 0%R.

Lemma mmat_block nb vv h neq A P i j :
  (forall m n, m < neq -> n < neq -> coef nb vv m n = A m n) -> (forall k, P k = nth k (eq_p_sorted h) 0) ->
  mmat nb vv h neq i j = block A P neq i j.
Proof.
  intros CA EP. unfold mmat, block, lag, d. rewrite !EP.
  destruct (Nat.ltb_spec i neq), (Nat.ltb_spec j neq), (Nat.leb_spec neq i), (Nat.leb_spec neq j); cbn [andb]; auto; exfalso; lia.
Qed.

Theorem C45_fdm1_lmm : forall f hist hn grid kx alpha extra cc s, solver1 f hist hn grid kx ->
  let P k := nth k (eq_p_sorted (f1_eqs R f)) 0 in
  let A := A1 (spec_per F1 hist true) (g1_nx R grid) kx (f1_dx R f) alpha in
  let ndim := g1_nx R grid + eqs_np (f1_eqs R f) in
  exists mm oc, lmm1 f alpha extra cc s = Ok (mm, oc) /\ coo_valid mm /\ c_nrow mm = ndim /\ c_ncol mm = ndim /\ c_sym mm = s /\
    (forall i j, i < ndim -> j < ndim -> entryR (expand s (coo_triplets mm)) i j = block A P (g1_nx R grid) i j).
Proof.
  intros f hist hn grid kx alpha extra cc s (LC & HN & n & RN & H) P A ndim.
  assert (Hx : 2 <= g1_nx R grid) by apply H.
  destruct (fdm1_from_inv _ _ _ _ _ _ _ _ _ _ f hist grid n kx H) as (p0 & dx0 & _ & _ & _ & _ & _ & _ & _ & DX & GD & _).
  destruct (fdm1_lmm_triplets R 0%R 1%R 2%R tol Rplus _ _ _ _ _ _ f hist grid n kx H) as (p & dx & D & IP & GD' & Q).
  assert (dx = dx0) by congruence. subst dx0. subst dx. destruct (Q alpha extra cc s) as (mm & oc & E & V & R1 & R2 & R3 & T & M). clear Q.
  exists mm, oc. splits; auto. intros i j Hi Hj. rewrite T. rewrite (entry_mm_full _ _ _ _ _ D); auto.
  - apply mmat_block; auto. intros a b Ha Hb. apply coef1; auto.
  - intros m b q Hm Hb. destruct (item1 _ _ _ _ _ Hx Hm Hb) as [[_ ->]|[[_ ->]|[_ ->]]]; auto using left_lt, right_lt.
  - intros m q Hm Hq. etransitivity; [apply coef1; auto|]. rewrite A1_sym by auto. symmetry. apply coef1; auto.
Qed.

(** 2D: nodes m = i + j*nx *)
Definition A2n px py nx ny kx ky dx dy alpha (m n : nat) : R :=
  A2 px py nx ny kx ky dx dy alpha (m mod nx) (m / nx) (n mod nx) (n / nx).

Lemma coef2n px py nx ny kx ky dx dy alpha m n : 2 <= nx -> 2 <= ny -> m < nx * ny -> n < nx * ny ->
  coef (nbrs2 px py nx ny) (vv2R (mol2R kx ky dx dy) alpha px py nx ny) m n = A2n px py nx ny kx ky dx dy alpha m n.
Proof.
  intros Hx Hy Hm Hn. destruct (idx_split nx ny m) as (i & j & Hi & Hj & ->); [lia|auto|].
  destruct (idx_split nx ny n) as (i' & j' & Hi' & Hj' & ->); [lia|auto|].
  unfold A2n. rewrite !mod_idx, !div_idx by auto. now apply coef2.
Qed.
Lemma A2n_sym px py nx ny kx ky dx dy alpha m n : 2 <= nx -> 2 <= ny -> m < nx * ny -> n < nx * ny ->
  A2n px py nx ny kx ky dx dy alpha m n = A2n px py nx ny kx ky dx dy alpha n m.
Proof.
  intros Hx Hy Hm Hn. destruct (idx_split nx ny m) as (i & j & Hi & Hj & ->); [lia|auto|].
  destruct (idx_split nx ny n) as (i' & j' & Hi' & Hj' & ->); [lia|auto|].
  unfold A2n. rewrite !mod_idx, !div_idx by auto. now apply A2_sym.
Qed.

Theorem C45_fdm2_sps : forall f hist hn grid nx ny fx fy kx ky alpha extra s, solver2 f hist hn grid nx ny fx fy kx ky -> 0 < eqs_nu (f2_eqs R f) ->
  let U i := nth i (eq_u_sorted (f2_eqs R f)) 0 in
  let P k := nth k (eq_p_sorted (f2_eqs R f)) 0 in
  let A := A2n (spec_per F2 hist true) (spec_per F2 hist false) nx ny kx ky (f2_dx R f) (f2_dy R f) alpha in
  exists kb kc, sps2 f alpha extra s = Ok (kb, kc) /\
    coo_valid kb /\ c_nrow kb = eqs_nu (f2_eqs R f) /\ c_ncol kb = eqs_nu (f2_eqs R f) /\ c_sym kb = s /\
    (forall i j, i < eqs_nu (f2_eqs R f) -> j < eqs_nu (f2_eqs R f) -> entryR (expand s (coo_triplets kb)) i j = A (U i) (U j)) /\
    (match kc with
     | None => eqs_np (f2_eqs R f) = 0
     | Some kc => coo_valid kc /\ c_nrow kc = eqs_nu (f2_eqs R f) /\ c_ncol kc = eqs_np (f2_eqs R f) /\ c_sym kc = SymNo /\
         forall i k, i < eqs_nu (f2_eqs R f) -> k < eqs_np (f2_eqs R f) -> entryR (coo_triplets kc) i k = A (U i) (P k)
     end).
Proof.
  intros f hist hn grid nx ny fx fy kx ky alpha extra s (LC & n & RN & H) NU U P A.
  assert (Hx : 2 <= nx) by apply H. assert (Hy : 2 <= ny) by apply H.
  destruct (fdm2_from_inv _ _ _ _ _ _ _ _ _ _ _ f hist grid nx ny fx fy n kx ky H) as (p0 & dx0 & dy0 & _ & _ & _ & _ & _ & _ & _ & DX & DY & GD & _).
  destruct (fdm2_sps_triplets _ _ _ _ _ _ _ _ _ _ _ f hist grid nx ny fx fy n kx ky H) as (p & dx & dy & D & IP & GD' & Q).
  assert (dx = dx0) by congruence. assert (dy = dy0) by congruence. subst dx0 dy0. subst dx dy.
  destruct (Q alpha extra s NU) as (kb & kc & E & V & R1 & R2 & R3 & T & M). clear Q.
  exists kb, kc. splits; auto.
  - intros i j Hi Hj. rewrite T. rewrite (entry_bar_full _ _ _ _ _ D); auto.
    + apply coef2n; auto; now apply (u_nth _ _ _ D).
    + intros m b q Hm Hb. eapply item2_lt; eauto.
    + intros m q Hm Hq. etransitivity; [apply coef2n; auto|]. rewrite A2n_sym by auto. symmetry. apply coef2n; auto.
  - destruct kc as [kc|]; auto. destruct M as (M1 & M2 & M3 & M4 & M5 & M6). splits; auto.
    intros i k Hi Hk. rewrite M6. rewrite (entry_chk _ _ _ _ _ D); auto.
    + apply coef2n; auto. { now apply (u_nth _ _ _ D). } now apply (p_nth _ _ _ D).
    + intros m b q Hm Hb. eapply item2_lt; eauto.
Qed.

Theorem C45_fdm2_lmm : forall f hist hn grid nx ny fx fy kx ky alpha extra cc s, solver2 f hist hn grid nx ny fx fy kx ky ->
  let P k := nth k (eq_p_sorted (f2_eqs R f)) 0 in
  let A := A2n (spec_per F2 hist true) (spec_per F2 hist false) nx ny kx ky (f2_dx R f) (f2_dy R f) alpha in
  let ndim := nx * ny + eqs_np (f2_eqs R f) in
  exists mm oc, lmm2 f alpha extra cc s = Ok (mm, oc) /\ coo_valid mm /\ c_nrow mm = ndim /\ c_ncol mm = ndim /\ c_sym mm = s /\
    (forall i j, i < ndim -> j < ndim -> entryR (expand s (coo_triplets mm)) i j = block A P (nx * ny) i j).
Proof.
  intros f hist hn grid nx ny fx fy kx ky alpha extra cc s (LC & n & RN & H) P A ndim.
  assert (Hx : 2 <= nx) by apply H. assert (Hy : 2 <= ny) by apply H.
  destruct (fdm2_from_inv _ _ _ _ _ _ _ _ _ _ _ f hist grid nx ny fx fy n kx ky H) as (p0 & dx0 & dy0 & _ & _ & _ & _ & _ & _ & _ & DX & DY & GD & _).
  destruct (fdm2_lmm_triplets R 0%R 1%R 2%R tol Rplus _ _ _ _ _ _ f hist grid nx ny fx fy n kx ky H) as (p & dx & dy & D & IP & GD' & Q).
  assert (dx = dx0) by congruence. assert (dy = dy0) by congruence. subst dx0 dy0. subst dx dy.
  destruct (Q alpha extra cc s) as (mm & oc & E & V & R1 & R2 & R3 & T & M). clear Q.
  exists mm, oc. splits; auto. intros i j Hi Hj. rewrite T. rewrite (entry_mm_full _ _ _ _ _ D); auto.
  - apply mmat_block; auto. intros a b Ha Hb. apply coef2n; auto.
  - intros m b q Hm Hb. eapply item2_lt; eauto.
  - intros m q Hm Hq. etransitivity; [apply coef2n; auto|]. rewrite A2n_sym by auto. symmetry. apply coef2n; auto.
Qed.

Theorem C45_symmetric : forall px py nx ny kx ky dx dy alpha, 2 <= nx -> 2 <= ny ->
  (forall m n, m < nx -> n < nx -> A1 px nx kx dx alpha m n = A1 px nx kx dx alpha n m) /\
  (forall m n, m < nx * ny -> n < nx * ny ->
     A2n px py nx ny kx ky dx dy alpha m n = A2n px py nx ny kx ky dx dy alpha n m).
Proof. intros. split; intros; [now apply A1_sym|now apply A2n_sym]. Qed.

End Thm.
