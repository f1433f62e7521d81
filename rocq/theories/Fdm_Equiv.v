(** C47: the reduced system and the Lagrange system have the same solutions; the two drivers agree. *)
From Coq Require Import Sorting.Permutation Sorting.Sorted.
From Verif Require Import Base RBase Dense_Model Sparse_Model Sparse_Spec Sparse_CooProofs Sparse_Ops Sparse_Ring Eqs_Model Eqs_Thm Grid_Model Grid_Thm Bcs_Model Bcs_Thm
  Fdm_Model Fdm_Asm Fdm_Stencil Fdm_Cap Fdm_Entries Fdm_Coef Fdm_Thm Fdm_Vec.
Local Open Scope nat_scope.

(** ** specification: a stored matrix applied to a vector, row by row *)
Definition row (c : coo R) (n : nat) (x : list R) (i : nat) : R :=
  nsum n (fun j => entryR (expand (c_sym c) (coo_triplets c)) i j * nth j x 0)%R.
(** [x] solves c x = b *)
Definition solution (c : coo R) (b x : list R) : Prop :=
  length x = c_ncol c /\ forall i, i < c_nrow c -> row c (c_ncol c) x i = nth i b 0%R.
(** the reduced system: kb ab = fb - kc ac *)
Definition reduced_solution (kb kc : coo R) (ac fb ab : list R) : Prop :=
  length ab = c_ncol kb /\ forall i, i < c_nrow kb ->
    row kb (c_ncol kb) ab i = (nth i fb 0 - row kc (c_ncol kc) ac i)%R.

Lemma expand_no (ts : list (nat * nat * R)) : expand SymNo ts = ts.
Proof. induction ts as [|[[i j] x] ts IH]; auto. unfold expand in *. cbn [flat_map]. rewrite IH. reflexivity. Qed.

Lemma equiv_gen h neq p (D : describes h neq p) nb vv (NB : forall m b n, m < neq -> nth_error (nb m) b = Some n -> n < neq)
    A (CA : forall m n, m < neq -> n < neq -> coef nb vv m n = A m n) g bv kb kc mm ac fb ff :
  c_nrow kb = eqs_nu h -> c_ncol kb = eqs_nu h -> c_nrow kc = eqs_nu h -> c_ncol kc = eqs_np h ->
  c_nrow mm = neq + eqs_np h -> c_ncol mm = neq + eqs_np h ->
  (forall i j, i < eqs_nu h -> j < eqs_nu h ->
     entryR (expand (c_sym kb) (coo_triplets kb)) i j = A (nth i (eq_u_sorted h) 0) (nth j (eq_u_sorted h) 0)) ->
  (forall i k, i < eqs_nu h -> k < eqs_np h ->
     entryR (expand (c_sym kc) (coo_triplets kc)) i k = A (nth i (eq_u_sorted h) 0) (nth k (eq_p_sorted h) 0)) ->
  (forall i j, i < neq + eqs_np h -> j < neq + eqs_np h ->
     entryR (expand (c_sym mm) (coo_triplets mm)) i j = block A (fun k => nth k (eq_p_sorted h) 0) neq i j) ->
  length ac = eqs_np h ->
  (forall i, i < eqs_nu h -> nth i fb 0%R = g (nth i (eq_u_sorted h) 0)) ->
  (forall k, k < eqs_np h -> nth k ac 0%R = bv (nth k (eq_p_sorted h) 0)) ->
  (forall m, m < neq -> nth m ff 0%R = g m) ->
  (forall k, k < eqs_np h -> nth (neq + k) ff 0%R = bv (nth k (eq_p_sorted h) 0)) ->
  forall a, length a = neq ->
  ((exists ab, reduced_solution kb kc ac fb ab /\ joined_sps R 0%R h ab ac = Ok a) <->
   (exists lam, length lam = eqs_np h /\ solution mm ff (a ++ lam))).
Proof.
  intros R1 R2 R3 R4 R5 R6 EB EC EM LAC FB AC F1 F2 a La.
  assert (EQ := systems_equiv h neq p D nb vv g bv a La).
  transitivity (reduced h nb vv g bv a).
  - split.
    + intros (ab & (Lab & S) & J). rewrite R2 in Lab.
      destruct (joined_ok h neq p D ab ac Lab LAC) as (a' & J' & _ & JU & JP). rewrite J in J'. inversion J'; subst a'; clear J'.
      split; [|intros k Hk; rewrite JP by auto; auto].
      intros i Hi. specialize (S i ltac:(lia)). unfold row in S. rewrite R2, R4 in S. rewrite FB in S by auto.
      destruct (u_nth h neq p D i Hi) as [Lu _].
      rewrite (nsum_ext (eqs_nu h) _ (fun j => entryR (expand (c_sym kb) (coo_triplets kb)) i j * nth j ab 0)%R).
      2:{ intros j Hj. destruct (u_nth h neq p D j Hj) as [Lj _]. rewrite CA, EB, JU; auto. }
      rewrite S.
      rewrite (nsum_ext (eqs_np h) _ (fun k => coef nb vv (nth i (eq_u_sorted h) 0%nat) (nth k (eq_p_sorted h) 0%nat) * bv (nth k (eq_p_sorted h) 0%nat))%R).
      2:{ intros k Hk. destruct (p_nth h neq p D k Hk) as [Lk _]. rewrite CA, EC, AC; auto. }
      lra.
    + intros [HU HP].
      pose (ab := map (fun m => nth m a 0%R) (eq_u_sorted h)).
      assert (Lab : length ab = eqs_nu h) by (unfold ab; now rewrite map_length).
      assert (Nab : forall i, i < eqs_nu h -> nth i ab 0%R = nth (nth i (eq_u_sorted h) 0) a 0%R).
      { intros i Hi. unfold ab. rewrite (nth_indep _ 0%R ((fun m => nth m a 0%R) 0)) by (now rewrite map_length).
        now rewrite (map_nth (fun m => nth m a 0%R)). }
      exists ab. destruct (joined_ok h neq p D ab ac Lab LAC) as (a' & J & La' & JU & JP).
      assert (a' = a).
      { apply (list_by_parts h neq p D); auto; intros; [rewrite JU, Nab; auto|]. rewrite JP, AC, HP; auto. }
      subst a'. split; auto. split; [congruence|]. intros i Hi. rewrite R1 in Hi. unfold row. rewrite R2, R4, FB by auto.
      destruct (u_nth h neq p D i Hi) as [Lu _]. rewrite <- (HU i Hi).
      assert (X1 : nsum (eqs_nu h) (fun j => entryR (expand (c_sym kb) (coo_triplets kb)) i j * nth j ab 0)%R =
        nsum (eqs_nu h) (fun j => coef nb vv (nth i (eq_u_sorted h) 0%nat) (nth j (eq_u_sorted h) 0%nat) * nth (nth j (eq_u_sorted h) 0%nat) a 0)%R).
      { apply nsum_ext. intros j Hj. destruct (u_nth h neq p D j Hj) as [Lj _]. rewrite CA, EB, Nab; auto. }
      assert (X2 : nsum (eqs_np h) (fun k => entryR (expand (c_sym kc) (coo_triplets kc)) i k * nth k ac 0)%R =
        nsum (eqs_np h) (fun k => coef nb vv (nth i (eq_u_sorted h) 0%nat) (nth k (eq_p_sorted h) 0%nat) * bv (nth k (eq_p_sorted h) 0%nat))%R).
      { apply nsum_ext. intros k Hk. destruct (p_nth h neq p D k Hk) as [Lk _]. rewrite CA, EC, AC; auto. }
      rewrite X1, X2. lra.
  - rewrite EQ. assert (Q : forall lam, length lam = eqs_np h -> (lagrange h neq nb vv g bv (a ++ lam) <-> solution mm ff (a ++ lam))).
    { intros lam Ll. unfold lagrange, solution, row. rewrite R5, R6, app_length, La, Ll.
      assert (G : forall r, r < neq + eqs_np h -> (if r <? neq then g r else bv (nth (r - neq) (eq_p_sorted h) 0)) = nth r ff 0%R).
      { intros r Hr. destruct (Nat.ltb_spec r neq); [now rewrite F1|]. rewrite <- F2 by lia. f_equal. lia. }
      assert (G' : forall r, r < neq + eqs_np h -> nsum (neq + eqs_np h) (fun c => mmat nb vv h neq r c * nth c (a ++ lam) 0)%R =
        nsum (neq + eqs_np h) (fun j => entryR (expand (c_sym mm) (coo_triplets mm)) r j * nth j (a ++ lam) 0)%R).
      { intros r Hr. apply nsum_ext. intros c Hc. rewrite EM by auto. f_equal. apply mmat_block; auto. }
      split; [intros H; split; auto; intros r Hr|intros [_ H] r Hr]; specialize (H r Hr).
      - now rewrite <- G', H, G.
      - now rewrite G', H, G. }
    split; intros (lam & Ll & H); exists lam; split; auto; apply Q; auto.
Qed.

Section C47.
Variable tol : R.

(** what both systems built from one solver look like, and their equivalence *)
Definition C47_statement (sps : sym -> res (coo R * option (coo R))) (lmm : nat -> bool -> sym -> res (coo R * option (coo R)))
    (vs : res (list R * list R * list R)) (vl : res (list R * list R)) (h : eqs) (neq : nat) : Prop :=
  forall s s' extra cc, exists kb kc a0 ac fb mm oc b0 ff,
    sps s = Ok (kb, Some kc) /\ vs = Ok (a0, ac, fb) /\ lmm extra cc s' = Ok (mm, oc) /\ vl = Ok (b0, ff) /\
    coo_valid kb /\ coo_valid kc /\ coo_valid mm /\
    c_nrow kb = eqs_nu h /\ c_ncol kb = eqs_nu h /\ c_nrow kc = eqs_nu h /\ c_ncol kc = eqs_np h /\ c_sym kc = SymNo /\
    c_nrow mm = neq + eqs_np h /\ c_ncol mm = neq + eqs_np h /\
    length ac = eqs_np h /\ length fb = eqs_nu h /\ length ff = neq + eqs_np h /\
    forall a, length a = neq ->
    ((exists ab, reduced_solution kb kc ac fb ab /\ joined_sps R 0%R h ab ac = Ok a) <->
     (exists lam, length lam = eqs_np h /\ solution mm ff (a ++ lam))).

Theorem C47_fdm1 : forall f hist hn grid kx alpha source, solver1 tol f hist hn grid kx ->
  0 < eqs_nu (f1_eqs R f) -> 0 < eqs_np (f1_eqs R f) ->
  C47_statement (fdm1_get_matrices_sps R 0%R 2%R Rplus Rdiv f alpha 0) (fdm1_get_matrices_lmm R 0%R 1%R 2%R Rplus Rdiv f alpha)
    (fdm1_get_vectors_sps R 0%R 1%R 2%R Rplus Rmult Rdiv Ropp f source)
    (fdm1_get_vectors_lmm R 0%R 1%R 2%R Rplus Rmult Rdiv Ropp f source) (f1_eqs R f) (g1_nx R grid).
Proof.
  intros f hist hn grid kx alpha source S NU NP s s' extra cc.
  destruct (C45_fdm1_sps tol f hist hn grid kx alpha 0 s S NU) as (kb & kc & E1 & B1 & B2 & B3 & B4 & B5 & B6).
  destruct kc as [kc|]; [|lia]. destruct B6 as (K1 & K2 & K3 & K4 & K5).
  destruct (C45_fdm1_lmm tol f hist hn grid kx alpha extra cc s' S) as (mm & oc & E2 & M1 & M2 & M3 & M4 & M5).
  destruct (vectors1_sps tol f hist hn grid kx S source) as (ac & fb & E3 & L1 & L2 & V1 & V2).
  destruct (vectors1_lmm tol f hist hn grid kx S source) as (ff & E4 & L3 & V3 & V4).
  exists kb, kc, (repeat 0%R (eqs_nu (f1_eqs R f))), ac, fb, mm, oc, (repeat 0%R (g1_nx R grid + eqs_np (f1_eqs R f))), ff.
  splits; auto.
  destruct S as (LC & HN & n & RN & H). assert (Hx : 2 <= g1_nx R grid) by apply H.
  destruct (fdm1_from_inv _ _ _ _ _ _ _ _ _ _ f hist grid n kx H) as (p & dx & D & _).
  apply (equiv_gen (f1_eqs R f) (g1_nx R grid) p D (nbrs1 (spec_per F1 hist true) (g1_nx R grid))
    (vv1R (mol1R kx (f1_dx R f)) alpha (spec_per F1 hist true) (g1_nx R grid)))
    with (A := A1 (spec_per F1 hist true) (g1_nx R grid) kx (f1_dx R f) alpha)
         (g := rhs1 (spec_per F1 hist true) (g1_nx R grid) (f1_dx R f) (fun m => nth m (g1_coords R grid) 0%R) source
                 (nth 0 (n_fun _ (f1_n R f)) z1) (nth 1 (n_fun _ (f1_n R f)) z1))
         (bv := bval1 hist (g1_nx R grid) (fun m => nth m (g1_coords R grid) 0%R)); auto.
  - intros m b q Hm Hb. destruct (item1 _ _ _ _ _ Hx Hm Hb) as [[_ ->]|[[_ ->]|[_ ->]]]; auto using left_lt, right_lt.
  - intros. apply coef1; auto.
  - intros. rewrite B4. auto.
  - intros. rewrite K4, expand_no. now apply K5.
  - intros. rewrite M4. auto.
Qed.

Theorem C47_fdm2 : forall f hist hn grid nx ny fx fy kx ky alpha source, solver2 tol f hist hn grid nx ny fx fy kx ky ->
  0 < eqs_nu (f2_eqs R f) -> 0 < eqs_np (f2_eqs R f) ->
  C47_statement (fdm2_get_matrices_sps R 0%R 2%R Rplus Rdiv f alpha 0) (fdm2_get_matrices_lmm R 0%R 1%R 2%R Rplus Rdiv f alpha)
    (fdm2_get_vectors_sps R 0%R 1%R 2%R (/ 2)%R Rplus Rmult Rdiv Ropp f source)
    (fdm2_get_vectors_lmm R 0%R 1%R 2%R (/ 2)%R Rplus Rmult Rdiv Ropp f source) (f2_eqs R f) (nx * ny).
Proof.
  intros f hist hn grid nx ny fx fy kx ky alpha source S NU NP s s' extra cc.
  destruct (C45_fdm2_sps tol f hist hn grid nx ny fx fy kx ky alpha 0 s S NU) as (kb & kc & E1 & B1 & B2 & B3 & B4 & B5 & B6).
  destruct kc as [kc|]; [|lia]. destruct B6 as (K1 & K2 & K3 & K4 & K5).
  destruct (C45_fdm2_lmm tol f hist hn grid nx ny fx fy kx ky alpha extra cc s' S) as (mm & oc & E2 & M1 & M2 & M3 & M4 & M5).
  destruct (vectors2_sps tol f hist hn grid nx ny fx fy kx ky S source) as (ac & fb & E3 & L1 & L2 & V1 & V2).
  destruct (vectors2_lmm tol f hist hn grid nx ny fx fy kx ky S source) as (ff & E4 & L3 & V3 & V4).
  exists kb, kc, (repeat 0%R (eqs_nu (f2_eqs R f))), ac, fb, mm, oc, (repeat 0%R (nx * ny + eqs_np (f2_eqs R f))), ff.
  splits; auto.
  destruct S as (LC & n & RN & H). assert (Hx : 2 <= nx) by apply H. assert (Hy : 2 <= ny) by apply H.
  destruct (fdm2_from_inv _ _ _ _ _ _ _ _ _ _ _ f hist grid nx ny fx fy n kx ky H) as (p & dx & dy & D & _).
  apply (equiv_gen (f2_eqs R f) (nx * ny) p D (nbrs2 (spec_per F2 hist true) (spec_per F2 hist false) nx ny)
    (vv2R (mol2R kx ky (f2_dx R f) (f2_dy R f)) alpha (spec_per F2 hist true) (spec_per F2 hist false) nx ny))
    with (A := A2n (spec_per F2 hist true) (spec_per F2 hist false) nx ny kx ky (f2_dx R f) (f2_dy R f) alpha)
         (g := rhs2n f hist nx ny fx fy source)
         (bv := bval2n hist nx ny fx fy); auto.
  - intros m b q Hm Hb. eapply item2_lt; eauto.
  - intros. apply coef2n; auto.
  - intros. rewrite B4. auto.
  - intros. rewrite K4, expand_no. now apply K5.
  - intros. rewrite M4. auto.
Qed.

(** ** the two drivers, with any linear solver that returns exact solutions *)
Section Solvers.
Variable solve : coo R -> list R -> res (list R).
Definition exact_solver := forall c b x, coo_valid c -> c_nrow c = c_ncol c -> length b = c_nrow c -> solve c b = Ok x -> solution c b x.

Lemma drivers_agree sps lmm vs vl h neq extra s s' a a' :
  exact_solver -> eq_neq h = neq -> (exists p, describes h neq p) -> C47_statement sps lmm vs vl h neq ->
  (forall mm oc v0 ff x y, lmm extra false s' = Ok (mm, oc) -> vl = Ok (v0, ff) -> solution mm ff x -> solution mm ff y -> x = y) ->
  solve_sps R 0%R 1%R Rplus Rmult Ropp solve (sps s) vs h = Ok a -> solve_lmm R solve (lmm extra false s') vl h = Ok a' -> a = a'.
Proof.
  intros EX NE (p & D) ST UN HS HL. destruct (ST s s' extra false) as (kb & kc & a0 & ac & fb & mm & oc & b0 & ff & E1 & E2 & E3 & E4 & V1 & V2 & V3 & R1 & R2 & R3 & R4 & R5 & R6 & R7 & L1 & L2 & L3 & Q).
  unfold solve_sps in HS. rewrite E1, E2 in HS. cbn [bind] in HS.
  destruct (coo_mat_vec_mul_update_dense R 0%R 1%R Rplus Rmult Rminus Ropp RTheory kc fb (- (1))%R ac V2) as (dm & fb' & ED & EM & LF & HF); [lia|lia|].
  rewrite EM in HS. cbn [bind] in HS.
  destruct (solve kb fb') as [ab| |] eqn:ES; try discriminate. cbn [bind] in HS.
  assert (SB := EX kb fb' ab V1 ltac:(congruence) ltac:(congruence) ES). destruct SB as [Lab SB].
  assert (RS : reduced_solution kb kc ac fb ab).
  { split; auto. intros i Hi. rewrite SB by auto. rewrite HF by congruence. rewrite rsum_nsum. unfold row.
    rewrite (nsum_ext (c_ncol kc) _ (fun j => entryR (expand (c_sym kc) (coo_triplets kc)) i j * nth j ac 0)%R); [lra|].
    intros j Hj. destruct (coo_as_dense_is R 0%R Rplus kc V2) as (dm' & ED' & DI). rewrite ED in ED'. inversion ED'; subst dm'.
    rewrite (dnum_is R 0%R Rplus dm _ _ _ _ _ DI); auto. congruence. }
  destruct (joined_ok h neq p D ab ac ltac:(congruence) L1) as (a1 & J & La & _). rewrite HS in J. inversion J; subst a1; clear J.
  destruct (proj1 (Q a La) (ex_intro _ ab (conj RS HS))) as (lam & Ll & SL).
  unfold solve_lmm in HL. rewrite E3, E4 in HL. cbn [bind] in HL.
  destruct (solve mm ff) as [x| |] eqn:ES'; try discriminate. cbn [bind] in HL. inversion HL; subst a'; clear HL.
  assert (SX := EX mm ff x V3 ltac:(congruence) ltac:(congruence) ES').
  rewrite (UN mm oc b0 ff x (a ++ lam) E3 E4 SX SL). rewrite NE, <- La, firstn_app, Nat.sub_diag, firstn_all, app_nil_r. reflexivity.
Qed.

(** Whenever both drivers return and the Lagrange system has at most one solution, they return the same vector *)
Theorem C47_solvers_agree1 : forall f hist hn grid kx alpha source s s' a a', solver1 tol f hist hn grid kx ->
  0 < eqs_nu (f1_eqs R f) -> 0 < eqs_np (f1_eqs R f) -> exact_solver ->
  (forall mm oc v0 ff x y, fdm1_get_matrices_lmm R 0%R 1%R 2%R Rplus Rdiv f alpha (eq_neq (f1_eqs R f)) false s' = Ok (mm, oc) ->
     fdm1_get_vectors_lmm R 0%R 1%R 2%R Rplus Rmult Rdiv Ropp f source = Ok (v0, ff) -> solution mm ff x -> solution mm ff y -> x = y) ->
  fdm1_solve_sps R 0%R 1%R 2%R Rplus Rmult Rdiv Ropp solve f alpha source s = Ok a ->
  fdm1_solve_lmm R 0%R 1%R 2%R Rplus Rmult Rdiv Ropp solve f alpha source s' = Ok a' -> a = a'.
Proof.
  intros f hist hn grid kx alpha source s s' a a' S NU NP EX UN H1 H2.
  assert (C := C47_fdm1 f hist hn grid kx alpha source S NU NP).
  destruct S as (LC & HN & n & RN & H).
  destruct (fdm1_from_inv _ _ _ _ _ _ _ _ _ _ f hist grid n kx H) as (p & dx & D & _).
  unfold fdm1_solve_sps in H1. unfold fdm1_solve_lmm in H2. apply bind_ok in H1, H2. destruct H1 as (_ & _ & H1), H2 as (_ & _ & H2).
  eapply (drivers_agree _ _ _ _ _ _ _ s s' a a' EX (proj1 D) (ex_intro _ p D) C); eauto.
Qed.
Theorem C47_solvers_agree2 : forall f hist hn grid nx ny fx fy kx ky alpha source s s' a a', solver2 tol f hist hn grid nx ny fx fy kx ky ->
  0 < eqs_nu (f2_eqs R f) -> 0 < eqs_np (f2_eqs R f) -> exact_solver ->
  (forall mm oc v0 ff x y, fdm2_get_matrices_lmm R 0%R 1%R 2%R Rplus Rdiv f alpha 0 false s' = Ok (mm, oc) ->
     fdm2_get_vectors_lmm R 0%R 1%R 2%R (/ 2)%R Rplus Rmult Rdiv Ropp f source = Ok (v0, ff) -> solution mm ff x -> solution mm ff y -> x = y) ->
  fdm2_solve_sps R 0%R 1%R 2%R (/ 2)%R Rplus Rmult Rdiv Ropp solve f alpha source s = Ok a ->
  fdm2_solve_lmm R 0%R 1%R 2%R (/ 2)%R Rplus Rmult Rdiv Ropp solve f alpha source s' = Ok a' -> a = a'.
Proof.
  intros f hist hn grid nx ny fx fy kx ky alpha source s s' a a' S NU NP EX UN H1 H2.
  assert (C := C47_fdm2 f hist hn grid nx ny fx fy kx ky alpha source S NU NP).
  destruct S as (LC & n & RN & H).
  destruct (fdm2_from_inv _ _ _ _ _ _ _ _ _ _ _ f hist grid nx ny fx fy n kx ky H) as (p & dx & dy & D & _).
  unfold fdm2_solve_sps in H1. unfold fdm2_solve_lmm in H2. apply bind_ok in H1, H2. destruct H1 as (_ & _ & H1), H2 as (_ & _ & H2).
  eapply (drivers_agree _ _ _ _ _ _ _ s s' a a' EX (proj1 D) (ex_intro _ p D) C); eauto.
Qed.
End Solvers.
End C47.
