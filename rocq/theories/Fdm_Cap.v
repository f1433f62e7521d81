(** C44: the FDM assembly never overflows its storage. *)
From Verif Require Import Base Dense_Model Sparse_Model Sparse_Spec Sparse_CooProofs Eqs_Model Eqs_Thm Grid_Model Grid_Thm Bcs_Model Bcs_Thm Fdm_Model Fdm_Asm Fdm_Stencil.
Local Open Scope nat_scope.

Section Cap.
Variable T : Type.
Variables zero one two half tol : T.
Variables add sub mul div : T -> T -> T.
Variables opp abs : T -> T.
Variable lt : T -> T -> bool.

Notation fdm1_new' := (fdm1_new T zero two tol sub mul div opp abs lt).
Notation fdm2_new' := (fdm2_new T zero two tol add sub mul div opp abs lt).

(** ** reachable solvers *)
(** a 1D solver built from a grid and any history of boundary condition calls *)
Definition fdm1_from (f : fdm1 T) (hist : list (bc_op (T -> T))) (grid : grid1 T) (n : nbc (T -> T)) (kx : T) : Prop :=
  Forall (x_only (T -> T)) hist /\ 2 <= g1_nx T grid /\
  exists e, run1 (T -> T) (fun _ => zero) hist = Ok e /\ fdm1_new' grid e n kx = Ok f.

Definition set_at {F} (o : option F) : bool := match o with Some _ => true | None => false end.

Lemma has_set_at {F} (o : option F) : has o <-> set_at o = true.
Proof. unfold has. destruct o; cbn; split; congruence. Qed.

(** prescribed nodes of a history, 1D *)
Definition presc1 (hist : list (bc_op (T -> T))) (nx m : nat) : Prop :=
  (has (spec_fun (T -> T) (fun _ => zero) hist Xmin) /\ m = 0) \/
  (has (spec_fun (T -> T) (fun _ => zero) hist Xmax) /\ m = nx - 1).

Lemma contains_iff p e : contains p e = true <-> In e p.
Proof. apply contains_spec. Qed.

Lemma fdm1_from_inv f hist grid n kx : fdm1_from f hist grid n kx ->
  exists p dx, describes (f1_eqs T f) (g1_nx T grid) p /\ NoDup p /\
    (forall m, In m p <-> presc1 hist (g1_nx T grid) m) /\
    f1_grid T f = grid /\ f1_n T f = n /\ run1 (T -> T) (fun _ => zero) hist = Ok (f1_e T f) /\
    f1_mol T f = [div (mul two kx) (mul dx dx); div (opp kx) (mul dx dx); div (opp kx) (mul dx dx)] /\ f1_dx T f = dx /\
    grid1_get_dx T zero tol sub abs lt grid = Ok (Some dx) /\
    e1_px _ (f1_e T f) = spec_per (T -> T) hist true.
Proof.
  intros (X & Hx & e & Re & N). unfold fdm1_new in N.
  apply bind_ok in N. destruct N as ([dx|] & E1 & N); [|discriminate].
  apply bind_ok in N. destruct N as (p & E2 & N). apply bind_ok in N. destruct N as (h & E3 & N).
  inversion N; subst f; clear N. cbn [f1_eqs f1_grid f1_n f1_e f1_mol f1_dx].
  destruct (C43_get_nodes1 (T -> T) (fun _ => zero) hist e (g1_nx T grid) X Re Hx) as (p' & E2' & ND & IN).
  rewrite E2 in E2'. inversion E2'; subst p'; clear E2'.
  exists p, dx. splits; auto.
  - assert (B : Forall (fun e => e < g1_nx T grid) p).
    { apply Forall_forall. intros m Hm. apply IN in Hm. lia. }
    destruct (C41_numbering (g1_nx T grid) [p]) as (h' & E3' & DD).
    { constructor; auto. now apply Forall_forall. }
    cbn [eqs_run app bind last] in E3', DD. rewrite E3 in E3'. cbn in E3'. inversion E3'; subst h'. exact DD.
  - destruct (C43_history1 (T -> T) (fun _ => zero) hist X) as (e' & Re' & A & _). congruence.
Qed.

Lemma val1_ok mol alpha px nx m b n : b < length mol ->
  val1 T two add div mol alpha px nx m b n =
  Ok (let v := nth b mol zero in let v := if m =? n then add v alpha else v in
      if negb px && ((m =? 0) || (m =? nx - 1)) then div v two else v).
Proof. intros H. unfold val1. rewrite (vget_ok _ _ zero) by auto. reflexivity. Qed.

Definition vv1 mol alpha px nx m b n : T :=
  let v := nth b mol zero in let v := if m =? n then add v alpha else v in
      if negb px && ((m =? 0) || (m =? nx - 1)) then div v two else v.

Lemma nb1 mol alpha px nx : 2 <= nx -> length mol = 3 ->
  forall m b n, m < nx -> nth_error (nbrs1 px nx m) b = Some n ->
    n < nx /\ val1 T two add div mol alpha px nx m b n = Ok (vv1 mol alpha px nx m b n).
Proof.
  intros Hx L m b n Hm Hb. assert (HB : b < 3).
  { assert (Q : b < length (nbrs1 px nx m)) by (apply nth_error_Some; congruence). rewrite nbrs1_spec in Q; auto. }
  split; [|apply val1_ok; lia].
  destruct (item1 px nx m b n Hx Hm Hb) as [[_ ->]|[[_ ->]|[_ ->]]]; auto using left_lt, right_lt.
Qed.

(** the assembled reduced system, 1D *)
Lemma fdm1_sps_triplets f hist grid n kx : fdm1_from f hist grid n kx ->
  exists p dx, describes (f1_eqs T f) (g1_nx T grid) p /\ (forall m, In m p <-> presc1 hist (g1_nx T grid) m) /\
  grid1_get_dx T zero tol sub abs lt grid = Ok (Some dx) /\
  forall alpha extra s, 0 < eqs_nu (f1_eqs T f) ->
  let nb := nbrs1 (spec_per (T -> T) hist true) (g1_nx T grid) in
  let mol := [div (mul two kx) (mul dx dx); div (opp kx) (mul dx dx); div (opp kx) (mul dx dx)] in
  let vv := vv1 mol alpha (spec_per (T -> T) hist true) (g1_nx T grid) in
  let its := items nb (eq_u_sorted (f1_eqs T f)) in
  exists kb kc, fdm1_get_matrices_sps T zero two add div f alpha extra s = Ok (kb, kc) /\
    coo_valid kb /\ c_nrow kb = eqs_nu (f1_eqs T f) /\ c_ncol kb = eqs_nu (f1_eqs T f) /\ c_sym kb = s /\
    coo_triplets kb = flat_map (bar_of T vv (f1_eqs T f) p s) its /\
    match kc with
    | None => eqs_np (f1_eqs T f) = 0
    | Some kc => 0 < eqs_np (f1_eqs T f) /\ coo_valid kc /\ c_nrow kc = eqs_nu (f1_eqs T f) /\
        c_ncol kc = eqs_np (f1_eqs T f) /\ c_sym kc = SymNo /\
        coo_triplets kc = flat_map (chk_of T vv (f1_eqs T f) p) its
    end.
Proof.
  intros H. assert (Hx : 2 <= g1_nx T grid) by apply H. assert (X : Forall (x_only (T -> T)) hist) by apply H.
  destruct (fdm1_from_inv f hist grid n kx H) as (p & dx & D & ND & IP & G & NN & Re & M & DX & GD & PX).
  exists p, dx. splits; auto. intros alpha extra s NU.
  set (nx := g1_nx T grid) in *. set (px := spec_per (T -> T) hist true) in *. set (h := f1_eqs T f) in *. cbn zeta.
  set (mol := [_; _; _]) in *.
  unfold fdm1_get_matrices_sps. rewrite PX, G, M. fold nx. fold h.
  assert (IU : forall m, In m (eq_u_sorted h) -> m < nx /\ ~ In m p).
  { destruct D as (_ & _ & _ & _ & I & _). intros m. apply I. }
  assert (UI : forall m, m < nx -> contains p m = false -> In m (eq_u_sorted h)).
  { destruct D as (_ & _ & _ & _ & I & _). intros m Hm C. apply I. split; auto. rewrite <- contains_iff. congruence. }
  assert (PI : forall m, m < nx -> In m p -> In m (eq_p_sorted h)).
  { destruct D as (_ & _ & _ & _ & _ & _ & I & _). intros m Hm C. apply I. auto. }
  assert (UD : NoDup (eq_u_sorted h)) by (apply sorted_NoDup; apply D).
  apply (asm_sps_ok T zero 2 3 2 (nbrs1 px nx) (val1 T two add div mol alpha px nx) (vv1 mol alpha px nx) h nx p D); auto.
  - now apply nb1.
  - destruct (triangular s) eqn:TS.
    + etransitivity; [apply (count1_tri px nx (eq_u_sorted h) (bar_keep p s) s); auto|unfold eqs_nu; lia].
      * intros m Hm. now apply IU.
      * intros m b q K Hq. apply andb_true_iff in K. destruct K as [K _]. apply negb_true_iff in K. auto.
      * intros m b q K. apply andb_true_iff in K. destruct K as [_ K]. now apply negb_true_iff in K.
    + etransitivity; [apply (count1_full px nx (eq_u_sorted h) (bar_keep p s)); auto|unfold eqs_nu; lia].
      intros m Hm. now apply IU.
  - unfold chk_keep, eqs_np.
    apply (count1_chk px nx (set_at (spec_fun (T -> T) (fun _ => zero) hist Xmin)) (set_at (spec_fun (T -> T) (fun _ => zero) hist Xmax))); auto.
    + intros q Hq. rewrite contains_iff, IP. unfold presc1. rewrite !has_set_at. reflexivity.
    + intros P. assert (P0 := C43_periodic_clears (T -> T) (fun _ => zero) hist Xmin P).
      assert (P1 := C43_periodic_clears (T -> T) (fun _ => zero) hist Xmax P). rewrite P0, P1. auto.
    + intros m Hm. destruct (IU m Hm) as [A B]. split; auto. rewrite <- contains_iff in B. now apply not_true_is_false.
    + intros q Hq K. apply contains_iff in K. auto.
  - destruct (triangular s); lia.
Qed.

Lemma fdm1_lmm_triplets f hist grid n kx : fdm1_from f hist grid n kx ->
  exists p dx, describes (f1_eqs T f) (g1_nx T grid) p /\ (forall m, In m p <-> presc1 hist (g1_nx T grid) m) /\
  grid1_get_dx T zero tol sub abs lt grid = Ok (Some dx) /\
  forall alpha extra cc s,
  let nb := nbrs1 (spec_per (T -> T) hist true) (g1_nx T grid) in
  let mol := [div (mul two kx) (mul dx dx); div (opp kx) (mul dx dx); div (opp kx) (mul dx dx)] in
  let vv := vv1 mol alpha (spec_per (T -> T) hist true) (g1_nx T grid) in
  let ndim := g1_nx T grid + eqs_np (f1_eqs T f) in
  exists mm oc, fdm1_get_matrices_lmm T zero one two add div f alpha extra cc s = Ok (mm, oc) /\
    coo_valid mm /\ c_nrow mm = ndim /\ c_ncol mm = ndim /\ c_sym mm = s /\
    coo_triplets mm = flat_map (mm_of T vv s) (items nb (seq 0 (g1_nx T grid))) ++
                      flat_map (lag_of T one (f1_eqs T f) (g1_nx T grid) s) (eq_p_sorted (f1_eqs T f)) /\
    match oc with
    | None => cc = false \/ eqs_np (f1_eqs T f) = 0
    | Some c => cc = true /\ coo_valid c /\ c_nrow c = eqs_np (f1_eqs T f) /\ c_ncol c = g1_nx T grid /\
        coo_triplets c = map (fun m => (rank_p (f1_eqs T f) m, m, one)) (eq_p_sorted (f1_eqs T f))
    end.
Proof.
  intros H. assert (Hx : 2 <= g1_nx T grid) by apply H.
  destruct (fdm1_from_inv f hist grid n kx H) as (p & dx & D & ND & IP & G & NN & Re & M & DX & GD & PX).
  exists p, dx. splits; auto. intros alpha extra cc s.
  set (nx := g1_nx T grid) in *. set (px := spec_per (T -> T) hist true) in *. set (h := f1_eqs T f) in *. cbn zeta.
  set (mol := [_; _; _]) in *.
  unfold fdm1_get_matrices_lmm. rewrite PX, G, M. fold nx. fold h.
  apply (asm_lmm_ok T zero one 2 3 (nbrs1 px nx) (val1 T two add div mol alpha px nx) (vv1 mol alpha px nx) h nx p D); auto.
  - now apply nb1.
  - lia.
  - destruct (triangular s) eqn:TS; rewrite <- (seq_length nx 0) at 3.
    + apply (count1_tri px nx (seq 0 nx) (mm_keep s) s); auto.
      * apply seq_NoDup.
      * intros m Hm. apply in_seq in Hm. lia.
      * intros m b q K Hq. apply in_seq. lia.
      * intros m b q K. now apply negb_true_iff in K.
    + apply (count1_full px nx (seq 0 nx) (mm_keep s)); auto.
      intros m Hm. apply in_seq in Hm. lia.
  - destruct (triangular s); lia.
Qed.

(** ** 2D *)
Notation Fn2 := (T -> T -> T).
Definition fdm2_from (f : fdm2 T) (hist : list (bc_op Fn2)) (grid : grid2 T) nx ny fx fy (n : nbc Fn2) (kx ky : T) : Prop :=
  grid2_is T grid nx ny fx fy /\ 2 <= nx /\ 2 <= ny /\
  exists e, run2 Fn2 (fun _ _ => zero) hist = Ok e /\ fdm2_new' grid e n kx ky = Ok f.

Definition presc2 (hist : list (bc_op Fn2)) (nx ny i j : nat) : Prop :=
  (has (spec_fun Fn2 (fun _ _ => zero) hist Xmin) /\ i = 0) \/
  (has (spec_fun Fn2 (fun _ _ => zero) hist Xmax) /\ i = nx - 1) \/
  (has (spec_fun Fn2 (fun _ _ => zero) hist Ymin) /\ j = 0) \/
  (has (spec_fun Fn2 (fun _ _ => zero) hist Ymax) /\ j = ny - 1).

Lemma nodes_on_side g nx ny fx fy s i j : grid2_is T g nx ny fx fy -> i < nx -> j < ny ->
  (In (i + j * nx) (grid2_nodes T g s) <-> match s with Xmin => i = 0 | Xmax => i = nx - 1 | Ymin => j = 0 | Ymax => j = ny - 1 end).
Proof.
  intros (G1 & G2 & G3 & G4 & G5 & G6 & G7 & G8 & G9) Hi Hj. rewrite G9.
  destruct (G7 i j Hi Hj) as (A & B & C & D & _). unfold grid2_get_m in *. rewrite G1 in *.
  assert (i + j * nx < nx * ny) by (now apply idx_lt).
  destruct s; intuition.
Qed.

Lemma fdm2_from_inv f hist grid nx ny fx fy n kx ky : fdm2_from f hist grid nx ny fx fy n kx ky ->
  exists p dx dy, describes (f2_eqs T f) (nx * ny) p /\ NoDup p /\
    (forall i j, i < nx -> j < ny -> In (i + j * nx) p <-> presc2 hist nx ny i j) /\
    f2_grid T f = grid /\ f2_n T f = n /\ run2 Fn2 (fun _ _ => zero) hist = Ok (f2_e T f) /\
    f2_mol T f = [mul two (add (div kx (mul dx dx)) (div ky (mul dy dy))); div (opp kx) (mul dx dx); div (opp kx) (mul dx dx);
                  div (opp ky) (mul dy dy); div (opp ky) (mul dy dy)] /\ f2_dx T f = dx /\ f2_dy T f = dy /\
    grid2_get_dx_dy T zero tol sub abs lt grid = Ok (Some (dx, dy)) /\
    e2_px _ (f2_e T f) = spec_per Fn2 hist true /\ e2_py _ (f2_e T f) = spec_per Fn2 hist false.
Proof.
  intros (GI & Hx & Hy & e & Re & N). unfold fdm2_new in N.
  apply bind_ok in N. destruct N as ([[dx dy]|] & E1 & N); [|discriminate].
  apply bind_ok in N. destruct N as (p & E2 & N). apply bind_ok in N. destruct N as (h & E3 & N).
  inversion N; subst f; clear N. cbn [f2_eqs f2_grid f2_n f2_e f2_mol f2_dx f2_dy].
  destruct (C43_get_nodes2 Fn2 (fun _ _ => zero) hist e (grid2_nodes T grid) Re) as (p' & E2' & ND & IN).
  rewrite E2 in E2'. inversion E2'; subst p'; clear E2'.
  assert (NP : g2_npoint T grid = nx * ny) by apply GI. rewrite NP in E3.
  exists p, dx, dy. splits; auto.
  - assert (B : Forall (fun e => e < nx * ny) p).
    { apply Forall_forall. intros m Hm. apply IN in Hm. destruct Hm as (s & _ & Hm).
      destruct GI as (_ & _ & _ & _ & _ & _ & _ & _ & G9). apply G9 in Hm. tauto. }
    destruct (C41_numbering (nx * ny) [p]) as (h' & E3' & DD).
    { constructor; auto. now apply Forall_forall. }
    cbn [eqs_run app bind last] in E3', DD. rewrite E3 in E3'. cbn in E3'. inversion E3'; subst h'. exact DD.
  - intros i j Hi Hj. rewrite IN. unfold presc2. split.
    + intros (s & Hs & Q). apply (nodes_on_side grid nx ny fx fy s i j GI Hi Hj) in Q. destruct s; tauto.
    + intros [[A B]|[[A B]|[[A B]|[A B]]]]; [exists Xmin|exists Xmax|exists Ymin|exists Ymax]; split; auto;
        now apply (nodes_on_side grid nx ny fx fy _ i j GI Hi Hj).
  - destruct (C43_history2 Fn2 (fun _ _ => zero) hist) as (e' & Re' & A & _). congruence.
  - destruct (C43_history2 Fn2 (fun _ _ => zero) hist) as (e' & Re' & _ & A & _). congruence.
Qed.

Definition vv2 mol alpha px py nx ny m b n : T :=
  let v := nth b mol zero in
  let v := if m =? n then add v alpha else v in
  let i := m mod nx in
  let j := m / nx in
  let v := if negb px && ((i =? 0) || (i =? nx - 1)) then div v two else v in
  if negb py && ((j =? 0) || (j =? ny - 1)) then div v two else v.

Lemma nb2 mol alpha px py nx ny : 2 <= nx -> 2 <= ny -> length mol = 5 ->
  forall m b n, m < nx * ny -> nth_error (nbrs2 px py nx ny m) b = Some n ->
    n < nx * ny /\ val2 T two add div mol alpha px py nx ny m b n = Ok (vv2 mol alpha px py nx ny m b n).
Proof.
  intros Hx Hy L m b n Hm Hb. assert (HB : b < 5).
  { assert (Q : b < length (nbrs2 px py nx ny m)) by (apply nth_error_Some; congruence).
    destruct (idx_split nx ny m) as (i & j & Hi & Hj & ->); [lia|auto|]. rewrite nbrs2_spec in Q; auto. }
  split; [eapply item2_lt; eauto|]. unfold val2. rewrite (vget_ok _ _ zero) by lia. reflexivity.
Qed.

Definition mol2 (kx ky dx dy : T) : list T :=
  [mul two (add (div kx (mul dx dx)) (div ky (mul dy dy))); div (opp kx) (mul dx dx); div (opp kx) (mul dx dx);
                  div (opp ky) (mul dy dy); div (opp ky) (mul dy dy)].

Lemma fdm2_sps_triplets f hist grid nx ny fx fy n kx ky : fdm2_from f hist grid nx ny fx fy n kx ky ->
  exists p dx dy, describes (f2_eqs T f) (nx * ny) p /\
  (forall i j, i < nx -> j < ny -> In (i + j * nx) p <-> presc2 hist nx ny i j) /\
  grid2_get_dx_dy T zero tol sub abs lt grid = Ok (Some (dx, dy)) /\
  forall alpha extra s, 0 < eqs_nu (f2_eqs T f) ->
  let px := spec_per Fn2 hist true in let py := spec_per Fn2 hist false in
  let its := items (nbrs2 px py nx ny) (eq_u_sorted (f2_eqs T f)) in
  let vv := vv2 (mol2 kx ky dx dy) alpha px py nx ny in
  exists kb kc, fdm2_get_matrices_sps T zero two add div f alpha extra s = Ok (kb, kc) /\
    coo_valid kb /\ c_nrow kb = eqs_nu (f2_eqs T f) /\ c_ncol kb = eqs_nu (f2_eqs T f) /\ c_sym kb = s /\
    coo_triplets kb = flat_map (bar_of T vv (f2_eqs T f) p s) its /\
    match kc with
    | None => eqs_np (f2_eqs T f) = 0
    | Some kc => 0 < eqs_np (f2_eqs T f) /\ coo_valid kc /\ c_nrow kc = eqs_nu (f2_eqs T f) /\
        c_ncol kc = eqs_np (f2_eqs T f) /\ c_sym kc = SymNo /\
        coo_triplets kc = flat_map (chk_of T vv (f2_eqs T f) p) its
    end.
Proof.
  intros H. assert (Hx : 2 <= nx) by apply H. assert (Hy : 2 <= ny) by apply H. assert (GI : grid2_is T grid nx ny fx fy) by apply H.
  destruct (fdm2_from_inv f hist grid nx ny fx fy n kx ky H) as (p & dx & dy & D & ND & IP & G & NN & Re & M & DX & DY & GD & PX & PY).
  exists p, dx, dy. splits; auto. intros alpha extra s NU. cbn zeta.
  set (px := spec_per Fn2 hist true) in *. set (py := spec_per Fn2 hist false) in *. set (h := f2_eqs T f) in *.
  fold (mol2 kx ky dx dy) in M. set (mol := mol2 kx ky dx dy) in *.
  assert (GX : g2_nx T grid = nx) by apply GI. assert (GY : g2_ny T grid = ny) by apply GI.
  unfold fdm2_get_matrices_sps. rewrite PX, PY, G, M, GX, GY. fold h.
  assert (IU : forall m, In m (eq_u_sorted h) -> m < nx * ny /\ ~ In m p).
  { destruct D as (_ & _ & _ & _ & I & _). intros m. apply I. }
  assert (UI : forall m, m < nx * ny -> contains p m = false -> In m (eq_u_sorted h)).
  { destruct D as (_ & _ & _ & _ & I & _). intros m Hm C. apply I. split; auto. rewrite <- contains_iff. congruence. }
  assert (PI : forall m, m < nx * ny -> In m p -> In m (eq_p_sorted h)).
  { destruct D as (_ & _ & _ & _ & _ & _ & I & _). intros m Hm C. apply I. auto. }
  assert (UD : NoDup (eq_u_sorted h)) by (apply sorted_NoDup; apply D).
  apply (asm_sps_ok T zero 3 5 4 (nbrs2 px py nx ny) (val2 T two add div mol alpha px py nx ny) (vv2 mol alpha px py nx ny) h (nx * ny) p D); auto.
  - now apply nb2.
  - destruct (triangular s) eqn:TS.
    + etransitivity; [apply (count2_tri px py nx ny (eq_u_sorted h) (bar_keep p s) s); auto|unfold eqs_nu; lia].
      * intros m Hm. now apply IU.
      * intros m b q K Hq. apply andb_true_iff in K. destruct K as [K _]. apply negb_true_iff in K. auto.
      * intros m b q K. apply andb_true_iff in K. destruct K as [_ K]. now apply negb_true_iff in K.
    + etransitivity; [apply (count2_full px py nx ny (eq_u_sorted h) (bar_keep p s)); auto|unfold eqs_nu; lia].
      intros m Hm. now apply IU.
  - unfold chk_keep, eqs_np.
    apply (count2_chk px py nx ny
      (set_at (spec_fun Fn2 (fun _ _ => zero) hist Xmin)) (set_at (spec_fun Fn2 (fun _ _ => zero) hist Xmax))
      (set_at (spec_fun Fn2 (fun _ _ => zero) hist Ymin)) (set_at (spec_fun Fn2 (fun _ _ => zero) hist Ymax))); auto.
    + intros i j Hi Hj. rewrite contains_iff, IP by auto. unfold presc2. rewrite !has_set_at. reflexivity.
    + intros P. assert (P0 := C43_periodic_clears Fn2 (fun _ _ => zero) hist Xmin P).
      assert (P1 := C43_periodic_clears Fn2 (fun _ _ => zero) hist Xmax P). rewrite P0, P1. auto.
    + intros P. assert (P0 := C43_periodic_clears Fn2 (fun _ _ => zero) hist Ymin P).
      assert (P1 := C43_periodic_clears Fn2 (fun _ _ => zero) hist Ymax P). rewrite P0, P1. auto.
    + intros m Hm. destruct (IU m Hm) as [A B]. split; auto. rewrite <- contains_iff in B. now apply not_true_is_false.
    + intros q Hq K. apply contains_iff in K. auto.
  - destruct (triangular s); lia.
Qed.

Lemma fdm2_lmm_triplets f hist grid nx ny fx fy n kx ky : fdm2_from f hist grid nx ny fx fy n kx ky ->
  exists p dx dy, describes (f2_eqs T f) (nx * ny) p /\
  (forall i j, i < nx -> j < ny -> In (i + j * nx) p <-> presc2 hist nx ny i j) /\
  grid2_get_dx_dy T zero tol sub abs lt grid = Ok (Some (dx, dy)) /\
  forall alpha extra cc s,
  let px := spec_per Fn2 hist true in let py := spec_per Fn2 hist false in
  let vv := vv2 (mol2 kx ky dx dy) alpha px py nx ny in
  let ndim := nx * ny + eqs_np (f2_eqs T f) in
  exists mm oc, fdm2_get_matrices_lmm T zero one two add div f alpha extra cc s = Ok (mm, oc) /\
    coo_valid mm /\ c_nrow mm = ndim /\ c_ncol mm = ndim /\ c_sym mm = s /\
    coo_triplets mm = flat_map (mm_of T vv s) (items (nbrs2 px py nx ny) (seq 0 (nx * ny))) ++
                      flat_map (lag_of T one (f2_eqs T f) (nx * ny) s) (eq_p_sorted (f2_eqs T f)) /\
    match oc with
    | None => cc = false \/ eqs_np (f2_eqs T f) = 0
    | Some c => cc = true /\ coo_valid c /\ c_nrow c = eqs_np (f2_eqs T f) /\ c_ncol c = nx * ny /\
        coo_triplets c = map (fun m => (rank_p (f2_eqs T f) m, m, one)) (eq_p_sorted (f2_eqs T f))
    end.
Proof.
  intros H. assert (Hx : 2 <= nx) by apply H. assert (Hy : 2 <= ny) by apply H. assert (GI : grid2_is T grid nx ny fx fy) by apply H.
  destruct (fdm2_from_inv f hist grid nx ny fx fy n kx ky H) as (p & dx & dy & D & ND & IP & G & NN & Re & M & DX & DY & GD & PX & PY).
  exists p, dx, dy. splits; auto. intros alpha extra cc s. cbn zeta.
  set (px := spec_per Fn2 hist true) in *. set (py := spec_per Fn2 hist false) in *. set (h := f2_eqs T f) in *.
  fold (mol2 kx ky dx dy) in M. set (mol := mol2 kx ky dx dy) in *.
  assert (GX : g2_nx T grid = nx) by apply GI. assert (GY : g2_ny T grid = ny) by apply GI.
  unfold fdm2_get_matrices_lmm. rewrite PX, PY, G, M, GX, GY. fold h.
  apply (asm_lmm_ok T zero one 3 5 (nbrs2 px py nx ny) (val2 T two add div mol alpha px py nx ny) (vv2 mol alpha px py nx ny) h (nx * ny) p D); auto.
  - now apply nb2.
  - nia.
  - destruct (triangular s) eqn:TS.
    + etransitivity; [apply (count2_tri px py nx ny (seq 0 (nx * ny)) (mm_keep s) s); auto|rewrite seq_length; auto].
      * apply seq_NoDup.
      * intros m Hm. apply in_seq in Hm. lia.
      * intros m b q K Hq. apply in_seq. lia.
      * intros m b q K. now apply negb_true_iff in K.
    + etransitivity; [apply (count2_full px py nx ny (seq 0 (nx * ny)) (mm_keep s)); auto|rewrite seq_length; auto].
      intros m Hm. apply in_seq in Hm. lia.
  - destruct (triangular s); lia.
Qed.

(** ** C44 *)
Theorem C44_fdm1 : forall f hist grid n kx, fdm1_from f hist grid n kx ->
  (forall alpha extra s, 0 < eqs_nu (f1_eqs T f) ->
     exists kb kc, fdm1_get_matrices_sps T zero two add div f alpha extra s = Ok (kb, kc) /\
       (kc = None <-> eqs_np (f1_eqs T f) = 0)) /\
  (forall alpha extra cc s,
     exists mm oc, fdm1_get_matrices_lmm T zero one two add div f alpha extra cc s = Ok (mm, oc) /\
       (oc = None <-> cc = false \/ eqs_np (f1_eqs T f) = 0)).
Proof.
  intros f hist grid n kx H. split.
  - intros alpha extra s NU. destruct (fdm1_sps_triplets f hist grid n kx H) as (p & dx & _ & _ & _ & Q).
    destruct (Q alpha extra s NU) as (kb & kc & E & _ & _ & _ & _ & _ & M). exists kb, kc. split; auto.
    destruct kc; split; intros; try congruence; try lia.
  - intros alpha extra cc s. destruct (fdm1_lmm_triplets f hist grid n kx H) as (p & dx & _ & _ & _ & Q).
    destruct (Q alpha extra cc s) as (kb & kc & E & _ & _ & _ & _ & _ & M). exists kb, kc. split; auto.
    destruct kc as [c|]; [|tauto]. destruct M as (-> & V & R & _). split; [discriminate|]. intros [Z|Z]; [discriminate|].
    destruct V as (V & _). lia.
Qed.

Theorem C44_fdm2 : forall f hist grid nx ny fx fy n kx ky, fdm2_from f hist grid nx ny fx fy n kx ky ->
  (forall alpha extra s, 0 < eqs_nu (f2_eqs T f) ->
     exists kb kc, fdm2_get_matrices_sps T zero two add div f alpha extra s = Ok (kb, kc) /\
       (kc = None <-> eqs_np (f2_eqs T f) = 0)) /\
  (forall alpha extra cc s,
     exists mm oc, fdm2_get_matrices_lmm T zero one two add div f alpha extra cc s = Ok (mm, oc) /\
       (oc = None <-> cc = false \/ eqs_np (f2_eqs T f) = 0)).
Proof.
  intros f hist grid nx ny fx fy n kx ky H. split.
  - intros alpha extra s NU. destruct (fdm2_sps_triplets f hist grid nx ny fx fy n kx ky H) as (p & dx & dy & _ & _ & _ & Q).
    destruct (Q alpha extra s NU) as (kb & kc & E & _ & _ & _ & _ & _ & M). exists kb, kc. split; auto.
    destruct kc; split; intros; try congruence; try lia.
  - intros alpha extra cc s. destruct (fdm2_lmm_triplets f hist grid nx ny fx fy n kx ky H) as (p & dx & dy & _ & _ & _ & Q).
    destruct (Q alpha extra cc s) as (kb & kc & E & _ & _ & _ & _ & _ & M). exists kb, kc. split; auto.
    destruct kc as [c|]; [|tauto]. destruct M as (-> & V & R & _). split; [discriminate|]. intros [Z|Z]; [discriminate|].
    destruct V as (V & _). lia.
Qed.

(** the excluded case: without unknowns the reduced assembly panics; and `solve_sps` panics whenever
    there is nothing prescribed, although the configuration was validated *)
Theorem C44_sps_no_unknowns_panics : forall f alpha extra s, eqs_nu (f1_eqs T f) = 0 ->
  fdm1_get_matrices_sps T zero two add div f alpha extra s = Panic.
Proof. intros f alpha extra s H. unfold fdm1_get_matrices_sps, asm_sps. rewrite H. reflexivity. Qed.

Theorem C44_solve_sps_without_prescribed_panics : forall solve f hist grid n kx alpha source s,
  fdm1_from f hist grid n kx -> ebc1_validate _ (f1_e T f) (f1_n T f) = Ok tt -> eqs_np (f1_eqs T f) = 0 ->
  (exists v, fdm1_get_vectors_sps T zero one two add mul div opp f source = Ok v) ->
  fdm1_solve_sps T zero one two add mul div opp solve f alpha source s = Panic.
Proof.
  intros solve f hist grid n kx alpha source s H V NP ([[a b] c] & HV).
  unfold fdm1_solve_sps, solve_sps. rewrite V. cbn [bind].
  destruct (C44_fdm1 f hist grid n kx H) as [A _].
  assert (NU : 0 < eqs_nu (f1_eqs T f)).
  { destruct (fdm1_from_inv f hist grid n kx H) as (p & dx & D & _). destruct D as (_ & _ & D & _).
    assert (2 <= g1_nx T grid) by apply H. lia. }
  destruct (A alpha 0 s NU) as (kb & kc & -> & K). cbn [bind]. rewrite HV. cbn [bind].
  destruct K as [_ K]. rewrite (K NP). reflexivity.
Qed.
End Cap.
