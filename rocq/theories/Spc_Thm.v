(** C85: the one-dimensional spectral collocation solver. *)
From Coquelicot Require Import Coquelicot.
From Verif Require Import Base RBase RSum Poly Dense_Model Sparse_Model Sparse_Spec Sparse_CooProofs Sparse_Ops Sparse_Ring Eqs_Model Eqs_Thm Grid_Model Grid_Thm Bcs_Model Bcs_Thm
  Fdm_Model Fdm_Asm Fdm_Stencil Fdm_Cap Fdm_Entries Fdm_Coef Fdm_Thm Fdm_Vec Fdm_Equiv Jacobi_Thm Cheb_Model Cheb_Thm InterpLagrange_Model InterpLagrange_Thm Spc_Model Spc_Asm Spc_Diff.
From Coq Require Import Reals Lra Lia.
Local Open Scope nat_scope.

(** ** specification *)
(** [f] was built by `new` from the boundary conditions set by the calls [hist] and [hn] (last call first) *)
Definition spc1_from (f : spc1) (hist : list (bc_op F1)) (hn : list (side * F1)) (xmin xmax : R) (nx : nat) (kx : R) : Prop :=
  Forall (x_only F1) hist /\ Forall (fun p => axis_x (fst p) = true) hn /\
  exists e n, run1 F1 z1 hist = Ok e /\ runn F1 (nbc1_new F1 z1) hn = Ok n /\ spc1_new xmin xmax nx e n kx = Ok f.

(** the side has either a prescribed value or a prescribed flux, at both ends *)
Definition well_posed1 (hist : list (bc_op F1)) (hn : list (side * F1)) : Prop :=
  valid_axis F1 false (spec_fun F1 z1 hist Xmin) (spec_nat F1 hn Xmin) (spec_fun F1 z1 hist Xmax) (spec_nat F1 hn Xmax).

(** [phi], with derivatives [phi1] and [phi2], satisfies the equation at the interior grid points and the boundary
    conditions at both ends; the flux is that of -kx dphi/dx along the outward normal, positive when leaving *)
Definition collocates1 (hist : list (bc_op F1)) (hn : list (side * F1)) (xmin xmax : R) (nx : nat) (kx alpha : R) (source : R -> R)
    (phi phi1 phi2 : R -> R) : Prop :=
  (forall m, 0 < m < nx - 1 -> let x := xnode xmin xmax nx m in (- kx * phi2 x + alpha * phi x = source x)%R) /\
  (forall u, spec_fun F1 z1 hist Xmin = Some u -> phi xmin = u xmin) /\
  (forall u, spec_fun F1 z1 hist Xmax = Some u -> phi xmax = u xmax) /\
  (forall w, spec_nat F1 hn Xmin = Some w -> (kx * phi1 xmin = w xmin)%R) /\
  (forall w, spec_nat F1 hn Xmax = Some w -> (- kx * phi1 xmax = w xmax)%R).

(** values of [phi] at the grid points *)
Definition nodal1 (xmin xmax : R) (nx : nat) (phi : R -> R) : list R := map (fun m => phi (xnode xmin xmax nx m)) (seq 0 nx).

(** ** proofs *)
Lemma nodal1_nth xmin xmax nx phi m : m < nx -> nth m (nodal1 xmin xmax nx phi) 0%R = phi (xnode xmin xmax nx m).
Proof.
  intros H. unfold nodal1. rewrite (nth_indep _ 0%R (phi (xnode xmin xmax nx 0))) by (now rewrite map_length, seq_length).
  rewrite (map_nth (fun m => phi (xnode xmin xmax nx m))). now rewrite seq_nth.
Qed.
Lemma nodal1_length xmin xmax nx phi : length (nodal1 xmin xmax nx phi) = nx.
Proof. unfold nodal1. now rewrite map_length, seq_length. Qed.

Lemma nodes1_describe hist nx e nodes h : Forall (x_only F1) hist -> run1 F1 z1 hist = Ok e -> 2 <= nx ->
  ebc1_get_nodes F1 e nx = Ok nodes -> eqs_recompute (eqs_new nx) nodes = Ok h ->
  describes h nx nodes /\ forall m, In m nodes <-> presc1 R 0%R hist nx m.
Proof.
  intros X Re Hx E2 E3. destruct (C43_get_nodes1 F1 z1 hist e nx X Re Hx) as (p' & E2' & ND & IN).
  rewrite E2 in E2'. inversion E2'; subst p'; clear E2'. split; auto.
  assert (B : Forall (fun e => e < nx) nodes). { apply Forall_forall. intros m Hm. apply IN in Hm. lia. }
  destruct (C41_numbering nx [nodes]) as (h' & E3' & DD). { constructor; auto. now apply Forall_forall. }
  cbn [eqs_run app bind last] in E3', DD. rewrite E3 in E3'. cbn in E3'. inversion E3'; subst h'. exact DD.
Qed.

(** `new` accepts exactly the documented arguments and does not panic *)
Theorem C85_new : forall hist hn e n xmin xmax nx kx, Forall (x_only F1) hist -> Forall (fun p => axis_x (fst p) = true) hn ->
  run1 F1 z1 hist = Ok e -> runn F1 (nbc1_new F1 z1) hn = Ok n ->
  ((exists f, spc1_new xmin xmax nx e n kx = Ok f) <-> 2 <= nx <= N.to_nat 2049 /\ spec_per F1 hist true = false) /\
  spc1_new xmin xmax nx e n kx <> Panic.
Proof.
  intros hist hn e n xmin xmax nx kx X XN Re Rn. unfold spc1_new.
  assert (T : N.to_nat 2049 = S (N.to_nat 2048)) by lia.
  destruct (Nat.ltb_spec nx 2). { split; [split; [intros (? & [=])|lia]|discriminate]. }
  destruct (Nat.ltb_spec (N.to_nat 2048) (nx - 1)). { split; [split; [intros (? & [=])|lia]|discriminate]. }
  destruct (C43_history1 F1 z1 hist X) as (e' & Re' & PX & _). rewrite Re in Re'. inversion Re'; subst e'; clear Re'.
  unfold grid1_new_cgl. destruct (Nat.ltb_spec nx 2); [lia|]. destruct (C29_lobatto_points (nx - 1) ltac:(lia)) as (xx & -> & _). cbn [bind unwrap].
  rewrite PX. destruct (spec_per F1 hist true). { split; [split; [intros (? & [=])|intros [_ [=]]]|discriminate]. }
  destruct (C43_get_nodes1 F1 z1 hist e nx X Re ltac:(lia)) as (p & -> & ND & IN). cbn [bind g1_nx].
  destruct (C41_numbering nx [p]) as (h' & E3 & DD).
  { constructor; auto. apply Forall_forall. apply Forall_forall. intros m Hm. apply IN in Hm. lia. }
  cbn [eqs_run app bind] in E3. destruct (eqs_recompute (eqs_new nx) p) as [h| |]; try discriminate. cbn [bind].
  destruct (interp_ok nx ltac:(lia) ltac:(lia)) as (s0 & s1 & s2 & d1 & d2 & D1 & D2 & -> & E4 & E5 & _). cbn [bind]. rewrite E4. cbn [bind]. rewrite E5. cbn [bind].
  split; [|discriminate]. split; [intros _; split; [lia|auto]|eauto].
Qed.

Section One.
Variables (f : spc1) (hist : list (bc_op F1)) (hn : list (side * F1)) (xmin xmax : R) (nx : nat) (kx : R).
Hypothesis FR : spc1_from f hist hn xmin xmax nx kx.
Notation h := (s1_eqs f).
Notation x := (xnode xmin xmax nx).

Lemma spc1_inv : 2 <= nx /\ exists p d1 d2 D1 D2, describes h nx p /\ (forall m, In m p <-> presc1 R 0%R hist nx m) /\
  s1_xmin f = xmin /\ s1_xmax f = xmax /\ s1_mkx f = (- kx)%R /\ g1_nx R (s1_grid f) = nx /\ g1_xmin R (s1_grid f) = [0] /\ g1_xmax R (s1_grid f) = [nx - 1] /\
  length (g1_coords R (s1_grid f)) = nx /\ (forall m, m < nx -> nth m (g1_coords R (s1_grid f)) 0%R = cgl nx m) /\
  run1 F1 z1 hist = Ok (s1_e f) /\ runn F1 (nbc1_new F1 z1) hn = Ok (s1_n f) /\ spec_per F1 hist true = false /\
  diff_ok (s1_interp f) nx d1 d2 D1 D2.
Proof using FR.
  destruct FR as (X & XN & e & n & Re & Rn & H). clear FR. unfold spc1_new in H.
  destruct (Nat.ltb_spec nx 2); [discriminate|]. split; auto. destruct (Nat.ltb_spec (N.to_nat 2048) (nx - 1)); [discriminate|].
  destruct (C43_history1 F1 z1 hist X) as (e' & Re' & PX & _). rewrite Re in Re'. inversion Re'; subst e'; clear Re'.
  unfold grid1_new_cgl in H. destruct (Nat.ltb_spec nx 2); [lia|]. destruct (C29_lobatto_points (nx - 1) ltac:(lia)) as (xx & E & L & V).
  rewrite E in H. cbn [bind unwrap] in H. rewrite PX in H. destruct (spec_per F1 hist true); [discriminate|].
  apply bind_ok in H. destruct H as (p & E2 & H). cbn [g1_nx] in H. apply bind_ok in H. destruct H as (hh & E3 & H).
  destruct (nodes1_describe hist nx e p hh X Re ltac:(lia) E2 E3) as [DD IN].
  destruct (interp_ok nx ltac:(lia) ltac:(lia)) as (s0 & s1 & s2 & d1 & d2 & D1 & D2 & E4 & E5 & E6 & DO).
  rewrite E4 in H. cbn [bind] in H. rewrite E5 in H. cbn [bind] in H. rewrite E6 in H. cbn [bind] in H. inversion H; subst f; clear H.
  cbn [s1_xmin s1_xmax s1_mkx s1_grid s1_e s1_n s1_eqs s1_interp g1_nx g1_xmin g1_xmax g1_coords].
  exists p, d1, d2, D1, D2. splits; auto; [lia|]. intros m Hm. rewrite V by lia. reflexivity.
Qed.

(** does node [m] carry a flux condition? *)
Definition en1 (m : nat) : bool :=
  if m =? 0 then isS (spec_nat F1 hn Xmin) else if m =? nx - 1 then isS (spec_nat F1 hn Xmax) else false.
(** the row of node [m] *)
Definition A1 (D1 D2 : nat -> nat -> R) (alpha : R) (m n : nat) : R :=
  let c := (2 / (xmax - xmin))%R in
  if en1 m then (if m =? 0 then kx * (D1 m n * c) else - kx * (D1 m n * c))%R
  else (- kx * (D2 m n * (c * c)) + (if m =? n then alpha else 0))%R.
(** the right-hand side of node [m] *)
Definition g1 (source : R -> R) (m : nat) : R :=
  if m =? 0 then nth 0 (n_fun _ (s1_n f)) z1 (x m) else if m =? nx - 1 then nth 1 (n_fun _ (s1_n f)) z1 (x m) else source (x m).

Lemma val1_spc alpha d1 d2 D1 D2 m n : diff_ok (s1_interp f) nx d1 d2 D1 D2 -> m < nx -> n < nx ->
  spc1_val f alpha d1 d2 m n = Ok (A1 D1 D2 alpha m n).
Proof using FR.
  intros DO Hm Hn. destruct spc1_inv as (Hx & p & _ & _ & _ & _ & D & IP & X1 & X2 & X3 & G1 & _ & _ & _ & _ & _ & Rn & _).
  destruct FR as (_ & XN & _). destruct (C43_history_natural1 F1 z1 hn XN) as (n' & Rn' & _ & _ & SH). rewrite Rn in Rn'. inversion Rn' as [EN]. clear Rn'.
  assert (EB : nbc1_enabled F1 (s1_n f) m nx = Ok (en1 m)).
  { unfold nbc1_enabled, en1. rewrite EN. assert (S0 := shows_bool _ _ _ _ _ (SH Xmin eq_refl)). assert (S1 := shows_bool _ _ _ _ _ (SH Xmax eq_refl)). cbn [side_index] in S0, S1.
    rewrite S0, S1. destruct (m =? 0); auto. destruct (m =? nx - 1); auto. }
  unfold spc1_val. rewrite G1, X1, X2, X3, EB. cbn [bind].
  rewrite (entries_get _ _ _ _ _ (do_e1 _ _ _ _ _ _ DO) Hm Hn), (entries_get _ _ _ _ _ (do_e2 _ _ _ _ _ _ DO) Hm Hn). cbn [bind]. unfold A1.
  destruct (en1 m) eqn:EE.
  - destruct (Nat.eqb_spec m 0); cbn [bind].
    + destruct (Nat.eqb_spec m (nx - 1)); [lia|]. f_equal. ring.
    + unfold en1 in EE. destruct (Nat.eqb_spec m 0); [lia|]. destruct (Nat.eqb_spec m (nx - 1)); [|discriminate]. f_equal. ring.
  - f_equal. destruct (m =? n); ring.
Qed.

Lemma rhs1_spc source m k ff : m < nx -> k < length ff -> nth k ff 0%R = 0%R ->
  exists ff', spc1_rhs f source m k ff = Ok ff' /\ length ff' = length ff /\ forall r, nth r ff' 0%R = if r =? k then g1 source m else nth r ff 0%R.
Proof using FR.
  intros Hm Hk Z. destruct spc1_inv as (Hx & p & _ & _ & _ & _ & D & IP & X1 & X2 & X3 & G1 & _ & _ & LC & CC & _ & Rn & _).
  destruct FR as (_ & XN & _). destruct (C43_history_natural1 F1 z1 hn XN) as (n' & Rn' & LF & _). rewrite Rn in Rn'. inversion Rn'; subst n'; clear Rn'.
  unfold spc1_rhs, grid1_coord. rewrite (vget_ok _ m 0%R) by lia. cbn [bind]. rewrite CC, X1, X2, map_xnode by auto.
  unfold grid1_on_boundary, grid1_is_xmin, grid1_is_xmax. rewrite G1. unfold g1.
  rewrite (vget_ok (n_fun _ (s1_n f)) 0 z1), (vget_ok (n_fun _ (s1_n f)) 1 z1) by lia. cbn [bind].
  assert (ADD : forall w, exists b, vadd R Rplus ff k w = Ok b /\ length b = length ff /\ forall r, nth r b 0%R = if r =? k then w else nth r ff 0%R).
  { intros w. destruct (vadd_adds ff k w Hk) as (b & E & LB & NB). exists b. splits; auto. intros r. rewrite NB. destruct (Nat.eqb_spec r k) as [->|]; auto. rewrite Z. ring. }
  destruct (Nat.eqb_spec m 0); cbn [orb].
  - destruct (ADD (nth 0 (n_fun _ (s1_n f)) z1 (x m))) as (b & -> & B). cbn [bind]. destruct (Nat.eqb_spec m (nx - 1)); [lia|]. eauto.
  - destruct (Nat.eqb_spec m (nx - 1)); cbn [bind]; [apply ADD|]. rewrite vset_ok by auto. eexists. split; [reflexivity|]. split; [apply upd_length|].
    intros r. rewrite nth_upd by auto. reflexivity.
Qed.

Lemma presc1_spc a off : off + eqs_np h <= length a ->
  exists a', spc1_presc f off a = Ok a' /\ length a' = length a /\
    (forall k, k < eqs_np h -> nth (off + k) a' 0%R = bval1 hist nx x (nth k (eq_p_sorted h) 0)) /\
    (forall r, r < off -> nth r a' 0%R = nth r a 0%R).
Proof using FR.
  intros La. destruct spc1_inv as (Hx & p & _ & _ & _ & _ & D & IP & X1 & X2 & X3 & G1 & GX0 & GX1 & LC & CC & Re & _).
  destruct FR as (X & _).
  destruct (C43_history1 F1 z1 hist X) as (e' & Re' & _ & LF & LS & SH). rewrite Re in Re'. inversion Re'; subst e'; clear Re'.
  assert (S0 := SH Xmin eq_refl). assert (SX := SH Xmax eq_refl). clear SH. unfold shows in S0, SX. cbn [side_index] in S0, SX.
  assert (STEP : forall sd m0 o a, (sd = 0 /\ m0 = 0 /\ o = spec_fun F1 z1 hist Xmin \/ sd = 1 /\ m0 = nx - 1 /\ o = spec_fun F1 z1 hist Xmax) ->
    off + eqs_np h <= length a ->
    exists a', (b <- vget (e1_sides _ (s1_e f)) sd ;;
       if b : bool then
        s <- side_from_index sd ;;
        nodes <- grid1_nodes R (s1_grid f) s ;;
        for_each nodes (fun m a =>
        ip <- eqs_ip h m ;; r <- grid1_coord R (s1_grid f) m ;; u <- vget (e1_fun _ (s1_e f)) sd ;; vset a (off + ip) (u (spc_map (s1_xmin f) (s1_xmax f) r))) a
       else Ok a) = Ok a' /\ length a' = length a /\
      (forall k, k < eqs_np h -> nth (off + k) a' 0%R =
         match o with
         | Some u => if nth k (eq_p_sorted h) 0 =? m0 then u (x m0) else nth (off + k) a 0%R
         | None => nth (off + k) a 0%R end) /\
      (forall r, r < off -> nth r a' 0%R = nth r a 0%R)).
  { intros sd m o b HO Lb.
    assert (Q : match o with
      | Some u => nth_error (e1_sides _ (s1_e f)) sd = Some true /\ nth_error (e1_fun _ (s1_e f)) sd = Some u
      | None => nth_error (e1_sides _ (s1_e f)) sd = Some false end).
    { destruct HO as [(-> & _ & ->)|(-> & _ & ->)]; auto. }
    destruct o as [u|].
    - destruct Q as [Q1 Q2]. unfold vget at 1. rewrite Q1. cbn [bind].
      assert (Hm : m < nx /\ In m p).
      { destruct HO as [(-> & -> & HO)|(-> & -> & HO)]; (split; [lia|]); apply IP; [left|right]; (split; [|auto]); rewrite <- HO; discriminate. }
      destruct Hm as [Hm Pm].
      assert (SN : (s <- side_from_index sd ;; grid1_nodes R (s1_grid f) s) = Ok [m]).
      { destruct HO as [(-> & -> & HO)|(-> & -> & HO)]; cbn [side_from_index bind grid1_nodes]; congruence. }
      destruct (side_from_index sd) as [s| |]; try discriminate. cbn [bind] in *. rewrite SN. cbn [bind].
      destruct (presc_loop h nx p D [m] (fun m a => ip <- eqs_ip h m ;; r <- grid1_coord R (s1_grid f) m ;; u <- vget (e1_fun _ (s1_e f)) sd ;; vset a (off + ip) (u (spc_map (s1_xmin f) (s1_xmax f) r)))
        (fun m => u (x m)) off (length b)) with (a := b) as (b' & E & L & K1 & K2); auto.
      { intros q [<-|[]]. auto. }
      { intros q a0 [<-|[]] L0. destruct (ip_ok h nx p D m Hm Pm) as (-> & Lk & _). cbn [bind].
        unfold grid1_coord. rewrite (vget_ok _ m 0%R) by lia. cbn [bind]. unfold vget. rewrite Q2. cbn [bind]. rewrite CC, X1, X2, map_xnode by auto.
        apply vset_ok. lia. }
      exists b'. splits; auto. intros k Hk. rewrite K1 by auto. cbn [existsb]. rewrite orb_false_r.
      destruct (Nat.eqb_spec (nth k (eq_p_sorted h) 0) m) as [->|]; auto.
    - unfold vget at 1. rewrite Q. cbn [bind]. exists b. splits; auto. }
  unfold spc1_presc, for_range. cbn [Nat.sub for_n].
  destruct (STEP 0 0 (spec_fun F1 z1 hist Xmin) a ltac:(now left) La) as (a1 & E1 & L1 & V1 & O1). rewrite E1. cbn [bind]. clear E1.
  destruct (STEP 1 (nx - 1) (spec_fun F1 z1 hist Xmax) a1 ltac:(now right) ltac:(lia)) as (a2 & E2 & L2 & V2 & O2). rewrite E2. cbn [bind]. clear E2 STEP.
  exists a2. splits; auto; [congruence| |intros; rewrite O2, O1; auto].
  intros k Hk. rewrite V2, V1 by auto. unfold bval1.
  destruct (p_nth h nx p D k Hk) as [Q B]. apply IP in B. unfold presc1, has in B.
  set (q := nth k (eq_p_sorted h) 0) in *.
  destruct (spec_fun F1 z1 hist Xmin) eqn:Q0, (spec_fun F1 z1 hist Xmax) eqn:Q1; destruct (Nat.eqb_spec q 0), (Nat.eqb_spec q (nx - 1)); auto; exfalso; intuition (try lia; try congruence).
Qed.

Lemma vec1_sps source : exists a0 ac fb, spc1_get_vectors_sps f source = Ok (a0, ac, fb) /\
  length ac = eqs_np h /\ length fb = eqs_nu h /\
  (forall i, i < eqs_nu h -> nth i fb 0%R = g1 source (U h i)) /\ (forall k, k < eqs_np h -> nth k ac 0%R = bval1 hist nx x (P h k)).
Proof using FR.
  destruct spc1_inv as (Hx & p & _ & _ & _ & _ & D & _). unfold spc1_get_vectors_sps.
  destruct (store (eq_u_sorted h) (fun m fb => iu <- eqs_iu h m ;; spc1_rhs f source m iu fb) (rank_u h) (g1 source) (eqs_nu h)) with (a := repeat 0%R (eqs_nu h)) as (fb & E & L & N & V).
  - intros m a Hm La Z. apply (U_spec h nx p D) in Hm. destruct Hm as [Hm Pm].
    destruct (iu_ok h nx p D m Hm Pm) as (-> & Lk & _). cbn [bind].
    destruct (rhs1_spc source m (rank_u h m) a Hm ltac:(lia) Z) as (a' & E & Q1 & Q2). exists a'. splits; auto; congruence.
  - eapply nodup_rank; eauto.
  - apply repeat_length.
  - intros m _. apply nth_repeat.
  - rewrite E. cbn [bind]. destruct (presc1_spc (repeat 0%R (eqs_np h)) 0) as (ac & EA & LA & VA & _).
    { rewrite repeat_length. lia. }
    rewrite EA. cbn [bind]. exists (repeat 0%R (eqs_nu h)), ac, fb. splits; auto.
    + now rewrite repeat_length in LA.
    + intros i Hi. specialize (V (nth i (eq_u_sorted h) 0) (U_in h i Hi)). rewrite (rank_u_nth h nx p D) in V by auto. exact V.
Qed.

Lemma vec1_lmm source : exists b0 ff, spc1_get_vectors_lmm f source = Ok (b0, ff) /\ length ff = nx + eqs_np h /\
  (forall m, m < nx -> nth m ff 0%R = g1 source m) /\ (forall k, k < eqs_np h -> nth (nx + k) ff 0%R = bval1 hist nx x (P h k)).
Proof using FR.
  destruct spc1_inv as (Hx & p & _ & _ & _ & _ & D & _ & _ & _ & _ & G1 & _). unfold spc1_get_vectors_lmm. assert (NE : eq_neq h = nx) by apply D. rewrite NE, G1.
  change (for_range 0 nx) with (@for_range (list R) 0 (0 + nx)). rewrite for_range_each.
  destruct (store (seq 0 nx) (fun m ff => spc1_rhs f source m m ff) (fun m => m) (g1 source) (nx + eqs_np h)) with (a := repeat 0%R (nx + eqs_np h)) as (ff & E & L & N & V).
  - intros m a Hm La Z. apply in_seq in Hm.
    destruct (rhs1_spc source m m a ltac:(lia) ltac:(lia) Z) as (a' & E & Q1 & Q2). exists a'. splits; auto; congruence.
  - apply nodup_seq_id.
  - apply repeat_length.
  - intros m _. apply nth_repeat.
  - rewrite E. cbn [bind]. destruct (presc1_spc ff nx) as (ac & EA & LA & VA & OA); [lia|].
    rewrite EA. cbn [bind]. exists (repeat 0%R (nx + eqs_np h)), ac. splits; auto; [congruence|].
    intros m Hm. rewrite OA by auto. apply (V m). apply in_seq. lia.
Qed.

Lemma mats1 alpha : exists d1 d2 D1 D2, diff_ok (s1_interp f) nx d1 d2 D1 D2 /\
  (forall extra, spc1_get_matrices_sps f alpha extra = spc_sps (spc1_val f alpha d1 d2) h (nx * nx) extra) /\
  (forall extra cc, spc1_get_matrices_lmm f alpha extra cc = spc_lmm (spc1_val f alpha d1 d2) h (nx * nx) extra cc).
Proof using FR.
  destruct spc1_inv as (Hx & p & d1 & d2 & D1 & D2 & D & IP & X1 & X2 & X3 & G1 & _ & _ & _ & _ & _ & _ & _ & DO).
  exists d1, d2, D1, D2. unfold spc1_get_matrices_sps, spc1_get_matrices_lmm.
  rewrite (do_g1 _ _ _ _ _ _ DO), (do_g2 _ _ _ _ _ _ DO), G1. cbn [unwrap bind]. splits; auto.
Qed.

(** the grid equations of a polynomial's nodal values are the collocation conditions *)
Lemma row1 D1 D2 d1 d2 alpha phi (phi1 phi2 : R -> R) m : diff_ok (s1_interp f) nx d1 d2 D1 D2 -> xmin <> xmax -> is_poly nx phi ->
  (forall t, is_derive phi t (phi1 t)) -> (forall t, is_derive phi1 t (phi2 t)) -> m < nx ->
  nsum nx (fun n => A1 D1 D2 alpha m n * nth n (nodal1 xmin xmax nx phi) 0)%R =
  (if en1 m then (if m =? 0 then kx * phi1 (x m) else - kx * phi1 (x m)) else - kx * phi2 (x m) + alpha * phi (x m))%R.
Proof using.
  intros DO NE P H1 H2 Hm. set (c := (2 / (xmax - xmin))%R).
  assert (Q1 := phys1 _ _ _ _ _ _ xmin xmax DO NE phi m (phi1 (x m)) P Hm (H1 _)). fold c in Q1.
  assert (Q2 := phys2 _ _ _ _ _ _ xmin xmax DO NE phi phi1 m (phi2 (x m)) P Hm H1 (H2 _)). fold c in Q2.
  rewrite nsum_sumn in *. unfold A1. fold c.
  destruct (en1 m); [destruct (m =? 0)|].
  - rewrite <- Q1, <- sumn_scal. apply sumn_ext. intros n Hn. rewrite nodal1_nth by auto. ring.
  - rewrite <- Q1, <- sumn_scal. apply sumn_ext. intros n Hn. rewrite nodal1_nth by auto. ring.
  - rewrite <- Q2, <- sumn_scal.
    replace (alpha * phi (x m))%R with (sumn nx (fun n => (if m =? n then alpha else 0) * phi (x n)))%R.
    + rewrite <- sumn_plus. apply sumn_ext. intros n Hn. rewrite nodal1_nth by auto. destruct (m =? n); ring.
    + rewrite (sumn_single _ _ m Hm); [now rewrite Nat.eqb_refl|]. intros i Hi N. rewrite (proj2 (Nat.eqb_neq m i)) by auto. ring.
Qed.

Lemma grid_collocates D1 D2 d1 d2 p alpha source phi (phi1 phi2 : R -> R) : diff_ok (s1_interp f) nx d1 d2 D1 D2 -> describes h nx p ->
  (forall m, In m p <-> presc1 R 0%R hist nx m) -> xmin <> xmax -> is_poly nx phi ->
  (forall t, is_derive phi t (phi1 t)) -> (forall t, is_derive phi1 t (phi2 t)) -> well_posed1 hist hn ->
  (grid_equations nx p (A1 D1 D2 alpha) (g1 source) (bval1 hist nx x) (nodal1 xmin xmax nx phi) <->
   collocates1 hist hn xmin xmax nx kx alpha source phi phi1 phi2).
Proof using FR.
  intros DO D IP NE P H1 H2 [WP0 WP1]. destruct spc1_inv as (Hx & _ & _ & _ & _ & _ & _ & _ & _ & _ & _ & _ & _ & _ & _ & _ & _ & Rn & _).
  destruct FR as (_ & XN & _). destruct (C43_history_natural1 F1 z1 hn XN) as (n' & Rn' & _ & _ & SH). rewrite Rn in Rn'. inversion Rn' as [EN]. clear Rn'.
  assert (S0 := SH Xmin eq_refl). assert (S1 := SH Xmax eq_refl). clear SH. unfold shows in S0, S1. cbn [side_index] in S0, S1. rewrite <- EN in S0, S1.
  assert (ROW := fun m => row1 D1 D2 d1 d2 alpha phi phi1 phi2 m DO NE P H1 H2).
  assert (X0 := xnode_first xmin xmax nx). assert (X1 := xnode_last xmin xmax nx Hx).
  unfold grid_equations, collocates1. unfold has in *.
  assert (NW : forall w k, nth_error (n_fun F1 (s1_n f)) k = Some w -> nth k (n_fun F1 (s1_n f)) z1 = w) by (intros w k Q; now apply nth_error_nth).
  assert (R0 : (~ In 0 p -> nsum nx (fun n => A1 D1 D2 alpha 0 n * nth n (nodal1 xmin xmax nx phi) 0)%R = g1 source 0) /\ (In 0 p -> nth 0 (nodal1 xmin xmax nx phi) 0%R = bval1 hist nx x 0) <->
     (forall u, spec_fun F1 z1 hist Xmin = Some u -> phi xmin = u xmin) /\ (forall w, spec_nat F1 hn Xmin = Some w -> (kx * phi1 xmin = w xmin)%R)).
  { rewrite ROW, nodal1_nth by lia. rewrite IP. unfold presc1, en1, g1, bval1, has. cbn [Nat.eqb]. rewrite X0.
    destruct (spec_fun F1 z1 hist Xmin) as [u|] eqn:EU, (spec_nat F1 hn Xmin) as [w|] eqn:EW; cbn [isS].
    - exfalso; intuition congruence.
    - split; [intros [_ Q]; split; [intros u' [= <-]; apply Q; left; split; [discriminate|auto]|discriminate]|].
      intros [Q _]. split; [intros N; exfalso; apply N; left; split; [discriminate|auto]|auto].
    - destruct S0 as [_ S0]. rewrite (NW _ _ S0). split; [intros [Q _]; split; [discriminate|intros w' [= <-]; apply Q; intros [[]|[]]; [congruence|lia]]|].
      intros [_ Q]. split; [auto|intros [[]|[]]; [congruence|lia]].
    - exfalso; intuition congruence. }
  assert (R1 : (~ In (nx - 1) p -> nsum nx (fun n => A1 D1 D2 alpha (nx - 1) n * nth n (nodal1 xmin xmax nx phi) 0)%R = g1 source (nx - 1)) /\ (In (nx - 1) p -> nth (nx - 1) (nodal1 xmin xmax nx phi) 0%R = bval1 hist nx x (nx - 1)) <->
     (forall u, spec_fun F1 z1 hist Xmax = Some u -> phi xmax = u xmax) /\ (forall w, spec_nat F1 hn Xmax = Some w -> (- kx * phi1 xmax = w xmax)%R)).
  { rewrite ROW, nodal1_nth by lia. rewrite IP. unfold presc1, en1, g1, bval1, has. rewrite Nat.eqb_refl, (proj2 (Nat.eqb_neq (nx - 1) 0)) by lia. rewrite X1.
    destruct (spec_fun F1 z1 hist Xmax) as [u|] eqn:EU, (spec_nat F1 hn Xmax) as [w|] eqn:EW; cbn [isS].
    - exfalso; intuition congruence.
    - split; [intros [_ Q]; split; [intros u' [= <-]; apply Q; right; split; [discriminate|auto]|discriminate]|].
      intros [Q _]. split; [intros N; exfalso; apply N; right; split; [discriminate|auto]|auto].
    - destruct S1 as [_ S1]. rewrite (NW _ _ S1). split; [intros [Q _]; split; [discriminate|intros w' [= <-]; apply Q; intros [[]|[]]; [lia|congruence]]|].
      intros [_ Q]. split; [auto|intros [[]|[]]; [lia|congruence]].
    - exfalso; intuition congruence. }
  assert (RI : forall m, 0 < m < nx - 1 -> ~ In m p /\ (nsum nx (fun n => A1 D1 D2 alpha m n * nth n (nodal1 xmin xmax nx phi) 0)%R = g1 source m <-> (- kx * phi2 (x m) + alpha * phi (x m) = source (x m))%R)).
  { intros m Hm. split; [rewrite IP; unfold presc1; intros [[]|[]]; lia|]. rewrite ROW by lia. unfold en1, g1.
    rewrite (proj2 (Nat.eqb_neq m 0)), (proj2 (Nat.eqb_neq m (nx - 1))) by lia. reflexivity. }
  clear ROW S0 S1 NW WP0 WP1. split.
  - intros (_ & HU & HP). destruct (proj1 R0) as [Q1 Q2]; [split; [apply HU|apply HP]; lia|]. destruct (proj1 R1) as [Q3 Q4]; [split; [apply HU|apply HP]; lia|].
    splits; auto. intros m Hm. cbv zeta. destruct (RI m Hm) as [N E]. apply E, HU; auto. lia.
  - intros (HI & Q1 & Q3 & Q2 & Q4). destruct (proj2 R0) as [HU0 HP0]; [split; auto|]. destruct (proj2 R1) as [HU1 HP1]; [split; auto|].
    split; [apply nodal1_length|]. split; intros m Hm; destruct (Nat.eq_dec m 0) as [->|N0]; auto; destruct (Nat.eq_dec m (nx - 1)) as [->|N1]; auto; intros Pm.
    + destruct (RI m ltac:(lia)) as [_ E]. apply E, HI. lia.
    + destruct (RI m ltac:(lia)) as [N _]. contradiction.
Qed.

(** the polynomial through a nodal vector *)
Lemma nodal_poly a : xmin <> xmax -> length a = nx -> exists phi, is_poly nx phi /\ a = nodal1 xmin xmax nx phi.
Proof using FR.
  intros NE La. destruct spc1_inv as (Hx & _). destruct (lagrange_basis xmin xmax nx NE ltac:(lia)) as (L & LP & LN).
  exists (fun t => sumn nx (fun j => nth j a 0 * L j t)%R). split.
  - apply (is_poly_sum nx nx (fun j t => nth j a 0 * L j t)%R). intros j Hj. apply is_poly_scal. auto.
  - apply nth_ext with (d := 0%R) (d' := 0%R); [now rewrite nodal1_length|]. intros i Hi. rewrite nodal1_nth by lia.
    rewrite (sumn_single _ _ i); [|lia|]; [rewrite LN, Nat.eqb_refl by lia; ring|].
    intros j Hj N. rewrite LN by lia. rewrite (proj2 (Nat.eqb_neq i j)) by auto. ring.
Qed.
End One.

(** ** theorems *)
(** Both systems hold exactly the collocation equations: the nodal values of a polynomial solve the reduced system, or the
    Lagrange system for some multipliers, if and only if the polynomial satisfies the equation at the interior points and
    the boundary conditions. *)
Theorem C85_collocation : forall f hist hn xmin xmax nx kx alpha source (phi phi1 phi2 : R -> R), spc1_from f hist hn xmin xmax nx kx ->
  xmin <> xmax -> well_posed1 hist hn -> is_poly nx phi -> (forall t, is_derive phi t (phi1 t)) -> (forall t, is_derive phi1 t (phi2 t)) ->
  (0 < eqs_nu (s1_eqs f) -> 0 < eqs_np (s1_eqs f) -> forall extra, exists kb kc a0 ac fb,
    spc1_get_matrices_sps f alpha extra = Ok (kb, kc) /\ spc1_get_vectors_sps f source = Ok (a0, ac, fb) /\
    ((exists ab, reduced_solution kb kc ac fb ab /\ joined_sps R 0%R (s1_eqs f) ab ac = Ok (nodal1 xmin xmax nx phi)) <->
     collocates1 hist hn xmin xmax nx kx alpha source phi phi1 phi2)) /\
  (forall extra cc, exists mm oc b0 ff,
    spc1_get_matrices_lmm f alpha extra cc = Ok (mm, oc) /\ spc1_get_vectors_lmm f source = Ok (b0, ff) /\
    ((exists lam, length lam = eqs_np (s1_eqs f) /\ solution mm ff (nodal1 xmin xmax nx phi ++ lam)) <->
     collocates1 hist hn xmin xmax nx kx alpha source phi phi1 phi2)).
Proof.
  intros f hist hn xmin xmax nx kx alpha source phi phi1 phi2 FR NE WP Po H1 H2.
  destruct (mats1 f hist hn xmin xmax nx kx FR alpha) as (d1 & d2 & D1 & D2 & DO & MS & ML).
  destruct (spc1_inv f hist hn xmin xmax nx kx FR) as (Hx & p & _ & _ & _ & _ & D & IP & _).
  assert (VAL := fun m n => val1_spc f hist hn xmin xmax nx kx FR alpha d1 d2 D1 D2 m n DO).
  assert (GC := grid_collocates f hist hn xmin xmax nx kx FR D1 D2 d1 d2 p alpha source phi phi1 phi2 DO D IP NE Po H1 H2 WP).
  assert (VS := vec1_sps f hist hn xmin xmax nx kx FR source). assert (VL := vec1_lmm f hist hn xmin xmax nx kx FR source). split.
  - intros NU NP extra. destruct (spc_sps_entries (s1_eqs f) nx p D _ _ VAL extra NU NP) as (kb & kc & E & _).
    assert (VS' := VS). destruct VS' as (a0 & ac & fb & EV & _). exists kb, kc, a0, ac, fb. rewrite MS. splits; auto. rewrite <- GC.
    apply (reduced_grid (s1_eqs f) nx p D _ _ VAL _ _ (spc_sps (spc1_val f alpha d1 d2) (s1_eqs f) (nx * nx) extra) (spc1_get_vectors_sps f source) ltac:(eauto) VS _ kb kc a0 ac fb NU NP E EV).
  - intros extra cc. destruct (spc_lmm_entries (s1_eqs f) nx p D _ _ VAL extra cc ltac:(lia)) as (mm & oc & E & _).
    assert (VL' := VL). destruct VL' as (b0 & ff & EV & _). exists mm, oc, b0, ff. rewrite ML. splits; auto. rewrite <- GC.
    apply (lagrange_grid (s1_eqs f) nx p D _ _ VAL _ _ (spc_lmm (spc1_val f alpha d1 d2) (s1_eqs f) (nx * nx) extra cc) (spc1_get_vectors_lmm f source) ltac:(eauto) VL _ mm oc b0 ff); eauto; [lia|apply nodal1_length].
Qed.

(** Whatever a driver returns with an exact linear solver is the nodal vector of a polynomial of degree below nx that
    satisfies the differential equation at the interior grid points and the boundary conditions. *)
Theorem C85_solve : forall solve f hist hn xmin xmax nx kx alpha source a, spc1_from f hist hn xmin xmax nx kx -> xmin <> xmax -> exact_solver solve ->
  0 < eqs_nu (s1_eqs f) /\ 0 < eqs_np (s1_eqs f) /\ spc1_solve_sps solve f alpha source = Ok a \/ spc1_solve_lmm solve f alpha source = Ok a ->
  exists phi phi1 phi2 : R -> R, is_poly nx phi /\ (forall t, is_derive phi t (phi1 t)) /\ (forall t, is_derive phi1 t (phi2 t)) /\
    a = nodal1 xmin xmax nx phi /\ collocates1 hist hn xmin xmax nx kx alpha source phi phi1 phi2.
Proof.
  intros solve f hist hn xmin xmax nx kx alpha source a FR NE EX H.
  destruct (mats1 f hist hn xmin xmax nx kx FR alpha) as (d1 & d2 & D1 & D2 & DO & MS & ML).
  destruct (spc1_inv f hist hn xmin xmax nx kx FR) as (Hx & p & _ & _ & _ & _ & D & IP & _ & _ & _ & _ & _ & _ & _ & _ & Re & Rn & PER & _).
  assert (VAL := fun m n => val1_spc f hist hn xmin xmax nx kx FR alpha d1 d2 D1 D2 m n DO).
  assert (VS := vec1_sps f hist hn xmin xmax nx kx FR source). assert (VL := vec1_lmm f hist hn xmin xmax nx kx FR source).
  assert (Q : well_posed1 hist hn /\ grid_equations nx p (A1 hn xmin xmax nx kx D1 D2 alpha) (g1 f xmin xmax nx source) (bval1 hist nx (xnode xmin xmax nx)) a).
  { assert (WP : ebc1_validate F1 (s1_e f) (s1_n f) = Ok tt -> well_posed1 hist hn).
    { intros V. destruct FR as (X & XN & _). apply (C43_validate1 F1 z1 hist hn _ _ X XN Re Rn) in V. rewrite PER in V. exact V. }
    destruct H as [(NU & NP & H)|H].
    - unfold spc1_solve_sps in H. apply bind_ok in H. destruct H as ([] & V & H). split; auto. rewrite MS in H.
      apply (driver_sps (s1_eqs f) nx p D _ _ VAL (g1 f xmin xmax nx source) (bval1 hist nx (xnode xmin xmax nx)) (spc_sps (spc1_val f alpha d1 d2) (s1_eqs f) (nx * nx) 0) (spc1_get_vectors_sps f source) ltac:(eauto) VS solve EX a NU NP H).
    - unfold spc1_solve_lmm in H. apply bind_ok in H. destruct H as ([] & V & H). split; auto. rewrite ML in H.
      apply (driver_lmm (s1_eqs f) nx p D _ _ VAL (g1 f xmin xmax nx source) (bval1 hist nx (xnode xmin xmax nx)) (spc_lmm (spc1_val f alpha d1 d2) (s1_eqs f) (nx * nx) 0 false) (spc1_get_vectors_lmm f source) ltac:(eauto) VL solve EX a ltac:(lia) H). }
  destruct Q as [WP GE]. destruct (nodal_poly f hist hn xmin xmax nx kx FR a NE (proj1 GE)) as (phi & Po & Ea). subst a.
  destruct (poly_derivs nx phi Po) as (phi1 & phi2 & H1 & H2). exists phi, phi1, phi2. splits; auto.
  apply (grid_collocates f hist hn xmin xmax nx kx FR D1 D2 d1 d2 p alpha source phi phi1 phi2 DO D IP NE Po H1 H2 WP). exact GE.
Qed.

(** the flow at the grid points is -kx times the derivative, for every polynomial *)
Theorem C85_flow : forall f hist hn xmin xmax nx kx (phi phi1 : R -> R), spc1_from f hist hn xmin xmax nx kx -> xmin <> xmax -> is_poly nx phi ->
  (forall t, is_derive phi t (phi1 t)) ->
  spc1_flow f (nodal1 xmin xmax nx phi) = Ok (nodal1 xmin xmax nx (fun t => - kx * phi1 t)%R).
Proof.
  intros f hist hn xmin xmax nx kx phi phi1 FR NE Po H1.
  destruct (spc1_inv f hist hn xmin xmax nx kx FR) as (Hx & p & d1 & d2 & D1 & D2 & D & IP & X1 & X2 & X3 & G1 & _ & _ & _ & _ & _ & _ & _ & DO).
  unfold spc1_flow. assert (NEQ : eq_neq (s1_eqs f) = nx) by apply D. rewrite NEQ, nodal1_length, Nat.eqb_refl. cbn [negb].
  rewrite (do_g1 _ _ _ _ _ _ DO). cbn [unwrap bind]. rewrite X1, X2, X3. set (c := (2 / (xmax - xmin))%R).
  set (w := nodal1 xmin xmax nx (fun t => - kx * phi1 t)%R).
  destruct (for_range_inv (fun m (ww : list R) => length ww = nx /\ forall r, r < m -> nth r ww 0%R = nth r w 0%R) (fun m wwx =>
      wx <- for_range 0 nx (fun n wx => d <- d_get d1 m n ;; an <- vget (nodal1 xmin xmax nx phi) n ;; Ok (wx + - kx * d * c * an)%R) 0%R ;; vset wwx m wx) 0 nx (repeat 0%R nx)) as (ww & E & LW & NW).
  - lia.
  - split; [apply repeat_length|intros; lia].
  - intros m wwx Hm (LW & NW).
    assert (IN : for_range 0 nx (fun n wx => d <- d_get d1 m n ;; an <- vget (nodal1 xmin xmax nx phi) n ;; Ok (wx + - kx * d * c * an)%R) 0%R = Ok (- kx * phi1 (xnode xmin xmax nx m))%R).
    { rewrite <- (phys1 _ _ _ _ _ _ xmin xmax DO NE phi m (phi1 (xnode xmin xmax nx m)) Po ltac:(lia) (H1 _)). fold c. rewrite nsum_sumn, <- sumn_scal.
      apply (for_range_val (fun n => sumn n (fun j => - kx * (D1 m j * c * phi (xnode xmin xmax nx j)))%R)); [lia|reflexivity|].
      intros n Hn. rewrite (entries_get _ _ _ _ _ (do_e1 _ _ _ _ _ _ DO)) by lia. cbn [bind]. rewrite (vget_ok _ n 0%R) by (rewrite nodal1_length; lia). cbn [bind sumn].
      rewrite nodal1_nth by lia. f_equal. ring. }
    rewrite IN. cbn [bind]. rewrite vset_ok by lia. eexists. split; [reflexivity|]. split; [now rewrite upd_length|].
    intros r Hr. rewrite nth_upd by lia. destruct (Nat.eqb_spec r m) as [->|]; [unfold w; rewrite nodal1_nth by lia; reflexivity|apply NW; lia].
  - rewrite E. f_equal. apply nth_ext with (d := 0%R) (d' := 0%R); [unfold w; now rewrite nodal1_length|]. intros r Hr. apply NW. lia.
Qed.

Theorem C85_flow_length : forall f hist hn xmin xmax nx kx a, spc1_from f hist hn xmin xmax nx kx ->
  (length a <> nx <-> exists e, spc1_flow f a = Err e) /\ spc1_flow f a <> Panic.
Proof.
  intros f hist hn xmin xmax nx kx a FR.
  destruct (spc1_inv f hist hn xmin xmax nx kx FR) as (Hx & p & d1 & d2 & D1 & D2 & D & IP & X1 & X2 & X3 & G1 & _ & _ & _ & _ & _ & _ & _ & DO).
  unfold spc1_flow. assert (NEQ : eq_neq (s1_eqs f) = nx) by apply D. rewrite NEQ. destruct (Nat.eqb_spec (length a) nx) as [La|La]; cbn [negb].
  2:{ split; [split; eauto|discriminate]. }
  rewrite (do_g1 _ _ _ _ _ _ DO). cbn [unwrap bind].
  destruct (for_range_inv (fun _ (ww : list R) => length ww = nx) (fun m wwx =>
      wx <- for_range 0 nx (fun n wx => d <- d_get d1 m n ;; an <- vget a n ;; Ok (wx + s1_mkx f * d * (2 / (s1_xmax f - s1_xmin f)) * an)%R) 0%R ;; vset wwx m wx) 0 nx (repeat 0%R nx)) as (ww & -> & LW).
  - lia.
  - apply repeat_length.
  - intros m wwx Hm LW.
    destruct (for_range_inv (fun _ (_ : R) => True) (fun n wx => d <- d_get d1 m n ;; an <- vget a n ;; Ok (wx + s1_mkx f * d * (2 / (s1_xmax f - s1_xmin f)) * an)%R) 0 nx 0%R) as (w & -> & _); [lia|auto| |].
    + intros n wx Hn _. rewrite (entries_get _ _ _ _ _ (do_e1 _ _ _ _ _ _ DO)) by lia. rewrite (vget_ok _ n 0%R) by lia. cbn [bind]. eauto.
    + cbn [bind]. rewrite vset_ok by lia. eexists. split; [reflexivity|]. now rewrite upd_length.
  - split; [|discriminate]. split; [contradiction|intros (e & [=])].
Qed.

(** ** findings *)
(** `get_matrices_sps`, and with it `solve_sps`, panics when no side has a prescribed value: two flux conditions with alpha <> 0 are a well-posed problem, accepted by
    `validate`, and the documentation mentions no such restriction *)
Theorem C85_flux_only_refuted : ~ (forall solve f hist hn xmin xmax nx kx alpha source, spc1_from f hist hn xmin xmax nx kx ->
  (xmin < xmax)%R -> well_posed1 hist hn -> (0 < alpha)%R -> spc1_solve_sps solve f alpha source <> Panic).
Proof.
  intros H. pose (hn := [(Xmin, z1 : F1); (Xmax, z1 : F1)]).
  destruct (C43_history_natural1 F1 z1 hn) as (n & Rn & _). { repeat constructor. }
  destruct (C85_new [] hn (ebc1_new F1 z1) n 0%R 1%R 3 1%R) as ((_ & (f & E)) & _); auto. { repeat constructor. } { split; [lia|reflexivity]. }
  assert (FR : spc1_from f [] hn 0%R 1%R 3 1%R). { split; [constructor|]. split; [repeat constructor|]. exists (ebc1_new F1 z1), n. splits; auto. }
  apply (H (fun _ _ => Err "") f [] hn 0%R 1%R 3 1%R 1%R z1 FR).
  - lra.
  - unfold well_posed1, valid_axis, has. cbn. split; right; split; congruence.
  - lra.
  - destruct (spc1_inv f [] hn 0%R 1%R 3 1%R FR) as (Hx & p & d1 & d2 & D1 & D2 & D & IP & X1 & X2 & X3 & G1 & _ & _ & _ & _ & Re & Rn' & PER & DO).
    unfold spc1_solve_sps. destruct (C43_validate1 F1 z1 [] hn (s1_e f) (s1_n f)) as [V _]; auto. { repeat constructor. }
    rewrite (proj2 V) by (rewrite PER; unfold valid_axis, has; cbn; split; right; split; congruence). cbn [bind].
    unfold spc_solve_sps, spc1_get_matrices_sps. rewrite (do_g1 _ _ _ _ _ _ DO), (do_g2 _ _ _ _ _ _ DO). cbn [unwrap bind].
    assert (NP : eqs_np (s1_eqs f) = 0).
    { destruct (eqs_np (s1_eqs f)) eqn:Q; auto. destruct (p_nth _ _ _ D 0 ltac:(lia)) as [_ B]. apply IP in B. unfold presc1, has in B. cbn in B. intuition congruence. }
    unfold spc_sps. rewrite NP. unfold coo_new at 2. cbn [Nat.eqb Nat.ltb Nat.leb].
    destruct (coo_new R 0%R (eqs_nu (s1_eqs f)) _ _ _) as [c| |]; cbn [unwrap bind]; try reflexivity.
    repeat match goal with |- context [if ?b then _ else _] => destruct b end; reflexivity.
Qed.

(** and it panics when every node has a prescribed value (two grid points, both prescribed) *)
Theorem C85_all_prescribed_refuted : ~ (forall solve f hist hn xmin xmax nx kx alpha source, spc1_from f hist hn xmin xmax nx kx ->
  (xmin < xmax)%R -> well_posed1 hist hn -> spc1_solve_sps solve f alpha source <> Panic).
Proof.
  intros H. pose (hist := [OpHomogeneous F1]).
  destruct (C43_history1 F1 z1 hist) as (e & Re & _). { repeat constructor. }
  destruct (C85_new hist [] e (nbc1_new F1 z1) 0%R 1%R 2 1%R) as ((_ & (f & E)) & _); auto. { repeat constructor. } { split; [lia|reflexivity]. }
  assert (FR : spc1_from f hist [] 0%R 1%R 2 1%R). { split; [repeat constructor|]. split; [constructor|]. exists e, (nbc1_new F1 z1). splits; auto. }
  apply (H (fun _ _ => Err "") f hist [] 0%R 1%R 2 1%R 0%R z1 FR).
  - lra.
  - unfold well_posed1, valid_axis, has. cbn. split; left; split; congruence.
  - destruct (spc1_inv f hist [] 0%R 1%R 2 1%R FR) as (Hx & p & d1 & d2 & D1 & D2 & D & IP & X1 & X2 & X3 & G1 & _ & _ & _ & _ & Re' & Rn' & PER & DO).
    unfold spc1_solve_sps. destruct (C43_validate1 F1 z1 hist [] (s1_e f) (s1_n f)) as [V _]; auto. { repeat constructor. }
    rewrite (proj2 V) by (rewrite PER; unfold valid_axis, has; cbn; split; left; split; congruence). cbn [bind].
    unfold spc_solve_sps, spc1_get_matrices_sps. rewrite (do_g1 _ _ _ _ _ _ DO), (do_g2 _ _ _ _ _ _ DO). cbn [unwrap bind].
    assert (NU : eqs_nu (s1_eqs f) = 0).
    { destruct (eqs_nu (s1_eqs f)) eqn:Q; auto. destruct (u_nth _ _ _ D 0 ltac:(lia)) as [L B]. exfalso. apply B, IP. unfold presc1, has. cbn.
      destruct (nth 0 (eq_u_sorted (s1_eqs f)) 0) as [|[|k]]; [left|right|lia]; split; auto; discriminate. }
    unfold spc_sps. rewrite NU. reflexivity.
Qed.

(** `new` does not check the interval: with xmin > xmax the node at `Xmin` is at the greater coordinate, and with
    xmin = xmax the spacing factor divides by zero *)
Theorem C85_interval_refuted : ~ (forall f hist hn xmin xmax nx kx, spc1_from f hist hn xmin xmax nx kx -> (xmin < xmax)%R).
Proof.
  intros H. destruct (C85_new [] [] (ebc1_new F1 z1) (nbc1_new F1 z1) 1%R 1%R 3 1%R) as ((_ & (f & E)) & _); auto. { split; [lia|reflexivity]. }
  assert (FR : spc1_from f [] [] 1%R 1%R 3 1%R). { split; [constructor|]. split; [constructor|]. exists (ebc1_new F1 z1), (nbc1_new F1 z1). splits; auto. }
  specialize (H _ _ _ _ _ _ _ FR). lra.
Qed.

(** ** non-vacuity: -phi'' = 1 on [0,1] with phi(0) = 0 and zero flux at 1, on 4 points: phi = x - x^2/2 *)
Example C85_example : exists f, spc1_from f [OpSet F1 Xmin z1] [(Xmax, z1)] 0%R 1%R 4 1%R /\
  0 < eqs_nu (s1_eqs f) /\ 0 < eqs_np (s1_eqs f) /\ well_posed1 [OpSet F1 Xmin z1] [(Xmax, z1)] /\
  collocates1 [OpSet F1 Xmin z1] [(Xmax, z1)] 0 1 4 1 0 (fun _ => 1%R) (fun t => t - t * t / 2)%R (fun t => 1 - t)%R (fun _ => -1)%R /\
  is_poly 4 (fun t => t - t * t / 2)%R /\ (forall t, is_derive (fun t => t - t * t / 2)%R t (1 - t)%R) /\ (forall t, is_derive (fun t => 1 - t)%R t (-1)%R).
Proof.
  pose (hist := [OpSet F1 Xmin z1]). pose (hn := [(Xmax, z1 : F1)]).
  destruct (C43_history1 F1 z1 hist) as (e & Re & _). { repeat constructor. }
  destruct (C43_history_natural1 F1 z1 hn) as (n & Rn & _). { repeat constructor. }
  destruct (C85_new hist hn e n 0%R 1%R 4 1%R) as ((_ & (f & E)) & _); auto. { repeat constructor. } { repeat constructor. } { split; [lia|reflexivity]. }
  assert (FR : spc1_from f hist hn 0%R 1%R 4 1%R). { split; [repeat constructor|]. split; [repeat constructor|]. exists e, n. splits; auto. }
  exists f. split; auto. destruct (spc1_inv f hist hn 0%R 1%R 4 1%R FR) as (Hx & p & d1 & d2 & D1 & D2 & D & IP & _).
  splits.
  - destruct (iu_ok _ _ _ D 1) as (_ & L & _); [lia| |lia]. rewrite IP. unfold presc1. intros [[]|[]]; lia.
  - destruct (ip_ok _ _ _ D 0) as (_ & L & _); [lia| |lia]. rewrite IP. left. cbn. split; [discriminate|auto].
  - unfold well_posed1, valid_axis, has. cbn. split; [left|right]; split; congruence.
  - unfold collocates1. cbn. splits.
    + intros m _. cbv zeta. ring.
    + intros u [= <-]. lra.
    + discriminate.
    + discriminate.
    + intros w [= <-]. lra.
  - apply is_poly_ext with (fun t => (1 - t / 2) * t)%R; [|intros; field]. exists [0%R; 1%R; (-/2)%R]. split; [cbn; lia|]. intros t. cbn. field.
  - intros t. auto_derive; auto. field.
  - intros t. auto_derive; auto.
Qed.

Print Assumptions C85_new.
Print Assumptions C85_collocation.
Print Assumptions C85_solve.
Print Assumptions C85_flow.
Print Assumptions C85_flow_length.
Print Assumptions C85_flux_only_refuted.
Print Assumptions C85_all_prescribed_refuted.
Print Assumptions C85_interval_refuted.
