(** Right-hand sides, prescribed values and C47. *)
From Coq Require Import Sorting.Permutation Sorting.Sorted.
From Verif Require Import Base RBase Dense_Model Sparse_Model Sparse_Spec Sparse_CooProofs Sparse_Ops Sparse_Ring Eqs_Model Eqs_Thm Grid_Model Grid_Thm Bcs_Model Bcs_Thm
  Fdm_Model Fdm_Asm Fdm_Stencil Fdm_Cap Fdm_Entries Fdm_Coef Fdm_Thm.
Local Open Scope nat_scope.

Notation F1 := (R -> R).
Notation F2 := (R -> R -> R).
Notation z1 := (fun _ : R => 0%R).
Notation z2 := (fun _ _ : R => 0%R).

(** ** specification of the vectors *)
(** right-hand side at node [m] in 1D: weighted source minus the fluxes [w0], [w1] at the ends *)
Definition rhs1 (per : bool) (nx : nat) (dx : R) (x : nat -> R) (source w0 w1 : R -> R) (m : nat) : R :=
  (wt per nx m * source (x m) -
   (if per then 0 else if m =? 0 then w0 (x m) / dx else if m =? nx - 1 then w1 (x m) / dx else 0))%R.
(** prescribed value at node [m] *)
Definition bval1 (hist : list (bc_op F1)) (nx : nat) (x : nat -> R) (m : nat) : R :=
  if m =? 0 then match spec_fun F1 z1 hist Xmin with Some u => u (x 0) | None => 0%R end
  else match spec_fun F1 z1 hist Xmax with Some u => u (x (nx - 1)) | None => 0%R end.

(** 2D at node (i,j); the factor at the four corners is that of the code *)
Definition corner_factor (nx ny i j : nat) : R :=
  if ((i =? 0) || (i =? nx - 1)) && ((j =? 0) || (j =? ny - 1)) then (/ 2)%R else 1%R.
Definition rhs2 (px py : bool) (nx ny : nat) (dx dy : R) (fx fy : nat -> R) (source w0 w1 w2 w3 : R -> R -> R) (i j : nat) : R :=
  (wt px nx i * wt py ny j * source (fx i) (fy j)
   - (if px then 0 else if i =? 0 then corner_factor nx ny i j * w0 (fx i) (fy j) / dx
      else if i =? nx - 1 then corner_factor nx ny i j * w1 (fx i) (fy j) / dx else 0)
   - (if py then 0 else if j =? 0 then corner_factor nx ny i j * w2 (fx i) (fy j) / dy
      else if j =? ny - 1 then corner_factor nx ny i j * w3 (fx i) (fy j) / dy else 0))%R.
(** prescribed value at node (i,j): the last side in the order Xmin, Xmax, Ymin, Ymax wins at corners *)
Definition bval2 (hist : list (bc_op F2)) (nx ny : nat) (fx fy : nat -> R) (i j : nat) : R :=
  let on (c : bool) s := if c then spec_fun F2 z2 hist s else None in
  match on (j =? ny - 1) Ymax, on (j =? 0) Ymin, on (i =? nx - 1) Xmax, on (i =? 0) Xmin with
  | Some u, _, _, _ | None, Some u, _, _ | None, None, Some u, _ | None, None, None, Some u => u (fx i) (fy j)
  | _, _, _, _ => 0%R
  end.

(** ** proofs *)
Lemma vadd_ok (f : list R) k x : k < length f -> vadd R Rplus f k x = Ok (upd f k (nth k f 0 + x)%R).
Proof. intros H. unfold vadd. rewrite (vget_ok f k 0%R) by auto. cbn [bind]. now apply vset_ok. Qed.

Lemma presc_loop h neq p (D : describes h neq p) (nodes : list nat) (step : nat -> list R -> res (list R)) vals off n :
  off + eqs_np h <= n ->
  (forall m, In m nodes -> m < neq /\ In m p) ->
  (forall m a, In m nodes -> length a = n -> step m a = Ok (upd a (off + rank_p h m) (vals m))) ->
  forall a, length a = n -> exists a', for_each nodes step a = Ok a' /\ length a' = n /\
    (forall k, k < eqs_np h -> nth (off + k) a' 0%R =
       if existsb (Nat.eqb (nth k (eq_p_sorted h) 0)) nodes then vals (nth k (eq_p_sorted h) 0) else nth (off + k) a 0%R) /\
    (forall r, r < off -> nth r a' 0%R = nth r a 0%R).
Proof.
  intros Hn HP HS a La.
  destruct (scatter nodes step (fun m => off + rank_p h m) vals n) with (a := a) as (a' & E & L & N & V); auto.
  - intros m Hm. destruct (HP m Hm) as [A B]. destruct (ip_ok h neq p D m A B) as (_ & Q & _). lia.
  - intros x y Hx Hy Q. assert (Q' : rank_p h x = rank_p h y) by lia.
    destruct (HP x Hx) as [A B]. destruct (ip_ok h neq p D x A B) as (_ & _ & NX). destruct (HP y Hy) as [A' B'].
    destruct (ip_ok h neq p D y A' B') as (_ & _ & NY). congruence.
  - exists a'. splits; auto.
    + intros k Hk. destruct (existsb (Nat.eqb (nth k (eq_p_sorted h) 0)) nodes) eqn:EX.
      * apply existsb_exists in EX. destruct EX as (m & Hm & EQ). apply Nat.eqb_eq in EQ. rewrite EQ in *.
        rewrite <- (V m Hm). f_equal. rewrite <- EQ. now rewrite (rank_p_nth h neq p D).
      * apply N. intros x Hx Q. assert (Q' : rank_p h x = k) by lia.
        destruct (HP x Hx) as [A B]. destruct (ip_ok h neq p D x A B) as (_ & _ & NX). rewrite Q' in NX.
        apply (nth_error_nth _ _ 0) in NX. assert (existsb (Nat.eqb (nth k (eq_p_sorted h) 0)) nodes = true); [|congruence].
        apply existsb_exists. exists x. split; auto. apply Nat.eqb_eq. auto.
    + intros r Hr. apply N. intros; lia.
Qed.

Lemma nodup_seq_id n : NoDup (map (fun m : nat => m) (seq 0 n)).
Proof. rewrite map_id. apply seq_NoDup. Qed.

Lemma nodup_rank h neq p (D : describes h neq p) : NoDup (map (rank_u h) (eq_u_sorted h)).
Proof.
  assert (E : map (rank_u h) (eq_u_sorted h) = seq 0 (eqs_nu h)).
  { apply nth_ext with (d := 0) (d' := 0).
    - now rewrite map_length, seq_length.
    - rewrite map_length. intros i Hi. rewrite (nth_indep _ 0 (rank_u h 0)) by (now rewrite map_length).
      rewrite map_nth, seq_nth by auto. now rewrite (rank_u_nth h neq p D). }
  rewrite E. apply seq_NoDup.
Qed.


(** [b] is [a] with [v] added at position [k] *)
Definition adds (a : list R) (k : nat) (v : R) (b : list R) : Prop :=
  length b = length a /\ forall r, nth r b 0%R = if r =? k then (nth r a 0 + v)%R else nth r a 0%R.
Lemma vadd_adds a k v : k < length a -> exists b, vadd R Rplus a k v = Ok b /\ adds a k v b.
Proof.
  intros H. rewrite vadd_ok by auto. eexists. split; [reflexivity|]. split; [apply upd_length|].
  intros r. rewrite nth_upd by auto. destruct (Nat.eqb_spec r k) as [->|]; auto.
Qed.
Lemma adds_trans a k v b w c u : adds a k v b -> adds b k w c -> u = (v + w)%R -> adds a k u c.
Proof.
  intros [L1 N1] [L2 N2] ->. split; [congruence|]. intros r. rewrite N2, N1. destruct (r =? k); lra.
Qed.
Lemma adds_eq a k v b u : adds a k v b -> u = v -> adds a k u b.
Proof. now intros H ->. Qed.
Lemma adds_len a k v b : adds a k v b -> k < length a -> k < length b.
Proof. intros [L _]. lia. Qed.

Section One.
Variable tol : R.
Variables (f : fdm1 R) (hist : list (bc_op F1)) (hn : list (side * F1)) (grid : grid1 R) (kx : R).
Hypothesis S1 : solver1 tol f hist hn grid kx.
Notation nx := (g1_nx R grid).
Notation h := (f1_eqs R f).
Notation per := (spec_per F1 hist true).
Notation x := (fun m : nat => nth m (g1_coords R grid) 0%R).
Notation w0 := (nth 0 (n_fun _ (f1_n R f)) z1).
Notation w1 := (nth 1 (n_fun _ (f1_n R f)) z1).

Lemma rhs1_ok source m k ff : m < nx -> k < length ff ->
  exists ff', fdm1_rhs R 1%R 2%R Rplus Rmult Rdiv Ropp f source m k ff = Ok ff' /\
    adds ff k (rhs1 per nx (f1_dx R f) x source w0 w1 m) ff'.
Proof using S1.
  intros Hm Hk. destruct S1 as (LC & HN & n & RN & H).
  destruct (fdm1_from_inv _ _ _ _ _ _ _ _ _ _ f hist grid n kx H) as (p & dx & D & ND & IP & G & NN & Re & M & DX & GD & PX).
  destruct (C43_history_natural1 F1 z1 hn HN) as (n' & RN' & LF & _). rewrite RN in RN'. inversion RN'; subst n'; clear RN'.
  unfold fdm1_rhs. rewrite G, NN, PX. unfold grid1_coord. rewrite (vget_ok _ m 0%R) by lia. cbn [bind].
  unfold grid1_is_xmin, grid1_is_xmax. unfold rhs1, wt.
  rewrite (vget_ok (n_fun _ n) 0 z1), (vget_ok (n_fun _ n) 1 z1) by lia. cbn [bind].
  set (xm := nth m (g1_coords R grid) 0%R). set (a0 := nth 0 (n_fun _ n) z1). set (a1 := nth 1 (n_fun _ n) z1).
  set (dd := f1_dx R f). clearbody xm a0 a1 dd.
  destruct per; cbn [negb andb bind];
    [|destruct (Nat.eqb_spec m 0); cbn [orb]; [|destruct (Nat.eqb_spec m (nx - 1))]]; cbn [bind].
  - destruct (vadd_adds ff k (source xm / 1)%R Hk) as (b & -> & A). exists b. split; auto. eapply adds_eq; eauto. field.
  - destruct (vadd_adds ff k (- a0 xm / dd)%R Hk) as (b & -> & A). cbn [bind].
    destruct (vadd_adds b k (source xm / (1 * 2))%R (adds_len _ _ _ _ A Hk)) as (c & -> & B). exists c. split; auto.
    eapply adds_trans; eauto. unfold Rdiv. replace (/ (1 * 2))%R with (/ 2)%R by (f_equal; ring). ring.
  - destruct (vadd_adds ff k (- a1 xm / dd)%R Hk) as (b & -> & A). cbn [bind].
    destruct (vadd_adds b k (source xm / (1 * 2))%R (adds_len _ _ _ _ A Hk)) as (c & -> & B). exists c. split; auto.
    eapply adds_trans; eauto. unfold Rdiv. replace (/ (1 * 2))%R with (/ 2)%R by (f_equal; ring). ring.
  - destruct (vadd_adds ff k (source xm / 1)%R Hk) as (b & -> & A). exists b. split; auto. eapply adds_eq; eauto. field.
Qed.

Lemma presc1_ok a off : off + eqs_np h <= length a ->
  exists a', fdm1_presc R f off a = Ok a' /\ length a' = length a /\
    (forall k, k < eqs_np h -> nth (off + k) a' 0%R = bval1 hist nx x (nth k (eq_p_sorted h) 0)) /\
    (forall r, r < off -> nth r a' 0%R = nth r a 0%R).
Proof using S1.
  intros La. destruct S1 as (LC & HN & n & RN & H). assert (Hx : 2 <= nx) by apply H. assert (X : Forall (x_only F1) hist) by apply H.
  destruct (fdm1_from_inv _ _ _ _ _ _ _ _ _ _ f hist grid n kx H) as (p & dx & D & ND & IP & G & NN & Re & M & DX & GD & PX).
  destruct (C43_history1 F1 z1 hist X) as (e' & Re' & _ & LF & LS & SH). rewrite Re in Re'. inversion Re'; subst e'; clear Re'.
  assert (S0 := SH Xmin eq_refl). assert (SX := SH Xmax eq_refl). clear SH. cbn [side_index] in *.
  unfold shows in S0, SX. cbn [side_index] in S0, SX.
  assert (STEP : forall side o a, length a = length a -> (side = 0 /\ o = spec_fun F1 z1 hist Xmin \/ side = 1 /\ o = spec_fun F1 z1 hist Xmax) ->
    off + eqs_np h <= length a ->
    exists a', (b <- vget (e1_sides _ (f1_e R f)) side ;;
       if b : bool then
        let m := if side =? 0 then 0 else nx - 1 in
        ip <- eqs_ip h m ;; xm <- grid1_coord R grid m ;; u <- vget (e1_fun _ (f1_e R f)) side ;; vset a (off + ip) (u xm)
       else Ok a) = Ok a' /\ length a' = length a /\
      (forall k, k < eqs_np h -> nth (off + k) a' 0%R =
         match o with
         | Some u => if nth k (eq_p_sorted h) 0 =? (if side =? 0 then 0 else nx - 1) then u (x (if side =? 0 then 0 else nx - 1)) else nth (off + k) a 0%R
         | None => nth (off + k) a 0%R end) /\
      (forall r, r < off -> nth r a' 0%R = nth r a 0%R)).
  { intros sd o b _ HO Lb.
    assert (Q : match o with
      | Some u => nth_error (e1_sides _ (f1_e R f)) sd = Some true /\ nth_error (e1_fun _ (f1_e R f)) sd = Some u
      | None => nth_error (e1_sides _ (f1_e R f)) sd = Some false end).
    { destruct HO as [[-> ->]|[-> ->]]; auto. }
    destruct o as [u|].
    - destruct Q as [Q1 Q2]. unfold vget at 1. rewrite Q1. cbn [bind].
      set (m := if sd =? 0 then 0 else nx - 1).
      assert (Hm : m < nx /\ In m p).
      { unfold m. destruct HO as [[-> HO]|[-> HO]]; cbn [Nat.eqb]; (split; [lia|]); apply IP; [left|right]; (split; [|auto]); rewrite <- HO; discriminate. }
      destruct Hm as [Hm Pm].
      destruct (presc_loop h nx p D [m] (fun m a => ip <- eqs_ip h m ;; xm <- grid1_coord R grid m ;; u <- vget (e1_fun _ (f1_e R f)) sd ;; vset a (off + ip) (u xm))
        (fun m => u (x m)) off (length b)) with (a := b) as (b' & E & L & K1 & K2); auto.
      { intros q [<-|[]]. auto. }
      { intros q a0 [<-|[]] L0. destruct (ip_ok h nx p D m Hm Pm) as (-> & Lk & _). cbn [bind].
        unfold grid1_coord. rewrite (vget_ok _ m 0%R) by lia. cbn [bind]. unfold vget. rewrite Q2. cbn [bind].
        apply vset_ok. lia. }
      cbn [for_each] in E. apply bind_ok in E. destruct E as (b1 & E & EE). inversion EE; subst b1; clear EE.
      exists b'. splits; auto. intros k Hk. rewrite K1 by auto. cbn [existsb]. rewrite orb_false_r.
      destruct (Nat.eqb_spec (nth k (eq_p_sorted h) 0) m) as [->|]; auto.
    - unfold vget at 1. rewrite Q. cbn [bind]. exists b. splits; auto. }
  unfold fdm1_presc. rewrite G. unfold for_range. cbn [Nat.sub for_n].
  destruct (STEP 0 _ a eq_refl (or_introl (conj eq_refl eq_refl)) La) as (a1 & E1 & L1 & V1 & O1). cbn zeta in E1. rewrite E1. cbn [bind]. clear E1.
  destruct (STEP 1 _ a1 eq_refl (or_intror (conj eq_refl eq_refl)) ltac:(lia)) as (a2 & E2 & L2 & V2 & O2). cbn zeta in E2. rewrite E2. cbn [bind]. clear E2 STEP.
  exists a2. splits; auto; [congruence| |intros; rewrite O2, O1; auto].
  intros k Hk. rewrite V2, V1 by auto. cbn [Nat.eqb]. unfold bval1.
  destruct (p_nth h nx p D k Hk) as [A B]. apply IP in B. unfold presc1, has in B.
  set (q := nth k (eq_p_sorted h) 0) in *.
  destruct (spec_fun F1 z1 hist Xmin) eqn:Q0, (spec_fun F1 z1 hist Xmax) eqn:Q1; destruct (Nat.eqb_spec q 0), (Nat.eqb_spec q (nx - 1)); auto; exfalso; intuition (try lia; try congruence).
Qed.

(** the vectors returned by the API *)
Lemma vectors1_sps source : exists ac fb,
  fdm1_get_vectors_sps R 0%R 1%R 2%R Rplus Rmult Rdiv Ropp f source = Ok (repeat 0%R (eqs_nu h), ac, fb) /\
  length ac = eqs_np h /\ length fb = eqs_nu h /\
  (forall i, i < eqs_nu h -> nth i fb 0%R = rhs1 per nx (f1_dx R f) x source w0 w1 (nth i (eq_u_sorted h) 0)) /\
  (forall k, k < eqs_np h -> nth k ac 0%R = bval1 hist nx x (nth k (eq_p_sorted h) 0)).
Proof using S1.
  assert (DD : exists p, describes h nx p).
  { destruct S1 as (LC & HN & n & RN & H).
    destruct (fdm1_from_inv _ _ _ _ _ _ _ _ _ _ f hist grid n kx H) as (p & dx & D & _). eauto. }
  destruct DD as (p & D). unfold fdm1_get_vectors_sps.
  destruct (accumulate (eq_u_sorted h) (fun m fb => iu <- eqs_iu h m ;; fdm1_rhs R 1%R 2%R Rplus Rmult Rdiv Ropp f source m iu fb)
    (rank_u h) (fun m => rhs1 per nx (f1_dx R f) x source w0 w1 m) (eqs_nu h)) with (a := repeat 0%R (eqs_nu h)) as (fb & E & L & N & V).
  - intros m a Hm La. apply (U_spec h nx p D) in Hm. destruct Hm as [Hm Pm].
    destruct (iu_ok h nx p D m Hm Pm) as (-> & Lk & _). cbn [bind].
    destruct (rhs1_ok source m (rank_u h m) a Hm ltac:(lia)) as (a' & E & A1 & A2). exists a'. splits; auto; congruence.
  - eapply nodup_rank; eauto.
  - apply repeat_length.
  - rewrite E. cbn [bind]. destruct (presc1_ok (repeat 0%R (eqs_np h)) 0) as (ac & EA & LA & VA & _).
    { rewrite repeat_length. lia. }
    rewrite EA. cbn [bind]. exists ac, fb. splits; auto.
    + now rewrite repeat_length in LA.
    + intros i Hi. specialize (V (nth i (eq_u_sorted h) 0) (U_in h i Hi)). rewrite (rank_u_nth h nx p D) in V by auto.
      rewrite V, nth_repeat. lra.
Qed.

Lemma vectors1_lmm source : exists ff,
  fdm1_get_vectors_lmm R 0%R 1%R 2%R Rplus Rmult Rdiv Ropp f source = Ok (repeat 0%R (nx + eqs_np h), ff) /\
  length ff = nx + eqs_np h /\
  (forall m, m < nx -> nth m ff 0%R = rhs1 per nx (f1_dx R f) x source w0 w1 m) /\
  (forall k, k < eqs_np h -> nth (nx + k) ff 0%R = bval1 hist nx x (nth k (eq_p_sorted h) 0)).
Proof using S1.
  assert (DD : exists p, describes h nx p /\ f1_grid R f = grid).
  { destruct S1 as (LC & HN & n & RN & H).
    destruct (fdm1_from_inv _ _ _ _ _ _ _ _ _ _ f hist grid n kx H) as (p & dx & D & _ & _ & G & _). eauto. }
  destruct DD as (p & D & G). unfold fdm1_get_vectors_lmm. assert (NE : eq_neq h = nx) by apply D. rewrite NE, G.
  change (for_range 0 nx) with (@for_range (list R) 0 (0 + nx)). rewrite for_range_each.
  destruct (accumulate (seq 0 nx) (fun m ff => fdm1_rhs R 1%R 2%R Rplus Rmult Rdiv Ropp f source m m ff)
    (fun m => m) (fun m => rhs1 per nx (f1_dx R f) x source w0 w1 m) (nx + eqs_np h)) with (a := repeat 0%R (nx + eqs_np h)) as (ff & E & L & N & V).
  - intros m a Hm La. apply in_seq in Hm.
    destruct (rhs1_ok source m m a ltac:(lia) ltac:(lia)) as (a' & E & A1 & A2). exists a'. splits; auto; congruence.
  - apply nodup_seq_id.
  - apply repeat_length.
  - rewrite E. cbn [bind]. destruct (presc1_ok ff nx) as (ac & EA & LA & VA & OA); [lia|].
    rewrite EA. cbn [bind]. exists ac. splits; auto; [congruence|].
    intros m Hm. rewrite OA by auto. rewrite (V m) by (apply in_seq; lia). rewrite nth_repeat. lra.
Qed.
End One.

Section Two.
Variable tol : R.
Variables (f : fdm2 R) (hist : list (bc_op F2)) (hn : list (side * F2)) (grid : grid2 R) (nx ny : nat) (fx fy : nat -> R) (kx ky : R).
Hypothesis S2 : solver2 tol f hist hn grid nx ny fx fy kx ky.
Notation h := (f2_eqs R f).
Notation px := (spec_per F2 hist true).
Notation py := (spec_per F2 hist false).
Notation w k := (nth k (n_fun _ (f2_n R f)) z2).
Notation P k := (nth k (eq_p_sorted h) 0).
Notation U k := (nth k (eq_u_sorted h) 0).
(** by node number *)
Definition rhs2n source m := rhs2 px py nx ny (f2_dx R f) (f2_dy R f) fx fy source (w 0) (w 1) (w 2) (w 3) (m mod nx) (m / nx).
Definition bval2n m := bval2 hist nx ny fx fy (m mod nx) (m / nx).

Lemma bool_eq (a b : bool) : (a = true <-> b = true) -> a = b.
Proof. destruct a, b; intuition congruence. Qed.

Lemma rhs2_ok source m k ff : m < nx * ny -> k < length ff ->
  exists ff', fdm2_rhs R 1%R 2%R (/ 2)%R Rplus Rmult Rdiv Ropp f source m k ff = Ok ff' /\ adds ff k (rhs2n source m) ff'.
Proof using S2.
  intros Hm Hk. destruct S2 as (LC & n & RN & H).
  destruct (fdm2_from_inv _ _ _ _ _ _ _ _ _ _ _ f hist grid nx ny fx fy n kx ky H) as (p & dx & dy & D & ND & IP & G & NN & Re & M & DX & DY & GD & PX & PY).
  destruct H as (GI & Hx & Hy & _).
  destruct (C43_history_natural2 F2 z2 hn) as (n' & RN' & LF & _). rewrite RN in RN'. inversion RN'; subst n'; clear RN'.
  destruct (idx_split nx ny m) as (i & j & Hi & Hj & ->); [lia|auto|]. unfold rhs2n. rewrite mod_idx, div_idx by auto.
  destruct GI as (G1 & G2 & G3 & G4 & G5 & G6 & G7 & G8 & G9).
  specialize (G6 i j Hi Hj). specialize (G7 i j Hi Hj). unfold grid2_get_m in G6, G7. rewrite G1 in G6, G7. cbn zeta in G7.
  destruct G7 as (B1 & B2 & B3 & B4 & _ & B5).
  unfold fdm2_rhs. rewrite G, NN, PX, PY, G6. cbn [bind].
  replace (grid2_is_xmin R grid (i + j * nx)) with (i =? 0) by (apply bool_eq; now rewrite B1, Nat.eqb_eq).
  replace (grid2_is_xmax R grid (i + j * nx)) with (i =? nx - 1) by (apply bool_eq; now rewrite B2, Nat.eqb_eq).
  replace (grid2_is_ymin R grid (i + j * nx)) with (j =? 0) by (apply bool_eq; now rewrite B3, Nat.eqb_eq).
  replace (grid2_is_ymax R grid (i + j * nx)) with (j =? ny - 1) by (apply bool_eq; now rewrite B4, Nat.eqb_eq).
  replace (grid2_is_corner R grid (i + j * nx)) with (((i =? 0) || (i =? nx - 1)) && ((j =? 0) || (j =? ny - 1)))
    by (apply bool_eq; now rewrite B5, andb_true_iff, !orb_true_iff, !Nat.eqb_eq).
  rewrite (vget_ok (n_fun _ n) 0 z2), (vget_ok (n_fun _ n) 1 z2), (vget_ok (n_fun _ n) 2 z2), (vget_ok (n_fun _ n) 3 z2) by lia.
  unfold rhs2. fold (corner_factor nx ny i j). set (cf := corner_factor nx ny i j).
  set (a0 := nth 0 (n_fun _ n) z2). set (a1 := nth 1 (n_fun _ n) z2). set (a2 := nth 2 (n_fun _ n) z2). set (a3 := nth 3 (n_fun _ n) z2).
  set (xm := fx i). set (ym := fy j). set (ddx := f2_dx R f). set (ddy := f2_dy R f). clearbody cf a0 a1 a2 a3 xm ym ddx ddy.
  clear B1 B2 B3 B4 B5 G6 G4 G5 G8 G9 GD DX DY M Re NN D IP ND.
  (* x direction *)
  set (fxv := (if px then 0 else if i =? 0 then cf * a0 xm ym / ddx else if i =? nx - 1 then cf * a1 xm ym / ddx else 0)%R).
  set (fyv := (if py then 0 else if j =? 0 then cf * a2 xm ym / ddy else if j =? ny - 1 then cf * a3 xm ym / ddy else 0)%R).
  assert (SX : exists b, (if negb px then
       if i =? 0 then ff <- (w <- Ok a0 ;; vadd R Rplus ff k (- cf * w xm ym / ddx)%R) ;; Ok (ff, (1 * 2)%R)
       else if i =? nx - 1 then ff <- (w <- Ok a1 ;; vadd R Rplus ff k (- cf * w xm ym / ddx)%R) ;; Ok (ff, (1 * 2)%R)
       else Ok (ff, 1%R)
     else Ok (ff, 1%R)) = Ok (b, (/ wt px nx i)%R) /\ adds ff k (- fxv)%R b).
  { unfold fxv, wt. destruct px; cbn [negb andb]; [|destruct (i =? 0); cbn [orb]; [|destruct (i =? nx - 1)]]; cbn [bind].
    - exists ff. rewrite Rinv_1. split; auto. split; auto. intros r. destruct (r =? k); lra.
    - destruct (vadd_adds ff k (- cf * a0 xm ym / ddx)%R Hk) as (b & -> & A). cbn [bind]. exists b.
      rewrite Rinv_inv. split; [f_equal; f_equal; ring|]. eapply adds_eq; eauto. unfold Rdiv. ring.
    - destruct (vadd_adds ff k (- cf * a1 xm ym / ddx)%R Hk) as (b & -> & A). cbn [bind]. exists b.
      rewrite Rinv_inv. split; [f_equal; f_equal; ring|]. eapply adds_eq; eauto. unfold Rdiv. ring.
    - exists ff. rewrite Rinv_1. split; auto. split; auto. intros r. destruct (r =? k); lra. }
  destruct SX as (b & EX & AX). cbn [bind] in EX |- *. rewrite EX. clear EX. cbn [bind].
  assert (Hb : k < length b) by (eapply adds_len; eauto).
  assert (SY : forall den, exists c, (if negb py then
       if j =? 0 then ff <- vadd R Rplus b k (- cf * a2 xm ym / ddy)%R ;; Ok (ff, (den * 2)%R)
       else if j =? ny - 1 then ff <- vadd R Rplus b k (- cf * a3 xm ym / ddy)%R ;; Ok (ff, (den * 2)%R)
       else Ok (b, den)
     else Ok (b, den)) = Ok (c, (den * / wt py ny j)%R) /\ adds b k (- fyv)%R c).
  { intros den. unfold fyv, wt. destruct py; cbn [negb andb]; [|destruct (j =? 0); cbn [orb]; [|destruct (j =? ny - 1)]]; cbn [bind].
    - exists b. rewrite Rinv_1, Rmult_1_r. split; auto. split; auto. intros r. destruct (r =? k); lra.
    - destruct (vadd_adds b k (- cf * a2 xm ym / ddy)%R Hb) as (c & -> & A). cbn [bind]. exists c.
      rewrite Rinv_inv. split; auto. eapply adds_eq; eauto. unfold Rdiv. ring.
    - destruct (vadd_adds b k (- cf * a3 xm ym / ddy)%R Hb) as (c & -> & A). cbn [bind]. exists c.
      rewrite Rinv_inv. split; auto. eapply adds_eq; eauto. unfold Rdiv. ring.
    - exists b. rewrite Rinv_1, Rmult_1_r. split; auto. split; auto. intros r. destruct (r =? k); lra. }
  destruct (SY (/ wt px nx i)%R) as (c & EY & AY). rewrite EY. clear EY SY. cbn [bind].
  destruct (vadd_adds c k (source xm ym / (/ wt px nx i * / wt py ny j))%R (adds_len _ _ _ _ AY Hb)) as (e & -> & AE).
  exists e. split; auto. eapply adds_trans; [eapply adds_trans; [exact AX|exact AY|reflexivity]|exact AE|].
  assert (WN : forall p n i, wt p n i <> 0%R) by (intros; unfold wt; destruct (_ && _); lra).
  assert (W1 := WN px nx i). assert (W2 := WN py ny j). field. auto.
Qed.

Lemma presc2_ok a off : off + eqs_np h <= length a ->
  exists a', fdm2_presc R f off a = Ok a' /\ length a' = length a /\
    (forall k, k < eqs_np h -> nth (off + k) a' 0%R = bval2n (P k)) /\
    (forall r, r < off -> nth r a' 0%R = nth r a 0%R).
Proof using S2.
  intros La. destruct S2 as (LC & n & RN & H).
  destruct (fdm2_from_inv _ _ _ _ _ _ _ _ _ _ _ f hist grid nx ny fx fy n kx ky H) as (p & dx & dy & D & ND & IP & G & NN & Re & M & DX & DY & GD & PX & PY).
  destruct H as (GI & Hx & Hy & _).
  destruct (C43_history2 F2 z2 hist) as (e' & Re' & _ & _ & LF & LS & SH). rewrite Re in Re'. inversion Re'; subst e'; clear Re'.
  pose (on := fun s m => match s with Xmin => m mod nx =? 0 | Xmax => m mod nx =? nx - 1 | Ymin => m / nx =? 0 | Ymax => m / nx =? ny - 1 end).
  assert (ON : forall s m, m < nx * ny -> existsb (Nat.eqb m) (grid2_nodes R grid s) = on s m).
  { intros s m Hm. destruct (idx_split nx ny m) as (i & j & Hi & Hj & ->); [lia|auto|].
    apply bool_eq. rewrite existsb_exists.
    assert (Q := nodes_on_side R 0%R Rplus Rminus Rmult Rdiv Ropp Rabs Rltb grid nx ny fx fy s i j GI Hi Hj). unfold on.
    transitivity (In (i + j * nx) (grid2_nodes R grid s)).
    - split; [intros (y & Hy' & E); apply Nat.eqb_eq in E; now subst y|]. intros I. exists (i + j * nx). split; auto. apply Nat.eqb_refl.
    - rewrite Q. destruct s; rewrite ?mod_idx, ?div_idx, Nat.eqb_eq by auto; reflexivity. }
  assert (STEP : forall s b, off + eqs_np h <= length b ->
    exists b', (c <- vget (e2_sides _ (f2_e R f)) (side_index s) ;;
       if c : bool then
        s' <- side_from_index (side_index s) ;;
        for_each (grid2_nodes R grid s') (fun m a =>
          ip <- eqs_ip h m ;; '(x, y) <- grid2_coord R grid m ;; u <- vget (e2_fun _ (f2_e R f)) (side_index s) ;; vset a (off + ip) (u x y)) b
       else Ok b) = Ok b' /\ length b' = length b /\
      (forall k, k < eqs_np h -> nth (off + k) b' 0%R =
         match spec_fun F2 z2 hist s with
         | Some u => if on s (P k) then u (fx (P k mod nx)) (fy (P k / nx)) else nth (off + k) b 0%R
         | None => nth (off + k) b 0%R end) /\
      (forall r, r < off -> nth r b' 0%R = nth r b 0%R)).
  { intros s b Lb. assert (Q := SH s). unfold shows in Q. destruct (spec_fun F2 z2 hist s) as [u|] eqn:SF.
    - destruct Q as [Q1 Q2]. unfold vget at 1. rewrite Q1. cbn [bind].
      replace (side_from_index (side_index s)) with (Ok s) by (destruct s; reflexivity). cbn [bind].
      assert (MP : forall m, In m (grid2_nodes R grid s) -> m < nx * ny /\ In m p).
      { intros m Hm. assert (Lm : m < nx * ny).
        { destruct GI as (_ & _ & _ & _ & _ & _ & _ & _ & G9). apply G9 in Hm. tauto. }
        split; auto. destruct (idx_split nx ny m) as (i & j & Hi & Hj & ->); [lia|auto|].
        apply IP; auto. apply (nodes_on_side R 0%R Rplus Rminus Rmult Rdiv Ropp Rabs Rltb grid nx ny fx fy s i j GI Hi Hj) in Hm. unfold presc2, has.
        destruct s; rewrite SF; intuition discriminate. }
      destruct (presc_loop h (nx * ny) p D (grid2_nodes R grid s)
        (fun m a => ip <- eqs_ip h m ;; '(x, y) <- grid2_coord R grid m ;; u <- vget (e2_fun _ (f2_e R f)) (side_index s) ;; vset a (off + ip) (u x y))
        (fun m => u (fx (m mod nx)) (fy (m / nx))) off (length b)) with (a := b) as (b' & E & L & K1 & K2); auto.
      { intros m a0 Hm L0. destruct (MP m Hm) as [Lm Pm]. destruct (ip_ok h (nx * ny) p D m Lm Pm) as (-> & Lk & _). cbn [bind].
        destruct (idx_split nx ny m) as (i & j & Hi & Hj & ->); [lia|auto|].
        destruct GI as (G1 & _ & _ & _ & _ & G6 & _). specialize (G6 i j Hi Hj). unfold grid2_get_m in G6. rewrite G1 in G6. rewrite G6. cbn [bind].
        unfold vget. rewrite Q2. cbn [bind]. rewrite mod_idx, div_idx by auto. apply vset_ok. lia. }
      exists b'. splits; auto. intros k Hk. rewrite K1 by auto. rewrite ON by (now apply (p_nth h (nx * ny) p D)). reflexivity.
    - unfold vget at 1. rewrite Q. cbn [bind]. exists b. splits; auto. }
  unfold fdm2_presc. rewrite G. unfold for_range. cbn [Nat.sub for_n].
  destruct (STEP Xmin a La) as (a1 & E1 & L1 & V1 & O1). cbn [side_index] in E1. rewrite E1. cbn [bind]. clear E1.
  destruct (STEP Xmax a1 ltac:(lia)) as (a2 & E2 & L2 & V2 & O2). cbn [side_index] in E2. rewrite E2. cbn [bind]. clear E2.
  destruct (STEP Ymin a2 ltac:(lia)) as (a3 & E3 & L3 & V3 & O3). cbn [side_index] in E3. rewrite E3. cbn [bind]. clear E3.
  destruct (STEP Ymax a3 ltac:(lia)) as (a4 & E4 & L4 & V4 & O4). cbn [side_index] in E4. rewrite E4. cbn [bind]. clear E4 STEP.
  exists a4. splits; auto; [congruence| |intros; rewrite O4, O3, O2, O1; auto].
  intros k Hk. rewrite V4, V3, V2, V1 by auto. unfold bval2n, bval2, on.
  destruct (p_nth h (nx * ny) p D k Hk) as [A B]. set (q := P k) in *. clearbody q.
  destruct (idx_split nx ny q) as (i & j & Hi & Hj & ->); [lia|auto|].
  apply IP in B; auto. unfold presc2, has in B. rewrite mod_idx, div_idx by auto.
  destruct (spec_fun F2 z2 hist Xmin), (spec_fun F2 z2 hist Xmax), (spec_fun F2 z2 hist Ymin), (spec_fun F2 z2 hist Ymax);
    destruct (Nat.eqb_spec j (ny - 1)); auto; destruct (Nat.eqb_spec j 0); auto; destruct (Nat.eqb_spec i (nx - 1)); auto; destruct (Nat.eqb_spec i 0); auto;
    exfalso; intuition congruence.
Qed.

Lemma vectors2_sps source : exists ac fb,
  fdm2_get_vectors_sps R 0%R 1%R 2%R (/ 2)%R Rplus Rmult Rdiv Ropp f source = Ok (repeat 0%R (eqs_nu h), ac, fb) /\
  length ac = eqs_np h /\ length fb = eqs_nu h /\
  (forall i, i < eqs_nu h -> nth i fb 0%R = rhs2n source (U i)) /\
  (forall k, k < eqs_np h -> nth k ac 0%R = bval2n (P k)).
Proof using S2.
  assert (DD : exists p, describes h (nx * ny) p).
  { destruct S2 as (LC & n & RN & H).
    destruct (fdm2_from_inv _ _ _ _ _ _ _ _ _ _ _ f hist grid nx ny fx fy n kx ky H) as (p & dx & dy & D & _). eauto. }
  destruct DD as (p & D). unfold fdm2_get_vectors_sps.
  destruct (accumulate (eq_u_sorted h) (fun m fb => iu <- eqs_iu h m ;; fdm2_rhs R 1%R 2%R (/ 2)%R Rplus Rmult Rdiv Ropp f source m iu fb)
    (rank_u h) (rhs2n source) (eqs_nu h)) with (a := repeat 0%R (eqs_nu h)) as (fb & E & L & N & V).
  - intros m a Hm La. apply (U_spec h (nx * ny) p D) in Hm. destruct Hm as [Hm Pm].
    destruct (iu_ok h (nx * ny) p D m Hm Pm) as (-> & Lk & _). cbn [bind].
    destruct (rhs2_ok source m (rank_u h m) a Hm ltac:(lia)) as (a' & E & A1 & A2). exists a'. splits; auto; congruence.
  - eapply nodup_rank; eauto.
  - apply repeat_length.
  - rewrite E. cbn [bind]. destruct (presc2_ok (repeat 0%R (eqs_np h)) 0) as (ac & EA & LA & VA & _).
    { rewrite repeat_length. lia. }
    rewrite EA. cbn [bind]. exists ac, fb. splits; auto.
    + now rewrite repeat_length in LA.
    + intros i Hi. specialize (V (U i) (U_in h i Hi)). rewrite (rank_u_nth h (nx * ny) p D) in V by auto.
      rewrite V, nth_repeat. lra.
Qed.

Lemma vectors2_lmm source : exists ff,
  fdm2_get_vectors_lmm R 0%R 1%R 2%R (/ 2)%R Rplus Rmult Rdiv Ropp f source = Ok (repeat 0%R (nx * ny + eqs_np h), ff) /\
  length ff = nx * ny + eqs_np h /\
  (forall m, m < nx * ny -> nth m ff 0%R = rhs2n source m) /\
  (forall k, k < eqs_np h -> nth (nx * ny + k) ff 0%R = bval2n (P k)).
Proof using S2.
  assert (DD : exists p, describes h (nx * ny) p /\ f2_grid R f = grid /\ length (g2_coords R grid) = nx * ny).
  { destruct S2 as (LC & n & RN & H).
    destruct (fdm2_from_inv _ _ _ _ _ _ _ _ _ _ _ f hist grid nx ny fx fy n kx ky H) as (p & dx & dy & D & _ & _ & G & _). eauto. }
  destruct DD as (p & D & G & LC). unfold fdm2_get_vectors_lmm. assert (NE : eq_neq h = nx * ny) by apply D. rewrite NE, G, LC.
  change (for_range 0 (nx * ny)) with (@for_range (list R) 0 (0 + nx * ny)). rewrite for_range_each.
  destruct (accumulate (seq 0 (nx * ny)) (fun m ff => fdm2_rhs R 1%R 2%R (/ 2)%R Rplus Rmult Rdiv Ropp f source m m ff)
    (fun m => m) (rhs2n source) (nx * ny + eqs_np h)) with (a := repeat 0%R (nx * ny + eqs_np h)) as (ff & E & L & N & V).
  - intros m a Hm La. apply in_seq in Hm.
    destruct (rhs2_ok source m m a ltac:(lia) ltac:(lia)) as (a' & E & A1 & A2). exists a'. splits; auto; congruence.
  - apply nodup_seq_id.
  - apply repeat_length.
  - rewrite E. cbn [bind]. destruct (presc2_ok ff (nx * ny)) as (ac & EA & LA & VA & OA); [lia|].
    rewrite EA. cbn [bind]. exists ac. splits; auto; [congruence|].
    intros m Hm. rewrite OA by auto. rewrite (V m) by (apply in_seq; lia). rewrite nth_repeat. lra.
Qed.
End Two.
