(** Coefficients of the FDM molecules and the vectors, over the reals. *)
From Coq Require Import Sorting.Permutation Sorting.Sorted.
From Verif Require Import Base RBase Dense_Model Sparse_Model Sparse_Spec Sparse_Ring Eqs_Model Eqs_Thm Grid_Model Grid_Thm Bcs_Model Bcs_Thm
  Fdm_Model Fdm_Asm Fdm_Stencil Fdm_Cap Fdm_Entries.
Local Open Scope nat_scope.

(** ** specification of the discrete operators *)
(** weight of a grid line: half at the ends of a non-periodic axis *)
Definition wt (per : bool) (n i : nat) : R := if negb per && ((i =? 0) || (i =? n - 1)) then (/ 2)%R else 1%R.
(** both neighbours along an axis *)
Definition nbs (per : bool) (n i i' : nat) : R := (d (left_of per n i) i' + d (right_of per n i) i')%R.

(** matrix of -k u'' + alpha u in 1D *)
Definition A1 (per : bool) (nx : nat) (k dx alpha : R) (m n : nat) : R :=
  (wt per nx m * ((2 * k / (dx * dx) + alpha) * d m n - k / (dx * dx) * nbs per nx m n))%R.
(** matrix of -kx u_xx - ky u_yy + alpha u in 2D, node (i,j) against node (i',j') *)
Definition A2 (px py : bool) (nx ny : nat) (kx ky dx dy alpha : R) (i j i' j' : nat) : R :=
  (wt px nx i * wt py ny j *
   ((2 * (kx / (dx * dx) + ky / (dy * dy)) + alpha) * (d i i' * d j j')
    - kx / (dx * dx) * (nbs px nx i i' * d j j') - ky / (dy * dy) * (d i i' * nbs py ny j j')))%R.

Lemma d_sym a b : d a b = d b a.
Proof. unfold d. now rewrite Nat.eqb_sym. Qed.

Lemma d_cong a b a' b' : (a = b <-> a' = b') -> d a b = d a' b'.
Proof. intros H. unfold d. destruct (Nat.eqb_spec a b), (Nat.eqb_spec a' b'); auto; tauto. Qed.

(** without periodicity the weighted neighbour count is 1 exactly for adjacent points *)
Lemma ax_open n i i' : 2 <= n -> i < n -> i' < n -> (wt false n i * nbs false n i i' = d (dist i i') 1)%R.
Proof.
  intros Hn Hi Hi'. unfold nbs, wt. cbn [negb andb].
  destruct (left_cases false n i Hn Hi) as [[A ->]|[A ->]]; destruct (right_cases false n i Hn Hi) as [[B ->]|[B ->]].
  - rewrite (proj2 (Nat.eqb_neq i 0)), (proj2 (Nat.eqb_neq i (n - 1))) by auto. cbn [orb].
    unfold d, dist. destruct (Nat.eqb_spec (i - 1) i'), (Nat.eqb_spec (i + 1) i'), (Nat.eqb_spec (i - i' + (i' - i)) 1); try lra; exfalso; lia.
  - rewrite (proj2 (Nat.eqb_eq i (n - 1))) by auto. rewrite orb_true_r.
    rewrite (d_cong (i - 1) i' (dist i i') 1), (d_cong (n - 2) i' (dist i i') 1) by (unfold dist; lia). lra.
  - rewrite (proj2 (Nat.eqb_eq i 0)) by auto. cbn [orb].
    rewrite (d_cong 1 i' (dist i i') 1), (d_cong (i + 1) i' (dist i i') 1) by (unfold dist; lia). lra.
  - exfalso. lia.
Qed.

Lemma ax_sym per n i i' : 2 <= n -> i < n -> i' < n -> (wt per n i * nbs per n i i' = wt per n i' * nbs per n i' i)%R.
Proof.
  intros Hn Hi Hi'. destruct per.
  - unfold nbs, wt. cbn [negb andb].
    assert (E : forall x y, x < n -> y < n -> d (left_of true n x) y = d (right_of true n y) x).
    { intros x y Hx Hy. apply d_cong.
      destruct (left_cases true n x Hn Hx) as [[A ->]|[A ->]]; destruct (right_cases true n y Hn Hy) as [[B ->]|[B ->]]; lia. }
    rewrite (E i i'), <- (E i' i) by auto. lra.
  - rewrite !ax_open by auto. apply d_cong. unfold dist. lia.
Qed.
Lemma wt_d per n i i' : (wt per n i * d i i' = wt per n i' * d i' i)%R.
Proof. unfold d. rewrite (Nat.eqb_sym i' i). destruct (Nat.eqb_spec i i') as [->|N]; lra. Qed.

Lemma A1_sym per nx k dx alpha m n : 2 <= nx -> m < nx -> n < nx -> A1 per nx k dx alpha m n = A1 per nx k dx alpha n m.
Proof.
  intros Hx Hm Hn. unfold A1. assert (E := ax_sym per nx m n Hx Hm Hn). assert (E' := wt_d per nx m n).
  replace (wt per nx m * ((2 * k / (dx * dx) + alpha) * d m n - k / (dx * dx) * nbs per nx m n))%R
    with ((2 * k / (dx * dx) + alpha) * (wt per nx m * d m n) - k / (dx * dx) * (wt per nx m * nbs per nx m n))%R by ring.
  rewrite E, E'. ring.
Qed.
Lemma A2_sym px py nx ny kx ky dx dy alpha i j i' j' : 2 <= nx -> 2 <= ny -> i < nx -> i' < nx -> j < ny -> j' < ny ->
  A2 px py nx ny kx ky dx dy alpha i j i' j' = A2 px py nx ny kx ky dx dy alpha i' j' i j.
Proof.
  intros Hx Hy Hi Hi' Hj Hj'. unfold A2.
  assert (E1 := ax_sym px nx i i' Hx Hi Hi'). assert (E2 := ax_sym py ny j j' Hy Hj Hj').
  assert (F1 := wt_d px nx i i'). assert (F2 := wt_d py ny j j').
  set (al := (2 * (kx / (dx * dx) + ky / (dy * dy)) + alpha)%R). set (bx := (kx / (dx * dx))%R). set (by_ := (ky / (dy * dy))%R).
  replace (wt px nx i * wt py ny j * (al * (d i i' * d j j') - bx * (nbs px nx i i' * d j j') - by_ * (d i i' * nbs py ny j j')))%R
    with (al * ((wt px nx i * d i i') * (wt py ny j * d j j')) - bx * ((wt px nx i * nbs px nx i i') * (wt py ny j * d j j'))
          - by_ * ((wt px nx i * d i i') * (wt py ny j * nbs py ny j j')))%R by ring.
  rewrite E1, E2, F1, F2. ring.
Qed.

(** ** the model's coefficients are these *)
Notation vv1R := (vv1 R 0%R 2%R Rplus Rdiv).
Notation vv2R := (vv2 R 0%R 2%R Rplus Rdiv).
Definition mol1R (k dx : R) : list R := [(2 * k / (dx * dx))%R; (- k / (dx * dx))%R; (- k / (dx * dx))%R].
Notation mol2R := (mol2 R 2%R Rplus Rmult Rdiv Ropp).

Lemma coef1 per nx k dx alpha m n : 2 <= nx -> m < nx ->
  coef (nbrs1 per nx) (vv1R (mol1R k dx) alpha per nx) m n = A1 per nx k dx alpha m n.
Proof.
  intros Hx Hm. unfold coef. rewrite nbrs1_spec by auto. unfold indexed. cbn [length seq combine lsum].
  assert (NL := left_ne per nx m Hx Hm). assert (NR := right_ne per nx m Hx Hm).
  unfold vv1. rewrite Nat.eqb_refl. rewrite (proj2 (Nat.eqb_neq m (left_of per nx m))), (proj2 (Nat.eqb_neq m (right_of per nx m))) by auto.
  unfold A1, nbs, wt, d, mol1R. cbn [nth].
  destruct (negb per && ((m =? 0) || (m =? nx - 1))), (m =? n), (left_of per nx m =? n), (right_of per nx m =? n); unfold Rdiv; ring.
Qed.

Lemma d_idx nx i j i' j' : i < nx -> i' < nx -> d (i + j * nx) (i' + j' * nx) = (d i i' * d j j')%R.
Proof.
  intros Hi Hi'. unfold d. destruct (Nat.eqb_spec (i + j * nx) (i' + j' * nx)) as [E|E].
  - apply idx_inj in E; auto. destruct E as [-> ->]. rewrite !Nat.eqb_refl. lra.
  - destruct (Nat.eqb_spec i i'), (Nat.eqb_spec j j'); try lra. subst. lia.
Qed.

Lemma coef2 px py nx ny kx ky dx dy alpha i j i' j' : 2 <= nx -> 2 <= ny -> i < nx -> j < ny -> i' < nx -> j' < ny ->
  coef (nbrs2 px py nx ny) (vv2R (mol2R kx ky dx dy) alpha px py nx ny) (i + j * nx) (i' + j' * nx) =
  A2 px py nx ny kx ky dx dy alpha i j i' j'.
Proof.
  intros Hx Hy Hi Hj Hi' Hj'. unfold coef. rewrite nbrs2_spec by auto. unfold indexed. cbn [length seq combine lsum].
  assert (NL := left_ne px nx i Hx Hi). assert (NR := right_ne px nx i Hx Hi).
  assert (NB := left_ne py ny j Hy Hj). assert (NT := right_ne py ny j Hy Hj).
  assert (LL := left_lt px nx i Hx Hi). assert (LR := right_lt px nx i Hx Hi).
  assert (LB := left_lt py ny j Hy Hj). assert (LT := right_lt py ny j Hy Hj).
  set (l := left_of px nx i) in *. set (r := right_of px nx i) in *. set (b := left_of py ny j) in *. set (t := right_of py ny j) in *.
  unfold vv2. rewrite Nat.eqb_refl, mod_idx, div_idx by auto.
  assert (Q : forall x y, (x, y) <> (i, j) -> x < nx -> (i + j * nx =? x + y * nx) = false).
  { intros x y N Hxx. apply Nat.eqb_neq. intros E. apply idx_inj in E; auto. destruct E; congruence. }
  rewrite (Q l j), (Q r j), (Q i b), (Q i t) by (auto; congruence). clear Q.
  assert (DD : forall a c (v : R), (if a =? c then v else 0)%R = (d a c * v)%R) by (intros; unfold d; destruct (a =? c); lra).
  rewrite !DD.
  rewrite !d_idx by auto. unfold A2, nbs, wt, mol2. fold l r b t. cbn [nth].
  destruct (negb px && ((i =? 0) || (i =? nx - 1))), (negb py && ((j =? 0) || (j =? ny - 1))); unfold Rdiv; ring.
Qed.

(** ** loops that fill vectors *)
Lemma scatter {X} (l : list X) (step : X -> list R -> res (list R)) (pos : X -> nat) (val : X -> R) (n : nat) :
  (forall x a, In x l -> length a = n -> step x a = Ok (upd a (pos x) (val x))) ->
  (forall x, In x l -> pos x < n) ->
  (forall x y, In x l -> In y l -> pos x = pos y -> val x = val y) ->
  forall a, length a = n -> exists a', for_each l step a = Ok a' /\ length a' = n /\
    (forall r, (forall x, In x l -> pos x <> r) -> nth r a' 0%R = nth r a 0%R) /\
    (forall x, In x l -> nth (pos x) a' 0%R = val x).
Proof.
  intros S PB CO. induction l as [|x l IH]; intros a La; cbn [for_each].
  - exists a. splits; auto. intros x [].
  - rewrite S by auto with datatypes. cbn [bind].
    destruct (IH ltac:(auto with datatypes) ltac:(auto with datatypes) ltac:(auto with datatypes) (upd a (pos x) (val x))) as (a' & E & L & K1 & K2).
    { now rewrite upd_length. }
    exists a'. splits; auto.
    + intros r Hr. rewrite K1 by auto with datatypes. apply nth_upd_ne. apply Hr. auto with datatypes.
    + intros y [->|Hy]; auto.
      destruct (in_dec Nat.eq_dec (pos y) (map pos l)) as [I|I].
      * apply in_map_iff in I. destruct I as (z & Ez & Hz). rewrite <- Ez, K2 by auto. apply CO; auto with datatypes.
      * rewrite K1. { apply nth_upd_eq. rewrite La. auto with datatypes. }
        intros z Hz Q. apply I. rewrite <- Q. now apply in_map.
Qed.

Lemma accumulate {X} (l : list X) (step : X -> list R -> res (list R)) (pos : X -> nat) (g : X -> R) (n : nat) :
  (forall x a, In x l -> length a = n -> exists a', step x a = Ok a' /\ length a' = n /\
     forall r, nth r a' 0%R = if r =? pos x then (nth r a 0 + g x)%R else nth r a 0%R) ->
  NoDup (map pos l) ->
  forall a, length a = n -> exists a', for_each l step a = Ok a' /\ length a' = n /\
    (forall r, (forall x, In x l -> pos x <> r) -> nth r a' 0%R = nth r a 0%R) /\
    (forall x, In x l -> nth (pos x) a' 0%R = (nth (pos x) a 0 + g x)%R).
Proof.
  intros S. induction l as [|x l IH]; intros ND a La; cbn [for_each].
  - exists a. splits; auto. intros x [].
  - destruct (S x a ltac:(auto with datatypes) La) as (a1 & E1 & L1 & N1). rewrite E1. cbn [bind].
    cbn [map] in ND. inversion ND as [|? ? NI ND']; subst.
    destruct (IH ltac:(auto with datatypes) ND' a1 L1) as (a' & E & L & K1 & K2).
    exists a'. splits; auto.
    + intros r Hr. rewrite K1, N1 by auto with datatypes. rewrite (proj2 (Nat.eqb_neq r (pos x))); auto.
      intros ->. apply (Hr x); auto with datatypes.
    + intros y [->|Hy].
      * rewrite K1, N1, Nat.eqb_refl; auto. intros z Hz Q. apply NI. rewrite <- Q. now apply in_map.
      * rewrite K2, N1 by auto. rewrite (proj2 (Nat.eqb_neq (pos y) (pos x))); auto. intros Q. apply NI. rewrite <- Q. now apply in_map.
Qed.

(** ** joining the reduced solution *)
Section Join.
Variables (h : eqs) (neq : nat) (p : list nat).
Hypothesis D : describes h neq p.
Notation U i := (nth i (eq_u_sorted h) 0).
Notation P k := (nth k (eq_p_sorted h) 0).

Lemma joined_ok ab ac : length ab = eqs_nu h -> length ac = eqs_np h ->
  exists a, joined_sps R 0%R h ab ac = Ok a /\ length a = neq /\
    (forall i, i < eqs_nu h -> nth (U i) a 0%R = nth i ab 0%R) /\
    (forall k, k < eqs_np h -> nth (P k) a 0%R = nth k ac 0%R).
Proof.
  intros La Lc. unfold joined_sps. assert (NE : eq_neq h = neq) by apply D. rewrite NE.
  destruct (scatter (eq_u_sorted h) (fun m a => iu <- eqs_iu h m ;; v <- vget ab iu ;; vset a m v) (fun m => m)
    (fun m => nth (rank_u h m) ab 0%R) neq) with (a := repeat 0%R neq) as (a1 & E1 & L1 & N1 & V1).
  - intros m a Hm Ln. apply (U_spec h neq p D) in Hm. destruct Hm as [Hm Pm].
    destruct (iu_ok h neq p D m Hm Pm) as (Ei & Li & _). rewrite Ei. cbn [bind].
    rewrite (vget_ok ab (rank_u h m) 0%R) by lia. cbn [bind]. apply vset_ok. lia.
  - intros m Hm. apply (U_spec h neq p D) in Hm. tauto.
  - congruence.
  - apply repeat_length.
  - rewrite E1. cbn [bind].
    destruct (scatter (eq_p_sorted h) (fun m a => ip <- eqs_ip h m ;; v <- vget ac ip ;; vset a m v) (fun m => m)
      (fun m => nth (rank_p h m) ac 0%R) neq) with (a := a1) as (a2 & E2 & L2 & N2 & V2); auto.
    + intros m a Hm Ln. apply (P_spec h neq p D) in Hm. destruct Hm as [Hm Pm].
      destruct (ip_ok h neq p D m Hm Pm) as (Ei & Li & _). rewrite Ei. cbn [bind].
      rewrite (vget_ok ac (rank_p h m) 0%R) by lia. cbn [bind]. apply vset_ok. lia.
    + intros m Hm. apply (P_spec h neq p D) in Hm. tauto.
    + congruence.
    + exists a2. splits; auto.
      * intros i Hi. rewrite N2. { rewrite V1 by (now apply U_in). now rewrite (rank_u_nth h neq p D). }
        intros x Hx ->. apply (P_spec h neq p D) in Hx. destruct (u_nth h neq p D i Hi). tauto.
      * intros k Hk. rewrite V2 by (now apply P_in). now rewrite (rank_p_nth h neq p D).
Qed.

Lemma list_by_parts (a b : list R) : length a = neq -> length b = neq ->
  (forall i, i < eqs_nu h -> nth (U i) a 0%R = nth (U i) b 0%R) ->
  (forall k, k < eqs_np h -> nth (P k) a 0%R = nth (P k) b 0%R) -> a = b.
Proof.
  intros La Lb HU HP. apply nth_ext with (d := 0%R) (d' := 0%R); [congruence|]. intros m Hm. rewrite La in Hm.
  destruct (in_dec Nat.eq_dec m p) as [I|I].
  - destruct (ip_ok h neq p D m Hm I) as (_ & L & N). apply (nth_error_nth _ _ 0) in N. rewrite <- N. auto.
  - destruct (iu_ok h neq p D m Hm I) as (_ & L & N). apply (nth_error_nth _ _ 0) in N. rewrite <- N. auto.
Qed.

(** ** the abstract equivalence *)
Variable nb : nat -> list nat.
Variable vv : nat -> nat -> nat -> R.
Hypothesis NB : forall m b n, m < neq -> nth_error (nb m) b = Some n -> n < neq.
Variables (g bv : nat -> R).

Notation cf := (coef nb vv).
Definition reduced (a : list R) : Prop :=
  (forall i, i < eqs_nu h ->
     (nsum (eqs_nu h) (fun j => cf (U i) (U j) * nth (U j) a 0) + nsum (eqs_np h) (fun k => cf (U i) (P k) * bv (P k)))%R = g (U i)) /\
  (forall k, k < eqs_np h -> nth (P k) a 0%R = bv (P k)).
Definition lagrange (x : list R) : Prop :=
  forall r, r < neq + eqs_np h ->
    nsum (neq + eqs_np h) (fun c => mmat nb vv h neq r c * nth c x 0)%R = if r <? neq then g r else bv (P (r - neq)).

Lemma nth_pre (a l : list R) i : i < length a -> nth i (a ++ l) 0%R = nth i a 0%R.
Proof. intros. now apply app_nth1. Qed.

Lemma systems_equiv a : length a = neq ->
  (reduced a <-> exists lam, length lam = eqs_np h /\ lagrange (a ++ lam)).
Proof.
  intros La. split.
  - intros [HU HP].
    pose (lam := map (fun m => (g m - nsum neq (fun c => cf m c * nth c a 0))%R) (eq_p_sorted h)).
    assert (LL : length lam = eqs_np h) by (unfold lam; now rewrite map_length).
    assert (NL : forall k, k < eqs_np h -> nth k lam 0%R = (g (P k) - nsum neq (fun c => cf (P k) c * nth c a 0))%R).
    { intros k Hk. unfold lam. rewrite (nth_indep _ 0%R ((fun m => (g m - nsum neq (fun c => cf m c * nth c a 0))%R) 0)) by (now rewrite map_length).
      now rewrite (map_nth (fun m => (g m - nsum neq (fun c => cf m c * nth c a 0))%R)). }
    exists lam. split; auto. intros r Hr. destruct (Nat.ltb_spec r neq) as [Lr|Lr].
    + rewrite (mm_row_top nb vv h neq (a ++ lam) r Lr).
      rewrite (nsum_ext neq _ (fun c => cf r c * nth c a 0)%R).
      2:{ intros c Hc. rewrite nth_pre by lia. reflexivity. }
      rewrite (nsum_ext (eqs_np h) _ (fun k => d r (P k) * nth k lam 0)%R).
      2:{ intros k Hk. rewrite app_nth2 by lia. replace (neq + k - length a) with k by lia. reflexivity. }
      destruct (in_dec Nat.eq_dec r p) as [I|I].
      * destruct (ip_ok h neq p D r Lr I) as (_ & Lk & N). apply (nth_error_nth _ _ 0) in N.
        unfold nsum at 2. rewrite (lsum_single _ _ (rank_p h r)); [| apply seq_NoDup | apply in_seq; lia |].
        -- rewrite N, d_same, NL, N by auto. ring.
        -- intros k Hk Nk. apply in_seq in Hk. rewrite d_ne; [ring|]. intros Q. apply Nk. rewrite Q. symmetry. apply (rank_p_nth h neq p D). lia.
      * replace (nsum (eqs_np h) _) with 0%R.
        2:{ symmetry. apply lsum_zero. intros k Hk. apply in_seq in Hk. rewrite d_ne; [ring|].
            intros ->. destruct (p_nth h neq p D k ltac:(lia)). tauto. }
        destruct (iu_ok h neq p D r Lr I) as (_ & Li & N). apply (nth_error_nth _ _ 0) in N.
        rewrite Rplus_0_r, (partition_sum h neq p D). rewrite <- N.
        rewrite <- (HU (rank_u h r) Li). f_equal. apply nsum_ext. intros k Hk. now rewrite HP.
    + replace r with (neq + (r - neq)) by lia. rewrite (mm_row_bottom nb vv h neq p D) by lia.
      destruct (p_nth h neq p D (r - neq) ltac:(lia)) as [Q _]. rewrite nth_pre by lia.
      replace (neq + (r - neq) - neq) with (r - neq) by lia. apply HP. lia.
  - intros (lam & LL & H). assert (HP : forall k, k < eqs_np h -> nth (P k) a 0%R = bv (P k)).
    { intros k Hk. specialize (H (neq + k) ltac:(lia)). rewrite (mm_row_bottom nb vv h neq p D) in H by lia.
      destruct (p_nth h neq p D k Hk) as [Q _]. rewrite nth_pre in H by lia.
      rewrite (proj2 (Nat.ltb_ge (neq + k) neq)) in H by lia. now replace (neq + k - neq) with k in H by lia. }
    split; auto. intros i Hi. destruct (u_nth h neq p D i Hi) as [Lr Ir]. specialize (H (U i) ltac:(lia)).
    rewrite (proj2 (Nat.ltb_lt _ _) Lr) in H. rewrite <- H.
    rewrite (mm_row_top nb vv h neq (a ++ lam) (U i) Lr).
    rewrite (nsum_ext neq _ (fun c => cf (U i) c * nth c a 0)%R).
    2:{ intros c Hc. rewrite nth_pre by lia. reflexivity. }
    replace (nsum (eqs_np h) (fun k => d (U i) (P k) * nth (neq + k)%nat (a ++ lam) 0)%R) with 0%R.
    2:{ symmetry. apply lsum_zero. intros k Hk. apply in_seq in Hk. rewrite d_ne; [ring|].
        intros Q. destruct (p_nth h neq p D k ltac:(lia)) as [_ B]. rewrite <- Q in B. tauto. }
    rewrite Rplus_0_r, (partition_sum h neq p D). f_equal. apply nsum_ext. intros k Hk. now rewrite HP.
Qed.
End Join.
