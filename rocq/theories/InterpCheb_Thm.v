(** C29: Chebyshev interpolation *)
From Coq Require Import Reals Lra Lia List Psatz.
From Coquelicot Require Import Coquelicot.
From Verif Require Import RSum Poly Cheb_Model Cheb_Thm ChebFn_Model ChebFn_Thm Search_Model InterpCheb_Model.
Import ListNotations.
Open Scope R_scope.

(* ------------------------------------------------------------------ *)
(** * Specification *)

(** the series with coefficients a *)
Definition series (n : nat) (a : list R) (z : R) : R := sumn (S n) (fun k => nth k a 0 * T k z).

(** the point of [xa, xb] that belongs to z in [-1, 1] *)
Definition at_z (xa xb z : R) : R := (xb + xa + (xb - xa) * z) / 2.

(** what `new` and all the methods keep *)
Definition ic_wf (s : icheb) : Prop :=
  ic_dx s = ic_xb s - ic_xa s /\ 0 < ic_dx s /\ (2 <= ic_nn_max s)%nat /\ (ic_nn s <= ic_nn_max s)%nat /\
  length (ic_a s) = (ic_nn_max s + 1)%nat /\ length (ic_uu_rev s) = (ic_nn_max s + 1)%nat.

(* ------------------------------------------------------------------ *)
(** * The evaluation *)

Lemma clenshaw_ok z a k : forall b b', (k < length a)%nat ->
  exists r1 r2, clenshaw k (z * 2) a b b' = Ok (r1, r2) /\ r1 * z - r2 = b * T (S k) z - b' * T k z + sumn k (fun j => nth (S j) a 0 * T (S j) z).
Proof.
  induction k as [|k IH]; intros b b' Hk.
  - exists b, b'. split; [reflexivity|]. cbn. ring.
  - cbn [clenshaw]. rewrite (vget_ok _ _ 0) by lia. cbn [bind].
    destruct (IH (z * 2 * b - b' + nth (S k) a 0) b ltac:(lia)) as (r1 & r2 & E & H). exists r1, r2. split; auto. rewrite H. rewrite T_SS. cbn [sumn]. ring.
Qed.

(** C29: eval returns the value of the series, for every list of coefficients *)
Theorem C29_eval s x : ic_ready s = true -> (1 <= ic_nn s)%nat -> (ic_nn s < length (ic_a s))%nat ->
  ic_eval s x = Ok (series (ic_nn s) (ic_a s) (ic_z s x)).
Proof.
  intros Hr Hn Hl. unfold ic_eval. rewrite Hr. cbn [negb]. destruct (Nat.eqb_spec (ic_nn s) 0); [lia|]. cbv zeta. set (z := ic_z s x).
  destruct (clenshaw_ok z (ic_a s) (ic_nn s) 0 0 Hl) as (r1 & r2 & E & H). rewrite E. cbn [bind]. rewrite (vget_ok _ _ 0) by lia. cbn [bind]. f_equal. rewrite H.
  unfold series. rewrite sumn_S_l. cbn [T]. ring.
Qed.

(** C29: eval_using_trig is eval *)
Theorem C29_eval_trig s x : (ic_nn s < length (ic_a s))%nat -> ic_eval_using_trig s x = ic_eval s x.
Proof.
  intros Hl. destruct (ic_ready s) eqn:Hr; [|unfold ic_eval, ic_eval_using_trig; now rewrite Hr].
  destruct (Nat.eq_dec (ic_nn s) 0) as [E|E]; [unfold ic_eval, ic_eval_using_trig; now rewrite Hr, E|].
  rewrite C29_eval by (auto; lia). unfold ic_eval_using_trig. rewrite Hr. cbn [negb]. destruct (Nat.eqb_spec (ic_nn s) 0); [lia|]. cbv zeta. set (z := ic_z s x).
  rewrite (for_range_val (fun k => sumn k (fun k => nth k (ic_a s) 0 * T k z))); [|lia|reflexivity|].
  - unfold series. replace (ic_nn s + 1)%nat with (S (ic_nn s)) by lia. reflexivity.
  - intros i Hi. rewrite (vget_ok _ _ 0) by lia. cbn [bind]. rewrite C29_tn. reflexivity.
Qed.

(* ------------------------------------------------------------------ *)
(** * The coefficients *)

Definition q (n k : nat) : R := if (k =? 0)%nat || (k =? n)%nat then 2 else 1.

Lemma coefficients_ok a u n : (1 <= n)%nat -> (n < length a)%nat -> (n < length u)%nat ->
  exists a', chebyshev_coefficients a u n = Ok a' /\ length a' = length a /\
    (forall j, (j <= n)%nat -> nth j a' 0 = sumn (S n) (fun k => nth k u 0 * 2 * cos (PI * INR j * INR k / INR n) / (q n j * q n k * INR n))).
Proof.
  intros Hn Ha Hu. unfold chebyshev_coefficients. cbv zeta.
  destruct (Nat.ltb_spec 0 n); [|lia]. destruct (Nat.leb_spec (n + 1) (length a)); [|lia]. destruct (Nat.leb_spec (n + 1) (length u)); [|lia]. cbn [assert_ bind].
  set (c := fun j k => nth k u 0 * 2 * cos (PI * INR j * INR k / INR n) / (q n j * q n k * INR n)).
  match goal with |- context [for_range 0 (n + 1) ?F a] => destruct (for_range_inv (fun h a' => length a' = length a /\ forall j, (j < h)%nat -> nth j a' 0 = sumn (S n) (c j)) F 0 (n + 1) a) as (a' & E & L & V) end.
  - lia.
  - split; auto. intros; lia.
  - intros j a1 Hj [L1 V1]. rewrite vset_ok by lia. cbn [bind].
    match goal with |- context [for_range 0 (n + 1) ?F ?s] => destruct (for_range_inv (fun h a' => length a' = length a /\ (forall i, (i < j)%nat -> nth i a' 0 = sumn (S n) (c i)) /\ nth j a' 0 = sumn h (c j)) F 0 (n + 1) s) as (a2 & E2 & L2 & V2 & W2) end.
    + lia.
    + rewrite upd_length. splits; auto.
      * intros i Hi. rewrite nth_upd_ne by lia. auto.
      * rewrite nth_upd_eq by lia. reflexivity.
    + intros k a2 Hk (L2 & V2 & W2). rewrite (vget_ok u _ 0) by lia. cbn [bind]. rewrite (vget_ok a2 _ 0) by lia. cbn [bind]. rewrite vset_ok by lia. eexists. split; [reflexivity|].
      rewrite upd_length. splits; auto.
      * intros i Hi. rewrite nth_upd_ne by lia. auto.
      * rewrite nth_upd_eq by lia. cbn [sumn]. rewrite W2. reflexivity.
    + exists a2. split; auto. split; auto. intros i Hi. destruct (Nat.eq_dec i j) as [->|]; [rewrite W2; f_equal; lia|apply V2; lia].
  - exists a'. splits; auto. intros j Hj. apply V. lia.
Qed.

(* ------------------------------------------------------------------ *)
(** * Discrete orthogonality of the cosines *)

Lemma sin_nPI m : sin (INR m * PI) = 0.
Proof. induction m as [|m IH]; [cbn; now rewrite Rmult_0_l, sin_0|]. rewrite S_INR, Rmult_plus_distr_r, Rmult_1_l, neg_sin, IH. ring. Qed.

Lemma dirichlet t n : 2 * sin (t / 2) * sumn n (fun j => cos (INR j * t)) = sin ((INR n - / 2) * t) + sin (t / 2).
Proof.
  induction n as [|n IH].
  - cbn [sumn]. rewrite Rmult_0_r. cbn [INR]. replace ((0 - / 2) * t) with (- (t / 2)) by field. rewrite sin_neg. ring.
  - cbn [sumn]. rewrite Rmult_plus_distr_l, IH. rewrite S_INR.
    replace ((INR n + 1 - / 2) * t) with (INR n * t + t / 2) by field. replace ((INR n - / 2) * t) with (INR n * t - t / 2) by field.
    rewrite sin_plus, sin_minus. ring.
Qed.

Lemma trap_split n (g : nat -> R) : (1 <= n)%nat -> sumn (S n) (fun j => g j / q n j) = sumn (S n) g - (g 0%nat + g n) / 2.
Proof.
  intros Hn. destruct n as [|m]; [lia|]. rewrite !(sumn_S_l (S m)). cbn [sumn].
  rewrite (sumn_ext m (fun i => g (S i) / q (S m) (S i)) (fun i => g (S i))).
  - unfold q. rewrite !Nat.eqb_refl, Bool.orb_true_r. cbn [orb]. field.
  - intros i Hi. unfold q. destruct (Nat.eqb_spec (S i) 0); [lia|]. destruct (Nat.eqb_spec (S i) (S m)); [lia|]. cbn [orb]. field.
Qed.

Definition trap (n m : nat) : R := sumn (S n) (fun j => cos (INR j * (PI * INR m / INR n)) / q n j).

Lemma trap_zero n m : (1 <= n)%nat -> (0 < m < 2 * n)%nat -> trap n m = 0.
Proof.
  intros Hn Hm. assert (N0 : 0 < INR n) by (apply (lt_INR 0); lia). assert (M0 : 0 < INR m) by (apply (lt_INR 0); lia).
  assert (M1 : INR m < 2 * INR n) by (change 2 with (INR 2); rewrite <- mult_INR; apply lt_INR; lia).
  unfold trap. set (t := PI * INR m / INR n).
  assert (S0 : sin (t / 2) <> 0).
  { apply Rgt_not_eq, sin_gt_0; unfold t.
    - pose proof PI_RGT_0. apply Rdiv_lt_0_compat; [|lra]. apply Rdiv_lt_0_compat; nra.
    - pose proof PI_RGT_0. apply Rmult_lt_reg_r with (2 * INR n); [lra|]. replace (PI * INR m / INR n / 2 * (2 * INR n)) with (PI * INR m) by (field; lra). nra. }
  rewrite (trap_split n (fun j => cos (INR j * t))) by auto. pose proof (dirichlet t (S n)) as D.
  apply Rmult_eq_reg_l with (2 * sin (t / 2)); [|lra]. rewrite Rmult_minus_distr_l, D. rewrite S_INR.
  replace ((INR n + 1 - / 2) * t) with (INR n * t + t / 2) by field. rewrite sin_plus.
  replace (INR n * t) with (INR m * PI) by (unfold t; field; lra). rewrite sin_nPI. cbn [INR]. rewrite !Rmult_0_l, cos_0. field.
Qed.

Lemma trap_full n m : (1 <= n)%nat -> m = 0%nat \/ m = (2 * n)%nat -> trap n m = INR n.
Proof.
  intros Hn Hm. assert (N0 : 0 < INR n) by (apply (lt_INR 0); lia). unfold trap.
  rewrite (sumn_ext _ _ (fun j => 1 / q n j)).
  - rewrite (trap_split n (fun _ => 1)) by auto. rewrite sumn_const, S_INR. field.
  - intros j _. f_equal. destruct Hm as [->| ->].
    + cbn [INR]. replace (INR j * (PI * 0 / INR n)) with 0 by (field; lra). apply cos_0.
    + rewrite mult_INR. change (INR 2) with 2. replace (INR j * (PI * (2 * INR n) / INR n)) with (0 + 2 * INR j * PI) by (field; lra). rewrite cos_period. apply cos_0.
Qed.

Lemma orthogonality n k l : (1 <= n)%nat -> (k <= n)%nat -> (l <= n)%nat ->
  sumn (S n) (fun j => 2 * cos (PI * INR j * INR k / INR n) * cos (INR j * (PI * INR l / INR n)) / q n j) = if (k =? l)%nat then INR n * q n k else 0.
Proof.
  intros Hn Hk Hl. assert (N0 : 0 < INR n) by (apply (lt_INR 0); lia).
  set (d := if (l <=? k)%nat then (k - l)%nat else (l - k)%nat).
  transitivity (trap n d + trap n (k + l)).
  - unfold trap. rewrite <- sumn_plus. apply sumn_ext. intros j _.
    replace (PI * INR j * INR k / INR n) with (INR j * (PI * INR k / INR n)) by (field; lra).
    set (a := INR j * (PI * INR k / INR n)). set (b := INR j * (PI * INR l / INR n)).
    assert (Ed : cos (INR j * (PI * INR d / INR n)) = cos (a - b)).
    { unfold d. destruct (Nat.leb_spec l k).
      - rewrite minus_INR by auto. f_equal. unfold a, b. field. lra.
      - rewrite minus_INR by lia. rewrite <- cos_neg. f_equal. unfold a, b. field. lra. }
    assert (Es : cos (INR j * (PI * INR (k + l) / INR n)) = cos (a + b)) by (rewrite plus_INR; f_equal; unfold a, b; field; lra).
    rewrite Ed, Es. rewrite cos_plus, cos_minus. unfold Rdiv. ring.
  - destruct (Nat.eqb_spec k l) as [->|N].
    + replace d with 0%nat by (unfold d; destruct (Nat.leb_spec l l); lia). rewrite trap_full by auto. unfold q.
      destruct (Nat.eqb_spec l 0) as [->|L0]; [rewrite trap_full by auto; cbn [orb]; ring|].
      destruct (Nat.eqb_spec l n) as [->|L1]; [rewrite trap_full by (auto; right; lia); cbn [orb]; ring|]. rewrite trap_zero by lia. cbn [orb]. ring.
    + rewrite !trap_zero by (unfold d; try destruct (Nat.leb_spec l k); lia). ring.
Qed.

Lemma q_pos n k : 0 < q n k.
Proof. unfold q. destruct (_ || _)%bool; lra. Qed.

(** the series of the coefficients takes the data at the points *)
Lemma series_interpolates a u n l : (1 <= n)%nat -> (l <= n)%nat ->
  (forall j, (j <= n)%nat -> nth j a 0 = sumn (S n) (fun k => nth k u 0 * 2 * cos (PI * INR j * INR k / INR n) / (q n j * q n k * INR n))) ->
  series n a (cos (PI * INR l / INR n)) = nth l u 0.
Proof.
  intros Hn Hl Ha. assert (N0 : 0 < INR n) by (apply (lt_INR 0); lia). unfold series.
  rewrite (sumn_ext _ _ (fun j => sumn (S n) (fun k => (nth k u 0 / (q n k * INR n)) * (2 * cos (PI * INR j * INR k / INR n) * cos (INR j * (PI * INR l / INR n)) / q n j)))).
  - rewrite sumn_swap. rewrite (sumn_single _ _ l); [|lia|].
    + rewrite sumn_scal, orthogonality, Nat.eqb_refl by auto. pose proof (q_pos n l). field. lra.
    + intros k Hk Nk. rewrite sumn_scal, orthogonality by lia. destruct (Nat.eqb_spec k l); [lia|]. ring.
  - intros j Hj. rewrite Ha by lia. rewrite T_cos, <- sumn_scal_r. apply sumn_ext. intros k _. pose proof (q_pos n k). pose proof (q_pos n j). field. lra.
Qed.

(* ------------------------------------------------------------------ *)
(** * The object *)

Lemma z_of s z : ic_wf s -> -1 <= z <= 1 -> ic_z s (at_z (ic_xa s) (ic_xb s) z) = z.
Proof.
  intros (Hd & Hp & _) Hz. unfold ic_z, at_z. rewrite Hd in *.
  replace ((2 * ((ic_xb s + ic_xa s + (ic_xb s - ic_xa s) * z) / 2) - ic_xb s - ic_xa s) / (ic_xb s - ic_xa s)) with z by (field; lra).
  rewrite Rmin_right by lra. apply Rmax_right. lra.
Qed.

Lemma at_z_onto xa xb x : xa < xb -> xa <= x <= xb -> exists z, -1 <= z <= 1 /\ x = at_z xa xb z.
Proof.
  intros H Hx. exists ((2 * x - xb - xa) / (xb - xa)). split.
  - split; apply Rmult_le_reg_r with (xb - xa); try lra; unfold Rdiv; rewrite Rmult_assoc, Rinv_l by lra; lra.
  - unfold at_z. field. lra.
Qed.

(** the coefficients are those of the data *)
Definition loaded (s : icheb) : Prop :=
  ic_wf s /\ ic_ready s = true /\ (1 <= ic_nn s)%nat /\
  forall j, (j <= ic_nn s)%nat -> nth j (ic_a s) 0 = sumn (S (ic_nn s)) (fun k => nth k (ic_uu_rev s) 0 * 2 * cos (PI * INR j * INR k / INR (ic_nn s)) / (q (ic_nn s) j * q (ic_nn s) k * INR (ic_nn s))).

Lemma cos_range t : -1 <= cos t <= 1.
Proof. destruct (COS_bound t). split; auto. Qed.

Lemma loaded_eval s z : loaded s -> -1 <= z <= 1 -> ic_eval s (at_z (ic_xa s) (ic_xb s) z) = Ok (series (ic_nn s) (ic_a s) z).
Proof. intros (W & R & N & _) Hz. pose proof W as (_ & _ & _ & Hn & La & _). rewrite C29_eval by (auto; lia). now rewrite z_of. Qed.

Lemma loaded_node s l : loaded s -> (l <= ic_nn s)%nat -> ic_eval s (at_z (ic_xa s) (ic_xb s) (cos (PI * INR l / INR (ic_nn s)))) = Ok (nth l (ic_uu_rev s) 0).
Proof.
  intros L Hl. rewrite loaded_eval by (auto using cos_range). destruct L as (W & R & N & A). f_equal. apply series_interpolates; auto.
Qed.

(** the data are read from the right end: entry l of the reversed data is entry nn-l *)
Lemma lobatto_rev n zz i : (1 <= n)%nat -> chebyshev_lobatto_points n = Ok zz -> (i <= n)%nat -> nth i zz 0 = cos (PI * INR (n - i) / INR n).
Proof.
  intros Hn E Hi. destruct (C29_lobatto_points n Hn) as (zz' & E' & _ & V). rewrite E in E'. injection E' as <-. rewrite V by auto.
  rewrite <- (cgl_refl n (n - i)) by lia. replace (n - (n - i))%nat with i by lia. reflexivity.
Qed.

Theorem C29_new nn_max xa xb s : ic_new nn_max xa xb = Ok s -> xa + 1e-5 < xb /\ ic_wf s /\ ic_ready s = false /\ ic_xa s = xa /\ ic_xb s = xb /\ ic_nn_max s = (nn_max + 2)%nat.
Proof.
  unfold ic_new. destruct (Rleb_spec xb (xa + TOL_RANGE)) as [H|H]; [discriminate|]. intros E. injection E as <-. unfold TOL_RANGE in H. unfold ic_wf. cbn. rewrite !repeat_length. splits; auto; try lra; lia.
Qed.

(** C29: after set_data, eval at the i-th Chebyshev-Gauss-Lobatto point is the i-th datum *)
Theorem C29_set_data s uu s' : ic_wf s -> ic_set_data s uu = Ok s' ->
  ic_wf s' /\ ic_ready s' = true /\ ic_nn s' = (length uu - 1)%nat /\ ic_xa s' = ic_xa s /\ ic_xb s' = ic_xb s /\
  (length uu = 1%nat -> forall x, ic_eval s' x = Ok (nth 0 uu 0)) /\
  ((2 <= length uu)%nat -> loaded s' /\ forall zz i, chebyshev_lobatto_points (length uu - 1) = Ok zz -> (i < length uu)%nat ->
     ic_eval s' (at_z (ic_xa s) (ic_xb s) (nth i zz 0)) = Ok (nth i uu 0)).
Proof.
  intros W E. unfold ic_set_data in E. cbv zeta in E. destruct (Nat.ltb_spec (length uu) 1); [discriminate|]. unfold usub in E. destruct (Nat.leb_spec 1 (length uu)); [|lia]. cbn [bind] in E.
  destruct (Nat.ltb_spec (ic_nn_max s) (length uu - 1)); [discriminate|].
  pose proof W as (Hd & Hp & Hm & Hn & La & Lu).
  destruct (Nat.eqb_spec (length uu - 1) 0) as [Z|Z].
  - rewrite (vget_ok _ _ 0) in E by lia. cbn [bind] in E. injection E as <-. unfold ic_wf. cbn. splits; auto; try lia. intros _ x. unfold ic_eval. cbn. now rewrite Z.
  - set (n := (length uu - 1)%nat) in *.
    change (fun i r => m <- (if i <=? n then Ok (n - i)%nat else Panic) ;; u <- vget uu i ;; vset r m u) with (fun i (r : list R) => m <- usub n i ;; u <- vget uu i ;; vset r m u) in E.
    destruct (for_range_inv (fun h r => length r = length (ic_uu_rev s) /\ forall i, (i < h)%nat -> nth (n - i) r 0 = nth i uu 0) (fun i r => m <- usub n i ;; u <- vget uu i ;; vset r m u) 0 (length uu) (ic_uu_rev s)) as (r & Er & Lr & Vr).
    + lia.
    + split; auto. intros; lia.
    + intros i r Hi [L1 V1]. rewrite usub_ok by lia. cbn [bind]. rewrite (vget_ok _ _ 0) by lia. cbn [bind]. rewrite vset_ok by lia. eexists. split; [reflexivity|]. rewrite upd_length. split; auto.
      intros j Hj. destruct (Nat.eq_dec j i) as [->|]; [apply nth_upd_eq; lia|]. rewrite nth_upd_ne by lia. apply V1. lia.
    + unfold ic_uu_rev in E at 1. cbn [set_nn ic_uu_rev] in E. rewrite Er in E. cbn [bind] in E. cbn [set_nn ic_a] in E.
      destruct (coefficients_ok (ic_a s) r n ltac:(lia) ltac:(lia) ltac:(lia)) as (a & Ea & L2 & V2). rewrite Ea in E. cbn [bind] in E. injection E as <-.
      assert (W' : ic_wf (set_ready (set_a (set_uu (set_nn s n) r) a))) by (unfold ic_wf; cbn; splits; auto; lia).
      assert (Lo : loaded (set_ready (set_a (set_uu (set_nn s n) r) a))) by (unfold loaded; cbn; splits; auto; lia).
      splits; auto; try lia. intros _. split; auto. intros zz i Ez Hi.
      rewrite (lobatto_rev n zz i) by (auto; lia). pose proof (loaded_node _ (n - i) Lo ltac:(cbn; lia)) as K. cbn -[ic_eval INR at_z] in K. rewrite K. f_equal. apply Vr. lia.
Qed.

Definition answers (f : callback) (g : R -> R) : Prop := forall l x y, f l x = Ok y -> y = g x.

Lemma data_loop_ok f g nf xa xb : answers f g -> forall c k uu l l' uu' r, (k + c <= length uu)%nat ->
  data_loop f c k nf xa xb uu l = (l', (uu', r)) ->
  let x := fun i => (xb + xa + (xb - xa) * cos (PI * INR i / nf)) / 2 in
  length uu' = length uu /\ (r = Ok tt -> l' = l ++ map (fun i => (x i, Ok (g (x i)))) (seq k c) /\ (forall i, (k <= i < k + c)%nat -> nth i uu' 0 = g (x i)) /\ (forall i, (i < k)%nat -> nth i uu' 0 = nth i uu 0)) /\
  ((forall l x, f l x <> Panic) -> r <> Panic) /\ ((forall l x, exists y, f l x = Ok y) -> r = Ok tt).
Proof.
  intros Ha. induction c as [|c IH]; intros k uu l l' uu' r Hk E; cbn [data_loop] in E; cbv zeta in *.
  - injection E as <- <- <-. cbn [seq map]. rewrite app_nil_r. splits; auto; try discriminate. intros _. splits; auto. intros; lia.
  - unfold ask in E. set (x := fun i => (xb + xa + (xb - xa) * cos (PI * INR i / nf)) / 2) in *. fold (x k) in E. cbv zeta in E.
    destruct (f l (x k)) as [y|e|] eqn:Ef; cbn [ask] in E.
    + rewrite vset_ok in E by lia. apply IH in E; [|rewrite upd_length; lia]. cbv zeta in E. fold x in E. rewrite upd_length in E. destruct E as (L & HO & HP & HQ).
      assert (Ey : y = g (x k)) by (eapply Ha; eauto). splits; auto. intros Hr. destruct (HO Hr) as (H1 & H2 & H3). splits.
      * rewrite H1, <- app_assoc. cbn [seq map app]. now rewrite Ey.
      * intros i Hi. destruct (Nat.eq_dec i k) as [->|]; [|apply H2; lia]. rewrite H3 by lia. rewrite nth_upd_eq by lia. auto.
      * intros i Hi. rewrite H3 by lia. rewrite nth_upd_ne by lia. auto.
    + injection E as <- <- <-. splits; auto; try discriminate. intros K. destruct (K l (x k)) as [y K2]. congruence.
    + injection E as <- <- <-. splits; auto; try discriminate. * intros K. destruct (K _ _ Ef). * intros K. destruct (K l (x k)) as [y K2]. congruence.
Qed.

(** C29: after set_function, eval at the nodes is the function; the calls are
    those of the nodes, from xb down to xa; a failure of the function is
    passed on *)
Theorem C29_set_function s nn f g l l' s' r : ic_wf s -> answers f g -> (nn <= ic_nn_max s)%nat -> ic_set_function s nn f l = (l', (s', r)) ->
  let x := fun k => at_z (ic_xa s) (ic_xb s) (cos (PI * INR k / INR nn)) in
  ic_wf s' /\ ic_nn s' = nn /\ ic_xa s' = ic_xa s /\ ic_xb s' = ic_xb s /\ ic_nn_max s' = ic_nn_max s /\
  ((forall l x, f l x <> Panic) -> r <> Panic) /\ ((forall l x, exists y, f l x = Ok y) -> r = Ok tt) /\
  (r = Ok tt -> ic_ready s' = true /\
    (nn = 0%nat -> l' = l ++ [((ic_xa s + ic_xb s) / 2, Ok (g ((ic_xa s + ic_xb s) / 2)))] /\ forall y, ic_eval s' y = Ok (g ((ic_xa s + ic_xb s) / 2))) /\
    ((1 <= nn)%nat -> loaded s' /\ l' = l ++ map (fun k => (x k, Ok (g (x k)))) (seq 0 (S nn)) /\ forall k, (k <= nn)%nat -> ic_eval s' (x k) = Ok (g (x k)))).
Proof.
  intros W Ha Hn E x. unfold ic_set_function in E. destruct (Nat.ltb_spec (ic_nn_max s) nn); [lia|]. cbv zeta in E.
  pose proof W as (Hd & Hp & Hm & Hn0 & La & Lu).
  destruct (Nat.eqb_spec nn 0) as [->|Z].
  - unfold ask in E. cbn [set_nn ic_xa ic_xb] in E. cbv zeta in E.
    assert (Wn : ic_wf (set_nn s 0)) by (unfold ic_wf; cbn; splits; auto; lia).
    destruct (f l ((ic_xa s + ic_xb s) / 2)) as [y|e|] eqn:Ef; injection E as <- <- <-.
    + apply Ha in Ef as Ey. splits; auto; try discriminate. intros _. splits; auto; try (intros; lia). intros _. rewrite Ey. split; auto.
    + splits; auto; try discriminate. intros K. destruct (K l ((ic_xa s + ic_xb s) / 2)) as [y K2]. congruence.
    + splits; auto; try discriminate. * intros K. destruct (K _ _ Ef). * intros K. destruct (K l ((ic_xa s + ic_xb s) / 2)) as [y K2]. congruence.
  - cbn [set_nn ic_xa ic_xb ic_uu_rev] in E. unfold chebyshev_data_vector in E. cbv zeta in E.
    destruct (Nat.ltb_spec 0 nn); [|lia]. destruct (Rltb_spec (ic_xa s) (ic_xb s)); [|lra]. destruct (Nat.leb_spec (nn + 1) (length (ic_uu_rev s))); [|lia]. cbn [andb] in E.
    destruct (data_loop f (nn + 1) 0 (INR nn) (ic_xa s) (ic_xb s) (ic_uu_rev s) l) as (l1 & uu & r1) eqn:Ed.
    apply (data_loop_ok f g) in Ed; [|auto|lia]. cbv zeta in Ed. change (fun i => (ic_xb s + ic_xa s + (ic_xb s - ic_xa s) * cos (PI * INR i / INR nn)) / 2) with x in Ed.
    destruct Ed as (L1 & HO & HP & HQ).
    assert (Wu : ic_wf (set_uu (set_nn s nn) uu)) by (unfold ic_wf; cbn; splits; auto; lia).
    destruct r1 as [[]|e|].
    + cbn [set_uu ic_a ic_uu_rev set_nn] in E. destruct (coefficients_ok (ic_a s) uu nn ltac:(lia) ltac:(lia) ltac:(lia)) as (a & Ea & L2 & V2). rewrite Ea in E. injection E as <- <- <-.
      destruct (HO eq_refl) as (K1 & K2 & K3).
      assert (Lo : loaded (set_ready (set_a (set_uu (set_nn s nn) uu) a))) by (unfold loaded, ic_wf; cbn; splits; auto; lia).
      splits; auto; try discriminate; try (apply Lo). intros _. splits; auto; try (intros; lia). intros _. splits; auto.
      * rewrite K1. replace (nn + 1)%nat with (S nn) by lia. reflexivity.
      * intros k Hk. pose proof (loaded_node _ k Lo ltac:(cbn; lia)) as K. cbn -[ic_eval INR at_z] in K. unfold x. rewrite K. f_equal. apply K2. lia.
    + injection E as <- <- <-. splits; auto; try discriminate.
    + injection E as <- <- <-. splits; auto; try discriminate.
Qed.

(* ------------------------------------------------------------------ *)
(** * Exactness for polynomials *)

Lemma T_poly n k : (k < n)%nat -> is_poly n (T k).
Proof.
  intros H. apply is_poly_le with (S k); [|lia]. clear H. induction k as [| |k IH1 IH2] using two_ind.
  - apply is_poly_const. lia.
  - exists [0; 1]. split; [cbn; lia|]. intros x. cbn. ring.
  - apply is_poly_ext with (fun x => 2 * (x * T (S k) x) - T k x); [|intros; rewrite T_SS; ring].
    apply is_poly_minus; [apply is_poly_scal; now apply is_poly_X|]. eapply is_poly_le; eauto.
Qed.

Lemma series_poly n a : is_poly (S n) (series n a).
Proof. unfold series. apply (is_poly_sum (S n) (S n) (fun k z => nth k a 0 * T k z)). intros j Hj. apply is_poly_scal. now apply T_poly. Qed.

Lemma is_poly_affine n p u v : is_poly n p -> is_poly n (fun z => p (u + v * z)).
Proof.
  intros (c & L & H). revert n p L H. induction c as [|k c IH]; intros n p L H.
  - apply is_poly_ext with (fun _ => 0); [apply is_poly_zero|]. intros x. now rewrite H.
  - destruct n as [|n]; [cbn in L; lia|]. apply is_poly_ext with (fun z => k + (u * peval c (u + v * z) + v * (z * peval c (u + v * z)))).
    + assert (K : is_poly n (fun z => peval c (u + v * z))) by (apply (IH n (peval c)); [cbn in L; lia|reflexivity]).
      apply is_poly_plus; [apply is_poly_const; lia|]. apply is_poly_plus.
      * apply is_poly_scal. eapply is_poly_le; eauto.
      * apply is_poly_scal. now apply is_poly_X.
    + intros z. rewrite H. cbn. ring.
Qed.

Lemma nodes_distinct n i j : (1 <= n)%nat -> (i <= n)%nat -> (j <= n)%nat -> cos (PI * INR i / INR n) = cos (PI * INR j / INR n) -> i = j.
Proof.
  intros Hn Hi Hj E. assert (N0 : 0 < INR n) by (apply (lt_INR 0); lia). pose proof PI_RGT_0 as P0.
  assert (B : forall k, (k <= n)%nat -> 0 <= PI * INR k / INR n <= PI).
  { intros k Hk. pose proof (pos_INR k). pose proof (le_INR _ _ Hk). split.
    - apply Rmult_le_pos; [nra|]. left. now apply Rinv_0_lt_compat.
    - apply Rmult_le_reg_r with (INR n); auto. unfold Rdiv. rewrite Rmult_assoc, Rinv_l by lra. nra. }
  destruct (B i Hi), (B j Hj).
  assert (A : PI * INR i / INR n = PI * INR j / INR n).
  { destruct (Rtotal_order (PI * INR i / INR n) (PI * INR j / INR n)) as [K|[K|K]]; auto.
    - pose proof (cos_decreasing_1 _ _ H H0 H1 H2 K). lra.
    - pose proof (cos_decreasing_1 _ _ H1 H2 H H0 K). lra. }
  apply INR_eq. apply Rmult_eq_reg_l with (PI / INR n); [|apply Rgt_not_eq, Rdiv_lt_0_compat; lra].
  unfold Rdiv in *. rewrite (Rmult_comm PI (/ INR n)). rewrite !Rmult_assoc. rewrite !(Rmult_comm (/ INR n)). exact A.
Qed.

Lemma loaded_polynomial s p : loaded s -> is_poly (S (ic_nn s)) p ->
  (forall k, (k <= ic_nn s)%nat -> nth k (ic_uu_rev s) 0 = p (at_z (ic_xa s) (ic_xb s) (cos (PI * INR k / INR (ic_nn s))))) ->
  forall x, ic_xa s <= x <= ic_xb s -> ic_eval s x = Ok (p x).
Proof.
  intros Lo Hp Hd x Hx. pose proof Lo as ((Dx & P0 & _) & R & N & A).
  destruct (at_z_onto (ic_xa s) (ic_xb s) x ltac:(lra) Hx) as (z & Hz & ->). rewrite loaded_eval by auto. f_equal.
  apply (poly_agree (S (ic_nn s)) (series (ic_nn s) (ic_a s)) (fun z => p (at_z (ic_xa s) (ic_xb s) z)) (fun k => cos (PI * INR k / INR (ic_nn s)))).
  - apply series_poly.
  - apply is_poly_ext with (fun z => p ((ic_xb s + ic_xa s) / 2 + (ic_xb s - ic_xa s) / 2 * z)).
    + now apply is_poly_affine.
    + intros t. f_equal. unfold at_z. field.
  - intros i j Hi Hj. apply nodes_distinct; lia.
  - intros k Hk. rewrite <- Hd by lia. apply series_interpolates; auto. lia.
Qed.

(** C29: polynomials of degree at most nn are reproduced in all of [xa, xb] *)
Theorem C29_polynomial s uu zz s' p : ic_wf s -> (2 <= length uu)%nat -> ic_set_data s uu = Ok s' -> is_poly (length uu) p ->
  chebyshev_lobatto_points (length uu - 1) = Ok zz -> (forall i, (i < length uu)%nat -> nth i uu 0 = p (at_z (ic_xa s) (ic_xb s) (nth i zz 0))) ->
  forall x, ic_xa s <= x <= ic_xb s -> ic_eval s' x = Ok (p x).
Proof.
  intros W H2 E Hp Ez Hd x Hx. destruct (C29_set_data s uu s' W E) as (W' & R & N & Xa & Xb & _ & K). destruct (K H2) as [Lo Kn].
  apply loaded_polynomial; auto.
  - rewrite N. now replace (S (length uu - 1)) with (length uu) by lia.
  - intros k Hk. rewrite N in *. specialize (Kn zz (length uu - 1 - k)%nat Ez ltac:(lia)). rewrite Hd in Kn by lia.
    rewrite (lobatto_rev (length uu - 1) zz) in Kn by (auto; lia). replace (length uu - 1 - (length uu - 1 - k))%nat with k in Kn by lia.
    rewrite Xa, Xb. pose proof (loaded_node s' k Lo ltac:(lia)) as Q. rewrite N, Xa, Xb, Kn in Q. injection Q as Q. auto.
  - rewrite Xa, Xb. auto.
Qed.

Theorem C29_polynomial_function s nn f g l l' s' : ic_wf s -> answers f g -> (1 <= nn <= ic_nn_max s)%nat -> ic_set_function s nn f l = (l', (s', Ok tt)) ->
  is_poly (S nn) g -> forall x, ic_xa s <= x <= ic_xb s -> ic_eval s' x = Ok (g x).
Proof.
  intros W Ha Hn E Hp x Hx. destruct (C29_set_function s nn f g l l' s' (Ok tt) W Ha ltac:(lia) E) as (W' & N & Xa & Xb & _ & _ & _ & K). destruct (K eq_refl) as (R & _ & K1). destruct (K1 ltac:(lia)) as (Lo & _ & Kn).
  apply loaded_polynomial; auto.
  - now rewrite N.
  - intros k Hk. rewrite N in *. pose proof (loaded_node s' k Lo ltac:(lia)) as Q. rewrite N, Xa, Xb, Kn in Q by auto. injection Q as Q. rewrite Xa, Xb. auto.
  - rewrite Xa, Xb. auto.
Qed.

(* ------------------------------------------------------------------ *)
(** * Adaptive interpolation *)

Lemma adapt_loop_ok f g tol : answers f g -> forall count nn an_prev s l l' s' r, ic_wf s -> (1 <= nn)%nat -> (nn + count <= ic_nn_max s + 1)%nat ->
  adapt_loop f tol count nn an_prev s l = (l', (s', r)) ->
  ic_wf s' /\ ic_xa s' = ic_xa s /\ ic_xb s' = ic_xb s /\ ic_nn_max s' = ic_nn_max s /\ ((forall l x, exists y, f l x = Ok y) -> r <> Panic) /\
  (r = Ok tt -> exists s1 l1 n, ic_wf s1 /\ ic_xa s1 = ic_xa s /\ ic_xb s1 = ic_xb s /\ ic_nn_max s1 = ic_nn_max s /\ (n + 2 <= ic_nn_max s)%nat /\ ic_set_function s1 n f l1 = (l', (s', Ok tt))).
Proof.
  intros Ha. induction count as [|count IH]; intros nn an_prev s l l' s' r W Hn Hc E; cbn [adapt_loop] in E.
  - injection E as <- <- <-. splits; auto; discriminate.
  - pose proof W as (Hd & Hp & Hm & Hn0 & La & Lu). unfold chebyshev_data_vector in E. cbv zeta in E.
    destruct (Nat.ltb_spec 0 nn); [|lia]. destruct (Rltb_spec (ic_xa s) (ic_xb s)); [|lra]. destruct (Nat.leb_spec (nn + 1) (length (ic_uu_rev s))); [|lia]. cbn [andb] in E.
    destruct (data_loop f (nn + 1) 0 (INR nn) (ic_xa s) (ic_xb s) (ic_uu_rev s) l) as (l1 & uu & r1) eqn:Ed.
    apply (data_loop_ok f g) in Ed; [|auto|lia]. cbv zeta in Ed. destruct Ed as (L1 & HO & HP & HQ).
    assert (Wu : ic_wf (set_uu s uu)) by (unfold ic_wf; cbn; splits; auto; lia).
    destruct r1 as [[]|e|].
    + cbn [set_uu ic_a ic_uu_rev] in E. destruct (coefficients_ok (ic_a s) uu nn ltac:(lia) ltac:(lia) ltac:(lia)) as (a & Ea & L2 & V2). rewrite Ea in E. cbn [bind] in E. rewrite (vget_ok _ _ 0) in E by lia. cbn [bind] in E.
      assert (Wa : ic_wf (set_a (set_uu s uu) a)) by (unfold ic_wf; cbn; splits; auto; lia).
      destruct ((1 <? nn)%nat && Rltb (Rabs an_prev) tol && Rltb (Rabs (nth nn a 0)) tol)%bool eqn:Ec.
      * destruct (Nat.ltb_spec 1 nn); [|discriminate].
        destruct (ic_set_function (set_a (set_uu s uu) a) (nn - 2) f l1) as (l2 & s2 & r2) eqn:Es. injection E as <- <- <-.
        destruct (C29_set_function _ (nn - 2) f g l1 l2 s2 r2 Wa Ha ltac:(cbn; lia) Es) as (W2 & N2 & Xa & Xb & Nm & _ & HT & _).
        splits; auto.
        -- intros K. rewrite (HT K). discriminate.
        -- intros Hr. assert (r2 = Ok tt) as -> by (destruct r2 as [[]| |]; auto; discriminate). exists (set_a (set_uu s uu) a), l1, (nn - 2)%nat. splits; auto. lia.
      * apply IH in E; [|exact Wa|lia|cbn; lia]. destruct E as (E1 & E2 & E3 & E4 & E5 & E6). splits; auto.
    + injection E as <- <- <-. splits; auto; discriminate.
    + injection E as <- <- <-. splits; auto; try discriminate. intros K. specialize (HQ K). discriminate.
Qed.

(** C29: if adapt_function succeeds, then eval takes the values of the function
    at the nodes of the degree that it chose, which is at most the nn_max
    given to `new`; if the function never fails, there is no panic *)
Theorem C29_adapt s tol f g l l' s' r : ic_wf s -> answers f g -> ic_adapt_function s tol f l = (l', (s', r)) ->
  let x := fun k => at_z (ic_xa s) (ic_xb s) (cos (PI * INR k / INR (ic_nn s'))) in
  ic_wf s' /\ ((forall l x, exists y, f l x = Ok y) -> r <> Panic) /\
  (r = Ok tt -> ic_ready s' = true /\ (ic_nn s' + 2 <= ic_nn_max s)%nat /\
    (ic_nn s' = 0%nat -> forall y, ic_eval s' y = Ok (g ((ic_xa s + ic_xb s) / 2))) /\
    ((1 <= ic_nn s')%nat -> forall k, (k <= ic_nn s')%nat -> ic_eval s' (x k) = Ok (g (x k)))).
Proof.
  intros W Ha E x. unfold ic_adapt_function in E. pose proof W as (Hd & Hp & Hm & Hn0 & La & Lu).
  apply (adapt_loop_ok f g tol Ha) in E; auto; [|lia]. destruct E as (W' & Xa & Xb & Nm & HP & HO). splits; auto. intros Hr.
  destruct (HO Hr) as (s1 & l1 & n & W1 & X1 & X2 & X3 & Hn & Es).
  destruct (C29_set_function s1 n f g l1 l' s' (Ok tt) W1 Ha ltac:(lia) Es) as (_ & N & _ & _ & _ & _ & _ & K). destruct (K eq_refl) as (R & K0 & K1).
  rewrite X1, X2 in *. splits; auto; try lia.
  - intros Z. apply K0. lia.
  - intros H1. destruct (K1 ltac:(lia)) as (_ & _ & Kn). unfold x. rewrite N. intros k Hk. apply Kn. lia.
Qed.

Lemma coefficient_zero n u : (forall k, (k <= n)%nat -> nth k u 0 = 0) -> forall j, sumn (S n) (fun k => nth k u 0 * 2 * cos (PI * INR j * INR k / INR n) / (q n j * q n k * INR n)) = 0.
Proof. intros H j. apply sumn_zero. intros k Hk. rewrite H by lia. unfold Rdiv. ring. Qed.

Lemma data_vector_pure g s n l : ic_wf s -> (1 <= n <= ic_nn_max s)%nat ->
  exists l' uu, chebyshev_data_vector (fun _ x => Ok (g x)) (ic_uu_rev s) n (ic_xa s) (ic_xb s) l = (l', (uu, Ok tt)) /\ length uu = length (ic_uu_rev s) /\
    forall k, (k <= n)%nat -> nth k uu 0 = g (at_z (ic_xa s) (ic_xb s) (cos (PI * INR k / INR n))).
Proof.
  intros (Hd & Hp & Hm & Hn0 & La & Lu) Hn. unfold chebyshev_data_vector. cbv zeta.
  destruct (Nat.ltb_spec 0 n); [|lia]. destruct (Rltb_spec (ic_xa s) (ic_xb s)); [|lra]. destruct (Nat.leb_spec (n + 1) (length (ic_uu_rev s))); [|lia]. cbn [andb].
  destruct (data_loop (fun _ x => Ok (g x)) (n + 1) 0 (INR n) (ic_xa s) (ic_xb s) (ic_uu_rev s) l) as (l' & uu & r) eqn:E. 
  apply (data_loop_ok _ g) in E; [|intros ? ? ? K; injection K; auto|lia]. cbv zeta in E. destruct E as (L & HO & _ & HQ). assert (r = Ok tt) as -> by (apply HQ; eauto).
  exists l', uu. splits; auto. intros k Hk. apply (HO eq_refl). lia.
Qed.

(** Refuted: success does not mean that the function is approximated.  For
    every function that vanishes at the two ends and in the middle, the first
    two trials see zeros only, and the zero function is returned. *)
Theorem C29_adapt_alias_refuted s tol g : ic_wf s -> 0 < tol -> g (ic_xa s) = 0 -> g (ic_xb s) = 0 -> g ((ic_xa s + ic_xb s) / 2) = 0 ->
  exists l' s', ic_adapt_function s tol (fun _ x => Ok (g x)) [] = (l', (s', Ok tt)) /\ forall x, ic_eval s' x = Ok 0.
Proof.
  intros W Ht Ga Gb Gm. unfold ic_adapt_function. pose proof W as (Hd & Hp & Hm & Hn0 & La & Lu).
  assert (A1 : at_z (ic_xa s) (ic_xb s) 1 = ic_xb s) by (unfold at_z; field). assert (A2 : at_z (ic_xa s) (ic_xb s) (-1) = ic_xa s) by (unfold at_z; field).
  assert (A3 : at_z (ic_xa s) (ic_xb s) 0 = (ic_xa s + ic_xb s) / 2) by (unfold at_z; field).
  destruct (ic_nn_max s) as [|[|c]] eqn:Em; try lia. cbn [adapt_loop].
  destruct (data_vector_pure g s 1 [] W ltac:(lia)) as (l1 & u1 & E1 & L1 & V1). rewrite E1. cbv zeta. cbn [set_uu ic_a ic_uu_rev].
  destruct (coefficients_ok (ic_a s) u1 1 ltac:(lia) ltac:(lia) ltac:(lia)) as (a1 & Ea1 & La1 & Va1). rewrite Ea1. cbn [bind]. rewrite (vget_ok _ _ 0) by lia. cbn [bind Nat.ltb Nat.leb andb].
  assert (Z1 : forall k, (k <= 1)%nat -> nth k u1 0 = 0).
  { intros k Hk. rewrite V1 by auto. destruct k as [|[|]]; [| |lia]; cbn [INR].
    - replace (PI * 0 / 1) with 0 by field. now rewrite cos_0, A1.
    - replace (PI * 1 / 1) with PI by field. now rewrite cos_PI, A2. }
  rewrite Va1 by lia. rewrite coefficient_zero by auto.
  set (s1 := set_a (set_uu s u1) a1). assert (W1 : ic_wf s1) by (unfold ic_wf, s1; cbn; splits; auto; lia).
  destruct (data_vector_pure g s1 2 l1 W1 ltac:(unfold s1; cbn; lia)) as (l2 & u2 & E2 & L2 & V2). rewrite E2. cbv zeta. cbn [set_uu ic_a ic_uu_rev].
  change (ic_uu_rev s1) with u1 in *. change (ic_a s1) with a1 in *.
  destruct (coefficients_ok a1 u2 2 ltac:(lia) ltac:(lia) ltac:(lia)) as (a2 & Ea2 & La2 & Va2). rewrite Ea2. cbn [bind]. rewrite (vget_ok _ _ 0) by lia. cbn [bind Nat.ltb Nat.leb andb].
  assert (Z2 : forall k, (k <= 2)%nat -> nth k u2 0 = 0).
  { intros k Hk. rewrite V2 by auto. change (ic_xa s1) with (ic_xa s). change (ic_xb s1) with (ic_xb s). destruct k as [|[|[|]]]; [| | |lia]; cbn [INR].
    - replace (PI * 0 / (1 + 1)) with 0 by field. now rewrite cos_0, A1.
    - replace (PI * 1 / (1 + 1)) with (PI / 2) by field. now rewrite cos_PI2, A3.
    - replace (PI * (1 + 1) / (1 + 1)) with PI by field. now rewrite cos_PI, A2. }
  rewrite Va2 by lia. rewrite coefficient_zero by auto. rewrite !Rabs_R0. destruct (Rltb_spec 0 tol); [|lra]. cbn [andb].
  unfold ic_set_function. cbn [Nat.sub Nat.eqb]. unfold s1. cbn [ic_nn_max set_a set_uu set_nn ic_xa ic_xb]. rewrite Em. cbn [Nat.ltb Nat.leb]. unfold ask. cbv zeta. rewrite Gm.
  eexists _, _. split; [reflexivity|]. intros x. reflexivity.
Qed.

(** Refuted: a failed set_function leaves an object that still says that it is
    ready, with the new degree and the old (here: no) data. *)
Theorem C29_failed_set_refuted : exists s s1 s2 l,
  ic_new 5 0 1 = Ok s /\ ic_set_data s [3; 5] = Ok s1 /\ ic_set_function s1 0 (fun _ _ => Err "stop") [] = (l, (s2, Err "stop")) /\
  ic_ready s2 = true /\ forall x, ic_eval s2 x = Ok 0.
Proof.
  destruct (ic_new 5 0 1) as [s| |] eqn:E; unfold ic_new in E; (destruct (Rleb_spec 1 (0 + TOL_RANGE)) as [H|H]; [unfold TOL_RANGE in H; lra|]); try discriminate.
  cbn -[INR] in E. injection E as E. exists s. unfold ic_set_data. rewrite <- E. cbv zeta. cbn -[chebyshev_coefficients INR].
  match goal with |- context [chebyshev_coefficients ?a ?u 1] => destruct (coefficients_ok a u 1 ltac:(lia) ltac:(cbn; lia) ltac:(cbn; lia)) as (a1 & E1 & L1 & _); rewrite E1 end.
  cbn [bind]. eexists _, _, _. split; [reflexivity|]. split; [reflexivity|]. split; [reflexivity|]. split; reflexivity.
Qed.

(** Refuted: with one datum, get_xy_data does not return it. *)
Theorem C29_constant_data_refuted : exists s s1, ic_new 5 0 1 = Ok s /\ ic_set_data s [7] = Ok s1 /\ ic_get_xy_data s1 = Ok ([(1 + 0 + (1 - 0) * 1) / 2], [0]).
Proof.
  unfold ic_new. destruct (Rleb_spec 1 (0 + TOL_RANGE)) as [H|H]; [unfold TOL_RANGE in H; lra|].
  eexists _, _. split; [reflexivity|]. split; reflexivity.
Qed.

(* ------------------------------------------------------------------ *)
(** * Data at other points *)

(** specification: u is the value at x of the broken line through the points
    (xx_k, yy_k) *)
Definition broken_line (xx yy : list R) (x u : R) : Prop :=
  exists k, (k < length xx)%nat /\ x <= nth k xx 0 /\ (forall j, (j < k)%nat -> nth j xx 0 < x) /\
    (k = 0%nat -> u = nth 0 yy 0) /\
    ((1 <= k)%nat -> u = nth (k - 1) yy 0 + (nth k yy 0 - nth (k - 1) yy 0) * (x - nth (k - 1) xx 0) / (nth k xx 0 - nth (k - 1) xx 0)).

Lemma gen_find_ok xx yy x : length yy = length xx -> (1 <= length xx)%nat -> x <= nth (length xx - 1) xx 0 -> forall count i, (i + count = length xx)%nat -> (1 <= count)%nat -> (forall j, (j < i)%nat -> nth j xx 0 < x) ->
  exists u, gen_find xx yy x count i = Ok (Some u) /\ broken_line xx yy x u.
Proof.
  intros Ly Lx Hx. induction count as [|c IH]; intros i Hi Hc Hj; [lia|]. cbn [gen_find]. rewrite (vget_ok _ _ 0) by lia. cbn [bind].
  destruct (Rleb_spec x (nth i xx 0)) as [H|H].
  - destruct (Nat.eqb_spec i 0) as [->|Ni].
    + rewrite (vget_ok _ _ 0) by lia. eexists. split; [reflexivity|]. exists 0%nat. splits; auto; try lia.
    + rewrite usub_ok by lia. cbn [bind]. do 3 (rewrite (vget_ok _ _ 0) by lia; cbn [bind]). eexists. split; [reflexivity|]. exists i. splits; auto; lia.
  - destruct c as [|c'].
    + exfalso. replace (length xx - 1)%nat with i in Hx by lia. lra.
    + apply IH; try lia. intros j Hjj. destruct (Nat.eq_dec j i) as [->|]; auto. apply Hj. lia.
Qed.

(** C29: set_gen_data never panics, and eval at each Chebyshev-Gauss-Lobatto
    point gives the value of the broken line through the points *)
Theorem C29_set_gen_data s xx yy : ic_wf s ->
  ic_set_gen_data s xx yy <> Panic /\
  forall s', ic_set_gen_data s xx yy = Ok s' ->
    ic_wf s' /\ ic_ready s' = true /\ length yy = length xx /\ nth 0 xx 0 = ic_xa s /\ nth (length xx - 1) xx 0 = ic_xb s /\
    (2 <= length xx)%nat /\ loaded s' /\ ic_nn s' = (length xx - 1)%nat /\
    forall zz i, chebyshev_lobatto_points (length xx - 1) = Ok zz -> (i < length xx)%nat ->
      exists u, broken_line xx yy (at_z (ic_xa s) (ic_xb s) (nth i zz 0)) u /\ ic_eval s' (at_z (ic_xa s) (ic_xb s) (nth i zz 0)) = Ok u.
Proof.
  intros W. pose proof W as (Hd & Hp & Hm & Hn & La & Lu). unfold ic_set_gen_data. cbv zeta.
  destruct (Nat.ltb_spec (length xx) 1); [split; discriminate|]. destruct (Nat.eqb_spec (length yy) (length xx)) as [Ly|]; [|split; discriminate]. cbn [negb].
  rewrite usub_ok by lia. cbn [bind]. destruct (Nat.ltb_spec (ic_nn_max s) (length xx - 1)); [split; discriminate|]. rewrite (vget_ok _ _ 0) by lia. cbn [bind].
  destruct (Reqb_spec (nth 0 xx 0) (ic_xa s)) as [E0|]; [|split; discriminate]. cbn [negb]. rewrite (vget_ok _ _ 0) by lia. cbn [bind].
  destruct (Reqb_spec (nth (length xx - 1) xx 0) (ic_xb s)) as [El|]; [|split; discriminate]. cbn [negb].
  destruct (Nat.eqb_spec (length xx - 1) 0) as [Z|Z]; [rewrite Z in El; lra|].
  set (n := (length xx - 1)%nat) in *. destruct (C29_lobatto_points n ltac:(lia)) as (zz & Ez & Lz & Vz). rewrite Ez. cbn [bind]. rewrite Lz.
  assert (Pt : forall i, (ic_xb s + ic_xa s + ic_dx s * nth i zz 0) / 2 = at_z (ic_xa s) (ic_xb s) (nth i zz 0)) by (intros i; unfold at_z; rewrite Hd; field).
  destruct (for_range_inv (fun h (r : list R) => length r = length (ic_uu_rev s) /\ forall i, (i < h)%nat -> broken_line xx yy (at_z (ic_xa s) (ic_xb s) (nth i zz 0)) (nth (n - i) r 0))
     (fun i r => z <- vget zz i ;; let x := (ic_xb (set_nn s n) + ic_xa (set_nn s n) + ic_dx (set_nn s n) * z) / 2 in o <- gen_find xx yy x (length xx) 0 ;; match o with None => Panic | Some u => m <- usub n i ;; vset r m u end)
     0 (n + 1) (ic_uu_rev (set_nn s n))) as (r & Er & Lr & Vr).
  - lia.
  - cbn. split; auto. lia.
  - intros i r Hi (Lr & Vr). rewrite (vget_ok _ _ 0) by lia. cbn [bind]. cbv zeta. cbn [set_nn ic_xb ic_xa ic_dx]. rewrite Pt.
    destruct (gen_find_ok xx yy (at_z (ic_xa s) (ic_xb s) (nth i zz 0)) Ly ltac:(lia)) with (count := length xx) (i := 0%nat) as (u & Eu & Bu); try lia.
    { fold n. rewrite El. rewrite Vz by lia. pose proof (cos_range (PI * INR i / INR n)). unfold at_z. nra. }
    rewrite Eu. cbn [bind]. rewrite usub_ok by lia. cbn [bind]. rewrite vset_ok by lia. eexists. split; [reflexivity|]. rewrite upd_length. split; auto.
    intros j Hj. destruct (Nat.eq_dec j i) as [->|]; [rewrite nth_upd_eq by lia; auto|]. rewrite nth_upd_ne by lia. apply Vr. lia.
  - cbv zeta in Er. rewrite Er. cbn [bind]. destruct (coefficients_ok (ic_a s) r n ltac:(lia) ltac:(lia) ltac:(lia)) as (a & Ea & L2 & V2). cbn [set_nn ic_a] in *. rewrite Ea. cbn [bind]. split; [discriminate|].
    intros s' E. injection E as <-. assert (Ld : loaded (set_ready (set_a (set_uu (set_nn s n) r) a))).
    { unfold loaded, ic_wf. cbn. splits; auto; lia. }
    splits; auto; try lia; try apply Ld.
    intros zz' i Ez' Hi. injection Ez' as <-. eexists. split; [apply Vr; lia|]. rewrite (lobatto_rev n zz i) by (auto; lia).
    apply (loaded_node _ (n - i)%nat Ld). cbn. lia.
Qed.

(** C29: get_xy_data gives the points and values with which eval agrees *)
Theorem C29_get_xy_data s : loaded s -> exists xx uu, ic_get_xy_data s = Ok (xx, uu) /\ length xx = (ic_nn s + 1)%nat /\ length uu = (ic_nn s + 1)%nat /\
  forall i, (i <= ic_nn s)%nat -> nth i xx 0 = at_z (ic_xa s) (ic_xb s) (- cos (PI * INR i / INR (ic_nn s))) /\ ic_eval s (nth i xx 0) = Ok (nth i uu 0).
Proof.
  intros Ld. pose proof Ld as (W & Rd & Hn1 & _). pose proof W as (Hd & Hp & Hm & Hn & La & Lu). unfold ic_get_xy_data. rewrite Rd. cbn [negb]. cbv zeta.
  set (n := ic_nn s) in *. destruct (C29_lobatto_points n ltac:(lia)) as (zz & Ez & Lz & Vz). rewrite Ez. cbn [bind].
  destruct (for_range_inv (fun h (xu : list R * list R) => length (fst xu) = (n + 1)%nat /\ length (snd xu) = (n + 1)%nat /\ forall i, (i < h)%nat -> nth i (fst xu) 0 = at_z (ic_xa s) (ic_xb s) (nth i zz 0) /\ nth i (snd xu) 0 = nth (n - i) (ic_uu_rev s) 0)
     (fun i xu => let '(xx, uu) := xu in z <- vget zz i ;; xx <- vset xx i ((ic_xb s + ic_xa s + ic_dx s * z) / 2) ;; m <- usub n i ;; u <- vget (ic_uu_rev s) m ;; uu <- vset uu i u ;; Ok (xx, uu)) 0 (n + 1) (repeat 0 (n + 1), repeat 0 (n + 1))) as ((xx & uu) & Er & L1 & L2 & V).
  - lia.
  - cbn. rewrite repeat_length. splits; auto; lia.
  - intros i (xx & uu) Hi (L1 & L2 & V). cbn [fst snd] in *. rewrite (vget_ok _ _ 0) by lia. cbn [bind]. rewrite vset_ok by lia. cbn [bind]. rewrite usub_ok by lia. cbn [bind]. rewrite (vget_ok _ _ 0) by lia. cbn [bind]. rewrite vset_ok by lia. cbn [bind].
    eexists. split; [reflexivity|]. cbn [fst snd]. rewrite !upd_length. splits; auto. intros j Hj. destruct (Nat.eq_dec j i) as [->|].
    + rewrite !nth_upd_eq by lia. split; auto. unfold at_z. rewrite Hd. field.
    + rewrite !nth_upd_ne by lia. apply V. lia.
  - exists xx, uu. cbn [fst snd] in *. rewrite Er. splits; auto. intros i Hi. destruct (V i ltac:(lia)) as (V1 & V2). split.
    + now rewrite V1, Vz.
    + rewrite V1, V2, (lobatto_rev n zz i) by auto. apply (loaded_node s (n - i)%nat Ld). fold n. lia.
Qed.

(** C29: set_data succeeds exactly when there are between 1 and nn_max+1 data *)
Theorem C29_set_data_total s uu : ic_wf s -> (exists s', ic_set_data s uu = Ok s') <-> (1 <= length uu <= ic_nn_max s + 1)%nat.
Proof.
  intros W. pose proof W as (Hd & Hp & Hm & Hn & La & Lu). unfold ic_set_data. cbv zeta.
  destruct (Nat.ltb_spec (length uu) 1); [split; [intros (? & [=])|lia]|]. rewrite usub_ok by lia. cbn [bind].
  destruct (Nat.ltb_spec (ic_nn_max s) (length uu - 1)); [split; [intros (? & [=])|lia]|].
  split; [lia|]. intros _. destruct (Nat.eqb_spec (length uu - 1) 0); [rewrite (vget_ok _ _ 0) by lia; cbn [bind]; eauto|].
  destruct (for_range_inv (fun h (r : list R) => length r = length (ic_uu_rev s)) (fun i r => m <- usub (length uu - 1) i ;; u <- vget uu i ;; vset r m u) 0 (length uu) (ic_uu_rev s)) as (r & Er & Lr).
  - lia.
  - reflexivity.
  - intros i r Hi Lr. rewrite usub_ok by lia. cbn [bind]. rewrite (vget_ok _ _ 0) by lia. cbn [bind]. rewrite vset_ok by lia. eexists. split; [reflexivity|]. now rewrite upd_length.
  - cbn [set_nn ic_uu_rev ic_a]. rewrite Er. cbn [bind]. destruct (coefficients_ok (ic_a s) r (length uu - 1) ltac:(lia) ltac:(lia) ltac:(lia)) as (a & -> & _). cbn [bind]. eauto.
Qed.

Example C29_example : exists s s', ic_new 5 0 1 = Ok s /\ ic_set_data s [3; 5; 4] = Ok s' /\ loaded s' /\ ic_eval s' 0 = Ok 3 /\ ic_eval s' (1 / 2) = Ok 5 /\ ic_eval s' 1 = Ok 4.
Proof.
  destruct (ic_new 5 0 1) as [s| |] eqn:E; [|unfold ic_new in E; destruct (Rleb_spec 1 (0 + TOL_RANGE)) as [H|H]; [unfold TOL_RANGE in H; lra|discriminate]..].
  pose proof (C29_new _ _ _ _ E) as (_ & W & _ & Xa & Xb & M). exists s.
  destruct (proj2 (C29_set_data_total s [3; 5; 4] W)) as (s' & E2); [rewrite M; cbn; lia|].
  exists s'. destruct (C29_set_data s _ s' W E2) as (_ & _ & _ & _ & _ & _ & K). destruct (K ltac:(cbn; lia)) as (Ld & V). clear K. splits; auto.
    all: destruct (C29_lobatto_points 2 ltac:(lia)) as (zz & Ez & Lz & Vz); cbn [length Nat.sub] in V; rewrite Xa, Xb in V.
  - specialize (V zz 0%nat Ez ltac:(lia)). rewrite Vz in V by lia. replace (PI * INR 0 / INR 2) with 0 in V by (simpl; field). rewrite cos_0 in V. replace (at_z 0 1 (- (1))) with 0 in V by (unfold at_z; field). exact V.
  - specialize (V zz 1%nat Ez ltac:(lia)). rewrite Vz in V by lia. replace (PI * INR 1 / INR 2) with (PI / 2) in V by (simpl; field). rewrite cos_PI2 in V. replace (at_z 0 1 (- 0)) with (1 / 2) in V by (unfold at_z; field). exact V.
  - specialize (V zz 2%nat Ez ltac:(lia)). rewrite Vz in V by lia. replace (PI * INR 2 / INR 2) with PI in V by (simpl; field). rewrite cos_PI in V. replace (at_z 0 1 (- -1)) with 1 in V by (unfold at_z; field). exact V.
Qed.

Print Assumptions C29_new.
Print Assumptions C29_eval.
Print Assumptions C29_eval_trig.
Print Assumptions C29_set_data.
Print Assumptions C29_set_data_total.
Print Assumptions C29_set_gen_data.
Print Assumptions C29_set_function.
Print Assumptions C29_get_xy_data.
Print Assumptions C29_polynomial.
Print Assumptions C29_polynomial_function.
Print Assumptions C29_adapt.
Print Assumptions C29_adapt_alias_refuted.
Print Assumptions C29_failed_set_refuted.
Print Assumptions C29_constant_data_refuted.

(** A refused degree changes nothing: no function value is asked for, and the interpolant is the one before the call. *)
Theorem C29_set_function_refused s nn f l : (ic_nn_max s < nn)%nat -> ic_set_function s nn f l = (l, (s, Err "nn must be ≤ nn_max")).
Proof. intros H. unfold ic_set_function. destruct (Nat.ltb_spec (ic_nn_max s) nn); [reflexivity | lia]. Qed.
Print Assumptions C29_set_function_refused.
