(** C64: linear elasticity. *)
From Coq Require Import Reals Lra List.
From Verif Require Import Base RBase Tensor_Model Tensor4_Model Tensor_Spec Tensor_Lib Tensor_Thm Tensor2_Thm Tensor4_Thm
  TensorMix_Thm SmallMat_Model SmallMat_Thm LinElast_Model.
Import ListNotations.
Open Scope R_scope.

(** ** specification: Hooke's law *)
Definition lame (E nu : R) : R := E * nu / ((1 + nu) * (1 - 2 * nu)).
Definition shear (E nu : R) : R := E / (2 * (1 + nu)).
Definition hooke (E nu : R) (eps : m3) : m3 :=
  madd (mscale (lame E nu * mtrace eps) mident) (mscale (2 * shear E nu) eps).
(** the objects a user can build: a constructor, then any number of changes *)
Inductive le_op := OpYP (E nu : R) | OpKG (K G : R).
Definition le_apply (s : lin_el) (o : le_op) : lin_el :=
  match o with OpYP E nu => le_set_young_poisson s E nu | OpKG K G => le_set_bulk_shear s K G end.
Definition le_run (E nu : R) (two_dim ps : bool) (ops : list le_op) : lin_el :=
  fold_left le_apply ops (le_new E nu two_dim ps).
Definition yp_of (p : R * R) (o : le_op) : R * R :=
  match o with OpYP E nu => (E, nu) | OpKG K G => (9 * K * G / (3 * K + G), (3 * K - 2 * G) / (6 * K + 2 * G)) end.

(** the rigidity depends only on the current parameters, not on the history *)
Theorem C64_history E nu two_dim ps ops :
  let s := le_run E nu two_dim ps ops in
  let '(E', nu') := fold_left yp_of ops (E, nu) in
  le_get_young_poisson s = (E', nu') /\ le_plane_stress s = ps /\
  le_rep s = le_rep (le_new E' nu' two_dim ps) /\
  forall m n, t4_mat (le_dd s) m n = t4_mat (le_dd (le_new E' nu' two_dim ps)) m n.
Proof.
  unfold le_run. induction ops as [|o ops IH] using rev_ind; cbn zeta.
  - cbn [fold_left]. splits; reflexivity.
  - rewrite !fold_left_app. cbn [fold_left]. cbn zeta in IH.
    set (s := fold_left le_apply ops (le_new E nu two_dim ps)) in *. clearbody s.
    destruct (fold_left yp_of ops (E, nu)) as [E1 nu1]. destruct IH as (I1 & I2 & I3 & I4).
    assert (K : forall E2 nu2 m n, t4_mat (le_dd (le_calc_rigidity (mkLE E2 nu2 (le_plane_stress s) (le_dd s)))) m n =
                t4_mat (le_dd (le_new E2 nu2 two_dim ps)) m n).
    { intros E2 nu2 m n. unfold le_rep in I3. unfold le_new, le_calc_rigidity in *. cbn [le_young le_poisson le_plane_stress le_dd t4_put t4_mat t4_new t4_rep] in *.
      unfold t4_dim. cbn [t4_new t4_rep]. rewrite I2, I3. specialize (I4 m n). unfold t4_dim in I4. cbn [t4_new t4_rep] in I4. revert I4.
      clear. destruct ps, two_dim; cbn [orb rep_dim Nat.ltb Nat.leb]; unfold wr2;
        repeat match goal with |- context [(?a =? ?b)%nat] => destruct (Nat.eqb_spec a b); subst; cbn [andb]; try lia end; intros; try reflexivity; try assumption. }
    assert (J : forall E2 nu2, le_rep (le_calc_rigidity (mkLE E2 nu2 (le_plane_stress s) (le_dd s))) = le_rep (le_new E2 nu2 two_dim ps)).
    { intros E2 nu2. exact I3. }
    destruct o as [E2 nu2|K2 G2]; cbn [yp_of le_apply]; (split; [reflexivity|]); (split; [exact I2|]); (split; [apply J|]); intros m n; apply K.
Qed.
Lemma run_rep E nu two_dim ps ops : le_rep (le_run E nu two_dim ps ops) = if two_dim || ps then Symmetric2D else Symmetric.
Proof.
  pose proof (C64_history E nu two_dim ps ops) as H. cbn zeta in H. destruct (fold_left yp_of ops (E, nu)) as [E' nu'].
  destruct H as (_ & _ & H & _). rewrite H. reflexivity.
Qed.
(** the stress, component by component *)
Lemma stress_c2 E nu two_dim ps ops stress strain :
  let s := le_run E nu two_dim ps ops in
  let '(E', nu') := fold_left yp_of ops (E, nu) in
  t2_rep strain = le_rep s -> t2_rep stress = le_rep s ->
  exists o, le_calc_stress s stress strain = Ok o /\ t2_rep o = le_rep s /\
   forall i j, (i < 3)%nat -> (j < 3)%nat -> tens2 o i j =
     c2 i j (ext (rep_dim (le_rep s)) (fun m => summ (rep_dim (le_rep s)) (fun n => t4_mat (le_dd (le_new E' nu' two_dim ps)) m n * t2_vec strain n))).
Proof.
  cbn zeta. pose proof (C64_history E nu two_dim ps ops) as H. cbn zeta in H.
  set (s := le_run E nu two_dim ps ops) in *. clearbody s. destruct (fold_left yp_of ops (E, nu)) as [E' nu'].
  destruct H as (_ & _ & _ & H). intros A B. unfold le_calc_stress. unfold le_rep in *.
  destruct (C63_t4_ddot_t2 stress 1 (le_dd s) strain A B) as (o & O1 & O2 & O3). exists o. splits; [exact O1|exact O2|].
  intros i j Hi Hj. rewrite O3 by assumption. unfold mscale. rewrite ddot2_c2, Rmult_1_l by assumption. apply c2_ext.
  intros m Hm. unfold ext, t4_dim. destruct (m <? _)%nat; [|reflexivity]. apply summ_ext_eq. intros n Hn. rewrite H. reflexivity.
Qed.
(** ** three dimensions and plane strain *)
Theorem C64_hooke E nu two_dim ops stress strain :
  let s := le_run E nu two_dim false ops in
  let '(E', nu') := fold_left yp_of ops (E, nu) in
  1 + nu' <> 0 -> 1 - 2 * nu' <> 0 ->
  t2_rep strain = le_rep s -> t2_rep stress = le_rep s ->
  exists o, le_calc_stress s stress strain = Ok o /\ t2_rep o = le_rep s /\ eq2 (tens2 o) (hooke E' nu' (tens2 strain)).
Proof.
  cbn zeta. pose proof (stress_c2 E nu two_dim false ops stress strain) as H. cbn zeta in H. pose proof (run_rep E nu two_dim false ops) as Rr.
  set (s := le_run E nu two_dim false ops) in *. clearbody s. destruct (fold_left yp_of ops (E, nu)) as [E' nu'].
  intros Z1 Z2 A B. destruct (H A B) as (o & O1 & O2 & O3). exists o. splits; [exact O1|exact O2|].
  intros i j Hi Hj. rewrite O3 by assumption. rewrite Rr in *. clear H O1 O2 O3. unfold hooke, lame, shear. sums. tens.
  unfold t2_dim. rewrite A. destruct strain as [rs v]. cbn [t2_vec t2_rep] in *. clear A B Rr rs.
  destruct two_dim; idx i; idx j; tred; rewrite ?div_sq2; field; auto.
Qed.
(** ** plane stress *)
Theorem C64_plane_stress E nu two_dim ops stress strain :
  let s := le_run E nu two_dim true ops in
  let '(E', nu') := fold_left yp_of ops (E, nu) in
  1 - nu' * nu' <> 0 -> 1 - 2 * nu' <> 0 -> E' <> 0 ->
  t2_rep strain = le_rep s -> t2_rep stress = le_rep s ->
  exists o ezz, le_calc_stress s stress strain = Ok o /\ t2_rep o = le_rep s /\
    le_out_of_plane_strain s o = Ok ezz /\
    tens2 o 2%nat 2%nat = 0 /\
    eq2 (tens2 o) (hooke E' nu' (fun i j => if ((i =? 2) && (j =? 2))%nat then ezz else tens2 strain i j)).
Proof.
  cbn zeta. pose proof (stress_c2 E nu two_dim true ops stress strain) as H. cbn zeta in H. pose proof (run_rep E nu two_dim true ops) as Rr.
  pose proof (C64_history E nu two_dim true ops) as Hh. cbn zeta in Hh.
  set (s := le_run E nu two_dim true ops) in *. clearbody s. destruct (fold_left yp_of ops (E, nu)) as [E' nu'].
  destruct Hh as (P1 & P2 & _ & _). unfold le_get_young_poisson in P1. injection P1 as P1 P1'.
  intros Z1 Z2 Z3 A B. destruct (H A B) as (o & O1 & O2 & O3).
  assert (Za : 1 + nu' <> 0) by (intros K; apply Z1; replace (1 - nu' * nu') with ((1 + nu') * (1 - nu')) by ring; rewrite K; ring).
  assert (Zb : 1 - nu' <> 0) by (intros K; apply Z1; replace (1 - nu' * nu') with ((1 + nu') * (1 - nu')) by ring; rewrite K; ring).
  unfold le_out_of_plane_strain. rewrite P1, P1', P2. cbn [negb]. exists o.
  replace (t2_vec o 0%nat) with (tens2 o 0%nat 0%nat) by (tens; unfold t2_dim; rewrite O2, Rr; destruct two_dim; reflexivity).
  replace (t2_vec o 1%nat) with (tens2 o 1%nat 1%nat) by (tens; unfold t2_dim; rewrite O2, Rr; destruct two_dim; reflexivity).
  eexists. splits; [exact O1|exact O2|reflexivity| |].
  - rewrite O3 by lia. rewrite Rr. destruct two_dim; tred; ring.
  - rewrite !O3 by lia. rewrite Rr in *. intros i j Hi Hj. rewrite O3 by assumption. clear H O1 O2 O3. unfold hooke, lame, shear. sums. tens.
    unfold t2_dim. rewrite A. destruct strain as [rs v]. cbn [t2_vec t2_rep] in *. clear A B Rr rs P1 P1' P2.
    destruct two_dim; idx i; idx j; tred; rewrite ?div_sq2; field; auto.
Qed.
Theorem C64_out_of_plane_error E nu two_dim ops stress : exists e, le_out_of_plane_strain (le_run E nu two_dim false ops) stress = Err e.
Proof.
  pose proof (C64_history E nu two_dim false ops) as H. cbn zeta in H. destruct (fold_left yp_of ops (E, nu)) as [E' nu'].
  destruct H as (_ & H & _). unfold le_out_of_plane_strain. rewrite H. cbn. eauto.
Qed.
(** ** the two pairs of moduli *)
Theorem C64_conversions s :
  (forall E nu, le_get_young_poisson (le_set_young_poisson s E nu) = (E, nu)) /\
  (forall K G, K <> 0 -> G <> 0 -> 3 * K + G <> 0 -> le_get_bulk_shear (le_set_bulk_shear s K G) = (K, G)) /\
  (forall E nu, E <> 0 -> 1 + nu <> 0 -> 1 - 2 * nu <> 0 ->
     let '(K, G) := le_get_bulk_shear (le_set_young_poisson s E nu) in
     le_get_young_poisson (le_set_bulk_shear s K G) = (E, nu)).
Proof.
  assert (P : forall s, le_get_bulk_shear (le_calc_rigidity s) = le_get_bulk_shear s) by reflexivity.
  assert (Q : forall s, le_get_young_poisson (le_calc_rigidity s) = le_get_young_poisson s) by reflexivity.
  unfold le_set_bulk_shear, le_set_young_poisson. splits.
  - intros E nu. rewrite Q. reflexivity.
  - intros K G HK HG H. rewrite P. unfold le_get_bulk_shear. cbn [le_young le_poisson].
    assert (H2 : 6 * K + 2 * G <> 0) by (intros Z; apply H; lra).
    f_equal; field; splits; auto.
    + intros Z. apply HG. lra.
    + intros Z. apply HK. lra.
  - intros E nu HE H1 H2. rewrite P. unfold le_get_bulk_shear at 1. rewrite Q. unfold le_get_young_poisson.
    cbn [le_young le_poisson]. f_equal; field; splits; auto; intros Z; apply HE; lra.
Qed.
(** with bulk and shear moduli: sigma = K tr(eps) I + 2 G dev(eps) *)
Theorem C64_bulk_shear E0 nu0 two_dim ops K G stress strain :
  let s := le_run E0 nu0 two_dim false (ops ++ [OpKG K G]) in
  K <> 0 -> G <> 0 -> 3 * K + G <> 0 -> t2_rep strain = le_rep s -> t2_rep stress = le_rep s ->
  exists o, le_calc_stress s stress strain = Ok o /\ t2_rep o = le_rep s /\
    eq2 (tens2 o) (madd (mscale (K * mtrace (tens2 strain)) mident) (mscale (2 * G) (mdev (tens2 strain)))).
Proof.
  cbn zeta. intros HK HG H A B. pose proof (C64_hooke E0 nu0 two_dim (ops ++ [OpKG K G]) stress strain) as Hh. cbn zeta in Hh.
  rewrite fold_left_app in Hh. cbn [fold_left yp_of] in Hh.
  assert (H2 : 6 * K + 2 * G <> 0) by (intros Z; apply H; lra).
  assert (N1 : 1 + (3 * K - 2 * G) / (6 * K + 2 * G) = 9 * K / (6 * K + 2 * G)) by (field; auto).
  assert (N2 : 1 - 2 * ((3 * K - 2 * G) / (6 * K + 2 * G)) = 6 * G / (6 * K + 2 * G)) by (field; auto).
  destruct Hh as (o & O1 & O2 & O3); try assumption.
  - rewrite N1. intros Z. apply Rmult_integral in Z. destruct Z as [Z|Z]; [apply HK; lra|]. apply Rinv_neq_0_compat in H2. contradiction.
  - rewrite N2. intros Z. apply Rmult_integral in Z. destruct Z as [Z|Z]; [apply HG; lra|]. apply Rinv_neq_0_compat in H2. contradiction.
  - exists o. splits; [exact O1|exact O2|]. intros i j Hi Hj. rewrite O3 by assumption. unfold hooke, lame, shear. rewrite N1, N2.
    unfold mdev, madd, mscale, msub. field. splits; auto.
Qed.

(** ** the compliance inverts the rigidity *)
Definition hooke_inv (E nu : R) (sig : m3) : m3 :=
  madd (mscale ((1 + nu) / E) sig) (mscale (- nu / E * mtrace sig) mident).
Lemma hooke_hooke_inv E nu sig : E <> 0 -> 1 + nu <> 0 -> 1 - 2 * nu <> 0 -> eq2 (hooke E nu (hooke_inv E nu sig)) sig.
Proof.
  intros HE H1 H2 i j Hi Hj. unfold hooke, hooke_inv, lame, shear. sums. idx i; idx j; cbn [Nat.eqb]; field; auto.
Qed.
Lemma hooke_inv_hooke E nu eps : E <> 0 -> 1 + nu <> 0 -> 1 - 2 * nu <> 0 -> eq2 (hooke_inv E nu (hooke E nu eps)) eps.
Proof.
  intros HE H1 H2 i j Hi Hj. unfold hooke, hooke_inv, lame, shear. sums. idx i; idx j; cbn [Nat.eqb]; field; auto.
Qed.
Theorem C64_calc_inverse d inv x r : t4_calc_inverse d inv = (x, r) ->
  (t4_rep inv <> t4_rep d /\ x = inv /\ exists e, r = Err e) \/
  (t4_rep inv = t4_rep d /\ t4_rep x = t4_rep d /\
    ((exists det, r = Ok det /\ inverse_of (t4_dim d) (t4_mat x) (t4_mat d)) \/ r = singular)).
Proof.
  unfold t4_calc_inverse. destruct (rep_eqb (t4_rep inv) (t4_rep d)) eqn:E; cbn [negb].
  - assert (E' : t4_rep inv = t4_rep d) by (destruct (t4_rep inv), (t4_rep d); cbn in E; congruence).
    destruct (small_mat_inv 9 (t4_mat inv) (t4_mat d) (t4_dim d)) as [y r'] eqn:S. intros F. injection F as <- <-. right.
    split; [exact E'|]. split; [exact E'|].
    destruct (C74_total 9 (t4_mat inv) (t4_mat d) (t4_dim d)) as [[L _]|[_ (y' & r & S' & H)]].
    { unfold t4_dim in L. destruct (t4_rep d); cbn in L; lia. }
    rewrite S in S'. injection S' as <- <-. destruct H as [->|[det ->]]; [right; reflexivity|left].
    exists det. split; [reflexivity|]. cbn [t4_put t4_mat]. eapply C74_inverse. exact S.
  - intros F. injection F as <- <-. left. splits; eauto. intros K. rewrite K in E. destruct (t4_rep d); discriminate.
Qed.
(** contracting with the inverse undoes contracting with the tensor, for every
    tensor of the representation *)
Theorem C64_inverse_contraction d inv x det a : t4_calc_inverse d inv = (x, Ok det) -> t2_rep a = t4_rep d ->
  eq2 (a4_ddot2 (tens4 x) (a4_ddot2 (tens4 d) (tens2 a))) (tens2 a) /\
  eq2 (a4_ddot2 (tens4 d) (a4_ddot2 (tens4 x) (tens2 a))) (tens2 a).
Proof.
  intros H A. apply C64_calc_inverse in H. destruct H as [(_ & _ & e & H)|(R1 & R2 & [(dt & _ & I)|H])]; [discriminate| |discriminate].
  assert (G : forall x y, t4_rep x = t4_rep y -> t2_rep a = t4_rep y ->
     (forall i j, (i < t4_dim y)%nat -> (j < t4_dim y)%nat -> summ (t4_dim y) (fun l => t4_mat x i l * t4_mat y l j) = kron i j) ->
     eq2 (a4_ddot2 (tens4 x) (a4_ddot2 (tens4 y) (tens2 a))) (tens2 a)).
  { clear. intros x y R1 A I.
    destruct (C63_t4_ddot_t2 (t2_new (t4_rep y)) 1 y a A eq_refl) as (b & B1 & B2 & B3).
    set (b' := mkT2 (t4_rep y) (fun m => summ (t4_dim y) (fun n => t4_mat y m n * t2_vec a n))).
    assert (K : eq2 (tens2 b') (a4_ddot2 (tens4 y) (tens2 a))).
    { intros i j Hi Hj. rewrite ddot2_c2 by assumption. tens. reflexivity. }
    intros i j Hi Hj. transitivity (a4_ddot2 (tens4 x) (tens2 b') i j).
    - unfold a4_ddot2 at 1 3. apply sum3_ext. intros k Hk. apply sum3_ext. intros l Hl. rewrite <- K by assumption. reflexivity.
    - rewrite (ddot2_c2 x b') by (try assumption; symmetry; exact R1). tens. apply c2_ext. intros m Hm. unfold ext, t2_dim, t4_dim. rewrite R1, A.
      destruct (Nat.ltb_spec m (rep_dim (t4_rep y))) as [Lm|]; [|reflexivity]. unfold b'. cbn [t2_vec].
      fold (t4_dim y) in *. rewrite (summ_ext_eq _ _ (fun n => summ (t4_dim y) (fun l => t4_mat x m n * t4_mat y n l * t2_vec a l))).
      2: { intros n Hn. rewrite <- summ_scal. apply summ_ext_eq. intros. ring. }
      rewrite summ_swap, (summ_ext_eq _ _ (fun l => kron m l * t2_vec a l)).
      + apply (summ_kron_l (t4_dim y) m (t2_vec a)). exact Lm.
      + intros l Hl. rewrite <- I by assumption. rewrite Rmult_comm, <- summ_scal. apply summ_ext_eq. intros; ring. }
  split.
  - apply G; [exact R2|exact A|]. intros i j Hi Hj. apply (I i j Hi Hj).
  - apply G; [symmetry; exact R2|congruence|]. unfold t4_dim. rewrite R2. intros i j Hi Hj. apply (I i j Hi Hj).
Qed.
Theorem C64_compliance E nu two_dim ops cc x r :
  let s := le_run E nu two_dim false ops in
  let '(E', nu') := fold_left yp_of ops (E, nu) in
  le_calc_compliance s cc = (x, r) -> t4_rep cc = le_rep s ->
  (exists e, r = Err e) \/
  (r = Ok tt /\ t4_rep x = le_rep s /\
   forall sig, t2_rep sig = le_rep s -> E' <> 0 -> 1 + nu' <> 0 -> 1 - 2 * nu' <> 0 ->
     eq2 (a4_ddot2 (tens4 x) (tens2 sig)) (hooke_inv E' nu' (tens2 sig))).
Proof.
  cbn zeta. pose proof (C64_history E nu two_dim false ops) as Hh. cbn zeta in Hh.
  pose proof (C64_hooke E nu two_dim ops) as Hk. cbn zeta in Hk. pose proof (run_rep E nu two_dim false ops) as Rr.
  set (s := le_run E nu two_dim false ops) in *. clearbody s. destruct (fold_left yp_of ops (E, nu)) as [E' nu'].
  destruct Hh as (_ & P2 & _ & _). unfold le_calc_compliance. rewrite P2.
  destruct (t4_calc_inverse (le_dd s) cc) as [y r'] eqn:S. intros F Rc.
  pose proof (C64_calc_inverse _ _ _ _ S) as [(K & _)|(R1 & R2 & [(dt & -> & I)| ->])].
  { exfalso. apply K. exact Rc. }
  2: { unfold singular in F. injection F as <- <-. left. eauto. }
  injection F as <- <-. right. splits; [reflexivity|exact R2|].
  intros sig Rs HE H1 H2.
  (* the strain of this stress *)
  destruct (C61_set_std_matrix (t2_new (le_rep s)) (hooke_inv E' nu' (tens2 sig))) as [(_ & eps & _ & Re & Ve)|(K & _)].
  2: { exfalso. apply K. cbn [t2_new t2_rep]. clear - Rr Rs. rewrite Rr in *. rewrite Bool.orb_false_r in *. unfold admissible2, hooke_inv.
       destruct sig as [rs v]. cbn [t2_rep] in Rs. subst rs.
       destruct two_dim; splits; try (intros i j Hi Hj); sums; tens; try (idx i; idx j); tred; unfold Rdiv; ring. }
  cbn [t2_new t2_rep] in Re.
  destruct (Hk (t2_new (le_rep s)) eps H1 H2 Re eq_refl) as (o & O1 & O2 & O3).
  assert (V : eq2 (a4_ddot2 (tens4 (le_dd s)) (tens2 eps)) (tens2 sig)).
  { destruct (C63_t4_ddot_t2 (t2_new (le_rep s)) 1 (le_dd s) eps Re eq_refl) as (o' & O1' & _ & O3'). unfold le_calc_stress in O1.
    rewrite O1 in O1'. injection O1' as <-. intros i j Hi Hj.
    specialize (O3' i j Hi Hj). unfold mscale in O3'. rewrite Rmult_1_l in O3'. rewrite <- O3', O3 by assumption.
    transitivity (hooke E' nu' (hooke_inv E' nu' (tens2 sig)) i j); [|apply hooke_hooke_inv; assumption].
    unfold hooke, madd, mscale, mtrace, sum3. rewrite !Ve by lia. reflexivity. }
  destruct (C64_inverse_contraction _ _ _ _ eps S Re) as [C _].
  intros i j Hi Hj. rewrite <- Ve by assumption. rewrite <- C by assumption. unfold a4_ddot2 at 1 2. apply sum3_ext. intros k Hk'. apply sum3_ext.
  intros l Hl. rewrite V by assumption. reflexivity.
Qed.
Theorem C64_compliance_plane_stress E nu two_dim ops cc : exists e, le_calc_compliance (le_run E nu two_dim true ops) cc = (cc, Err e).
Proof.
  pose proof (C64_history E nu two_dim true ops) as H. cbn zeta in H. destruct (fold_left yp_of ops (E, nu)) as [E' nu'].
  destruct H as (_ & H & _). unfold le_calc_compliance. rewrite H. eauto.
Qed.
(** finding: the compliance of a soft material is refused, although the rigidity
    is a multiple of the identity *)
Theorem C64_soft_refuted : exists e x,
  (forall m n, (m < 6)%nat -> (n < 6)%nat -> t4_mat (le_dd (le_new (/ 10 ^ 16) 0 false false)) m n = / 10 ^ 16 * kron m n) /\
  le_calc_compliance (le_new (/ 10 ^ 16) 0 false false) (t4_new Symmetric) = (x, Err e).
Proof.
  assert (V : forall m n, (m < 6)%nat -> (n < 6)%nat -> t4_mat (le_dd (le_new (/ 10 ^ 16) 0 false false)) m n = / 10 ^ 16 * kron m n).
  { intros m n Hm Hn. unfold le_new, le_calc_rigidity. cbn [orb le_young le_poisson le_plane_stress le_dd t4_put t4_mat t4_new t4_rep].
    unfold t4_dim. cbn [t4_new t4_rep rep_dim Nat.ltb Nat.leb]. set (z := / 10 ^ 16). clearbody z.
    destruct m as [|[|[|[|[|[|]]]]]]; try lia; (destruct n as [|[|[|[|[|[|]]]]]]; try lia); unfold wr2, kron; cbn [Nat.eqb andb]; field. }
  unfold le_calc_compliance, t4_calc_inverse.
  set (s := le_new (/ 10 ^ 16) 0 false false) in *. assert (R1 : t4_rep (le_dd s) = Symmetric) by reflexivity.
  assert (P1 : le_plane_stress s = false) by reflexivity. clearbody s. rewrite P1, R1. cbn [t4_new t4_rep rep_eqb negb t4_mat].
  unfold t4_dim. rewrite R1. cbn [rep_dim]. unfold small_mat_inv. cbn [Nat.leb negb Nat.eqb gj_columns].
  unfold gj_column at 1. set (w := t4_mat (le_dd s)) in *. clearbody w.
  pose proof (gj_pivot_spec w 6 0 ltac:(lia)) as G. destruct (gj_pivot w 6 0) as [m v]. destruct G as [G1 G2].
  replace (Rleb v ZERO_DETERMINANT) with true.
  - unfold singular. do 2 eexists. split; [exact V|reflexivity].
  - symmetry. apply Rleb_true. rewrite G2, V by lia. unfold ZERO_DETERMINANT, kron. destruct (m =? 0)%nat; rewrite Rabs_pos_eq; lra.
Qed.
Example C64_example :
  let s := le_run 1 (1 / 4) false false [OpKG 2 3; OpYP 4 (1 / 5)] in
  1 + 1 / 5 <> 0 /\ 1 - 2 * (1 / 5) <> 0 /\ le_rep s = Symmetric /\ le_get_young_poisson s = (4, 1 / 5).
Proof. cbn zeta. splits; try lra; reflexivity. Qed.
Print Assumptions C64_hooke.
Print Assumptions C64_plane_stress.
Print Assumptions C64_compliance.
