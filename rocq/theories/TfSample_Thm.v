(** C92: the sample transfinite maps are the shapes they are named after, and the derivatives
    they return are the true derivatives of those shapes. *)
From Coq Require Import Reals List Lia Lra.
From Coquelicot Require Import Coquelicot.
From Verif Require Import Base RBase Transfinite_Model Transfinite_Thm TfSample_Model.
Import ListNotations.
Open Scope R_scope.

(** * Specification *)

(** [Y] is the partial derivative of the plane map [X] in the first or second variable *)
Definition dr2 (X Y : R -> R -> R * R) : Prop :=
  forall r s, derivable_pt_lim (fun r => fst (X r s)) r (fst (Y r s)) /\ derivable_pt_lim (fun r => snd (X r s)) r (snd (Y r s)).
Definition ds2 (X Y : R -> R -> R * R) : Prop :=
  forall r s, derivable_pt_lim (fun s => fst (X r s)) s (fst (Y r s)) /\ derivable_pt_lim (fun s => snd (X r s)) s (snd (Y r s)).

(** the constructor succeeds; `point` is the map [X]; `point_and_derivs` returns [X] and all its
    first and second partial derivatives *)
Definition maps_2d (m : res tf2) (X : R -> R -> R * R) : Prop :=
  exists g, m = Ok g /\ (forall r s, tf2_point g r s = X r s) /\
  exists Xr Xs Xrr Xss Xrs,
    (forall r s, tf2_point_and_derivs g false r s = (X r s, Xr r s, Xs r s, None)) /\
    (forall r s, tf2_point_and_derivs g true r s = (X r s, Xr r s, Xs r s, Some (Xrr r s, Xss r s, Xrs r s))) /\
    dr2 X Xr /\ ds2 X Xs /\ dr2 Xr Xrr /\ ds2 Xs Xss /\ ds2 Xr Xrs /\ dr2 Xs Xrs.

Definition map3 := R -> R -> R -> R * R * R.
Definition x0_ (p : R * R * R) := fst (fst p).
Definition x1_ (p : R * R * R) := snd (fst p).
Definition x2_ (p : R * R * R) := snd p.
Definition dr3 (X Y : map3) : Prop := forall r s t, forall c, In c [x0_; x1_; x2_] -> derivable_pt_lim (fun r => c (X r s t)) r (c (Y r s t)).
Definition ds3 (X Y : map3) : Prop := forall r s t, forall c, In c [x0_; x1_; x2_] -> derivable_pt_lim (fun s => c (X r s t)) s (c (Y r s t)).
Definition dt3 (X Y : map3) : Prop := forall r s t, forall c, In c [x0_; x1_; x2_] -> derivable_pt_lim (fun t => c (X r s t)) t (c (Y r s t)).

Definition maps_3d (m : res tf3) (X : map3) : Prop :=
  exists g, m = Ok g /\ (forall r s t, tf3_point g r s t = X r s t) /\
  exists Xr Xs Xt Xrr Xss Xtt Xrs Xrt Xst : map3,
    (forall r s t, tf3_point_and_derivs g false r s t = (X r s t, Xr r s t, Xs r s t, Xt r s t, None)) /\
    (forall r s t, tf3_point_and_derivs g true r s t = (X r s t, Xr r s t, Xs r s t, Xt r s t,
       Some (mkSecond3 (Xrr r s t) (Xss r s t) (Xtt r s t) (Xrs r s t) (Xrt r s t) (Xst r s t)))) /\
    dr3 X Xr /\ ds3 X Xs /\ dt3 X Xt /\ dr3 Xr Xrr /\ ds3 Xs Xss /\ dt3 Xt Xtt /\
    ds3 Xr Xrs /\ dr3 Xs Xrs /\ dt3 Xr Xrt /\ dr3 Xt Xrt /\ dt3 Xs Xst /\ ds3 Xt Xst.

(** the shapes *)
Definition lerp (a b u : R) : R := (1 - u) / 2 * a + (1 + u) / 2 * b.     (* a at -1, b at +1 *)
Definition polar (rho th : R) : R * R := (rho * cos th, rho * sin th).
Definition bilinear (A B C D : R * R) (r s : R) : R * R :=
  (lerp (lerp (fst A) (fst B) r) (lerp (fst D) (fst C) r) s, lerp (lerp (snd A) (snd B) r) (lerp (snd D) (snd C) r) s).
Definition quarter_ring (a b r s : R) : R * R := polar (lerp a b r) (lerp 0 (PI / 2) s).
Definition half_ring (a b r s : R) : R * R := polar (lerp a b r) (lerp 0 PI s).
Definition lozenge (a b r s : R) : R * R :=
  let inner := polar a (lerp 0 (PI / 2) s) in
  (lerp (fst inner) (lerp b 0 s) r, lerp (snd inner) (lerp 0 b s) r).

(** * Tools *)
Lemma maps_2d_of bnd drv sec g X : tf2_new bnd drv sec = Ok g ->
  (forall i, (i < 2)%nat -> forall k, (k < 4)%nat -> deriv1_of (nth k bnd zero1) (nth k drv zero1) i) ->
  (forall i, (i < 2)%nat -> forall k, (k < 4)%nat ->
     deriv1_of (nth k drv zero1) (nth k (match sec with Some l => l | None => repeat zero1 4 end) zero1) i) ->
  (forall r s, tf2_point g r s = X r s) -> maps_2d (Ok g) X.
Proof.
  intros H D1 D2 P.
  set (l := match sec with Some l => l | None => repeat zero1 4 end) in *.
  assert (exists g0, tf2_new bnd drv (Some l) = Ok g0 /\ forall w r s, tf2_point_and_derivs g w r s = tf2_point_and_derivs g0 w r s) as (g0 & H0 & Q).
  { destruct sec as [l'|]; [exists g; split; [exact H|reflexivity]|].
    destruct (tf2_new bnd drv (Some l)) as [g0| |] eqn:H0.
    - exists g0. split; auto. intros [|] r s; [exact (proj1 C48_none_means_zero bnd drv g g0 H H0 r s)|].
      pose proof (proj1 C48_none_means_zero bnd drv g g0 H H0 r s) as Z.
      unfold tf2_point_and_derivs in *. congruence.
    - revert H H0. unfold tf2_new. destruct (negb _); [discriminate|]. destruct (negb _); [discriminate|]. subst l. cbn. discriminate.
    - revert H H0. unfold tf2_new. destruct (negb _); [discriminate|]. destruct (negb _); [discriminate|]. subst l. cbn. discriminate. }
  exists g. split; [reflexivity|]. split; [exact P|].
  pose (d2 := fun r s => match snd (tf2_point_and_derivs g true r s) with Some d => d | None => ((0, 0), (0, 0), (0, 0)) end).
  exists (fun r s => snd (fst (fst (tf2_point_and_derivs g true r s)))), (fun r s => snd (fst (tf2_point_and_derivs g true r s))),
    (fun r s => fst (fst (d2 r s))), (fun r s => snd (fst (d2 r s))), (fun r s => snd (d2 r s)).
  assert (PX : forall w r s, fst (fst (fst (tf2_point_and_derivs g w r s))) = X r s).
  { intros w r s. rewrite <- P. rewrite Q. destruct (C48_derivatives_2d bnd drv (Some l) g0 H0 0 ltac:(lia) (D1 0%nat ltac:(lia)) w r s) as (E & _).
    cbv zeta in E. rewrite E. rewrite P, <- P. unfold tf2_point. clear - H Q.
    specialize (Q true r s). unfold tf2_point_and_derivs, tf2_both in Q. injection Q. intros.
    change (tf2_x_p g0) with (tf2_x g0). change (tf2_x_p g) with (tf2_x g). congruence. }
  split; [|split].
  - intros r s. rewrite <- (PX false r s). unfold tf2_point_and_derivs. reflexivity.
  - intros r s. rewrite <- (PX true r s). unfold d2, tf2_point_and_derivs. cbn [snd]. destruct (t2_sec g); reflexivity.
  - assert (A : forall i, (i < 2)%nat -> forall r s,
        derivable_pt_lim (fun r => cp2 i (X r s)) r (cp2 i (snd (fst (fst (tf2_point_and_derivs g true r s))))) /\
        derivable_pt_lim (fun s => cp2 i (X r s)) s (cp2 i (snd (fst (tf2_point_and_derivs g true r s)))) /\
        derivable_pt_lim (fun s => cp2 i (snd (fst (fst (tf2_point_and_derivs g true r s))))) s (cp2 i (snd (d2 r s))) /\
        derivable_pt_lim (fun r => cp2 i (snd (fst (tf2_point_and_derivs g true r s)))) r (cp2 i (snd (d2 r s))) /\
        derivable_pt_lim (fun r => cp2 i (snd (fst (fst (tf2_point_and_derivs g true r s))))) r (cp2 i (fst (fst (d2 r s)))) /\
        derivable_pt_lim (fun s => cp2 i (snd (fst (tf2_point_and_derivs g true r s)))) s (cp2 i (snd (fst (d2 r s))))).
    { intros i Hi r s. destruct (C48_derivatives_2d bnd drv (Some l) g0 H0 i Hi (D1 i Hi) true r s) as (_ & A1 & A2 & A3). cbv zeta in *.
      assert (EX : forall f f' x v v', (forall y, f y = f' y) -> v = v' -> derivable_pt_lim f x v -> derivable_pt_lim f' x v').
      { intros f f' x v v' E <- HH. eapply dext; [|exact HH]. intros; symmetry; auto. }
      unfold d2. rewrite Q.
      destruct (tf2_point_and_derivs g0 true r s) as (((x & xr) & xs) & [((rr & ss) & rs)|]) eqn:E0; cbn [fst snd] in *; [|discriminate].
      destruct A3 as (_ & A3 & A4 & A5). destruct (A5 l eq_refl (D2 i Hi)) as (A6 & A7).
      splits.
      - eapply EX; [|reflexivity|exact A1]. intros y. cbv beta. rewrite <- Q, PX. reflexivity.
      - eapply EX; [|reflexivity|exact A2]. intros y. cbv beta. rewrite <- Q, PX. reflexivity.
      - eapply EX; [|reflexivity|exact A3]. intros y. cbv beta. rewrite Q. reflexivity.
      - eapply EX; [|reflexivity|exact A4]. intros y. cbv beta. rewrite Q. reflexivity.
      - eapply EX; [|reflexivity|exact A6]. intros y. cbv beta. rewrite Q. reflexivity.
      - eapply EX; [|reflexivity|exact A7]. intros y. cbv beta. rewrite Q. reflexivity. }
    unfold dr2, ds2. splits; intros r s; (split; [exact (proj1 (A 0%nat ltac:(lia) r s)) || apply (A 0%nat ltac:(lia) r s)|apply (A 1%nat ltac:(lia) r s)]).
Qed.

Lemma maps_3d_of bnd drv sec g X : tf3_new bnd drv sec = Ok g ->
  (forall i, (i < 3)%nat -> forall k, (k < 6)%nat -> partials_of (nth k bnd zero2) (fst (nth k drv (zero2, zero2))) (snd (nth k drv (zero2, zero2))) i) ->
  (forall i, (i < 3)%nat -> forall k, (k < 6)%nat ->
     let '(aa, bb, ab) := nth k (match sec with Some l => l | None => repeat (zero2, zero2, zero2) 6 end) (zero2, zero2, zero2) in
     partials_of (fst (nth k drv (zero2, zero2))) aa ab i /\ partials_of (snd (nth k drv (zero2, zero2))) ab bb i) ->
  (forall r s t, tf3_point g r s t = X r s t) -> maps_3d (Ok g) X.
Proof.
  intros H D1 D2 P.
  set (l := match sec with Some l => l | None => repeat (zero2, zero2, zero2) 6 end) in *.
  assert (exists g0, tf3_new bnd drv (Some l) = Ok g0 /\ forall w r s t, tf3_point_and_derivs g w r s t = tf3_point_and_derivs g0 w r s t) as (g0 & H0 & Q).
  { destruct sec as [l'|]; [exists g; split; [exact H|reflexivity]|].
    destruct (tf3_new bnd drv (Some l)) as [g0| |] eqn:H0.
    - exists g0. split; auto. intros w r s t.
      pose proof (proj2 C48_none_means_zero bnd drv g g0 H H0 r s t) as Z. destruct w; [exact Z|].
      unfold tf3_point_and_derivs in *. congruence.
    - revert H H0. unfold tf3_new. destruct (negb _); [discriminate|]. destruct (negb _); [discriminate|]. subst l. cbn. discriminate.
    - revert H H0. unfold tf3_new. destruct (negb _); [discriminate|]. destruct (negb _); [discriminate|]. subst l. cbn. discriminate. }
  exists g. split; [reflexivity|]. split; [exact P|].
  pose (z3 := (0, 0, 0) : R * R * R).
  pose (d2 := fun r s t => match snd (tf3_point_and_derivs g true r s t) with Some d => d | None => mkSecond3 z3 z3 z3 z3 z3 z3 end).
  exists (fun r s t => snd (fst (fst (fst (tf3_point_and_derivs g true r s t))))), (fun r s t => snd (fst (fst (tf3_point_and_derivs g true r s t)))),
    (fun r s t => snd (fst (tf3_point_and_derivs g true r s t))),
    (fun r s t => s_rr (d2 r s t)), (fun r s t => s_ss (d2 r s t)), (fun r s t => s_tt (d2 r s t)),
    (fun r s t => s_rs (d2 r s t)), (fun r s t => s_rt (d2 r s t)), (fun r s t => s_st (d2 r s t)).
  assert (PX : forall w r s t, fst (fst (fst (fst (tf3_point_and_derivs g w r s t)))) = X r s t).
  { intros w r s t. rewrite <- P. reflexivity. }
  split; [|split].
  - intros r s t. rewrite <- (PX false r s t). unfold tf3_point_and_derivs. reflexivity.
  - intros r s t. rewrite <- (PX true r s t). unfold d2, tf3_point_and_derivs. cbn [snd]. destruct (t3_sec g); reflexivity.
  - assert (C : forall c, In c [x0_; x1_; x2_] -> exists i, (i < 3)%nat /\ forall p, c p = cp3 i p).
    { intros c [<-|[<-|[<-|[]]]]; [exists 0%nat|exists 1%nat|exists 2%nat]; split; [lia|reflexivity|lia|reflexivity|lia|reflexivity]. }
    assert (EX : forall f f' x v v', (forall y, f y = f' y) -> v = v' -> derivable_pt_lim f x v -> derivable_pt_lim f' x v').
    { intros f f' x v v' E <- HH. eapply dext; [|exact HH]. intros; symmetry; auto. }
    unfold dr3, ds3, dt3. splits; intros r s t c Hc; destruct (C c Hc) as (i & Hi & Ec);
      destruct (C48_derivatives_3d bnd drv (Some l) g0 H0 i Hi (D1 i Hi) true r s t) as (_ & A1 & A2 & A3 & A4); cbv zeta in *;
      unfold d2; rewrite ?Ec, Q;
      destruct (tf3_point_and_derivs g0 true r s t) as ((((x & xr) & xs) & xt) & [d|]) eqn:E0; cbn [fst snd] in *; try discriminate;
      destruct A4 as (_ & A4); destruct (A4 l eq_refl (D2 i Hi)) as (B1 & B2 & B3 & B4 & B5 & B6 & B7 & B8 & B9);
      (eapply EX; [|reflexivity|first [exact A1|exact A2|exact A3|exact B1|exact B2|exact B3|exact B4|exact B5|exact B6|exact B7|exact B8|exact B9]]);
      intros y; cbv beta; rewrite ?Ec, <- ?Q, ?PX; reflexivity.
Qed.

Lemma half : 0.5 = / 2. Proof. lra. Qed.
Lemma q0 : PI * (1 + -1) / 4 = 0. Proof. lra. Qed.
Lemma q1 : PI * (1 + 1) / 4 = PI / 2. Proof. lra. Qed.
Lemma q0' : (1 + -1) * PI / 4 = 0. Proof. lra. Qed.
Lemma q1' : (1 + 1) * PI / 4 = PI / 2. Proof. lra. Qed.
Lemma h0 : PI * (-1 + 1) / 2 = 0. Proof. lra. Qed.
Lemma h1 : PI * (1 + 1) / 2 = PI. Proof. lra. Qed.
Ltac trig := rewrite ?half, ?q0, ?q1, ?q0', ?q1', ?h0, ?h1, ?cos_0, ?sin_0, ?cos_PI2, ?sin_PI2, ?cos_PI, ?sin_PI.

Ltac deriv_one :=
  match goal with
  | |- derivable_pt_lim ?f ?x ?v => apply is_derive_Reals; cbv beta; auto_derive; [auto|match goal with |- @eq _ ?a ?b => change (@eq R a b) end; rewrite ?half; unfold Rdiv; rewrite ?Ropp_mult_distr_l_reverse; (field || ring)]
  end.
Ltac curves :=
  intros i Hi k Hk u; assert (i = 0 \/ i = 1)%nat as [-> | ->] by lia;
  destruct k as [|[|[|[|k]]]]; try lia; unfold curve, c2, zero1; cbn [nth repeat];
  rewrite ?half; deriv_one.
Ltac points2 := intros r s; unfold tf2_point, tf2_x_p, bnd2, crn2; cbn [t2_bnd t2_crn nth]; unfold curve, c2; cbn [nth]; trig.

Ltac build2 :=
  match goal with |- maps_2d (unwrap (tf2_new ?b ?d ?s)) ?X =>
    let g := eval cbv beta iota zeta delta [tf2_new length Nat.eqb negb] in (tf2_new b d s) in
    match g with Ok ?g' => change (maps_2d (Ok g') X); apply (maps_2d_of b d s g' X eq_refl) end end.
Ltac build3 :=
  match goal with |- maps_3d (unwrap (tf3_new ?b ?d ?s)) ?X =>
    let g := eval cbv beta iota zeta delta [tf3_new length Nat.eqb negb] in (tf3_new b d s) in
    match g with Ok ?g' => change (maps_3d (Ok g') X); apply (maps_3d_of b d s g' X eq_refl) end end.

(** the map of four given corners is the bilinear one: A, B, C, D are reached at the corners of the
    reference square, counter-clockwise from (-1, -1) *)
Theorem C92_quadrilateral_2d : forall A B C D, maps_2d (quadrilateral_2d A B C D) (bilinear A B C D).
Proof.
  intros [a0 a1] [b0 b1] [c0 c1] [d0 d1]. unfold quadrilateral_2d. cbv zeta. build2; [curves|curves|].
  points2. unfold bilinear, lerp. cbn [fst snd]. f_equal; field.
Qed.

(** the angle covers a quarter of a turn and the radius goes from a to b *)
Theorem C92_quarter_ring_2d : forall a b, maps_2d (quarter_ring_2d a b) (quarter_ring a b).
Proof.
  intros a b. unfold quarter_ring_2d. cbv zeta. build2; [curves|curves|].
  points2. unfold quarter_ring, polar, lerp. replace ((1 - s) / 2 * 0 + (1 + s) / 2 * (PI / 2)) with (PI * (1 + s) / 4) by field. f_equal; field.
Qed.

Theorem C92_half_ring_2d : forall a b, maps_2d (half_ring_2d a b) (half_ring a b).
Proof.
  intros a b. unfold half_ring_2d. cbv zeta. build2; [curves|curves|].
  points2. unfold half_ring, polar, lerp. replace ((1 - s) / 2 * 0 + (1 + s) / 2 * PI) with (PI * (s + 1) / 2) by field. f_equal; field.
Qed.

(** between the arc of radius a and the straight line from (b, 0) to (0, b) *)
Theorem C92_quarter_perforated_lozenge_2d : forall a b, maps_2d (quarter_perforated_lozenge_2d a b) (lozenge a b).
Proof.
  intros a b. unfold quarter_perforated_lozenge_2d. cbv zeta. build2; [curves|curves|].
  points2. unfold lozenge, polar, lerp. cbn [fst snd]. replace ((1 - s) / 2 * 0 + (1 + s) / 2 * (PI / 2)) with (PI * (1 + s) / 4) by field. f_equal; field.
Qed.

Ltac faces := 
  intros i Hi k Hk; assert (i = 0 \/ i = 1 \/ i = 2)%nat as [-> | [-> | ->]] by lia;
  destruct k as [|[|[|[|[|[|k]]]]]]; try lia; unfold flat, surface, c3; cbn [nth repeat fst snd];
  unfold partials_of, zero2; cbn [nth]; match goal with |- _ /\ _ => split | _ => idtac end; intros u v; (split; cbv beta).

(** the affine map onto [0, lx] x [0, ly] x [0, lz] *)
Theorem C92_brick_3d : forall lx ly lz, maps_3d (brick_3d lx ly lz) (fun r s t => (lerp 0 lx r, lerp 0 ly s, lerp 0 lz t)).
Proof.
  intros lx ly lz. unfold brick_3d. cbv zeta. build3; [faces; deriv_one|faces; deriv_one|].
  intros r s t. unfold tf3_point, tf3_all, tf3_x_p, bnd3, crn3; cbn [t3_bnd t3_crn nth]; unfold surface, c3; cbn [nth]. unfold lerp. f_equal; [f_equal|]; field.
Qed.

(** the quarter ring in the plane of the second and third axes, extruded along the first axis *)
Theorem C92_quarter_ring_3d : forall a b h, maps_3d (quarter_ring_3d a b h)
  (fun r s t => (lerp 0 h r, fst (quarter_ring a b s t), snd (quarter_ring a b s t))).
Proof.
  intros a b h. unfold quarter_ring_3d.
  destruct (C92_quarter_ring_2d a b) as (g & -> & P & Xr & Xs & Xrr & Xss & Xrs & P1 & P2 & D1 & D2 & D3 & D4 & D5 & D6).
  cbn [bind]. cbv zeta.
  assert (EX : forall f f' x v v', (forall y, f y = f' y) -> v = v' -> derivable_pt_lim f x v -> derivable_pt_lim f' x v').
  { intros f f' x v v' E <- HH. eapply dext; [|exact HH]. intros; symmetry; auto. }
  build3.
  - faces; first [deriv_one|
      (eapply EX; [|reflexivity|]; [intros y; rewrite P; reflexivity|]; rewrite P1; cbn [fst snd]; first [apply (D1 u v)|apply (D2 u v)])].
  - faces; first [deriv_one|
      (eapply EX; [|reflexivity|]; [intros y; rewrite P1; reflexivity|]; rewrite P2; cbn [fst snd];
       first [apply (D3 u v)|apply (D4 u v)|apply (D5 u v)|apply (D6 u v)])].
  - intros r s t. unfold tf3_point, tf3_all, tf3_x_p, bnd3, crn3; cbn [t3_bnd t3_crn nth]; unfold surface, c3; cbn [nth].
    rewrite !P. unfold quarter_ring, polar, lerp. cbn [fst snd].
    replace ((1 - t) / 2 * 0 + (1 + t) / 2 * (PI / 2)) with ((1 + t) * PI / 4) by field.
    replace ((1 - -1) / 2 * 0 + (1 + -1) / 2 * (PI / 2)) with 0 by field.
    replace ((1 - 1) / 2 * 0 + (1 + 1) / 2 * (PI / 2)) with (PI / 2) by field. trig.
    f_equal; [f_equal|]; field.
Qed.

(** ** The regions *)
Lemma lerp_range a b u : a <= b -> -1 <= u <= 1 -> a <= lerp a b u <= b.
Proof. unfold lerp. intros. split; nra. Qed.
Lemma lerp_onto a b v : a < b -> a <= v <= b -> exists u, -1 <= u <= 1 /\ lerp a b u = v.
Proof.
  intros H V. exists (2 * ((v - a) / (b - a)) - 1). unfold lerp. split; [|field; lra].
  assert (0 <= (v - a) / (b - a)) by (apply Rmult_le_pos; [lra|]; left; apply Rinv_0_lt_compat; lra).
  assert ((v - a) / (b - a) <= 1) by (apply Rmult_le_reg_r with (b - a); [lra|]; field_simplify; lra). lra.
Qed.
Lemma lerp_inj a b u v : a < b -> lerp a b u = lerp a b v -> u = v.
Proof. unfold lerp. intros H E. nra. Qed.

Lemma polar_norm p t : (fst (polar p t)) ^ 2 + (snd (polar p t)) ^ 2 = p ^ 2.
Proof. unfold polar; cbn [fst snd]. pose proof (sin2_cos2 t). unfold Rsqr in *. nra. Qed.
Lemma polar_inj p q t u : 0 < p -> 0 < q -> 0 <= t <= PI -> 0 <= u <= PI -> polar p t = polar q u -> p = q /\ t = u.
Proof.
  intros P Q T U E. assert (N : p = q).
  { pose proof (polar_norm p t) as A. rewrite E, polar_norm in A. nra. }
  split; [exact N|]. subst q. injection E as C _. apply Rmult_eq_reg_l in C; [|lra].
  destruct (Rtotal_order t u) as [L|[L|L]]; [exfalso|exact L|exfalso].
  - pose proof (cos_decreasing_1 t u). lra.
  - pose proof (cos_decreasing_1 u t). lra.
Qed.
Lemma polar_onto x y : 0 <= y -> 0 < x ^ 2 + y ^ 2 -> exists t, 0 <= t <= PI /\ (0 <= x -> t <= PI / 2) /\ polar (sqrt (x ^ 2 + y ^ 2)) t = (x, y).
Proof.
  intros Y N. set (p := sqrt (x ^ 2 + y ^ 2)). assert (P : 0 < p) by now apply sqrt_lt_R0.
  assert (PP : p * p = x ^ 2 + y ^ 2) by (apply sqrt_sqrt; lra).
  assert (B : -1 <= x / p <= 1).
  { split; apply Rmult_le_reg_r with p; auto; unfold Rdiv; rewrite Rmult_assoc, Rinv_l by lra; nra. }
  exists (acos (x / p)). split; [apply acos_bound|]. split.
  - intros X. rewrite <- acos_0. destruct (Rle_lt_dec (acos (x / p)) (acos 0)) as [L|L]; [exact L|exfalso].
    pose proof (acos_bound (x / p)). pose proof (acos_bound 0).
    pose proof (cos_decreasing_1 (acos 0) (acos (x / p))). rewrite !cos_acos in H1 by lra.
    assert (0 <= x / p) by (apply Rmult_le_pos; [lra|]; left; now apply Rinv_0_lt_compat). lra.
  - unfold polar. rewrite cos_acos, sin_acos by exact B. f_equal; [field; lra|].
    replace (1 - (x / p)²) with ((y / p) ^ 2).
    + rewrite sqrt_pow2; [field; lra|]. apply Rmult_le_pos; [lra|]; left; now apply Rinv_0_lt_compat.
    + unfold Rsqr. replace 1 with ((p * p) / (p * p)) by (field; lra). rewrite PP at 1. field. lra.
Qed.

Lemma ring_region top a b : 0 < a < b -> (top = PI \/ top = PI / 2) ->
  let X r s := polar (lerp a b r) (lerp 0 top s) in
  (forall x y, (exists r s, -1 <= r <= 1 /\ -1 <= s <= 1 /\ X r s = (x, y)) <->
               a ^ 2 <= x ^ 2 + y ^ 2 <= b ^ 2 /\ 0 <= y /\ (top = PI / 2 -> 0 <= x)) /\
  (forall r s r' s', -1 <= r <= 1 -> -1 <= s <= 1 -> -1 <= r' <= 1 -> -1 <= s' <= 1 -> X r s = X r' s' -> r = r' /\ s = s').
Proof.
  intros AB TOP X. pose proof PI_RGT_0 as HP. assert (T : 0 < top <= PI) by (destruct TOP; lra). split.
  - intros x y. split.
    + intros (r & s & Hr & Hs & E). pose proof (lerp_range a b r ltac:(lra) Hr) as R1. pose proof (lerp_range 0 top s ltac:(lra) Hs) as S1.
      pose proof (polar_norm (lerp a b r) (lerp 0 top s)) as N. fold (X r s) in N. rewrite E in N. cbn [fst snd] in N.
      injection E as <- <-. split; [rewrite N; split; nra|]. split.
      * apply Rmult_le_pos; [lra|]. apply sin_ge_0; lra.
      * intros ->. apply Rmult_le_pos; [lra|]. apply cos_ge_0; lra.
    + intros ((N1 & N2) & Y & XX). destruct (polar_onto x y Y) as (t & T1 & T2 & E); [nra|].
      destruct (lerp_onto a b (sqrt (x ^ 2 + y ^ 2))) as (r & Hr & Er); [lra| |].
      { split; [apply Rsqr_incr_0_var|apply Rsqr_incr_0_var]; try lra; try apply sqrt_pos;
          rewrite Rsqr_sqrt by nra; unfold Rsqr; nra. }
      destruct (lerp_onto 0 top t) as (s & Hs & Es); [lra| |].
      { split; [lra|]. destruct TOP as [-> | ->]; [lra|]. apply T2. now apply XX. }
      exists r, s. splits; try tauto. unfold X. rewrite Er, Es. exact E.
  - intros r s r' s' Hr Hs Hr' Hs' E.
    pose proof (lerp_range a b r ltac:(lra) Hr). pose proof (lerp_range 0 top s ltac:(lra) Hs).
    pose proof (lerp_range a b r' ltac:(lra) Hr'). pose proof (lerp_range 0 top s' ltac:(lra) Hs').
    apply polar_inj in E; try lra. destruct E as (E1 & E2). apply lerp_inj in E1; [|lra]. apply lerp_inj in E2; [|lra]. tauto.
Qed.

(** for 0 < a < b the reference square goes one to one onto the part of the ring with x >= 0 and y >= 0 *)
Theorem C92_quarter_ring_region : forall a b g, 0 < a < b -> quarter_ring_2d a b = Ok g ->
  (forall x y, (exists r s, -1 <= r <= 1 /\ -1 <= s <= 1 /\ tf2_point g r s = (x, y)) <->
               a ^ 2 <= x ^ 2 + y ^ 2 <= b ^ 2 /\ 0 <= x /\ 0 <= y) /\
  (forall r s r' s', -1 <= r <= 1 -> -1 <= s <= 1 -> -1 <= r' <= 1 -> -1 <= s' <= 1 ->
               tf2_point g r s = tf2_point g r' s' -> r = r' /\ s = s').
Proof.
  intros a b g AB E. destruct (C92_quarter_ring_2d a b) as (g' & E' & P & _). rewrite E in E'. injection E' as <-.
  destruct (ring_region (PI / 2) a b AB (or_intror eq_refl)) as (A & B). split.
  - intros x y. specialize (A x y). rewrite <- (and_comm (0 <= y)). split.
    + intros (r & s & Hr & Hs & F). rewrite P in F. destruct A as (A & _). destruct A as (A1 & A2 & A3); [exists r, s; auto|]. splits; try tauto.
    + intros (H1 & H2 & H3). destruct A as (_ & A). destruct A as (r & s & Hr & Hs & F); [splits; tauto|]. exists r, s. rewrite P. auto.
  - intros r s r' s' H1 H2 H3 H4 F. rewrite !P in F. now apply B.
Qed.

(** for 0 < a < b the reference square goes one to one onto the part of the ring with y >= 0 *)
Theorem C92_half_ring_region : forall a b g, 0 < a < b -> half_ring_2d a b = Ok g ->
  (forall x y, (exists r s, -1 <= r <= 1 /\ -1 <= s <= 1 /\ tf2_point g r s = (x, y)) <->
               a ^ 2 <= x ^ 2 + y ^ 2 <= b ^ 2 /\ 0 <= y) /\
  (forall r s r' s', -1 <= r <= 1 -> -1 <= s <= 1 -> -1 <= r' <= 1 -> -1 <= s' <= 1 ->
               tf2_point g r s = tf2_point g r' s' -> r = r' /\ s = s').
Proof.
  intros a b g AB E. destruct (C92_half_ring_2d a b) as (g' & E' & P & _). rewrite E in E'. injection E' as <-.
  destruct (ring_region PI a b AB (or_introl eq_refl)) as (A & B). split.
  - intros x y. specialize (A x y). split.
    + intros (r & s & Hr & Hs & F). rewrite P in F. destruct A as (A & _). destruct A as (A1 & A2 & A3); [exists r, s; auto|]. splits; try tauto.
    + intros (H1 & H2). destruct A as (_ & A). destruct A as (r & s & Hr & Hs & F).
      { splits; auto; try tauto. intros. pose proof PI_RGT_0. lra. }
      exists r, s. rewrite P. auto.
  - intros r s r' s' H1 H2 H3 H4 F. rewrite !P in F. now apply B.
Qed.

(** non-vacuity: the outer corner and the middle of the inner arc of a ring with radii 1 and 3 *)
Example C92_example : exists g, quarter_ring_2d 1 3 = Ok g /\ tf2_point g 1 1 = (0, 3) /\ tf2_point g (-1) 0 = (sqrt 2 / 2, sqrt 2 / 2).
Proof.
  destruct (C92_quarter_ring_2d 1 3) as (g & E & P & _). exists g. split; [exact E|]. rewrite !P.
  unfold quarter_ring, polar, lerp.
  replace ((1 - 1) / 2 * 0 + (1 + 1) / 2 * (PI / 2)) with (PI / 2) by field.
  replace ((1 - 0) / 2 * 0 + (1 + 0) / 2 * (PI / 2)) with (PI / 4) by field.
  rewrite cos_PI2, sin_PI2, cos_PI4, sin_PI4. pose proof (sqrt_lt_R0 2 ltac:(lra)).
  assert (sqrt 2 * sqrt 2 = 2) by (apply sqrt_sqrt; lra).
  split; f_equal; try field. all: apply Rmult_eq_reg_r with (sqrt 2); try lra; field_simplify; try lra.
Qed.

Print Assumptions C92_quadrilateral_2d.
Print Assumptions C92_quarter_ring_2d.
Print Assumptions C92_half_ring_2d.
Print Assumptions C92_quarter_perforated_lozenge_2d.
Print Assumptions C92_brick_3d.
Print Assumptions C92_quarter_ring_3d.
Print Assumptions C92_quarter_ring_region.
Print Assumptions C92_half_ring_region.
