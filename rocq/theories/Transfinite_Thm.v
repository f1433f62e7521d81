(** C48: transfinite maps. *)
From Verif Require Import RBase LabVec_Model LabVec_Thm Cheb_Model Cheb_Thm Transfinite_Model.
Open Scope R_scope.
Open Scope res_scope.

(** * Specification *)

(** the four curves of a 2D patch meet at the four corners (component i) *)
Definition share_corners (B : nat -> fun1) (i : nat) : Prop :=
  B 2%nat i (-1) = B 0%nat i (-1) /\ B 2%nat i 1 = B 1%nat i (-1) /\
  B 3%nat i (-1) = B 0%nat i 1 /\ B 3%nat i 1 = B 1%nat i 1.

(** the six faces of a 3D patch meet along the twelve edges (component i) *)
Definition share_edges (B : nat -> fun2) (i : nat) : Prop :=
  (forall t, B 2%nat i (-1) t = B 0%nat i (-1) t) /\ (forall t, B 3%nat i (-1) t = B 0%nat i 1 t) /\
  (forall t, B 2%nat i 1 t = B 1%nat i (-1) t) /\ (forall t, B 3%nat i 1 t = B 1%nat i 1 t) /\
  (forall s, B 4%nat i (-1) s = B 0%nat i s (-1)) /\ (forall s, B 5%nat i (-1) s = B 0%nat i s 1) /\
  (forall s, B 4%nat i 1 s = B 1%nat i s (-1)) /\ (forall s, B 5%nat i 1 s = B 1%nat i s 1) /\
  (forall r, B 4%nat i r (-1) = B 2%nat i r (-1)) /\ (forall r, B 5%nat i r (-1) = B 2%nat i r 1) /\
  (forall r, B 4%nat i r 1 = B 3%nat i r (-1)) /\ (forall r, B 5%nat i r 1 = B 3%nat i r 1).

(** D is the derivative of B *)
Definition deriv1_of (B D : fun1) (i : nat) : Prop := forall u, derivable_pt_lim (B i) u (D i u).
Definition partials_of (B Da Db : fun2) (i : nat) : Prop :=
  forall u v, derivable_pt_lim (fun u => B i u v) u (Da i u v) /\ derivable_pt_lim (fun v => B i u v) v (Db i u v).

(** component of a returned point *)
Definition cp2 (i : nat) (p : R * R) : R := if Nat.eqb i 0 then fst p else snd p.
Definition cp3 (i : nat) (p : R * R * R) : R :=
  if Nat.eqb i 0 then fst (fst p) else if Nat.eqb i 1 then snd (fst p) else snd p.

(** * Tools *)
Lemma dconst c x : derivable_pt_lim (fun _ => c) x 0.
Proof. apply derivable_pt_lim_const. Qed.
Lemma did x : derivable_pt_lim (fun y => y) x 1.
Proof. apply derivable_pt_lim_id. Qed.
Lemma dplus f g x a b : derivable_pt_lim f x a -> derivable_pt_lim g x b -> derivable_pt_lim (fun y => f y + g y) x (a + b).
Proof. apply derivable_pt_lim_plus. Qed.
Lemma dminus f g x a b : derivable_pt_lim f x a -> derivable_pt_lim g x b -> derivable_pt_lim (fun y => f y - g y) x (a - b).
Proof. apply derivable_pt_lim_minus. Qed.
Lemma dmult f g x a b : derivable_pt_lim f x a -> derivable_pt_lim g x b -> derivable_pt_lim (fun y => f y * g y) x (a * g x + f x * b).
Proof. apply derivable_pt_lim_mult. Qed.
Lemma ddiv f c x a : derivable_pt_lim f x a -> derivable_pt_lim (fun y => f y / c) x (a / c).
Proof.
  intros H. unfold Rdiv. replace (a * / c) with (a * / c + f x * 0) by ring.
  apply (dmult f (fun _ => / c)); auto. apply dconst.
Qed.
Lemma deq f x a b : derivable_pt_lim f x a -> a = b -> derivable_pt_lim f x b.
Proof. now intros H <-. Qed.

Ltac dstep leaf :=
  first [ apply dconst | apply did | leaf tt
        | lazymatch goal with
          | |- derivable_pt_lim (fun y => @?f y + @?h y) ?x _ => eapply (dplus f h x)
          | |- derivable_pt_lim (fun y => @?f y - @?h y) ?x _ => eapply (dminus f h x)
          | |- derivable_pt_lim (fun y => @?f y / ?c) ?x _ => eapply (ddiv f c x)
          | |- derivable_pt_lim (fun y => @?f y * @?h y) ?x _ => eapply (dmult f h x)
          end ].
Ltac dsolve leaf := eapply deq; [ repeat (dstep leaf) | cbv beta; field ].

(** * 2D *)
Section Two.
Variables (bnd drv : list fun1) (sec : option (list fun1)) (g : tf2).
Hypothesis Hnew : tf2_new bnd drv sec = Ok g.

Lemma tf2_new_inv : length bnd = 4%nat /\ length drv = 4%nat /\
  (forall l, sec = Some l -> length l = 4%nat) /\
  t2_bnd g = bnd /\ t2_drv g = drv /\ t2_sec g = sec /\
  (forall i, crn2 g 0 i = bnd2 g 0 i (-1) /\ crn2 g 1 i = bnd2 g 1 i (-1) /\
             crn2 g 2 i = bnd2 g 1 i 1 /\ crn2 g 3 i = bnd2 g 0 i 1).
Proof using Hnew.
  unfold tf2_new in Hnew.
  destruct (Nat.eqb_spec (length bnd) 4); [|discriminate].
  destruct (Nat.eqb_spec (length drv) 4); [|discriminate]. cbn [negb] in Hnew.
  destruct (match sec with Some l => _ | None => _ end) eqn:Es; [discriminate|].
  injection Hnew as <-. splits; auto.
  intros l ->. destruct (Nat.eqb_spec (length l) 4); auto; discriminate.
Qed.

Lemma point_on_edges_2d : forall i,
  share_corners (fun k => nth k bnd zero1) i <->
  (forall u, tf2_x_p g i (-1) u = nth 0 bnd zero1 i u /\ tf2_x_p g i 1 u = nth 1 bnd zero1 i u /\
             tf2_x_p g i u (-1) = nth 2 bnd zero1 i u /\ tf2_x_p g i u 1 = nth 3 bnd zero1 i u).
Proof using Hnew.
  intros i. destruct tf2_new_inv as (_ & _ & _ & Eb & _ & _ & C). destruct (C i) as (C0 & C1 & C2 & C3).
  unfold tf2_x_p. rewrite C0, C1, C2, C3. unfold bnd2, share_corners. rewrite Eb.
  split.
  - intros (H0 & H1 & H2 & H3) u. rewrite H0, H1, H2, H3. splits; field.
  - intros H. pose proof (H (-1)) as (A1 & A2 & _). pose proof (H 1) as (B1 & B2 & _). splits; lra.
Qed.

Section D1.
Variable i : nat.
Hypothesis HD : forall k, (k < 4)%nat -> deriv1_of (nth k bnd zero1) (nth k drv zero1) i.

Lemma D2k k : (k < 4)%nat -> forall u, derivable_pt_lim (fun u => bnd2 g k i u) u (drv2 g k i u).
Proof using Hnew HD.
  intros Hk u. destruct tf2_new_inv as (_ & _ & _ & Eb & Ed & _). unfold bnd2, drv2. rewrite Eb, Ed. now apply HD.
Qed.

Ltac leaf2 _ := cbv beta; match goal with
  | |- derivable_pt_lim (fun u => bnd2 g ?k i u) _ _ => apply (D2k k); lia
  | |- derivable_pt_lim (bnd2 g ?k i) _ _ => apply (D2k k); lia end.

Lemma first_derivatives_2d : forall r s,
  derivable_pt_lim (fun r => tf2_x_p g i r s) r (tf2_dx_dr g i r s) /\
  derivable_pt_lim (fun s => tf2_x_p g i r s) s (tf2_dx_ds g i r s).
Proof using Hnew HD.
  intros r s. unfold tf2_x_p, tf2_dx_dr, tf2_dx_ds. split; dsolve leaf2.
Qed.

Lemma mixed_derivative_2d : forall r s,
  derivable_pt_lim (fun s => tf2_dx_dr g i r s) s (tf2_d2x_drs g i r s) /\
  derivable_pt_lim (fun r => tf2_dx_ds g i r s) r (tf2_d2x_drs g i r s) /\
  tf2_d2x_drs_n g i r s = tf2_d2x_drs g i r s.
Proof using Hnew HD.
  intros r s. unfold tf2_dx_dr, tf2_dx_ds, tf2_d2x_drs, tf2_d2x_drs_n. splits; try reflexivity.
  - dsolve leaf2.
  - dsolve leaf2.
Qed.

Section D2.
Variable l : list fun1.
Hypothesis Hsec : sec = Some l.
Hypothesis HD2 : forall k, (k < 4)%nat -> deriv1_of (nth k drv zero1) (nth k l zero1) i.

Lemma DD2k k : (k < 4)%nat -> forall u, derivable_pt_lim (fun u => drv2 g k i u) u (sec2 g k i u).
Proof using Hnew HD2 Hsec.
  intros Hk u. destruct tf2_new_inv as (_ & _ & _ & _ & Ed & Es & _). unfold drv2, sec2.
  rewrite Ed, Es, Hsec. now apply HD2.
Qed.

Ltac leaf22 _ := cbv beta; match goal with
  | |- derivable_pt_lim (fun u => bnd2 g ?k i u) _ _ => apply (D2k k); lia
  | |- derivable_pt_lim (bnd2 g ?k i) _ _ => apply (D2k k); lia
  | |- derivable_pt_lim (fun u => drv2 g ?k i u) _ _ => apply (DD2k k); lia
  | |- derivable_pt_lim (drv2 g ?k i) _ _ => apply (DD2k k); lia end.

Lemma second_derivatives_2d : forall r s,
  derivable_pt_lim (fun r => tf2_dx_dr g i r s) r (tf2_d2x_dr2 g i r s) /\
  derivable_pt_lim (fun s => tf2_dx_ds g i r s) s (tf2_d2x_ds2 g i r s).
Proof using Hnew HD HD2 Hsec.
  intros r s. unfold tf2_dx_dr, tf2_dx_ds, tf2_d2x_dr2, tf2_d2x_ds2. splits; dsolve leaf22.
Qed.
End D2.
End D1.
End Two.


(** on the four edges `point` reproduces the four curves exactly when the curves share corners *)
Theorem C48_point_on_edges_2d : forall bnd drv sec g, tf2_new bnd drv sec = Ok g -> forall i, (i < 2)%nat ->
  (share_corners (fun k => nth k bnd zero1) i <->
   forall u, cp2 i (tf2_point g (-1) u) = nth 0 bnd zero1 i u /\ cp2 i (tf2_point g 1 u) = nth 1 bnd zero1 i u /\
             cp2 i (tf2_point g u (-1)) = nth 2 bnd zero1 i u /\ cp2 i (tf2_point g u 1) = nth 3 bnd zero1 i u).
Proof.
  intros bnd drv sec g H i Hi. rewrite (point_on_edges_2d bnd drv sec g H i).
  assert (i = 0 \/ i = 1)%nat as [-> | ->] by lia; reflexivity.
Qed.

(** the corners returned by `get_corners` are the images of the corners of the reference square *)
Theorem C48_corners_2d : forall bnd drv sec g, tf2_new bnd drv sec = Ok g ->
  share_corners (fun k => nth k bnd zero1) 0 -> share_corners (fun k => nth k bnd zero1) 1 ->
  tf2_get_corners g = (tf2_point g (-1) (-1), tf2_point g 1 (-1), tf2_point g 1 1, tf2_point g (-1) 1).
Proof.
  intros bnd drv sec g H S0 S1.
  destruct (tf2_new_inv bnd drv sec g H) as (_ & _ & _ & Eb & _ & _ & C).
  destruct (C 0%nat) as (A0 & A1 & A2 & A3). destruct (C 1%nat) as (B0 & B1 & B2 & B3).
  pose proof (proj1 (point_on_edges_2d bnd drv sec g H 0) S0) as P0.
  pose proof (proj1 (point_on_edges_2d bnd drv sec g H 1) S1) as P1.
  unfold tf2_get_corners, tf2_point. rewrite A0, A1, A2, A3, B0, B1, B2, B3. unfold bnd2. rewrite Eb.
  destruct (P0 (-1)) as (-> & -> & _). destruct (P0 1) as (-> & -> & _).
  destruct (P1 (-1)) as (-> & -> & _). destruct (P1 1) as (-> & -> & _). reflexivity.
Qed.

(** `point_and_derivs` returns the position that `point` returns and its true partial derivatives;
    the mixed derivative is right whether or not the second derivatives of the curves were supplied;
    second derivatives are returned exactly when they are all asked for *)
Theorem C48_derivatives_2d : forall bnd drv sec g, tf2_new bnd drv sec = Ok g -> forall i, (i < 2)%nat ->
  (forall k, (k < 4)%nat -> deriv1_of (nth k bnd zero1) (nth k drv zero1) i) ->
  forall want, let out r s := tf2_point_and_derivs g want r s in
  let x r s := fst (fst (fst (out r s))) in
  let x_r r s := snd (fst (fst (out r s))) in
  let x_s r s := snd (fst (out r s)) in
  forall r s,
  x r s = tf2_point g r s /\
  derivable_pt_lim (fun r => cp2 i (x r s)) r (cp2 i (x_r r s)) /\
  derivable_pt_lim (fun s => cp2 i (x r s)) s (cp2 i (x_s r s)) /\
  match snd (out r s) with
  | None => want = false
  | Some (x_rr, x_ss, x_rs) =>
      want = true /\
      derivable_pt_lim (fun s => cp2 i (x_r r s)) s (cp2 i x_rs) /\
      derivable_pt_lim (fun r => cp2 i (x_s r s)) r (cp2 i x_rs) /\
      (forall l, sec = Some l -> (forall k, (k < 4)%nat -> deriv1_of (nth k drv zero1) (nth k l zero1) i) ->
         derivable_pt_lim (fun r => cp2 i (x_r r s)) r (cp2 i x_rr) /\
         derivable_pt_lim (fun s => cp2 i (x_s r s)) s (cp2 i x_ss))
  end.
Proof.
  intros bnd drv sec g H i Hi HD want out x x_r x_s r s.
  destruct (tf2_new_inv bnd drv sec g H) as (_ & _ & _ & _ & _ & Es & _).
  destruct (first_derivatives_2d bnd drv sec g H i HD r s) as (F1 & F2).
  destruct (mixed_derivative_2d bnd drv sec g H i HD r s) as (M1 & M2 & _).
  pose proof (second_derivatives_2d bnd drv sec g H i HD) as S.
  split; [reflexivity|].
  assert (C : forall f r s, cp2 i (tf2_both f g r s) = f g i r s).
  { intros f r' s'. assert (i = 0 \/ i = 1)%nat as [-> | ->] by lia; reflexivity. }
  assert (X : forall r s, cp2 i (x r s) = tf2_x_p g i r s) by (intros; apply (C tf2_x)).
  assert (XR : forall r s, cp2 i (x_r r s) = tf2_dx_dr g i r s) by (intros; apply C).
  assert (XS : forall r s, cp2 i (x_s r s) = tf2_dx_ds g i r s) by (intros; apply C).
  assert (EXT : forall f h a b, (forall y, h y = f y) -> derivable_pt_lim f a b -> derivable_pt_lim h a b).
  { intros f h a b E D eps He. destruct (D eps He) as (d & Hd). exists d. intros k Hk Hk'. rewrite !E. auto. }
  split; [|split].
  - rewrite XR. eapply EXT; [|exact F1]. intros y. apply X.
  - rewrite XS. eapply EXT; [|exact F2]. intros y. apply X.
  - unfold out, tf2_point_and_derivs. cbn [snd]. destruct want; [|reflexivity]. rewrite Es.
    destruct sec as [l|].
    + split; [reflexivity|]. rewrite !C. splits.
      * eapply EXT; [|exact M1]. intros y. apply XR.
      * eapply EXT; [|exact M2]. intros y. apply XS.
      * intros l' El HD2. injection El as <-. destruct (S l eq_refl HD2 r s) as (S1 & S2). split.
        -- eapply EXT; [|exact S1]. intros y. apply XR.
        -- eapply EXT; [|exact S2]. intros y. apply XS.
    + split; [reflexivity|]. rewrite !C. splits.
      * eapply EXT; [|exact M1]. intros y. apply XR.
      * eapply EXT; [|exact M2]. intros y. apply XS.
      * intros l' El. discriminate.
Qed.

(** finding: without second derivatives of the curves the pure second derivatives are returned as zero,
    also when the curves are not straight *)
Definition bulge : list fun1 := [ (fun i u => if Nat.eqb i 0 then -1 else u); (fun i u => if Nat.eqb i 0 then 1 else u);
  (fun i u => if Nat.eqb i 0 then u else u * u - 2); (fun i u => if Nat.eqb i 0 then u else 1) ].
Definition bulge' : list fun1 := [ (fun i u => if Nat.eqb i 0 then 0 else 1); (fun i u => if Nat.eqb i 0 then 0 else 1);
  (fun i u => if Nat.eqb i 0 then 1 else 2 * u); (fun i u => if Nat.eqb i 0 then 1 else 0) ].

Theorem C48_no_second_derivative_refuted :
  ~ (forall bnd drv g, tf2_new bnd drv None = Ok g ->
     (forall k i, (k < 4)%nat -> deriv1_of (nth k bnd zero1) (nth k drv zero1) i) ->
     forall r s x x_r x_s x_rr x_ss x_rs,
     tf2_point_and_derivs g true r s = (x, x_r, x_s, Some (x_rr, x_ss, x_rs)) ->
     derivable_pt_lim (fun r => cp2 1 (snd (fst (fst (tf2_point_and_derivs g true r s))))) r (cp2 1 x_rr)).
Proof.
  intros A. destruct (tf2_new bulge bulge' None) as [g| |] eqn:E; [|discriminate..].
  specialize (A bulge bulge' g E).
  assert (D : forall k i, (k < 4)%nat -> deriv1_of (nth k bulge zero1) (nth k bulge' zero1) i).
  { intros k i Hk u. destruct k as [|[|[|[|k]]]]; [..|lia]; cbn [nth bulge bulge']; destruct (Nat.eqb i 0);
      dsolve ltac:(fun _ => fail). }
  destruct (tf2_new_inv _ _ _ _ E) as (_ & _ & _ & Eb & Ed & Es & C).
  specialize (A D 0 (-1) (tf2_both tf2_x g 0 (-1)) (tf2_both tf2_dx_dr g 0 (-1)) (tf2_both tf2_dx_ds g 0 (-1)) (0, 0) (0, 0) (tf2_both tf2_d2x_drs_n g 0 (-1))).
  assert (X : derivable_pt_lim (fun r => cp2 1 (snd (fst (fst (tf2_point_and_derivs g true r (-1)))))) 0 0).
  { apply A. unfold tf2_point_and_derivs. rewrite Es. reflexivity. }
  assert (Y : derivable_pt_lim (fun r => cp2 1 (snd (fst (fst (tf2_point_and_derivs g true r (-1)))))) 0 2).
  { unfold tf2_point_and_derivs, cp2, tf2_both; cbn [fst snd Nat.eqb]. unfold tf2_dx_dr, bnd2, drv2. rewrite Eb, Ed.
    cbn [nth bulge bulge' Nat.eqb]. dsolve ltac:(fun _ => fail). }
  pose proof (uniqueness_limite _ _ _ _ X Y). lra.
Qed.

(** * 3D *)
Section Three.
Variables (bnd : list fun2) (drv : list (fun2 * fun2)) (sec : option (list (fun2 * fun2 * fun2))) (g : tf3).
Hypothesis Hnew : tf3_new bnd drv sec = Ok g.
Let Bk k := nth k bnd zero2.
Let Dk k := nth k drv (zero2, zero2).

Lemma tf3_new_inv : length bnd = 6%nat /\ length drv = 6%nat /\
  (forall l, sec = Some l -> length l = 6%nat) /\
  t3_bnd g = bnd /\ t3_drv g = drv /\ t3_sec g = sec /\
  (forall i, crn3 g 0 i = bnd3 g 4 i (-1) (-1) /\ crn3 g 1 i = bnd3 g 4 i 1 (-1) /\
             crn3 g 2 i = bnd3 g 4 i 1 1 /\ crn3 g 3 i = bnd3 g 4 i (-1) 1 /\
             crn3 g 4 i = bnd3 g 5 i (-1) (-1) /\ crn3 g 5 i = bnd3 g 5 i 1 (-1) /\
             crn3 g 6 i = bnd3 g 5 i 1 1 /\ crn3 g 7 i = bnd3 g 5 i (-1) 1).
Proof using Hnew.
  clear Bk Dk. unfold tf3_new in Hnew.
  destruct (Nat.eqb_spec (length bnd) 6); [|discriminate].
  destruct (Nat.eqb_spec (length drv) 6); [|discriminate]. cbn [negb] in Hnew.
  destruct (match sec with Some l => _ | None => _ end) eqn:Es; [discriminate|].
  injection Hnew as <-. splits; auto.
  - intros l ->. destruct (Nat.eqb_spec (length l) 6); auto; discriminate.
  - intros i. splits; reflexivity.
Qed.

Lemma point_on_faces_3d : forall i, share_edges Bk i ->
  forall u v, tf3_x_p g i (-1) u v = Bk 0 i u v /\ tf3_x_p g i 1 u v = Bk 1 i u v /\
              tf3_x_p g i u (-1) v = Bk 2 i u v /\ tf3_x_p g i u 1 v = Bk 3 i u v /\
              tf3_x_p g i u v (-1) = Bk 4 i u v /\ tf3_x_p g i u v 1 = Bk 5 i u v.
Proof using Hnew.
  intros i S u v. destruct tf3_new_inv as (_ & _ & _ & Eb & _ & _ & C).
  destruct (C i) as (C0 & C1 & C2 & C3 & C4 & C5 & C6 & C7).
  unfold tf3_x_p. rewrite C0, C1, C2, C3, C4, C5, C6, C7. unfold bnd3. rewrite Eb.
  change (nth 0 bnd zero2) with (Bk 0). change (nth 1 bnd zero2) with (Bk 1). change (nth 2 bnd zero2) with (Bk 2).
  change (nth 3 bnd zero2) with (Bk 3). change (nth 4 bnd zero2) with (Bk 4). change (nth 5 bnd zero2) with (Bk 5).
  clearbody Bk.
  destruct S as (S1 & S2 & S3 & S4 & S5 & S6 & S7 & S8 & S9 & S10 & S11 & S12).
  splits; repeat (rewrite ?S1, ?S2, ?S3, ?S4, ?S5, ?S6, ?S7, ?S8, ?S9, ?S10, ?S11, ?S12); try field.
Qed.
Section D1.
Variable i : nat.
Hypothesis HD : forall k, (k < 6)%nat -> partials_of (Bk k) (fst (Dk k)) (snd (Dk k)) i.

Lemma D3a k v : (k < 6)%nat -> forall u, derivable_pt_lim (fun u => bnd3 g k i u v) u (drv3a g k i u v).
Proof using Hnew HD.
  intros Hk u. destruct tf3_new_inv as (_ & _ & _ & Eb & Ed & _). unfold bnd3, drv3a. rewrite Eb, Ed. now apply HD.
Qed.
Lemma D3b k u : (k < 6)%nat -> forall v, derivable_pt_lim (fun v => bnd3 g k i u v) v (drv3b g k i u v).
Proof using Hnew HD.
  intros Hk v. destruct tf3_new_inv as (_ & _ & _ & Eb & Ed & _). unfold bnd3, drv3b. rewrite Eb, Ed. now apply HD.
Qed.

Ltac leaf3 _ := cbv beta; match goal with
  | |- derivable_pt_lim (fun u => bnd3 g ?k i u ?v) _ _ => apply (D3a k v); lia
  | |- derivable_pt_lim (fun v => bnd3 g ?k i ?u v) _ _ => apply (D3b k u); lia
  | |- derivable_pt_lim (bnd3 g ?k i ?u) _ _ => apply (D3b k u); lia end.

Lemma first_derivatives_3d : forall r s t,
  derivable_pt_lim (fun r => tf3_x_p g i r s t) r (tf3_dx_dr g i r s t) /\
  derivable_pt_lim (fun s => tf3_x_p g i r s t) s (tf3_dx_ds g i r s t) /\
  derivable_pt_lim (fun t => tf3_x_p g i r s t) t (tf3_dx_dt g i r s t).
Proof using Hnew HD.
  intros r s t. unfold tf3_x_p, tf3_dx_dr, tf3_dx_ds, tf3_dx_dt. splits; dsolve leaf3.
Qed.

Section D2.
Variable l : list (fun2 * fun2 * fun2).
Hypothesis Hsec : sec = Some l.
Let Sk k := nth k l (zero2, zero2, zero2).
Hypothesis HD2 : forall k, (k < 6)%nat ->
  partials_of (fst (Dk k)) (fst (fst (Sk k))) (snd (Sk k)) i /\
  partials_of (snd (Dk k)) (snd (Sk k)) (snd (fst (Sk k))) i.

Lemma DD3aa k v : (k < 6)%nat -> forall u, derivable_pt_lim (fun u => drv3a g k i u v) u (sec3aa g k i u v).
Proof using Hnew HD2 Hsec.
  intros Hk u. destruct tf3_new_inv as (_ & _ & _ & _ & Ed & Es & _). unfold drv3a, sec3aa, sec3.
  rewrite Ed, Es, Hsec. now apply HD2.
Qed.
Lemma DD3ab k u : (k < 6)%nat -> forall v, derivable_pt_lim (fun v => drv3a g k i u v) v (sec3ab g k i u v).
Proof using Hnew HD2 Hsec.
  intros Hk v. destruct tf3_new_inv as (_ & _ & _ & _ & Ed & Es & _). unfold drv3a, sec3ab, sec3.
  rewrite Ed, Es, Hsec. now apply HD2.
Qed.
Lemma DD3ba k v : (k < 6)%nat -> forall u, derivable_pt_lim (fun u => drv3b g k i u v) u (sec3ab g k i u v).
Proof using Hnew HD2 Hsec.
  intros Hk u. destruct tf3_new_inv as (_ & _ & _ & _ & Ed & Es & _). unfold drv3b, sec3ab, sec3.
  rewrite Ed, Es, Hsec. now apply HD2.
Qed.
Lemma DD3bb k u : (k < 6)%nat -> forall v, derivable_pt_lim (fun v => drv3b g k i u v) v (sec3bb g k i u v).
Proof using Hnew HD2 Hsec.
  intros Hk v. destruct tf3_new_inv as (_ & _ & _ & _ & Ed & Es & _). unfold drv3b, sec3bb, sec3.
  rewrite Ed, Es, Hsec. now apply HD2.
Qed.

Ltac leaf33 _ := cbv beta; match goal with
  | |- derivable_pt_lim (fun u => bnd3 g ?k i u ?v) _ _ => apply (D3a k v); lia
  | |- derivable_pt_lim (fun v => bnd3 g ?k i ?u v) _ _ => apply (D3b k u); lia
  | |- derivable_pt_lim (bnd3 g ?k i ?u) _ _ => apply (D3b k u); lia
  | |- derivable_pt_lim (fun u => drv3a g ?k i u ?v) _ _ => apply (DD3aa k v); lia
  | |- derivable_pt_lim (fun v => drv3a g ?k i ?u v) _ _ => apply (DD3ab k u); lia
  | |- derivable_pt_lim (drv3a g ?k i ?u) _ _ => apply (DD3ab k u); lia
  | |- derivable_pt_lim (fun u => drv3b g ?k i u ?v) _ _ => apply (DD3ba k v); lia
  | |- derivable_pt_lim (fun v => drv3b g ?k i ?u v) _ _ => apply (DD3bb k u); lia
  | |- derivable_pt_lim (drv3b g ?k i ?u) _ _ => apply (DD3bb k u); lia end.

Lemma second_derivatives_3d : forall r s t,
  (derivable_pt_lim (fun r => tf3_dx_dr g i r s t) r (tf3_d2x_dr2 g i r s t) /\
   derivable_pt_lim (fun s => tf3_dx_ds g i r s t) s (tf3_d2x_ds2 g i r s t) /\
   derivable_pt_lim (fun t => tf3_dx_dt g i r s t) t (tf3_d2x_dt2 g i r s t)) /\
  (derivable_pt_lim (fun s => tf3_dx_dr g i r s t) s (tf3_d2x_drs g i r s t) /\
   derivable_pt_lim (fun r => tf3_dx_ds g i r s t) r (tf3_d2x_drs g i r s t)) /\
  (derivable_pt_lim (fun t => tf3_dx_dr g i r s t) t (tf3_d2x_drt g i r s t) /\
   derivable_pt_lim (fun r => tf3_dx_dt g i r s t) r (tf3_d2x_drt g i r s t)) /\
  (derivable_pt_lim (fun t => tf3_dx_ds g i r s t) t (tf3_d2x_dst g i r s t) /\
   derivable_pt_lim (fun s => tf3_dx_dt g i r s t) s (tf3_d2x_dst g i r s t)).
Proof using Hnew HD HD2 Hsec.
  intros r s t. unfold tf3_dx_dr, tf3_dx_ds, tf3_dx_dt.
  splits.
  - unfold tf3_d2x_dr2. dsolve leaf33.
  - unfold tf3_d2x_ds2. dsolve leaf33.
  - unfold tf3_d2x_dt2. dsolve leaf33.
  - unfold tf3_d2x_drs. dsolve leaf33.
  - unfold tf3_d2x_drs. dsolve leaf33.
  - unfold tf3_d2x_drt. dsolve leaf33.
  - unfold tf3_d2x_drt. dsolve leaf33.
  - unfold tf3_d2x_dst. dsolve leaf33.
  - unfold tf3_d2x_dst. dsolve leaf33.
Qed.
End D2.
End D1.
End Three.

(** on the six faces `point` reproduces the six surfaces exactly when they agree along the twelve edges *)
Theorem C48_point_on_faces_3d : forall bnd drv sec g, tf3_new bnd drv sec = Ok g -> forall i, (i < 3)%nat ->
  (share_edges (fun k => nth k bnd zero2) i <->
   forall u v, cp3 i (tf3_point g (-1) u v) = nth 0 bnd zero2 i u v /\ cp3 i (tf3_point g 1 u v) = nth 1 bnd zero2 i u v /\
               cp3 i (tf3_point g u (-1) v) = nth 2 bnd zero2 i u v /\ cp3 i (tf3_point g u 1 v) = nth 3 bnd zero2 i u v /\
               cp3 i (tf3_point g u v (-1)) = nth 4 bnd zero2 i u v /\ cp3 i (tf3_point g u v 1) = nth 5 bnd zero2 i u v).
Proof.
  intros bnd drv sec g H i Hi.
  assert (C : forall r s t, cp3 i (tf3_point g r s t) = tf3_x_p g i r s t).
  { intros. assert (i = 0 \/ i = 1 \/ i = 2)%nat as [-> | [-> | ->]] by lia; reflexivity. }
  split.
  - intros S u v. rewrite !C. apply (point_on_faces_3d bnd drv sec g H i S).
  - intros A. unfold share_edges. splits; intros w.
    + destruct (A (-1) w) as (<- & _ & <- & _). reflexivity.
    + destruct (A (-1) w) as (_ & _ & _ & <- & _). destruct (A 1 w) as (<- & _). reflexivity.
    + destruct (A 1 w) as (_ & _ & <- & _). destruct (A (-1) w) as (_ & <- & _). reflexivity.
    + destruct (A 1 w) as (_ & <- & _ & <- & _). reflexivity.
    + destruct (A (-1) w) as (_ & _ & _ & _ & <- & _). destruct (A w (-1)) as (<- & _). reflexivity.
    + destruct (A (-1) w) as (_ & _ & _ & _ & _ & <-). destruct (A w 1) as (<- & _). reflexivity.
    + destruct (A 1 w) as (_ & _ & _ & _ & <- & _). destruct (A w (-1)) as (_ & <- & _). reflexivity.
    + destruct (A 1 w) as (_ & _ & _ & _ & _ & <-). destruct (A w 1) as (_ & <- & _). reflexivity.
    + destruct (A w (-1)) as (_ & _ & <- & _ & <- & _). reflexivity.
    + destruct (A w (-1)) as (_ & _ & _ & _ & _ & <-). destruct (A w 1) as (_ & _ & <- & _). reflexivity.
    + destruct (A w 1) as (_ & _ & _ & _ & <- & _). destruct (A w (-1)) as (_ & _ & _ & <- & _). reflexivity.
    + destruct (A w 1) as (_ & _ & _ & <- & _ & <-). reflexivity.
Qed.

Lemma dext f h a b : (forall y, h y = f y) -> derivable_pt_lim f a b -> derivable_pt_lim h a b.
Proof.
  intros E D eps He. destruct (D eps He) as (d & Hd). exists d. intros k Hk Hk'. rewrite !E. auto.
Qed.

Theorem C48_derivatives_3d : forall bnd drv sec g, tf3_new bnd drv sec = Ok g -> forall i, (i < 3)%nat ->
  (forall k, (k < 6)%nat -> partials_of (nth k bnd zero2) (fst (nth k drv (zero2, zero2))) (snd (nth k drv (zero2, zero2))) i) ->
  forall want, let out r s t := tf3_point_and_derivs g want r s t in
  let x r s t := fst (fst (fst (fst (out r s t)))) in
  let x_r r s t := snd (fst (fst (fst (out r s t)))) in
  let x_s r s t := snd (fst (fst (out r s t))) in
  let x_t r s t := snd (fst (out r s t)) in
  forall r s t,
  x r s t = tf3_point g r s t /\
  derivable_pt_lim (fun r => cp3 i (x r s t)) r (cp3 i (x_r r s t)) /\
  derivable_pt_lim (fun s => cp3 i (x r s t)) s (cp3 i (x_s r s t)) /\
  derivable_pt_lim (fun t => cp3 i (x r s t)) t (cp3 i (x_t r s t)) /\
  match snd (out r s t) with
  | None => want = false
  | Some d =>
      want = true /\
      forall l, sec = Some l -> (forall k, (k < 6)%nat ->
          let '(aa, bb, ab) := nth k l (zero2, zero2, zero2) in
          partials_of (fst (nth k drv (zero2, zero2))) aa ab i /\ partials_of (snd (nth k drv (zero2, zero2))) ab bb i) ->
        derivable_pt_lim (fun r => cp3 i (x_r r s t)) r (cp3 i (s_rr d)) /\
        derivable_pt_lim (fun s => cp3 i (x_s r s t)) s (cp3 i (s_ss d)) /\
        derivable_pt_lim (fun t => cp3 i (x_t r s t)) t (cp3 i (s_tt d)) /\
        derivable_pt_lim (fun s => cp3 i (x_r r s t)) s (cp3 i (s_rs d)) /\
        derivable_pt_lim (fun r => cp3 i (x_s r s t)) r (cp3 i (s_rs d)) /\
        derivable_pt_lim (fun t => cp3 i (x_r r s t)) t (cp3 i (s_rt d)) /\
        derivable_pt_lim (fun r => cp3 i (x_t r s t)) r (cp3 i (s_rt d)) /\
        derivable_pt_lim (fun t => cp3 i (x_s r s t)) t (cp3 i (s_st d)) /\
        derivable_pt_lim (fun s => cp3 i (x_t r s t)) s (cp3 i (s_st d))
  end.
Proof.
  intros bnd drv sec g H i Hi HD want out x x_r x_s x_t r s t.
  destruct (tf3_new_inv bnd drv sec g H) as (_ & _ & _ & _ & _ & Es & _).
  destruct (first_derivatives_3d bnd drv sec g H i HD r s t) as (F1 & F2 & F3).
  pose proof (second_derivatives_3d bnd drv sec g H i HD) as S.
  split; [reflexivity|].
  assert (C : forall f r s t, cp3 i (tf3_all f g r s t) = f g i r s t).
  { intros f r' s' t'. assert (i = 0 \/ i = 1 \/ i = 2)%nat as [-> | [-> | ->]] by lia; reflexivity. }
  assert (X : forall r s t, cp3 i (x r s t) = tf3_x_p g i r s t) by (intros; apply (C tf3_x)).
  assert (XR : forall r s t, cp3 i (x_r r s t) = tf3_dx_dr g i r s t) by (intros; apply C).
  assert (XS : forall r s t, cp3 i (x_s r s t) = tf3_dx_ds g i r s t) by (intros; apply C).
  assert (XT : forall r s t, cp3 i (x_t r s t) = tf3_dx_dt g i r s t) by (intros; apply C).
  split; [|split; [|split]].
  - rewrite XR. eapply dext; [|exact F1]. intros y. apply X.
  - rewrite XS. eapply dext; [|exact F2]. intros y. apply X.
  - rewrite XT. eapply dext; [|exact F3]. intros y. apply X.
  - unfold out, tf3_point_and_derivs. cbn [snd]. destruct want; [|reflexivity]. rewrite Es.
    destruct sec as [l|]; (split; [reflexivity|]); intros l' El; [injection El as <-|discriminate]. intros HD2.
    cbn [s_rr s_ss s_tt s_rs s_rt s_st]. rewrite !C.
    destruct (S l eq_refl) with (r := r) (s := s) (t := t) as ((S1 & S2 & S3) & (S4 & S5) & (S6 & S7) & (S8 & S9)).
    { intros k Hk. specialize (HD2 k Hk). destruct (nth k l (zero2, zero2, zero2)) as ((aa & bb) & ab). exact HD2. }
    splits; (eapply dext; [|eassumption]); intros y; cbv beta; auto.
Qed.

Lemma both_ext f h g g' r s : (forall i, f g i r s = h g' i r s) -> tf2_both f g r s = tf2_both h g' r s.
Proof. intros E. unfold tf2_both. now rewrite !E. Qed.
Lemma all_ext f h g g' r s t : (forall i, f g i r s t = h g' i r s t) -> tf3_all f g r s t = tf3_all h g' r s t.
Proof. intros E. unfold tf3_all. now rewrite !E. Qed.

(** leaving out the second derivatives of the curves (faces) is the same as supplying zero functions *)
Theorem C48_none_means_zero : 
  (forall bnd drv g g0, tf2_new bnd drv None = Ok g -> tf2_new bnd drv (Some (repeat zero1 4)) = Ok g0 ->
     forall r s, tf2_point_and_derivs g true r s = tf2_point_and_derivs g0 true r s) /\
  (forall bnd drv g g0, tf3_new bnd drv None = Ok g -> tf3_new bnd drv (Some (repeat (zero2, zero2, zero2) 6)) = Ok g0 ->
     forall r s t, tf3_point_and_derivs g true r s t = tf3_point_and_derivs g0 true r s t).
Proof.
  split.
  - intros bnd drv g g0 H H0 r s. unfold tf2_new in *.
    destruct (negb (length bnd =? 4)); [discriminate|]. destruct (negb (length drv =? 4)); [discriminate|].
    injection H as <-. cbn in H0. injection H0 as <-.
    unfold tf2_point_and_derivs. cbn [t2_sec]. do 4 f_equal.
    + apply both_ext. intros i.
      unfold tf2_d2x_dr2_n, tf2_d2x_dr2, sec2; cbn [t2_sec repeat nth]. unfold zero1. lra.
    + apply both_ext. intros i.
      unfold tf2_d2x_ds2_n, tf2_d2x_ds2, sec2; cbn [t2_sec repeat nth]. unfold zero1. lra.
  - intros bnd drv g g0 H H0 r s t. unfold tf3_new in *.
    destruct (negb (length bnd =? 6)); [discriminate|]. destruct (negb (length drv =? 6)); [discriminate|].
    injection H as <-. cbn in H0. injection H0 as <-.
    unfold tf3_point_and_derivs. cbn [t3_sec]. f_equal. f_equal. f_equal.
    + apply all_ext. intros i.
      unfold tf3_d2x_dr2_n, tf3_d2x_dr2, sec3aa, sec3bb, sec3ab, sec3; cbn [t3_sec repeat nth fst snd]. unfold zero2. lra.
    + apply all_ext. intros i.
      unfold tf3_d2x_ds2_n, tf3_d2x_ds2, sec3aa, sec3bb, sec3ab, sec3; cbn [t3_sec repeat nth fst snd]. unfold zero2. lra.
    + apply all_ext. intros i.
      unfold tf3_d2x_dt2_n, tf3_d2x_dt2, sec3aa, sec3bb, sec3ab, sec3; cbn [t3_sec repeat nth fst snd]. unfold zero2. lra.
    + apply all_ext. intros i.
      unfold tf3_d2x_drs_n, tf3_d2x_drs, sec3aa, sec3bb, sec3ab, sec3; cbn [t3_sec repeat nth fst snd]. unfold zero2, bnd3, drv3a, drv3b, crn3; cbn [t3_bnd t3_drv t3_crn nth]. lra.
    + apply all_ext. intros i.
      unfold tf3_d2x_drt_n, tf3_d2x_drt, sec3aa, sec3bb, sec3ab, sec3; cbn [t3_sec repeat nth fst snd]. unfold zero2, bnd3, drv3a, drv3b, crn3; cbn [t3_bnd t3_drv t3_crn nth]. lra.
    + apply all_ext. intros i.
      unfold tf3_d2x_dst_n, tf3_d2x_dst, sec3aa, sec3bb, sec3ab, sec3; cbn [t3_sec repeat nth fst snd]. unfold zero2, bnd3, drv3a, drv3b, crn3; cbn [t3_bnd t3_drv t3_crn nth]. lra.
Qed.

(** * Triangulation *)

(** reference stations of one direction: n values from -1 to 1, increasing *)
Definition good_stations (n : nat) (k : list R) : Prop :=
  length k = n /\ nth 0 k 0 = -1 /\ nth (n - 1) k 0 = 1 /\
  forall i, (i + 1 < n)%nat -> nth i k 0 < nth (i + 1) k 0.

Theorem C48_stations : forall n cgl, (2 <= n)%nat -> exists k, tf2_stations n cgl = Ok k /\ good_stations n k.
Proof.
  intros n cgl Hn. unfold tf2_stations. destruct cgl.
  - rewrite usub_ok by lia. cbn [bind]. destruct (C29_lobatto_points (n - 1)) as (xx & E & L & _); [lia|].
    exists xx. split; auto. destruct (C29_lobatto_sorted (n - 1) xx ltac:(lia) E) as (A & B & I & _).
    unfold good_stations. splits; auto; [lia|]. intros i Hi. replace (i + 1)%nat with (S i) by lia. apply I. lia.
  - destruct (C16_linspace_R (-1) 1 n) as (r & E & L & A & B & I). rewrite E. exists r. split; [reflexivity|].
    unfold good_stations. splits; auto; [apply A; lia|]. intros i Hi. specialize (I i Hi).
    assert (0 < (1 - -1) / INR (n - 1)).
    { apply Rmult_lt_0_compat; [lra|]. apply Rinv_0_lt_compat. apply (lt_INR 0). lia. }
    lra.
Qed.

Definition tri_row (nr j : nat) (n : nat) : list (list nat) :=
  flat_map (fun i => if andb (0 <? i)%nat (0 <? j)%nat
                     then [[i + j * nr - nr - 1; i + j * nr - nr; i + j * nr];
                           [i + j * nr - nr - 1; i + j * nr; i + j * nr - 1]]%nat else []) (seq 0 n).

Lemma triangulate_closed g nr ns cr cs : (2 <= nr)%nat -> (2 <= ns)%nat ->
  exists ksi eta, tf2_stations nr cr = Ok ksi /\ tf2_stations ns cs = Ok eta /\ good_stations nr ksi /\ good_stations ns eta /\
  tf2_triangulate g nr ns cr cs =
    Ok (flat_map (fun j => map (fun i => fst (tf2_point g (nth i ksi 0) (nth j eta 0))) (seq 0 nr)) (seq 0 ns),
        flat_map (fun j => map (fun i => snd (tf2_point g (nth i ksi 0) (nth j eta 0))) (seq 0 nr)) (seq 0 ns),
        flat_map (fun j => tri_row nr j nr) (seq 0 ns)).
Proof.
  intros Hr Hs. destruct (C48_stations nr cr Hr) as (ksi & Ek & Gk). destruct (C48_stations ns cs Hs) as (eta & Ee & Ge).
  exists ksi, eta. splits; auto. unfold tf2_triangulate.
  destruct (Nat.leb_spec 2 nr); [|lia]. destruct (Nat.leb_spec 2 ns); [|lia]. cbn [assert_ bind]. rewrite Ek, Ee. cbn [bind].
  set (PX := fun j => map (fun i => fst (tf2_point g (nth i ksi 0) (nth j eta 0)))).
  set (PY := fun j => map (fun i => snd (tf2_point g (nth i ksi 0) (nth j eta 0)))).
  assert (SN : forall n, seq 0 (S n) = seq 0 n ++ [n]) by (intros; apply (seq_S n 0)).
  match goal with |- for_range 0 ns ?f ?s0 = _ =>
    destruct (for_range_inv (fun j st => st = (flat_map (fun j => PX j (seq 0 nr)) (seq 0 j),
       flat_map (fun j => PY j (seq 0 nr)) (seq 0 j), flat_map (fun j => tri_row nr j nr) (seq 0 j))) f 0 ns s0)
      as (st & E & V) end.
  - lia.
  - reflexivity.
  - intros j st Hj ->. rewrite (vget_ok eta j 0) by (destruct Ge as (-> & _); lia). cbn [bind].
    match goal with |- context [for_range 0 nr ?f ?s0] =>
      destruct (for_range_inv (fun i st => st = (flat_map (fun j => PX j (seq 0 nr)) (seq 0 j) ++ PX j (seq 0 i),
         flat_map (fun j => PY j (seq 0 nr)) (seq 0 j) ++ PY j (seq 0 i),
         flat_map (fun j => tri_row nr j nr) (seq 0 j) ++ tri_row nr j i)) f 0 nr s0) as (st & E & V) end.
    + lia.
    + unfold PX, PY, tri_row. cbn [seq map flat_map]. now rewrite !app_nil_r.
    + intros i st Hi ->. cbn beta iota. rewrite (vget_ok ksi i 0) by (destruct Gk as (-> & _); lia). cbn [bind].
      destruct (tf2_point g (nth i ksi 0) (nth j eta 0)) as (a & b) eqn:Ep. eexists. split.
      2:{ unfold PX, PY, tri_row. rewrite SN, !map_app, flat_map_app, !app_assoc. cbn [map flat_map]. rewrite Ep, app_nil_r. cbn [fst snd].
          reflexivity. }
      fold (tri_row nr j i). fold PX PY.
      destruct (andb (0 <? i)%nat (0 <? j)%nat) eqn:Eb.
      * apply andb_true_iff in Eb. destruct Eb as (B1 & B2). apply Nat.ltb_lt in B1, B2.
        assert (nr <= j * nr)%nat by nia.
        rewrite usub_ok by lia. cbn [bind]. rewrite usub_ok by lia. cbn [bind]. rewrite usub_ok by lia. cbn [bind].
        unfold PX, PY. rewrite <- !app_assoc. reflexivity.
      * unfold PX, PY. rewrite app_nil_r. reflexivity.
    + rewrite E. eexists. split; [reflexivity|]. rewrite V, SN, !flat_map_app. cbn [flat_map]. now rewrite !app_nil_r.
  - rewrite E, V. reflexivity.
Qed.

Lemma grid_len {A} (f : nat -> nat -> A) nr ns : length (flat_map (fun j => map (f j) (seq 0 nr)) (seq 0 ns)) = (nr * ns)%nat.
Proof.
  rewrite Nat.mul_comm. induction ns as [|n IH]; [reflexivity|].
  rewrite (seq_S n 0), flat_map_app, app_length, IH. cbn [flat_map]. rewrite app_nil_r, map_length, seq_length. lia.
Qed.

Lemma grid_nth {A} (f : nat -> nat -> A) nr ns i j d : (i < nr)%nat -> (j < ns)%nat ->
  nth (i + j * nr) (flat_map (fun j => map (f j) (seq 0 nr)) (seq 0 ns)) d = f j i.
Proof.
  intros Hi. induction ns as [|n IH]; intros Hj; [lia|].
  rewrite (seq_S n 0), flat_map_app. cbn [flat_map]. rewrite app_nil_r. cbn [Nat.add].
  destruct (Nat.eq_dec j n) as [->|].
  - rewrite app_nth2; rewrite grid_len; [|nia].
    replace (i + n * nr - nr * n)%nat with i by nia.
    rewrite (nth_indep _ d (f n 0%nat)) by (rewrite map_length, seq_length; lia).
    rewrite (map_nth (f n)). rewrite seq_nth by lia. reflexivity.
  - rewrite app_nth1; [apply IH; lia|]. rewrite grid_len. nia.
Qed.

Lemma NoDup_flat_map {A B} (f : A -> list B) l : NoDup l -> (forall a, In a l -> NoDup (f a)) ->
  (forall a b x, In a l -> In b l -> In x (f a) -> In x (f b) -> a = b) -> NoDup (flat_map f l).
Proof.
  induction l as [|a l IH]; intros Hn Hf Hd; cbn [flat_map]; [constructor|].
  inversion Hn as [|? ? Hna Hnl]; subst.
  assert (G : forall p q : list B, NoDup p -> NoDup q -> (forall x, In x p -> ~ In x q) -> NoDup (p ++ q)).
  { clear. induction p as [|x p IH]; intros q Hp Hq H; cbn; auto. inversion Hp; subst. constructor.
    - rewrite in_app_iff. intros [|]; [auto|]. apply (H x); cbn; auto.
    - apply IH; auto. intros y Hy. apply H. now right. }
  apply G.
  - apply Hf. now left.
  - apply IH; auto. { intros; apply Hf; now right. } intros b c x Hb Hc. apply Hd; now right.
  - intros x Hx Hc. apply in_flat_map in Hc. destruct Hc as (b & Hb & Hxb).
    assert (a = b) by (apply (Hd a b x); auto; [now left|now right]). subst. contradiction.
Qed.

(** every cell (i,j) of the grid is cut along its diagonal into two triangles, and there are no others;
    vertex i + j*nr is the image of the reference point (ksi_i, eta_j) *)
Theorem C48_triangulate : forall g nr ns cr cs, (2 <= nr)%nat -> (2 <= ns)%nat ->
  exists ksi eta xx yy tri,
  good_stations nr ksi /\ good_stations ns eta /\
  tf2_stations nr cr = Ok ksi /\ tf2_stations ns cs = Ok eta /\
  tf2_triangulate g nr ns cr cs = Ok (xx, yy, tri) /\
  length xx = (nr * ns)%nat /\ length yy = (nr * ns)%nat /\ length tri = ((nr - 1) * (ns - 1) * 2)%nat /\
  (forall i j, (i < nr)%nat -> (j < ns)%nat ->
     (nth (i + j * nr) xx 0, nth (i + j * nr) yy 0) = tf2_point g (nth i ksi 0) (nth j eta 0)) /\
  (forall tr, In tr tri <-> exists i j, (i + 1 < nr)%nat /\ (j + 1 < ns)%nat /\
     (tr = [i + j * nr; (i + 1) + j * nr; (i + 1) + (j + 1) * nr]%nat \/
      tr = [i + j * nr; (i + 1) + (j + 1) * nr; i + (j + 1) * nr]%nat)) /\
  NoDup tri.
Proof.
  intros g nr ns cr cs Hr Hs. destruct (triangulate_closed g nr ns cr cs Hr Hs) as (ksi & eta & Ek & Ee & Gk & Ge & E).
  exists ksi, eta. do 3 eexists. splits; [exact Gk|exact Ge|exact Ek|exact Ee|exact E|..].
  - apply grid_len.
  - apply grid_len.
  - clear E.
    assert (R0 : forall n, length (tri_row nr 0 n) = 0%nat).
    { intros n. unfold tri_row. induction (seq 0 n) as [|i q IH]; [reflexivity|]. cbn [flat_map].
      rewrite andb_false_r. exact IH. }
    assert (R1 : forall j n, (0 < j)%nat -> length (tri_row nr j n) = ((n - 1) * 2)%nat).
    { intros j n Hj. unfold tri_row. induction n as [|n IH]; [reflexivity|].
      rewrite (seq_S n 0), flat_map_app, app_length, IH. cbn [flat_map]. rewrite app_nil_r. cbn [Nat.add].
      destruct (Nat.ltb_spec 0 j); [|lia]. destruct (Nat.ltb_spec 0 n); cbn [andb length]; lia. }
    assert (G : forall n, length (flat_map (fun j => tri_row nr j nr) (seq 0 n)) = ((nr - 1) * (n - 1) * 2)%nat).
    { induction n as [|n IH]; [cbn; lia|]. rewrite (seq_S n 0), flat_map_app, app_length, IH. cbn [flat_map]. rewrite app_nil_r.
      cbn [Nat.add]. destruct n; [rewrite R0; lia|]. rewrite R1 by lia. nia. }
    apply G.
  - intros i j Hi Hj. rewrite (grid_nth (fun j i => fst (tf2_point g (nth i ksi 0) (nth j eta 0)))) by auto.
    rewrite (grid_nth (fun j i => snd (tf2_point g (nth i ksi 0) (nth j eta 0)))) by auto.
    symmetry. apply surjective_pairing.
  - intros tr. rewrite in_flat_map. split.
    + intros (j & Hj & Ht). unfold tri_row in Ht. apply in_flat_map in Ht. destruct Ht as (i & Hi & Ht).
      apply in_seq in Hi, Hj. destruct (Nat.ltb_spec 0 i); [|contradiction]. destruct (Nat.ltb_spec 0 j); [|contradiction].
      cbn [andb] in Ht. exists (i - 1)%nat, (j - 1)%nat. split; [lia|]. split; [lia|].
      replace (i - 1 + 1)%nat with i by lia. replace (j - 1 + 1)%nat with j by lia.
      assert (Q : ((j - 1) * nr = j * nr - nr)%nat) by (rewrite Nat.mul_sub_distr_r; lia).
      assert (nr <= j * nr)%nat by nia.
      destruct Ht as [<-|[<-|[]]]; [left|right]; rewrite ?Q; repeat (f_equal; try lia).
    + intros (i & j & Hi & Hj & Ht). exists (j + 1)%nat. split; [apply in_seq; lia|].
      unfold tri_row. apply in_flat_map. exists (i + 1)%nat. split; [apply in_seq; lia|].
      destruct (Nat.ltb_spec 0 (i + 1)); [|lia]. destruct (Nat.ltb_spec 0 (j + 1)); [|lia]. cbn [andb].
      assert (Q : ((j + 1) * nr = j * nr + nr)%nat) by lia.
      destruct Ht as [->| ->]; [left|right;left]; rewrite ?Q; repeat (f_equal; try lia).
  - clear E. apply NoDup_flat_map; [apply seq_NoDup|..].
    + intros j Hj. apply in_seq in Hj. apply NoDup_flat_map; [apply seq_NoDup|..].
      * intros i Hi. apply in_seq in Hi. destruct (Nat.ltb_spec 0 i); [|constructor]. destruct (Nat.ltb_spec 0 j); [|constructor].
        cbn [andb]. assert (nr <= j * nr)%nat by nia. constructor; [|constructor; [intros []|constructor]].
        intros [C|[]]. injection C as C1 C2. lia.
      * intros a b x Ha Hb. apply in_seq in Ha, Hb.
        destruct (Nat.ltb_spec 0 a); [|intros []]. destruct (Nat.ltb_spec 0 j); [|intros []].
        destruct (Nat.ltb_spec 0 b); [|intros _ []]. cbn [andb]. assert (nr <= j * nr)%nat by nia.
        intros [<-|[<-|[]]] [C|[C|[]]]; injection C as C1 C2 C3; lia.
    + intros j j' x Hj Hj' H1 H2. unfold tri_row in *. apply in_flat_map in H1, H2.
      destruct H1 as (a & Ha & H1). destruct H2 as (b & Hb & H2). apply in_seq in Ha, Hb, Hj, Hj'.
      destruct (Nat.ltb_spec 0 a); [|contradiction]. destruct (Nat.ltb_spec 0 j); [|contradiction].
      destruct (Nat.ltb_spec 0 b); [|contradiction]. destruct (Nat.ltb_spec 0 j'); [|contradiction]. cbn [andb] in H1, H2.
      assert (nr <= j * nr)%nat by nia. assert (nr <= j' * nr)%nat by nia.
      assert (Q : (a + j * nr = b + j' * nr)%nat).
      { destruct H1 as [<-|[<-|[]]]; destruct H2 as [C|[C|[]]]; injection C as C1 C2 C3; lia. }
      nia.
Qed.

(** indices in range and pairwise different; in the reference square each triangle has positive area (its
    vertices run counter-clockwise) and the triangles cover the square *)
Theorem C48_triangles_cover : forall g nr ns cr cs xx yy tri, (2 <= nr)%nat -> (2 <= ns)%nat ->
  tf2_triangulate g nr ns cr cs = Ok (xx, yy, tri) ->
  exists ksi eta, tf2_stations nr cr = Ok ksi /\ tf2_stations ns cs = Ok eta /\
  let P v := (nth (v mod nr) ksi 0, nth (v / nr) eta 0) in
  (forall tr, In tr tri -> exists a b c, tr = [a; b; c] /\ (a < nr * ns)%nat /\ (b < nr * ns)%nat /\ (c < nr * ns)%nat /\
      a <> b /\ b <> c /\ a <> c /\
      0 < (fst (P b) - fst (P a)) * (snd (P c) - snd (P a)) - (fst (P c) - fst (P a)) * (snd (P b) - snd (P a))) /\
  (forall r s, -1 <= r <= 1 -> -1 <= s <= 1 ->
     exists a b c wa wb wc, In [a; b; c] tri /\ 0 <= wa /\ 0 <= wb /\ 0 <= wc /\ wa + wb + wc = 1 /\
       r = wa * fst (P a) + wb * fst (P b) + wc * fst (P c) /\
       s = wa * snd (P a) + wb * snd (P b) + wc * snd (P c)).
Proof.
  intros g nr ns cr cs xx yy tri Hr Hs E.
  destruct (C48_triangulate g nr ns cr cs Hr Hs) as (ksi & eta & xx' & yy' & tri' & Gk & Ge & Ek & Ee & E' & _ & _ & _ & _ & T & _).
  rewrite E in E'. injection E' as <- <- <-. exists ksi, eta. split; [auto|]. split; [auto|]. intros P.
  assert (PV : forall i j, (i < nr)%nat -> P (i + j * nr)%nat = (nth i ksi 0, nth j eta 0)).
  { intros i j Hi. unfold P. rewrite Nat.mod_add by lia. rewrite Nat.div_add by lia.
    rewrite Nat.mod_small, Nat.div_small by lia. reflexivity. }
  destruct Gk as (Lk & K0 & K1 & KI). destruct Ge as (Le & T0 & T1 & TI).
  split.
  - intros tr H. apply T in H. destruct H as (i & j & Hi & Hj & [->| ->]).
    + do 3 eexists. split; [reflexivity|]. rewrite !PV by lia. cbn [fst snd].
      specialize (KI i Hi). specialize (TI j Hj). splits; try nia.
      match goal with |- 0 < ?e => replace e with ((nth (i + 1) ksi 0 - nth i ksi 0) * (nth (j + 1) eta 0 - nth j eta 0)) by ring end.
      apply Rmult_lt_0_compat; lra.
    + do 3 eexists. split; [reflexivity|]. rewrite !PV by lia. cbn [fst snd].
      specialize (KI i Hi). specialize (TI j Hj). splits; try nia.
      match goal with |- 0 < ?e => replace e with ((nth (i + 1) ksi 0 - nth i ksi 0) * (nth (j + 1) eta 0 - nth j eta 0)) by ring end.
      apply Rmult_lt_0_compat; lra.
  - assert (LOC : forall n k, (2 <= n)%nat -> nth 0 k 0 = -1 -> nth (n - 1) k 0 = 1 -> forall r, -1 <= r <= 1 ->
             exists i, (i + 1 < n)%nat /\ nth i k 0 <= r <= nth (i + 1) k 0).
    { clear. intros n k Hn A B r Hr.
      assert (G : forall m, (1 <= m)%nat -> r <= nth m k 0 -> exists i, (i < m)%nat /\ nth i k 0 <= r <= nth (i + 1) k 0).
      { induction m as [|m IH]; intros Hm H; [lia|].
        destruct (Rle_dec (nth m k 0) r).
        - exists m. split; [lia|]. replace (m + 1)%nat with (S m) by lia. lra.
        - destruct m; [rewrite A in n0; lra|]. destruct IH as (i & Hi & Hi'); [lia|lra|]. exists i. split; [lia|auto]. }
      destruct (G (n - 1)%nat) as (i & Hi & H); [lia|lra|]. exists i. split; [lia|auto]. }
    intros r s Hr' Hs'. destruct (LOC nr ksi Hr K0 K1 r Hr') as (i & Hi & Bi). destruct (LOC ns eta Hs T0 T1 s Hs') as (j & Hj & Bj).
    specialize (KI i Hi). specialize (TI j Hj).
    set (x0 := nth i ksi 0) in *. set (x1 := nth (i + 1) ksi 0) in *. set (y0 := nth j eta 0) in *. set (y1 := nth (j + 1) eta 0) in *.
    set (a := (r - x0) / (x1 - x0)). set (b := (s - y0) / (y1 - y0)).
    assert (Ha : 0 <= a <= 1 /\ r = x0 + a * (x1 - x0)).
    { assert (Q : r = x0 + a * (x1 - x0)) by (unfold a; field; lra). assert (0 < x1 - x0) by lra. split; [|auto]. split.
      - apply (Rmult_le_reg_r (x1 - x0)); lra.
      - apply (Rmult_le_reg_r (x1 - x0)); lra. }
    assert (Hb : 0 <= b <= 1 /\ s = y0 + b * (y1 - y0)).
    { assert (Q : s = y0 + b * (y1 - y0)) by (unfold b; field; lra). assert (0 < y1 - y0) by lra. split; [|auto]. split.
      - apply (Rmult_le_reg_r (y1 - y0)); lra.
      - apply (Rmult_le_reg_r (y1 - y0)); lra. }
    destruct Ha as (Ha & Er). destruct Hb as (Hb & Es).
    destruct (Rle_dec b a).
    + exists (i + j * nr)%nat, (i + 1 + j * nr)%nat, (i + 1 + (j + 1) * nr)%nat, (1 - a), (a - b), b.
      split; [apply T; exists i, j; auto|]. rewrite !PV by lia. cbn [fst snd]. fold x0 x1 y0 y1.
      splits; lra.
    + exists (i + j * nr)%nat, (i + 1 + (j + 1) * nr)%nat, (i + (j + 1) * nr)%nat, (1 - b), a, (b - a).
      split; [apply T; exists i, j; auto|]. rewrite !PV by lia. cbn [fst snd]. fold x0 x1 y0 y1.
      splits; lra.
Qed.

(** fewer than two points in a direction: `triangulate` panics *)
Theorem C48_triangulate_panics : forall g nr ns cr cs, (nr < 2 \/ ns < 2)%nat -> tf2_triangulate g nr ns cr cs = Panic.
Proof.
  intros g nr ns cr cs H. unfold tf2_triangulate.
  destruct (Nat.leb_spec 2 nr); cbn [assert_ bind]; [|reflexivity]. destruct (Nat.leb_spec 2 ns); [lia|reflexivity].
Qed.

(** non-vacuity: a quadrilateral with one curved side meets the hypotheses of the 2D theorems *)
Example C48_example : exists g, tf2_new bulge bulge' None = Ok g /\
  share_corners (fun k => nth k bulge zero1) 0 /\ share_corners (fun k => nth k bulge zero1) 1 /\
  (forall k i, (k < 4)%nat -> deriv1_of (nth k bulge zero1) (nth k bulge' zero1) i) /\
  tf2_point g 0 0 = (0, -1/2).
Proof.
  eexists. split; [reflexivity|]. unfold share_corners, bulge, bulge'. splits; cbn [nth Nat.eqb]; try lra.
  - intros k i Hk u. destruct k as [|[|[|[|k]]]]; [..|lia]; cbn [nth]; destruct (Nat.eqb i 0);
      dsolve ltac:(fun _ => fail).
  - unfold tf2_point, tf2_x_p, bnd2, crn2; cbn [t2_bnd t2_crn nth bulge Nat.eqb]. f_equal; field.
Qed.

(** non-vacuity: the unit cube with its flat faces *)
Definition cube : list fun2 := 
  [ (fun i u v => nth i [-1; u; v] 0); (fun i u v => nth i [1; u; v] 0); (fun i u v => nth i [u; -1; v] 0);
    (fun i u v => nth i [u; 1; v] 0); (fun i u v => nth i [u; v; -1] 0); (fun i u v => nth i [u; v; 1] 0) ].
Example C48_example_3d : forall i, (i < 3)%nat -> share_edges (fun k => nth k cube zero2) i.
Proof.
  intros i Hi. assert (i = 0 \/ i = 1 \/ i = 2)%nat as [-> | [-> | ->]] by lia; unfold share_edges, cube; cbn [nth]; splits; reflexivity.
Qed.

Print Assumptions C48_point_on_edges_2d.
Print Assumptions C48_corners_2d.
Print Assumptions C48_derivatives_2d.
Print Assumptions C48_no_second_derivative_refuted.
Print Assumptions C48_point_on_faces_3d.
Print Assumptions C48_derivatives_3d.
Print Assumptions C48_none_means_zero.
Print Assumptions C48_triangulate.
Print Assumptions C48_triangles_cover.
