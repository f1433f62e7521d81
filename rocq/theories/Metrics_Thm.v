(** C95: base vectors, metric matrices and Christoffel symbols of a map, and the Laplacian in reference coordinates. *)
From Coq Require Import Reals Lra Lia.
From Coquelicot Require Import Coquelicot.
From Verif Require Import Base RBase RSum Dense_Model LabVec_Model LabVec_Thm Inverse_Model Metrics_Model.
Local Open Scope R_scope.

(** ** specification *)
(** component [d] of vector [i], entry (i,j) of a matrix, dot product of n components *)
Definition comp (l : list (list R)) (i d : nat) : R := nth d (nth i l []) 0.
Definition entry (a : dmat R) (i j : nat) : R := nth (i + j * d_nrow a) (d_data a) 0.
Definition dot (n : nat) (u v : nat -> R) : R := sumn n (fun d => u d * v d).
Definition kron (i j : nat) : R := if (i =? j)%nat then 1 else 0.
(** determinant of the derivative of the map *)
Definition jac2 (a b : list R) : R := nth 0 a 0 * nth 1 b 0 - nth 1 a 0 * nth 0 b 0.
Definition jac3 (a b c : list R) : R :=
  nth 0 a 0 * (nth 1 b 0 * nth 2 c 0 - nth 2 b 0 * nth 1 c 0)
  - nth 1 a 0 * (nth 0 b 0 * nth 2 c 0 - nth 2 b 0 * nth 0 c 0)
  + nth 2 a 0 * (nth 0 b 0 * nth 1 c 0 - nth 1 b 0 * nth 0 c 0).

(** objects with the array sizes set by `new`; every object obtained from `new` by calls has them, see C95_sizes *)
Definition square {A} (n : nat) (l : list (list A)) : Prop := length l = n /\ Forall (fun r => length r = n) l.
Definition sized (n : nat) (h : bool) (m : metrics) : Prop :=
  mt_ndim m = n /\ mt_hom m = h /\ square n (mt_cov m) /\ square n (mt_ctr m) /\
  d_nrow (mt_g m) = n /\ d_ncol (mt_g m) = n /\ length (d_data (mt_g m)) = (n * n)%nat /\
  d_nrow (mt_gg m) = n /\ d_ncol (mt_gg m) = n /\ length (d_data (mt_gg m)) = (n * n)%nat /\
  (h = false -> length (mt_chr m) = n /\ Forall (square n) (mt_chr m)) /\ length (mt_zero m) = n.

(** the metric quantities of the base vectors [gc] in n dimensions; [cc i j] is the second derivative of the position *)
Definition metrics_of (n : nat) (m : metrics) (gc : list (list R)) : Prop :=
  mt_cov m = gc /\
  (forall i j, (i < n)%nat -> (j < n)%nat ->
     dot n (comp (mt_ctr m) i) (comp gc j) = kron i j /\
     sumn n (fun k => comp (mt_ctr m) k i * comp gc k j) = kron i j /\
     entry (mt_g m) i j = dot n (comp gc i) (comp gc j) /\
     entry (mt_gg m) i j = dot n (comp (mt_ctr m) i) (comp (mt_ctr m) j)).
Definition christoffel_of (n : nat) (m : metrics) (cc : nat -> nat -> list R) : Prop :=
  forall k i j, (k < n)%nat -> (i < n)%nat -> (j < n)%nat ->
    nth j (nth i (nth k (mt_chr m) []) []) 0 = dot n (fun d => nth d (cc i j) 0) (comp (mt_ctr m) k).
(** the table of second derivatives *)
Definition second2 (rr ss rs : list R) (i j : nat) : list R := if (i =? j)%nat then (if (i =? 0)%nat then rr else ss) else rs.
Definition second3 (rr ss tt rs rt st : list R) (i j : nat) : list R :=
  nth j (nth i [[rr; rs; rt]; [rs; ss; st]; [rt; st; tt]] []) [].

(** ** specification of derivatives *)
(** [phi] is differentiable with the gradient (px,py): along every differentiable curve it changes at the rate grad . velocity *)
Definition has_grad2 (phi px py : R -> R -> R) : Prop := forall (c1 c2 : R -> R) t d1 d2, is_derive c1 t d1 -> is_derive c2 t d2 ->
  is_derive (fun u => phi (c1 u) (c2 u)) t (px (c1 t) (c2 t) * d1 + py (c1 t) (c2 t) * d2).
Definition has_grad3 (phi px py pz : R -> R -> R -> R) : Prop := forall (c1 c2 c3 : R -> R) t d1 d2 d3, is_derive c1 t d1 -> is_derive c2 t d2 -> is_derive c3 t d3 ->
  is_derive (fun u => phi (c1 u) (c2 u) (c3 u)) t (px (c1 t) (c2 t) (c3 t) * d1 + py (c1 t) (c2 t) (c3 t) * d2 + pz (c1 t) (c2 t) (c3 t) * d3).
(** twice differentiable, with the symmetric Hessian pxx, pyy, pxy (and pzz, pxz, pyz) *)
Definition smooth2 (phi px py pxx pyy pxy : R -> R -> R) : Prop := has_grad2 phi px py /\ has_grad2 px pxx pxy /\ has_grad2 py pxy pyy.
Definition smooth3 (phi px py pz pxx pyy pzz pxy pxz pyz : R -> R -> R -> R) : Prop :=
  has_grad3 phi px py pz /\ has_grad3 px pxx pxy pxz /\ has_grad3 py pxy pyy pyz /\ has_grad3 pz pxz pyz pzz.
(** the partial derivatives of a function of the reference coordinates *)
Record jet2 := mkJ2 { j_f : R -> R -> R; j_r : R -> R -> R; j_s : R -> R -> R; j_rr : R -> R -> R; j_ss : R -> R -> R; j_rs : R -> R -> R }.
Definition is_jet2 (F : jet2) : Prop := forall r s : R,
  is_derive (fun t : R => j_f F t s) r (j_r F r s) /\ is_derive (fun t : R => j_f F r t) s (j_s F r s) /\
  is_derive (fun t : R => j_r F t s) r (j_rr F r s) /\ is_derive (fun t : R => j_s F r t) s (j_ss F r s) /\ is_derive (fun t : R => j_r F r t) s (j_rs F r s).
Definition F3 := R -> R -> R -> R.
Record jet3 := mkJ3 { k_f : F3; k_r : F3; k_s : F3; k_t : F3; k_rr : F3; k_ss : F3; k_tt : F3; k_rs : F3; k_rt : F3; k_st : F3 }.
Definition is_jet3 (F : jet3) : Prop := forall r s t : R,
  is_derive (fun u : R => k_f F u s t) r (k_r F r s t) /\ is_derive (fun u : R => k_f F r u t) s (k_s F r s t) /\ is_derive (fun u : R => k_f F r s u) t (k_t F r s t) /\
  is_derive (fun u : R => k_r F u s t) r (k_rr F r s t) /\ is_derive (fun u : R => k_s F r u t) s (k_ss F r s t) /\ is_derive (fun u : R => k_t F r s u) t (k_tt F r s t) /\
  is_derive (fun u : R => k_r F r u t) s (k_rs F r s t) /\ is_derive (fun u : R => k_r F r s u) t (k_rt F r s t) /\ is_derive (fun u : R => k_s F r s u) t (k_st F r s t).

(** ** proofs *)
Lemma inner_dot u v n : length v = n -> (n <= 3)%nat -> vec_inner R 0 Rplus Rmult u v = Ok (dot n (fun d => nth d u 0) (fun d => nth d v 0)).
Proof.
  intros L N. rewrite C17_inner by (intros; ring). f_equal. unfold dot.
  destruct n as [|[|[|[|n]]]]; [| | | |lia]; (destruct v as [|v0 [|v1 [|v2 [|]]]]; try discriminate);
    (destruct u as [|u0 [|u1 [|u2 [|u3 u]]]]; cbn; ring).
Qed.

Ltac lists2 := repeat match goal with
  | H : length ?l = 2%nat |- _ => let a := fresh "a" in let b := fresh "b" in destruct l as [|a [|b [|]]]; try discriminate H; clear H
  | H : length ?l = (2 * 2)%nat |- _ => let a := fresh "a" in let b := fresh "b" in let c := fresh "c" in let d := fresh "d" in
      destruct l as [|a [|b [|c [|d [|]]]]]; try discriminate H; clear H
  | H : Forall _ (_ :: _) |- _ => inversion H; subst; clear H
  | H : Forall _ [] |- _ => clear H
  end.
Ltac lists3 := repeat match goal with
  | H : length ?l = 3%nat |- _ => let a := fresh "a" in let b := fresh "b" in let c := fresh "c" in destruct l as [|a [|b [|c [|]]]]; try discriminate H; clear H
  | H : Forall _ (_ :: _) |- _ => inversion H; subst; clear H
  | H : Forall _ [] |- _ => clear H
  end.


Ltac open_m m H := destruct m as [n_ hh_ cov_ ctr_ [gr_ gc_ gd_] [ggr_ ggc_ ggd_] chr_ z_]; unfold sized, square in H;
  cbn [mt_ndim mt_hom mt_cov mt_ctr mt_g mt_gg mt_chr mt_zero d_nrow d_ncol d_data] in H;
  destruct H as (-> & -> & [H1 H1'] & [H2 H2'] & -> & -> & H3 & -> & -> & H4 & H5 & H6).

Lemma set_cov2 m h a b c d : sized 2 h m -> mt_set_cov m [a; b] [c; d] None = Ok [[a; b]; [c; d]].
Proof. intros H. open_m m H. clear H2 H2' H5 H6. lists2. reflexivity. Qed.
Lemma set_g2 m h a b c d : sized 2 h m -> mt_set_g m [[a; b]; [c; d]] = Ok (mkD 2 2 [0 + a * a + b * b; 0 + c * a + d * b; 0 + a * c + b * d; 0 + c * c + d * d]).
Proof. intros H. open_m m H. clear H1 H1' H2 H2' H5 H6 H4. lists2. reflexivity. Qed.
Lemma set_ctr2 m h a b c d e f g i : sized 2 h m ->
  mt_set_ctr m [[a; b]; [c; d]] (mkD 2 2 [e; f; g; i]) = Ok [[0 + e * a + g * c; 0 + e * b + g * d]; [0 + f * a + i * c; 0 + f * b + i * d]].
Proof. intros H. open_m m H. clear H1 H1' H5 H6 H3 H4. lists2. reflexivity. Qed.
Lemma set_chr2 m a b c d rr ss rs : sized 2 false m -> exists chr,
  mt_set_chr m [[a; b]; [c; d]] (Some rr) (Some ss) None (Some rs) None None = Ok chr /\ length chr = 2%nat /\ Forall (square 2) chr /\
  forall k i j, (k < 2)%nat -> (i < 2)%nat -> (j < 2)%nat ->
    nth j (nth i (nth k chr []) []) 0 = dot 2 (fun d => nth d (second2 rr ss rs i j) 0) (comp [[a; b]; [c; d]] k).
Proof.
  intros H. open_m m H. destruct (H5 eq_refl) as [L F]. clear H1 H1' H2 H2' H3 H4 H5 H6. unfold square in F. lists2.
  repeat match goal with H : _ /\ _ |- _ => destruct H end. lists2.
  cbn -[mt_inner dot]. unfold mt_inner. repeat (rewrite (inner_dot _ _ 2) by (cbn; lia); cbn -[vec_inner dot]).
  eexists. split; [reflexivity|]. split; [reflexivity|]. split; [repeat constructor|].
  intros [|[|k]] [|[|i]] [|[|j]] Hk Hi Hj; try lia; reflexivity.
Qed.

Lemma set_cov3 m h a b c d e f g i j : sized 3 h m -> mt_set_cov m [a; b; c] [d; e; f] (Some [g; i; j]) = Ok [[a; b; c]; [d; e; f]; [g; i; j]].
Proof. intros H. open_m m H. clear H2 H2' H3 H4 H5 H6. lists3. reflexivity. Qed.
Ltac list9 := match goal with H : length ?l = (3 * 3)%nat |- _ => destruct l as [|q0 [|q1 [|q2 [|q3 [|q4 [|q5 [|q6 [|q7 [|q8 [|]]]]]]]]]]; try discriminate H; clear H end.
Lemma set_g3 m h a b c d e f g i j : sized 3 h m -> mt_set_g m [[a; b; c]; [d; e; f]; [g; i; j]] =
  Ok (mkD 3 3 [0 + a * a + b * b + c * c; 0 + d * a + e * b + f * c; 0 + g * a + i * b + j * c;
               0 + a * d + b * e + c * f; 0 + d * d + e * e + f * f; 0 + g * d + i * e + j * f;
               0 + a * g + b * i + c * j; 0 + d * g + e * i + f * j; 0 + g * g + i * i + j * j]).
Proof. intros H. open_m m H. clear H1 H1' H2 H2' H5 H6 H4. list9. reflexivity. Qed.
Lemma set_ctr3 m h a b c d e f g i j g00 g10 g20 g01 g11 g21 g02 g12 g22 : sized 3 h m ->
  mt_set_ctr m [[a; b; c]; [d; e; f]; [g; i; j]] (mkD 3 3 [g00; g10; g20; g01; g11; g21; g02; g12; g22]) =
  Ok [[0 + g00 * a + g01 * d + g02 * g; 0 + g00 * b + g01 * e + g02 * i; 0 + g00 * c + g01 * f + g02 * j];
      [0 + g10 * a + g11 * d + g12 * g; 0 + g10 * b + g11 * e + g12 * i; 0 + g10 * c + g11 * f + g12 * j];
      [0 + g20 * a + g21 * d + g22 * g; 0 + g20 * b + g21 * e + g22 * i; 0 + g20 * c + g21 * f + g22 * j]].
Proof. intros H. open_m m H. clear H1 H1' H5 H6 H3 H4. lists3. reflexivity. Qed.
Lemma set_chr3 m a b c d e f g i0 j0 rr ss tt rs rt st : sized 3 false m -> exists chr,
  mt_set_chr m [[a; b; c]; [d; e; f]; [g; i0; j0]] (Some rr) (Some ss) (Some tt) (Some rs) (Some rt) (Some st) = Ok chr /\ length chr = 3%nat /\ Forall (square 3) chr /\
  forall k i j, (k < 3)%nat -> (i < 3)%nat -> (j < 3)%nat ->
    nth j (nth i (nth k chr []) []) 0 = dot 3 (fun d => nth d (second3 rr ss tt rs rt st i j) 0) (comp [[a; b; c]; [d; e; f]; [g; i0; j0]] k).
Proof.
  intros H. open_m m H. destruct (H5 eq_refl) as [L F]. clear H1 H1' H2 H2' H3 H4 H5 H6. unfold square in F. lists3.
  repeat match goal with H : _ /\ _ |- _ => destruct H end. lists3.
  cbn -[mt_inner dot]. unfold mt_inner. repeat (rewrite (inner_dot _ _ 3) by (cbn; lia); cbn -[vec_inner dot]).
  eexists. split; [reflexivity|]. split; [reflexivity|]. split; [repeat constructor|].
  intros [|[|[|k]]] [|[|[|i]]] [|[|[|j]]] Hk Hi Hj; try lia; reflexivity.
Qed.

Definition getv (o : option (list R)) : list R := match o with Some v => v | None => [] end.

Lemma square_lit2 {A} (a b c d : A) : square 2 [[a; b]; [c; d]].
Proof. split; [reflexivity|repeat constructor]. Qed.
Lemma square_lit3 {A} (a b c d e f g i j : A) : square 3 [[a; b; c]; [d; e; f]; [g; i; j]].
Proof. split; [reflexivity|repeat constructor]. Qed.

Lemma calc2 lapack m h a b c d rr ss rs : sized 2 h m -> (h = false -> rr <> None /\ ss <> None /\ rs <> None) ->
  let J := a * d - b * c in
  exists m', mt_calculate lapack m [a; b] [c; d] None rr ss None rs None None =
     Ok (m', if Rleb (J ^ 2) ZERO_DETERMINANT then Err "cannot compute inverse due to zero determinant" else Ok (J ^ 2)) /\ sized 2 h m' /\
   (ZERO_DETERMINANT < J ^ 2 -> mt_cov m' = [[a; b]; [c; d]] /\ mt_ctr m' = [[d / J; - c / J]; [- b / J; a / J]] /\
      mt_g m' = mkD 2 2 [a * a + b * b; a * c + b * d; a * c + b * d; c * c + d * d] /\
      mt_gg m' = mkD 2 2 [(c * c + d * d) / J ^ 2; - (a * c + b * d) / J ^ 2; - (a * c + b * d) / J ^ 2; (a * a + b * b) / J ^ 2] /\
      (h = false -> christoffel_of 2 m' (second2 (getv rr) (getv ss) (getv rs)))).
Proof.
  intros H O J. unfold mt_calculate. rewrite (set_cov2 _ _ _ _ _ _ H). cbn [bind]. rewrite (set_g2 _ _ _ _ _ _ H). cbn [bind].
  assert (EG : [0 + a * a + b * b; 0 + c * a + d * b; 0 + a * c + b * d; 0 + c * c + d * d] = [a * a + b * b; a * c + b * d; a * c + b * d; c * c + d * d]).
  { repeat (f_equal; try ring). }
  rewrite EG. clear EG. set (g00 := a * a + b * b). set (g01 := a * c + b * d). set (g11 := c * c + d * d).
  assert (SH := H). destruct SH as (N & Hh & S1 & S2 & G1 & G2 & G3 & K1 & K2 & K3 & S5 & S6).
  destruct (mt_gg m) as [gr gc gd] eqn:EGG. cbn [d_nrow d_ncol d_data] in K1, K2, K3. subst gr gc. lists2.
  unfold mat_inverse. cbn [d_nrow d_ncol Nat.eqb negb orb]. cbn -[Rleb ZERO_DETERMINANT mt_set_ctr mt_set_chr g00 g01 g11 pow].
  assert (DET : g00 * g11 - g01 * g01 = J ^ 2) by (unfold g00, g01, g11, J; ring). rewrite DET.
  rewrite (Rabs_pos_eq (J ^ 2)) by apply pow2_ge_0.
  destruct (Rleb (J ^ 2) ZERO_DETERMINANT) eqn:EL.
  - cbn [bind]. eexists. split; [reflexivity|]. split.
    + unfold sized. cbn [mt_ndim mt_hom mt_cov mt_ctr mt_g mt_gg mt_chr mt_zero d_nrow d_ncol d_data]. splits; auto using square_lit2; intros; apply S5; auto.
    + intros L. exfalso. destruct (Rleb_spec (J ^ 2) ZERO_DETERMINANT); [lra|discriminate].
  - assert (JN : J <> 0). { intros Z. rewrite Z in EL. destruct (Rleb_spec (0 ^ 2) ZERO_DETERMINANT) as [|Q]; [discriminate|]. unfold ZERO_DETERMINANT in Q. assert (0 < / 10 ^ 15) by (apply Rinv_0_lt_compat; lra). lra. }
    cbn [bind]. rewrite (set_ctr2 m h) by auto. cbn [bind].
    assert (EC : [[0 + g11 / J ^ 2 * a + - g01 / J ^ 2 * c; 0 + g11 / J ^ 2 * b + - g01 / J ^ 2 * d]; [0 + - g01 / J ^ 2 * a + g00 / J ^ 2 * c; 0 + - g01 / J ^ 2 * b + g00 / J ^ 2 * d]]
      = [[d / J; - c / J]; [- b / J; a / J]]).
    { repeat (f_equal; try (unfold g00, g01, g11; unfold J in *; field; auto)). }
    rewrite EC. clear EC.
    assert (CH : exists chr, mt_set_chr m [[d / J; - c / J]; [- b / J; a / J]] rr ss None rs None None = Ok chr /\
      (h = false -> length chr = 2%nat /\ Forall (square 2) chr /\ forall k i j, (k < 2)%nat -> (i < 2)%nat -> (j < 2)%nat ->
         nth j (nth i (nth k chr []) []) 0 = dot 2 (fun d => nth d (second2 (getv rr) (getv ss) (getv rs) i j) 0) (comp [[d / J; - c / J]; [- b / J; a / J]] k))).
    { destruct h.
      - exists (mt_chr m). unfold mt_set_chr. rewrite Hh. split; [reflexivity|discriminate].
      - destruct (O eq_refl) as (O1 & O2 & O3). destruct rr as [rr|]; [|congruence]. destruct ss as [ss|]; [|congruence]. destruct rs as [rs|]; [|congruence].
        destruct (set_chr2 m (d / J) (- c / J) (- b / J) (a / J) rr ss rs H) as (chr & E & C1 & C2 & C3). exists chr. split; auto. }
    destruct CH as (chr & -> & CH). cbn [bind]. eexists. split; [reflexivity|]. split.
    + unfold sized. cbn [mt_ndim mt_hom mt_cov mt_ctr mt_g mt_gg mt_chr mt_zero d_nrow d_ncol d_data]. splits; auto using square_lit2; intros F; apply CH in F; tauto.
    + intros _. cbn [mt_ndim mt_hom mt_cov mt_ctr mt_g mt_gg mt_chr mt_zero]. splits; auto. intros F. apply CH in F. destruct F as (_ & _ & F). intros k i j Hk Hi Hj. apply F; auto.
Qed.

Lemma inv3 lapack q0 q1 q2 q3 q4 q5 q6 q7 q8 a00 a10 a20 a01 a11 a21 a02 a12 a22 :
  mat_inverse lapack (mkD 3 3 [q0; q1; q2; q3; q4; q5; q6; q7; q8]) (mkD 3 3 [a00; a10; a20; a01; a11; a21; a02; a12; a22]) =
  let det := a00 * (a11 * a22 - a12 * a21) - a01 * (a10 * a22 - a12 * a20) + a02 * (a10 * a21 - a11 * a20) in
  if Rleb (Rabs det) ZERO_DETERMINANT then Err "cannot compute inverse due to zero determinant"
  else Ok (det, mkD 3 3 [(a11 * a22 - a12 * a21) / det; (a12 * a20 - a10 * a22) / det; (a10 * a21 - a11 * a20) / det;
    (a02 * a21 - a01 * a22) / det; (a00 * a22 - a02 * a20) / det; (a01 * a20 - a00 * a21) / det;
    (a01 * a12 - a02 * a11) / det; (a02 * a10 - a00 * a12) / det; (a00 * a11 - a01 * a10) / det]).
Proof. unfold mat_inverse, d_get, vget. cbn [d_nrow d_ncol Nat.eqb negb orb d_data Nat.add Nat.mul nth_error bind]. cbv zeta. destruct (Rleb _ _); reflexivity. Qed.

Lemma calc3 lapack m h a b c d e f g i j rr ss tt rs rt st : sized 3 h m ->
  (h = false -> rr <> None /\ ss <> None /\ tt <> None /\ rs <> None /\ rt <> None /\ st <> None) ->
  let J := a * (e * j - f * i) - b * (d * j - f * g) + c * (d * i - e * g) in
  exists m', mt_calculate lapack m [a; b; c] [d; e; f] (Some [g; i; j]) rr ss tt rs rt st =
     Ok (m', if Rleb (J ^ 2) ZERO_DETERMINANT then Err "cannot compute inverse due to zero determinant" else Ok (J ^ 2)) /\ sized 3 h m' /\
   (ZERO_DETERMINANT < J ^ 2 -> mt_cov m' = [[a; b; c]; [d; e; f]; [g; i; j]] /\
      mt_ctr m' = [[(e * j - f * i) / J; (f * g - d * j) / J; (d * i - e * g) / J]; [(c * i - b * j) / J; (a * j - c * g) / J; (b * g - a * i) / J]; [(b * f - c * e) / J; (c * d - a * f) / J; (a * e - b * d) / J]] /\
      (forall p q, (p < 3)%nat -> (q < 3)%nat -> entry (mt_g m') p q = dot 3 (comp (mt_cov m') p) (comp (mt_cov m') q)) /\
      (forall p q, (p < 3)%nat -> (q < 3)%nat -> entry (mt_gg m') p q = dot 3 (comp (mt_ctr m') p) (comp (mt_ctr m') q)) /\
      (h = false -> christoffel_of 3 m' (second3 (getv rr) (getv ss) (getv tt) (getv rs) (getv rt) (getv st)))).
Proof.
  intros H O J. unfold mt_calculate. rewrite (set_cov3 _ _ _ _ _ _ _ _ _ _ _ H). cbn [bind]. rewrite (set_g3 _ _ _ _ _ _ _ _ _ _ _ H). cbn [bind].
  match goal with |- context [mkD 3 3 ?l] => assert (EG : l = [a * a + b * b + c * c; a * d + b * e + c * f; a * g + b * i + c * j;
       a * d + b * e + c * f; d * d + e * e + f * f; d * g + e * i + f * j; a * g + b * i + c * j; d * g + e * i + f * j; g * g + i * i + j * j]) end.
  { repeat (f_equal; try ring). }
  rewrite EG. clear EG.
  set (g00 := a * a + b * b + c * c). set (g01 := a * d + b * e + c * f). set (g02 := a * g + b * i + c * j).
  set (g11 := d * d + e * e + f * f). set (g12 := d * g + e * i + f * j). set (g22 := g * g + i * i + j * j).
  assert (SH := H). destruct SH as (N & Hh & S1 & S2 & G1 & G2 & G3 & K1 & K2 & K3 & S5 & S6). clear G3.
  destruct (mt_gg m) as [gr gc gd] eqn:EGG. cbn [d_nrow d_ncol d_data] in K1, K2, K3. subst gr gc. list9.
  rewrite inv3. cbv zeta.
  assert (DET : g00 * (g11 * g22 - g12 * g12) - g01 * (g01 * g22 - g12 * g02) + g02 * (g01 * g12 - g11 * g02) = J ^ 2) by (unfold g00, g01, g02, g11, g12, g22, J; ring). rewrite DET.
  rewrite (Rabs_pos_eq (J ^ 2)) by apply pow2_ge_0.
  destruct (Rleb (J ^ 2) ZERO_DETERMINANT) eqn:EL.
  - cbn [bind]. eexists. split; [reflexivity|]. split.
    + unfold sized. cbn [mt_ndim mt_hom mt_cov mt_ctr mt_g mt_gg mt_chr mt_zero d_nrow d_ncol d_data]. splits; auto using square_lit3; intros; apply S5; auto.
    + intros L. exfalso. destruct (Rleb_spec (J ^ 2) ZERO_DETERMINANT); [lra|discriminate].
  - assert (JN : J <> 0). { intros Z. rewrite Z in EL. destruct (Rleb_spec (0 ^ 2) ZERO_DETERMINANT) as [|Q]; [discriminate|]. unfold ZERO_DETERMINANT in Q. assert (0 < / 10 ^ 15) by (apply Rinv_0_lt_compat; lra). lra. }
    cbn [bind]. rewrite (set_ctr3 m h) by auto. cbn [bind].
    set (c00 := (e * j - f * i) / J). set (c01 := (f * g - d * j) / J). set (c02 := (d * i - e * g) / J).
    set (c10 := (c * i - b * j) / J). set (c11 := (a * j - c * g) / J). set (c12 := (b * g - a * i) / J).
    set (c20 := (b * f - c * e) / J). set (c21 := (c * d - a * f) / J). set (c22 := (a * e - b * d) / J).
    match goal with |- context [mt_set_chr m ?l] => assert (EC : l = [[c00; c01; c02]; [c10; c11; c12]; [c20; c21; c22]]) end.
    { repeat (f_equal; try (unfold g00, g01, g02, g11, g12, g22, c00, c01, c02, c10, c11, c12, c20, c21, c22;
        match goal with |- ?x = ?y / J => apply (Rmult_eq_reg_r (J ^ 2)); [|now apply pow_nonzero]; replace (y / J * J ^ 2) with (y * J) by (field; auto) end;
        match goal with |- ?x * J ^ 2 = _ => transitivity (x * (J * J)); [ring|] end;
        unfold Rdiv; rewrite ?Rmult_plus_distr_r;
        rewrite (Rmult_comm _ (/ J ^ 2)) || idtac; field_simplify_eq; [unfold J; ring|now try apply JN])). }
    rewrite EC. clear EC.
    assert (CH : exists chr, mt_set_chr m [[c00; c01; c02]; [c10; c11; c12]; [c20; c21; c22]] rr ss tt rs rt st = Ok chr /\
      (h = false -> length chr = 3%nat /\ Forall (square 3) chr /\ forall p q r, (p < 3)%nat -> (q < 3)%nat -> (r < 3)%nat ->
         nth r (nth q (nth p chr []) []) 0 = dot 3 (fun d => nth d (second3 (getv rr) (getv ss) (getv tt) (getv rs) (getv rt) (getv st) q r) 0) (comp [[c00; c01; c02]; [c10; c11; c12]; [c20; c21; c22]] p))).
    { destruct h.
      - exists (mt_chr m). unfold mt_set_chr. rewrite Hh. split; [reflexivity|discriminate].
      - destruct (O eq_refl) as (O1 & O2 & O3 & O4 & O5 & O6). destruct rr as [rr|]; [|congruence]. destruct ss as [ss|]; [|congruence]. destruct tt as [tt|]; [|congruence].
        destruct rs as [rs|]; [|congruence]. destruct rt as [rt|]; [|congruence]. destruct st as [st|]; [|congruence].
        destruct (set_chr3 m c00 c01 c02 c10 c11 c12 c20 c21 c22 rr ss tt rs rt st H) as (chr & E & C1 & C2 & C3). exists chr. split; auto. }
    destruct CH as (chr & -> & CH). cbn [bind]. eexists. split; [reflexivity|]. split.
    + unfold sized. cbn [mt_ndim mt_hom mt_cov mt_ctr mt_g mt_gg mt_chr mt_zero d_nrow d_ncol d_data]. splits; auto using square_lit3; intros F; apply CH in F; tauto.
    + intros _. cbn [mt_ndim mt_hom mt_cov mt_ctr mt_g mt_gg mt_chr mt_zero]. splits; auto.
      * intros [|[|[|p]]] [|[|[|q]]] Hp Hq; try lia; unfold entry, dot, comp; cbn [d_nrow d_data nth sumn Nat.add Nat.mul]; unfold g00, g01, g02, g11, g12, g22; ring.
      * assert (K1 : g11 * g22 - g12 * g12 = (e * j - f * i) ^ 2 + (f * g - d * j) ^ 2 + (d * i - e * g) ^ 2) by (unfold g11, g22, g12; ring).
        assert (K2 : g12 * g02 - g01 * g22 = (e * j - f * i) * (c * i - b * j) + (f * g - d * j) * (a * j - c * g) + (d * i - e * g) * (b * g - a * i)) by (unfold g01, g02, g12, g22; ring).
        assert (K3 : g01 * g12 - g11 * g02 = (e * j - f * i) * (b * f - c * e) + (f * g - d * j) * (c * d - a * f) + (d * i - e * g) * (a * e - b * d)) by (unfold g01, g02, g12, g11; ring).
        assert (K4 : g00 * g22 - g02 * g02 = (c * i - b * j) ^ 2 + (a * j - c * g) ^ 2 + (b * g - a * i) ^ 2) by (unfold g00, g22, g02; ring).
        assert (K5 : g01 * g02 - g00 * g12 = (c * i - b * j) * (b * f - c * e) + (a * j - c * g) * (c * d - a * f) + (b * g - a * i) * (a * e - b * d)) by (unfold g00, g01, g02, g12; ring).
        assert (K6 : g00 * g11 - g01 * g01 = (b * f - c * e) ^ 2 + (c * d - a * f) ^ 2 + (a * e - b * d) ^ 2) by (unfold g00, g11, g01; ring).
        assert (K2' : g02 * g12 - g01 * g22 = g12 * g02 - g01 * g22) by ring.
        assert (K3' : g01 * g12 - g02 * g11 = g01 * g12 - g11 * g02) by ring.
        assert (K5' : g02 * g01 - g00 * g12 = g01 * g02 - g00 * g12) by ring.
        clearbody J. intros [|[|[|p]]] [|[|[|q]]] Hp Hq; try lia; unfold entry, dot, comp; cbn [d_nrow d_data nth sumn Nat.add Nat.mul];
          rewrite ?K2', ?K3', ?K5', ?K1, ?K2, ?K3, ?K4, ?K5, ?K6; unfold c00, c01, c02, c10, c11, c12, c20, c21, c22; field; auto.
      * intros F. apply CH in F. destruct F as (_ & _ & F). intros p q r Hp Hq Hr. apply F; auto.
Qed.

Lemma zdet_pos : 0 < ZERO_DETERMINANT.
Proof. unfold ZERO_DETERMINANT. apply Rinv_0_lt_compat. lra. Qed.

(** ** theorems *)
(** In two dimensions `calculate_2d` returns the determinant of the covariant matrix, which is the square of the Jacobian of the map, and then: the
    covariant vectors are the given derivatives, the contravariant ones are their dual basis, the two matrices hold the products of the base vectors,
    and the Christoffel symbols are the components of the second derivatives on the dual basis. It fails exactly when the square of the Jacobian is not
    above 1e-15. What the object held before does not matter. *)
Theorem C95_calculate_2d : forall lapack m h dr ds rr ss rs, sized 2 h m -> length dr = 2%nat -> length ds = 2%nat ->
  (h = false -> rr <> None /\ ss <> None /\ rs <> None) ->
  let J := jac2 dr ds in
  exists m' r, mt_calculate_2d lapack m dr ds rr ss rs = Ok (m', r) /\ sized 2 h m' /\
    (J ^ 2 <= / 10 ^ 15 -> exists e, r = Err e) /\
    (/ 10 ^ 15 < J ^ 2 -> r = Ok (J ^ 2) /\ metrics_of 2 m' [dr; ds] /\ (h = false -> christoffel_of 2 m' (second2 (getv rr) (getv ss) (getv rs)))).
Proof.
  intros lapack m h dr ds rr ss rs H L1 L2 O J. destruct dr as [|a [|b [|]]]; try discriminate. destruct ds as [|a0 [|b0 [|]]]; try discriminate. destruct (calc2 lapack m h a b a0 b0 rr ss rs H O) as (m' & E & SZ & C).
  change (jac2 [a; b] [a0; b0]) with (a * b0 - b * a0) in J. fold J in E, C. fold ZERO_DETERMINANT.
  exists m', (if Rleb (J ^ 2) ZERO_DETERMINANT then Err "cannot compute inverse due to zero determinant" else Ok (J ^ 2)). split.
  - unfold mt_calculate_2d. destruct H as (N & Hh & _). rewrite N, Hh. cbn [Nat.eqb negb length].
    destruct h; [exact E|]. destruct (O eq_refl) as (O1 & O2 & O3). destruct rr as [rr|]; [|congruence]. destruct ss as [ss|]; [|congruence]. destruct rs as [rs|]; [|congruence]. exact E.
  - split; auto. destruct (Rleb_spec (J ^ 2) ZERO_DETERMINANT) as [Q|Q].
    + split; [eauto|intros; lra].
    + split; [intros; lra|]. intros _. split; auto. destruct (C Q) as (C1 & C2 & C3 & C4 & C5). split; [|exact C5]. split; auto.
      assert (JN : a * b0 - b * a0 <> 0). { fold J. intros Z. rewrite Z in Q. assert (Q' := zdet_pos). lra. }
      intros i j Hi Hj. rewrite C2, C3, C4. unfold J.
      destruct i as [|[|i]]; [| |lia]; (destruct j as [|[|j]]; [| |lia]); unfold dot, comp, entry, kron; cbn [Nat.eqb nth sumn d_nrow d_data Nat.add Nat.mul]; splits; try ring; field; auto.
Qed.

(** the same in three dimensions *)
Theorem C95_calculate_3d : forall lapack m h dr ds dt rr ss tt rs rt st, sized 3 h m -> length dr = 3%nat -> length ds = 3%nat -> length dt = 3%nat ->
  (h = false -> rr <> None /\ ss <> None /\ tt <> None /\ rs <> None /\ rt <> None /\ st <> None) ->
  let J := jac3 dr ds dt in
  exists m' r, mt_calculate_3d lapack m dr ds dt rr ss tt rs rt st = Ok (m', r) /\ sized 3 h m' /\
    (J ^ 2 <= / 10 ^ 15 -> exists e, r = Err e) /\
    (/ 10 ^ 15 < J ^ 2 -> r = Ok (J ^ 2) /\ metrics_of 3 m' [dr; ds; dt] /\
       (h = false -> christoffel_of 3 m' (second3 (getv rr) (getv ss) (getv tt) (getv rs) (getv rt) (getv st)))).
Proof.
  intros lapack m h dr ds dt rr ss tt rs rt st H L1 L2 L3 O J. destruct dr as [|a [|b [|c [|]]]]; try discriminate. destruct ds as [|d [|e [|f [|]]]]; try discriminate.
  destruct dt as [|g [|i [|j [|]]]]; try discriminate. destruct (calc3 lapack m h a b c d e f g i j rr ss tt rs rt st H O) as (m' & E & SZ & C).
  change (jac3 [a; b; c] [d; e; f] [g; i; j]) with (a * (e * j - f * i) - b * (d * j - f * g) + c * (d * i - e * g)) in J. fold J in E, C. fold ZERO_DETERMINANT.
  exists m', (if Rleb (J ^ 2) ZERO_DETERMINANT then Err "cannot compute inverse due to zero determinant" else Ok (J ^ 2)). split.
  - unfold mt_calculate_3d. destruct H as (N & Hh & _). rewrite N, Hh. cbn [Nat.eqb negb length].
    destruct h; [exact E|]. destruct (O eq_refl) as (O1 & O2 & O3 & O4 & O5 & O6). destruct rr as [rr|]; [|congruence]. destruct ss as [ss|]; [|congruence]. destruct tt as [tt|]; [|congruence].
    destruct rs as [rs|]; [|congruence]. destruct rt as [rt|]; [|congruence]. destruct st as [st|]; [|congruence]. exact E.
  - split; auto. destruct (Rleb_spec (J ^ 2) ZERO_DETERMINANT) as [Q|Q].
    + split; [eauto|intros; lra].
    + split; [intros; lra|]. intros _. split; auto. destruct (C Q) as (C1 & C2 & C3 & C4 & C5). split; [|exact C5]. split; auto.
      assert (JN : J <> 0). { intros Z. rewrite Z in Q. assert (Q' := zdet_pos). lra. }
      intros p q Hp Hq. rewrite C3, C4, C1, C2 by auto. splits; auto.
      * destruct p as [|[|[|p]]]; [| | |lia]; (destruct q as [|[|[|q]]]; [| | |lia]); unfold dot, comp, kron; cbn [Nat.eqb nth sumn]; unfold J in *; field; auto.
      * destruct p as [|[|[|p]]]; [| | |lia]; (destruct q as [|[|[|q]]]; [| | |lia]); unfold comp, kron; cbn [Nat.eqb nth sumn]; unfold J in *; field; auto.
Qed.

(** every object obtained from `new` by calls has the sizes that the theorems ask for; calls with wrong arguments return errors and leave it as it was *)
Theorem C95_sizes : forall lapack n h, sized n h (mt_new n h) /\
  (forall m dr ds rr ss rs m' r, sized n h m -> mt_calculate_2d lapack m dr ds rr ss rs = Ok (m', r) -> sized n h m') /\
  (forall m dr ds dt rr ss tt rs rt st m' r, sized n h m -> mt_calculate_3d lapack m dr ds dt rr ss tt rs rt st = Ok (m', r) -> sized n h m') /\
  (forall m dr ds rr ss rs, sized n h m -> mt_calculate_2d lapack m dr ds rr ss rs <> Panic) /\
  (forall m dr ds dt rr ss tt rs rt st, sized n h m -> mt_calculate_3d lapack m dr ds dt rr ss tt rs rt st <> Panic).
Proof.
  intros lapack n h.
  assert (T2 : forall m dr ds rr ss rs, sized n h m -> exists m' r, mt_calculate_2d lapack m dr ds rr ss rs = Ok (m', r) /\ sized n h m').
  { intros m dr ds rr ss rs S. assert (S' := S). destruct S' as (N & Hh & _). unfold mt_calculate_2d. rewrite N, Hh.
    destruct (Nat.eqb_spec n 2) as [->|]; cbn [negb]; [|eauto]. destruct (Nat.eqb_spec (length dr) 2) as [L1|]; cbn [negb]; [|eauto]. destruct (Nat.eqb_spec (length ds) 2) as [L2|]; cbn [negb]; [|eauto].
    assert (K : (h = false -> rr <> None /\ ss <> None /\ rs <> None) -> exists m' r, mt_calculate lapack m dr ds None rr ss None rs None None = Ok (m', r) /\ sized 2 h m').
    { intros O. destruct dr as [|a [|b [|]]]; try discriminate. destruct ds as [|a0 [|b0 [|]]]; try discriminate. destruct (calc2 lapack m h a b a0 b0 rr ss rs S O) as (m' & E & SZ & _). eauto. }
    destruct h; cbn [negb andb]; [apply K; discriminate|].
    destruct rr as [rr|]; cbn [is_none]; [|eauto]. destruct ss as [ss|]; cbn [is_none]; [|eauto]. destruct rs as [rs|]; cbn [is_none]; [|eauto]. apply K. intros _. splits; discriminate. }
  assert (T3 : forall m dr ds dt rr ss tt rs rt st, sized n h m -> exists m' r, mt_calculate_3d lapack m dr ds dt rr ss tt rs rt st = Ok (m', r) /\ sized n h m').
  { intros m dr ds dt rr ss tt rs rt st S. assert (S' := S). destruct S' as (N & Hh & _). unfold mt_calculate_3d. rewrite N, Hh.
    destruct (Nat.eqb_spec n 3) as [->|]; cbn [negb]; [|eauto]. destruct (Nat.eqb_spec (length dr) 3) as [L1|]; cbn [negb]; [|eauto]. destruct (Nat.eqb_spec (length ds) 3) as [L2|]; cbn [negb]; [|eauto].
    destruct (Nat.eqb_spec (length dt) 3) as [L3|]; cbn [negb]; [|eauto].
    assert (K : (h = false -> rr <> None /\ ss <> None /\ tt <> None /\ rs <> None /\ rt <> None /\ st <> None) -> exists m' r, mt_calculate lapack m dr ds (Some dt) rr ss tt rs rt st = Ok (m', r) /\ sized 3 h m').
    { intros O. destruct dr as [|a [|b [|c [|]]]]; try discriminate. destruct ds as [|d [|e [|f [|]]]]; try discriminate. destruct dt as [|g [|i [|j [|]]]]; try discriminate.
      destruct (calc3 lapack m h a b c d e f g i j rr ss tt rs rt st S O) as (m' & E & SZ & _). eauto. }
    destruct h; cbn [negb andb]; [apply K; discriminate|].
    destruct rr as [rr|]; cbn [is_none]; [|eauto]. destruct ss as [ss|]; cbn [is_none]; [|eauto]. destruct tt as [tt|]; cbn [is_none]; [|eauto].
    destruct rs as [rs|]; cbn [is_none]; [|eauto]. destruct rt as [rt|]; cbn [is_none]; [|eauto]. destruct st as [st|]; cbn [is_none]; [|eauto]. apply K. intros _. splits; discriminate. }
  splits.
  - unfold sized, mt_new, square. cbn [mt_ndim mt_hom mt_cov mt_ctr mt_g mt_gg mt_chr mt_zero d_new d_nrow d_ncol d_data].
    assert (F : forall A (P : A -> Prop) x k, P x -> Forall P (repeat x k)). { intros A P x k Hx. apply Forall_forall. intros y Hy. apply repeat_spec in Hy. now subst. }
    assert (Q : Forall (fun r => length r = n) (repeat (repeat 0 n) n)) by (apply F, repeat_length).
    splits; auto; try apply repeat_length. intros ->. split; [apply repeat_length|]. apply F. split; [apply repeat_length|]. exact Q.
  - intros m dr ds rr ss rs m' r S E. destruct (T2 m dr ds rr ss rs S) as (m1 & r1 & E1 & S1). rewrite E in E1. inversion E1; subst; auto.
  - intros m dr ds dt rr ss tt rs rt st m' r S E. destruct (T3 m dr ds dt rr ss tt rs rt st S) as (m1 & r1 & E1 & S1). rewrite E in E1. inversion E1; subst; auto.
  - intros m dr ds rr ss rs S. destruct (T2 m dr ds rr ss rs S) as (m1 & r1 & -> & _). discriminate.
  - intros m dr ds dt rr ss tt rs rt st S. destruct (T3 m dr ds dt rr ss tt rs rt st S) as (m1 & r1 & -> & _). discriminate.
Qed.

Lemma ell2 m k : sized 2 false m -> (k < 2)%nat ->
  mt_ell m k = Ok (sumn 2 (fun i => sumn 2 (fun j => nth j (nth i (nth k (mt_chr m) []) []) 0 * entry (mt_gg m) i j))).
Proof.
  intros H Hk. open_m m H. destruct (H5 eq_refl) as [L F]. clear H1 H1' H2 H2' H3 H5 H6. unfold square in F. lists2.
  repeat match goal with H : _ /\ _ |- _ => destruct H end. lists2.
  destruct k as [|[|k]]; [| |lia]; cbn; f_equal; ring.
Qed.
Lemma ell3 m k : sized 3 false m -> (k < 3)%nat ->
  mt_ell m k = Ok (sumn 3 (fun i => sumn 3 (fun j => nth j (nth i (nth k (mt_chr m) []) []) 0 * entry (mt_gg m) i j))).
Proof.
  intros H Hk. open_m m H. destruct (H5 eq_refl) as [L F]. clear H1 H1' H2 H2' H3 H5 H6. unfold square in F. lists3. list9.
  repeat match goal with H : _ /\ _ |- _ => destruct H end. lists3.
  destruct k as [|[|[|k]]]; [| | |lia]; cbn; f_equal; ring.
Qed.

(** quadratic form of a symmetric matrix *)
Definition qf2 (hxx hyy hxy u0 u1 v0 v1 : R) : R := hxx * u0 * v0 + hxy * (u0 * v1 + u1 * v0) + hyy * u1 * v1.
Lemma lap2 c00 c01 c10 c11 g00 g01 g10 g11 px py pxx pyy pxy rr0 rr1 ss0 ss1 rs0 rs1 :
  c00 * g00 + c10 * g10 = 1 -> c00 * g01 + c10 * g11 = 0 -> c01 * g00 + c11 * g10 = 0 -> c01 * g01 + c11 * g11 = 1 ->
  let G00 := c00 * c00 + c01 * c01 in let G01 := c00 * c10 + c01 * c11 in let G11 := c10 * c10 + c11 * c11 in
  let L k0 k1 := (rr0 * k0 + rr1 * k1) * G00 + 2 * (rs0 * k0 + rs1 * k1) * G01 + (ss0 * k0 + ss1 * k1) * G11 in
  G00 * (qf2 pxx pyy pxy g00 g01 g00 g01 + (px * rr0 + py * rr1)) + 2 * G01 * (qf2 pxx pyy pxy g00 g01 g10 g11 + (px * rs0 + py * rs1))
  + G11 * (qf2 pxx pyy pxy g10 g11 g10 g11 + (px * ss0 + py * ss1)) - L c00 c01 * (px * g00 + py * g01) - L c10 c11 * (px * g10 + py * g11) = pxx + pyy.
Proof.
  intros E00 E01 E10 E11. cbv zeta. unfold qf2.
  transitivity ((pxx * (c00 * g00 + c10 * g10) ^ 2 + 2 * pxy * (c00 * g00 + c10 * g10) * (c00 * g01 + c10 * g11) + pyy * (c00 * g01 + c10 * g11) ^ 2)
    + (pxx * (c01 * g00 + c11 * g10) ^ 2 + 2 * pxy * (c01 * g00 + c11 * g10) * (c01 * g01 + c11 * g11) + pyy * (c01 * g01 + c11 * g11) ^ 2)
    + (c00 * c00 + c01 * c01) * ((px * rr0 + py * rr1) - (rr0 * ((c00 * g00 + c10 * g10) * px + (c00 * g01 + c10 * g11) * py) + rr1 * ((c01 * g00 + c11 * g10) * px + (c01 * g01 + c11 * g11) * py)))
    + 2 * (c00 * c10 + c01 * c11) * ((px * rs0 + py * rs1) - (rs0 * ((c00 * g00 + c10 * g10) * px + (c00 * g01 + c10 * g11) * py) + rs1 * ((c01 * g00 + c11 * g10) * px + (c01 * g01 + c11 * g11) * py)))
    + (c10 * c10 + c11 * c11) * ((px * ss0 + py * ss1) - (ss0 * ((c00 * g00 + c10 * g10) * px + (c00 * g01 + c10 * g11) * py) + ss1 * ((c01 * g00 + c11 * g10) * px + (c01 * g01 + c11 * g11) * py)))); [ring|].
  rewrite E00, E01, E10, E11. ring.
Qed.

Lemma is_derive_val f (t d d' : R) : is_derive f t d -> d = d' -> is_derive f t d'.
Proof. now intros H <-. Qed.
Lemma d2mul (f g h k : R -> R) (t df dg dh dk : R) : is_derive f t df -> is_derive g t dg -> is_derive h t dh -> is_derive k t dk ->
  is_derive (fun u : R => f u * g u + h u * k u) t ((df * g t + f t * dg) + (dh * k t + h t * dk)).
Proof.
  intros H1 H2 H3 H4. apply is_derive_Reals in H1. apply is_derive_Reals in H2. apply is_derive_Reals in H3. apply is_derive_Reals in H4. apply is_derive_Reals.
  apply (derivable_pt_lim_plus (fun u => f u * g u) (fun u => h u * k u)); [apply (derivable_pt_lim_mult f g)|apply (derivable_pt_lim_mult h k)]; auto.
Qed.

(** first and second derivatives of a composed field by the chain rule *)
Lemma chain2 phi px py pxx pyy pxy X Y f : smooth2 phi px py pxx pyy pxy -> is_jet2 X -> is_jet2 Y -> is_jet2 f -> (forall r s, j_f f r s = phi (j_f X r s) (j_f Y r s)) ->
  forall r s, let at_ (h : R -> R -> R) := h (j_f X r s) (j_f Y r s) in
  j_r f r s = at_ px * j_r X r s + at_ py * j_r Y r s /\ j_s f r s = at_ px * j_s X r s + at_ py * j_s Y r s /\
  j_rr f r s = qf2 (at_ pxx) (at_ pyy) (at_ pxy) (j_r X r s) (j_r Y r s) (j_r X r s) (j_r Y r s) + (at_ px * j_rr X r s + at_ py * j_rr Y r s) /\
  j_rs f r s = qf2 (at_ pxx) (at_ pyy) (at_ pxy) (j_r X r s) (j_r Y r s) (j_s X r s) (j_s Y r s) + (at_ px * j_rs X r s + at_ py * j_rs Y r s) /\
  j_ss f r s = qf2 (at_ pxx) (at_ pyy) (at_ pxy) (j_s X r s) (j_s Y r s) (j_s X r s) (j_s Y r s) + (at_ px * j_ss X r s + at_ py * j_ss Y r s).
Proof.
  intros (S1 & S2 & S3) HX HY HF E.
  assert (FR : forall r s, j_r f r s = px (j_f X r s) (j_f Y r s) * j_r X r s + py (j_f X r s) (j_f Y r s) * j_r Y r s).
  { intros r s. destruct (HF r s) as (D & _). apply is_derive_unique in D. rewrite <- D. apply is_derive_unique.
    apply is_derive_ext with (fun t : R => phi (j_f X t s) (j_f Y t s)); [intros; now rewrite E|]. apply (S1 (fun t => j_f X t s) (fun t => j_f Y t s)); [apply HX|apply HY]. }
  assert (FS : forall r s, j_s f r s = px (j_f X r s) (j_f Y r s) * j_s X r s + py (j_f X r s) (j_f Y r s) * j_s Y r s).
  { intros r s. destruct (HF r s) as (_ & D & _). apply is_derive_unique in D. rewrite <- D. apply is_derive_unique.
    apply is_derive_ext with (fun t : R => phi (j_f X r t) (j_f Y r t)); [intros; now rewrite E|]. apply (S1 (fun t => j_f X r t) (fun t => j_f Y r t)); [apply HX|apply HY]. }
  intros r s at_. destruct (HX r s) as (X1 & X2 & X3 & X4 & X5). destruct (HY r s) as (Y1 & Y2 & Y3 & Y4 & Y5). split; [apply FR|]. split; [apply FS|]. splits.
  - destruct (HF r s) as (_ & _ & D & _). apply is_derive_unique in D. rewrite <- D. apply is_derive_unique.
    apply is_derive_ext with (fun t : R => px (j_f X t s) (j_f Y t s) * j_r X t s + py (j_f X t s) (j_f Y t s) * j_r Y t s); [intros; now rewrite FR|].
    assert (D1 := S2 _ _ _ _ _ X1 Y1). assert (D2 := S3 _ _ _ _ _ X1 Y1). cbv beta in D1, D2.
    eapply is_derive_val; [apply d2mul; eassumption|]. unfold qf2, at_. ring.
  - destruct (HF r s) as (_ & _ & _ & _ & D). apply is_derive_unique in D. rewrite <- D. apply is_derive_unique.
    apply is_derive_ext with (fun t : R => px (j_f X r t) (j_f Y r t) * j_r X r t + py (j_f X r t) (j_f Y r t) * j_r Y r t); [intros; now rewrite FR|].
    assert (D1 := S2 _ _ _ _ _ X2 Y2). assert (D2 := S3 _ _ _ _ _ X2 Y2). cbv beta in D1, D2.
    eapply is_derive_val; [apply d2mul; eassumption|]. unfold qf2, at_. ring.
  - destruct (HF r s) as (_ & _ & _ & D & _). apply is_derive_unique in D. rewrite <- D. apply is_derive_unique.
    apply is_derive_ext with (fun t : R => px (j_f X r t) (j_f Y r t) * j_s X r t + py (j_f X r t) (j_f Y r t) * j_s Y r t); [intros; now rewrite FS|].
    assert (D1 := S2 _ _ _ _ _ X2 Y2). assert (D2 := S3 _ _ _ _ _ X2 Y2). cbv beta in D1, D2.
    eapply is_derive_val; [apply d2mul; eassumption|]. unfold qf2, at_. ring.
Qed.

(** Gradient and Laplacian of a field on the plane, from the derivatives of the field in reference coordinates and the metrics of the map at a point. *)
Theorem C95_laplacian_2d : forall lapack m m' g (X Y : jet2) r s phi px py pxx pyy pxy (f : jet2), sized 2 false m -> is_jet2 X -> is_jet2 Y ->
  smooth2 phi px py pxx pyy pxy -> is_jet2 f -> (forall r s, j_f f r s = phi (j_f X r s) (j_f Y r s)) ->
  mt_calculate_2d lapack m [j_r X r s; j_r Y r s] [j_s X r s; j_s Y r s] (Some [j_rr X r s; j_rr Y r s]) (Some [j_ss X r s; j_ss Y r s]) (Some [j_rs X r s; j_rs Y r s]) = Ok (m', Ok g) ->
  let x := j_f X r s in let y := j_f Y r s in
  px x y = j_r f r s * comp (mt_ctr m') 0 0 + j_s f r s * comp (mt_ctr m') 1 0 /\
  py x y = j_r f r s * comp (mt_ctr m') 0 1 + j_s f r s * comp (mt_ctr m') 1 1 /\
  exists L0 L1, mt_ell m' 0 = Ok L0 /\ mt_ell m' 1 = Ok L1 /\
  pxx x y + pyy x y = entry (mt_gg m') 0 0 * j_rr f r s + 2 * entry (mt_gg m') 0 1 * j_rs f r s + entry (mt_gg m') 1 1 * j_ss f r s - L0 * j_r f r s - L1 * j_s f r s.
Proof.
  intros lapack m m' g X Y r s phi px py pxx pyy pxy f SZ HX HY SM HF EF E x y.
  destruct (chain2 phi px py pxx pyy pxy X Y f SM HX HY HF EF r s) as (K1 & K2 & K3 & K4 & K5). cbv zeta in K1, K2, K3, K4, K5. fold x y in K1, K2, K3, K4, K5.
  edestruct (C95_calculate_2d lapack m false) as (m1 & r1 & E1 & SZ1 & CB & CG); [exact SZ| | | |rewrite E in E1]; try reflexivity; [intros _; splits; discriminate|].
  inversion E1; subst m1 r1; clear E1.
  assert (NB : / 10 ^ 15 < jac2 [j_r X r s; j_r Y r s] [j_s X r s; j_s Y r s] ^ 2).
  { apply Rnot_le_lt. intros Q. destruct (CB Q). discriminate. }
  destruct (CG NB) as (_ & (MC & MO) & CH). specialize (CH eq_refl). cbn [getv] in CH.
  set (a := j_r X r s) in *. set (b := j_r Y r s) in *. set (c := j_s X r s) in *. set (d := j_s Y r s) in *.
  destruct (MO 0%nat 0%nat) as (_ & E00 & _ & G00); [lia|lia|]. destruct (MO 0%nat 1%nat) as (_ & E01 & _ & G01); [lia|lia|].
  destruct (MO 1%nat 0%nat) as (_ & E10 & _ & G10); [lia|lia|]. destruct (MO 1%nat 1%nat) as (_ & E11 & _ & G11); [lia|lia|].
  unfold dot, kron in E00, E01, E10, E11, G00, G01, G10, G11. cbn [sumn Nat.eqb] in E00, E01, E10, E11, G00, G01, G10, G11.
  set (ctr := comp (mt_ctr m')) in *. change (comp [[a; b]; [c; d]] 0 0) with a in *. change (comp [[a; b]; [c; d]] 0 1) with b in *.
  change (comp [[a; b]; [c; d]] 1 0) with c in *. change (comp [[a; b]; [c; d]] 1 1) with d in *.
  assert (E00' : ctr 0%nat 0%nat * a + ctr 1%nat 0%nat * c = 1) by lra. assert (E01' : ctr 0%nat 0%nat * b + ctr 1%nat 0%nat * d = 0) by lra.
  assert (E10' : ctr 0%nat 1%nat * a + ctr 1%nat 1%nat * c = 0) by lra. assert (E11' : ctr 0%nat 1%nat * b + ctr 1%nat 1%nat * d = 1) by lra.
  clear E00 E01 E10 E11. split; [|split].
  - rewrite K1, K2. transitivity (px x y * (ctr 0%nat 0%nat * a + ctr 1%nat 0%nat * c) + py x y * (ctr 0%nat 0%nat * b + ctr 1%nat 0%nat * d)); [rewrite E00', E01'; ring|ring].
  - rewrite K1, K2. transitivity (px x y * (ctr 0%nat 1%nat * a + ctr 1%nat 1%nat * c) + py x y * (ctr 0%nat 1%nat * b + ctr 1%nat 1%nat * d)); [rewrite E10', E11'; ring|ring].
  - eexists _, _. split; [apply ell2; auto; lia|]. split; [apply ell2; auto; lia|].
    cbn [sumn]. rewrite !CH by lia. unfold second2, dot. cbn [Nat.eqb sumn nth]. rewrite G00, G01, G10, G11, K1, K2, K3, K4, K5.
    rewrite <- (lap2 (ctr 0%nat 0%nat) (ctr 0%nat 1%nat) (ctr 1%nat 0%nat) (ctr 1%nat 1%nat) a b c d (px x y) (py x y) (pxx x y) (pyy x y) (pxy x y)
       (j_rr X r s) (j_rr Y r s) (j_ss X r s) (j_ss Y r s) (j_rs X r s) (j_rs Y r s) E00' E01' E10' E11').
    cbv zeta. unfold ctr. ring.
Qed.
Definition qf3 (hxx hyy hzz hxy hxz hyz u0 u1 u2 v0 v1 v2 : R) : R :=
  hxx * u0 * v0 + hyy * u1 * v1 + hzz * u2 * v2 + hxy * (u0 * v1 + u1 * v0) + hxz * (u0 * v2 + u2 * v0) + hyz * (u1 * v2 + u2 * v1).
Section Lap3.
Variables c00 c01 c02 c10 c11 c12 c20 c21 c22 g00 g01 g02 g10 g11 g12 g20 g21 g22 : R.
Hypothesis E00 : c00 * g00 + c10 * g10 + c20 * g20 = 1.
Hypothesis E01 : c00 * g01 + c10 * g11 + c20 * g21 = 0.
Hypothesis E02 : c00 * g02 + c10 * g12 + c20 * g22 = 0.
Hypothesis E10 : c01 * g00 + c11 * g10 + c21 * g20 = 0.
Hypothesis E11 : c01 * g01 + c11 * g11 + c21 * g21 = 1.
Hypothesis E12 : c01 * g02 + c11 * g12 + c21 * g22 = 0.
Hypothesis E20 : c02 * g00 + c12 * g10 + c22 * g20 = 0.
Hypothesis E21 : c02 * g01 + c12 * g11 + c22 * g21 = 0.
Hypothesis E22 : c02 * g02 + c12 * g12 + c22 * g22 = 1.
Lemma lap3_first C0 C1 C2 q0 q1 q2 : (C0 * c00 + C1 * c01 + C2 * c02) * (q0 * g00 + q1 * g01 + q2 * g02) + (C0 * c10 + C1 * c11 + C2 * c12) * (q0 * g10 + q1 * g11 + q2 * g12) + (C0 * c20 + C1 * c21 + C2 * c22) * (q0 * g20 + q1 * g21 + q2 * g22) = q0 * C0 + q1 * C1 + q2 * C2.
Proof using E00 E01 E02 E10 E11 E12 E20 E21 E22.
  transitivity (C0 * q0 * (c00 * g00 + c10 * g10 + c20 * g20) + C0 * q1 * (c00 * g01 + c10 * g11 + c20 * g21) + C0 * q2 * (c00 * g02 + c10 * g12 + c20 * g22) + C1 * q0 * (c01 * g00 + c11 * g10 + c21 * g20) + C1 * q1 * (c01 * g01 + c11 * g11 + c21 * g21) + C1 * q2 * (c01 * g02 + c11 * g12 + c21 * g22) + C2 * q0 * (c02 * g00 + c12 * g10 + c22 * g20) + C2 * q1 * (c02 * g01 + c12 * g11 + c22 * g21) + C2 * q2 * (c02 * g02 + c12 * g12 + c22 * g22)); [ring|].
  rewrite E00, E01, E02, E10, E11, E12, E20, E21, E22. ring.
Qed.
Lemma lap3_second hxx hyy hzz hxy hxz hyz : (c00 * c00 + c01 * c01 + c02 * c02) * qf3 hxx hyy hzz hxy hxz hyz g00 g01 g02 g00 g01 g02 + 2 * (c00 * c10 + c01 * c11 + c02 * c12) * qf3 hxx hyy hzz hxy hxz hyz g00 g01 g02 g10 g11 g12 + 2 * (c00 * c20 + c01 * c21 + c02 * c22) * qf3 hxx hyy hzz hxy hxz hyz g00 g01 g02 g20 g21 g22 + (c10 * c10 + c11 * c11 + c12 * c12) * qf3 hxx hyy hzz hxy hxz hyz g10 g11 g12 g10 g11 g12 + 2 * (c10 * c20 + c11 * c21 + c12 * c22) * qf3 hxx hyy hzz hxy hxz hyz g10 g11 g12 g20 g21 g22 + (c20 * c20 + c21 * c21 + c22 * c22) * qf3 hxx hyy hzz hxy hxz hyz g20 g21 g22 g20 g21 g22 = hxx + hyy + hzz.
Proof using E00 E01 E02 E10 E11 E12 E20 E21 E22.
  unfold qf3. transitivity (hxx * (c00 * g00 + c10 * g10 + c20 * g20) * (c00 * g00 + c10 * g10 + c20 * g20) + hxy * (c00 * g00 + c10 * g10 + c20 * g20) * (c00 * g01 + c10 * g11 + c20 * g21) + hxz * (c00 * g00 + c10 * g10 + c20 * g20) * (c00 * g02 + c10 * g12 + c20 * g22) + hxy * (c00 * g01 + c10 * g11 + c20 * g21) * (c00 * g00 + c10 * g10 + c20 * g20) + hyy * (c00 * g01 + c10 * g11 + c20 * g21) * (c00 * g01 + c10 * g11 + c20 * g21) + hyz * (c00 * g01 + c10 * g11 + c20 * g21) * (c00 * g02 + c10 * g12 + c20 * g22) + hxz * (c00 * g02 + c10 * g12 + c20 * g22) * (c00 * g00 + c10 * g10 + c20 * g20) + hyz * (c00 * g02 + c10 * g12 + c20 * g22) * (c00 * g01 + c10 * g11 + c20 * g21) + hzz * (c00 * g02 + c10 * g12 + c20 * g22) * (c00 * g02 + c10 * g12 + c20 * g22) + hxx * (c01 * g00 + c11 * g10 + c21 * g20) * (c01 * g00 + c11 * g10 + c21 * g20) + hxy * (c01 * g00 + c11 * g10 + c21 * g20) * (c01 * g01 + c11 * g11 + c21 * g21) + hxz * (c01 * g00 + c11 * g10 + c21 * g20) * (c01 * g02 + c11 * g12 + c21 * g22) + hxy * (c01 * g01 + c11 * g11 + c21 * g21) * (c01 * g00 + c11 * g10 + c21 * g20) + hyy * (c01 * g01 + c11 * g11 + c21 * g21) * (c01 * g01 + c11 * g11 + c21 * g21) + hyz * (c01 * g01 + c11 * g11 + c21 * g21) * (c01 * g02 + c11 * g12 + c21 * g22) + hxz * (c01 * g02 + c11 * g12 + c21 * g22) * (c01 * g00 + c11 * g10 + c21 * g20) + hyz * (c01 * g02 + c11 * g12 + c21 * g22) * (c01 * g01 + c11 * g11 + c21 * g21) + hzz * (c01 * g02 + c11 * g12 + c21 * g22) * (c01 * g02 + c11 * g12 + c21 * g22) + hxx * (c02 * g00 + c12 * g10 + c22 * g20) * (c02 * g00 + c12 * g10 + c22 * g20) + hxy * (c02 * g00 + c12 * g10 + c22 * g20) * (c02 * g01 + c12 * g11 + c22 * g21) + hxz * (c02 * g00 + c12 * g10 + c22 * g20) * (c02 * g02 + c12 * g12 + c22 * g22) + hxy * (c02 * g01 + c12 * g11 + c22 * g21) * (c02 * g00 + c12 * g10 + c22 * g20) + hyy * (c02 * g01 + c12 * g11 + c22 * g21) * (c02 * g01 + c12 * g11 + c22 * g21) + hyz * (c02 * g01 + c12 * g11 + c22 * g21) * (c02 * g02 + c12 * g12 + c22 * g22) + hxz * (c02 * g02 + c12 * g12 + c22 * g22) * (c02 * g00 + c12 * g10 + c22 * g20) + hyz * (c02 * g02 + c12 * g12 + c22 * g22) * (c02 * g01 + c12 * g11 + c22 * g21) + hzz * (c02 * g02 + c12 * g12 + c22 * g22) * (c02 * g02 + c12 * g12 + c22 * g22)); [ring|].
  rewrite E00, E01, E02, E10, E11, E12, E20, E21, E22. ring.
Qed.
Lemma lap3 q0 q1 q2 hxx hyy hzz hxy hxz hyz rr0 rr1 rr2 ss0 ss1 ss2 tt0 tt1 tt2 rs0 rs1 rs2 rt0 rt1 rt2 st0 st1 st2 :
  let G00 := c00 * c00 + c01 * c01 + c02 * c02 in let G11 := c10 * c10 + c11 * c11 + c12 * c12 in let G22 := c20 * c20 + c21 * c21 + c22 * c22 in let G01 := c00 * c10 + c01 * c11 + c02 * c12 in let G02 := c00 * c20 + c01 * c21 + c02 * c22 in let G12 := c10 * c20 + c11 * c21 + c12 * c22 in
  G00 * (qf3 hxx hyy hzz hxy hxz hyz g00 g01 g02 g00 g01 g02 + (q0 * rr0 + q1 * rr1 + q2 * rr2)) + G11 * (qf3 hxx hyy hzz hxy hxz hyz g10 g11 g12 g10 g11 g12 + (q0 * ss0 + q1 * ss1 + q2 * ss2)) + G22 * (qf3 hxx hyy hzz hxy hxz hyz g20 g21 g22 g20 g21 g22 + (q0 * tt0 + q1 * tt1 + q2 * tt2)) + 2 * G01 * (qf3 hxx hyy hzz hxy hxz hyz g00 g01 g02 g10 g11 g12 + (q0 * rs0 + q1 * rs1 + q2 * rs2)) + 2 * G02 * (qf3 hxx hyy hzz hxy hxz hyz g00 g01 g02 g20 g21 g22 + (q0 * rt0 + q1 * rt1 + q2 * rt2)) + 2 * G12 * (qf3 hxx hyy hzz hxy hxz hyz g10 g11 g12 g20 g21 g22 + (q0 * st0 + q1 * st1 + q2 * st2)) - ((rr0 * c00 + rr1 * c01 + rr2 * c02) * G00 + (ss0 * c00 + ss1 * c01 + ss2 * c02) * G11 + (tt0 * c00 + tt1 * c01 + tt2 * c02) * G22 + 2 * (rs0 * c00 + rs1 * c01 + rs2 * c02) * G01 + 2 * (rt0 * c00 + rt1 * c01 + rt2 * c02) * G02 + 2 * (st0 * c00 + st1 * c01 + st2 * c02) * G12) * (q0 * g00 + q1 * g01 + q2 * g02) - ((rr0 * c10 + rr1 * c11 + rr2 * c12) * G00 + (ss0 * c10 + ss1 * c11 + ss2 * c12) * G11 + (tt0 * c10 + tt1 * c11 + tt2 * c12) * G22 + 2 * (rs0 * c10 + rs1 * c11 + rs2 * c12) * G01 + 2 * (rt0 * c10 + rt1 * c11 + rt2 * c12) * G02 + 2 * (st0 * c10 + st1 * c11 + st2 * c12) * G12) * (q0 * g10 + q1 * g11 + q2 * g12) - ((rr0 * c20 + rr1 * c21 + rr2 * c22) * G00 + (ss0 * c20 + ss1 * c21 + ss2 * c22) * G11 + (tt0 * c20 + tt1 * c21 + tt2 * c22) * G22 + 2 * (rs0 * c20 + rs1 * c21 + rs2 * c22) * G01 + 2 * (rt0 * c20 + rt1 * c21 + rt2 * c22) * G02 + 2 * (st0 * c20 + st1 * c21 + st2 * c22) * G12) * (q0 * g20 + q1 * g21 + q2 * g22) = hxx + hyy + hzz.
Proof using E00 E01 E02 E10 E11 E12 E20 E21 E22.
  cbv zeta. rewrite <- (lap3_second hxx hyy hzz hxy hxz hyz). assert (Qrr := lap3_first rr0 rr1 rr2 q0 q1 q2). assert (Qss := lap3_first ss0 ss1 ss2 q0 q1 q2). assert (Qtt := lap3_first tt0 tt1 tt2 q0 q1 q2). assert (Qrs := lap3_first rs0 rs1 rs2 q0 q1 q2). assert (Qrt := lap3_first rt0 rt1 rt2 q0 q1 q2). assert (Qst := lap3_first st0 st1 st2 q0 q1 q2).
  set (G00 := c00 * c00 + c01 * c01 + c02 * c02). set (G11 := c10 * c10 + c11 * c11 + c12 * c12). set (G22 := c20 * c20 + c21 * c21 + c22 * c22). set (G01 := c00 * c10 + c01 * c11 + c02 * c12). set (G02 := c00 * c20 + c01 * c21 + c02 * c22). set (G12 := c10 * c20 + c11 * c21 + c12 * c22).
  set (H00 := qf3 hxx hyy hzz hxy hxz hyz g00 g01 g02 g00 g01 g02). set (H11 := qf3 hxx hyy hzz hxy hxz hyz g10 g11 g12 g10 g11 g12). set (H22 := qf3 hxx hyy hzz hxy hxz hyz g20 g21 g22 g20 g21 g22). set (H01 := qf3 hxx hyy hzz hxy hxz hyz g00 g01 g02 g10 g11 g12). set (H02 := qf3 hxx hyy hzz hxy hxz hyz g00 g01 g02 g20 g21 g22). set (H12 := qf3 hxx hyy hzz hxy hxz hyz g10 g11 g12 g20 g21 g22).
  rewrite <- Qrr. rewrite <- Qss. rewrite <- Qtt. rewrite <- Qrs. rewrite <- Qrt. rewrite <- Qst. ring.
Qed.
End Lap3.

Lemma d3mul (f g h k p q : R -> R) (t df dg dh dk dp dq : R) : is_derive f t df -> is_derive g t dg -> is_derive h t dh -> is_derive k t dk -> is_derive p t dp -> is_derive q t dq ->
  is_derive (fun u : R => f u * g u + h u * k u + p u * q u) t ((df * g t + f t * dg) + (dh * k t + h t * dk) + (dp * q t + p t * dq)).
Proof.
  intros H1 H2 H3 H4 H5 H6. assert (H := d2mul f g h k t df dg dh dk H1 H2 H3 H4). apply is_derive_Reals in H. apply is_derive_Reals in H5. apply is_derive_Reals in H6. apply is_derive_Reals.
  apply (derivable_pt_lim_plus (fun u => f u * g u + h u * k u) (fun u => p u * q u)); [exact H|apply (derivable_pt_lim_mult p q)]; auto.
Qed.

Lemma chain3 phi px py pz pxx pyy pzz pxy pxz pyz X Y Z f : smooth3 phi px py pz pxx pyy pzz pxy pxz pyz -> is_jet3 X -> is_jet3 Y -> is_jet3 Z -> is_jet3 f ->
  (forall r s t, k_f f r s t = phi (k_f X r s t) (k_f Y r s t) (k_f Z r s t)) ->
  forall r s t, let at_ (h : R -> R -> R -> R) := h (k_f X r s t) (k_f Y r s t) (k_f Z r s t) in
  k_r f r s t = at_ px * k_r X r s t + at_ py * k_r Y r s t + at_ pz * k_r Z r s t /\
  k_s f r s t = at_ px * k_s X r s t + at_ py * k_s Y r s t + at_ pz * k_s Z r s t /\
  k_t f r s t = at_ px * k_t X r s t + at_ py * k_t Y r s t + at_ pz * k_t Z r s t /\
  k_rr f r s t = qf3 (at_ pxx) (at_ pyy) (at_ pzz) (at_ pxy) (at_ pxz) (at_ pyz) (k_r X r s t) (k_r Y r s t) (k_r Z r s t) (k_r X r s t) (k_r Y r s t) (k_r Z r s t) + (at_ px * k_rr X r s t + at_ py * k_rr Y r s t + at_ pz * k_rr Z r s t) /\
  k_ss f r s t = qf3 (at_ pxx) (at_ pyy) (at_ pzz) (at_ pxy) (at_ pxz) (at_ pyz) (k_s X r s t) (k_s Y r s t) (k_s Z r s t) (k_s X r s t) (k_s Y r s t) (k_s Z r s t) + (at_ px * k_ss X r s t + at_ py * k_ss Y r s t + at_ pz * k_ss Z r s t) /\
  k_tt f r s t = qf3 (at_ pxx) (at_ pyy) (at_ pzz) (at_ pxy) (at_ pxz) (at_ pyz) (k_t X r s t) (k_t Y r s t) (k_t Z r s t) (k_t X r s t) (k_t Y r s t) (k_t Z r s t) + (at_ px * k_tt X r s t + at_ py * k_tt Y r s t + at_ pz * k_tt Z r s t) /\
  k_rs f r s t = qf3 (at_ pxx) (at_ pyy) (at_ pzz) (at_ pxy) (at_ pxz) (at_ pyz) (k_r X r s t) (k_r Y r s t) (k_r Z r s t) (k_s X r s t) (k_s Y r s t) (k_s Z r s t) + (at_ px * k_rs X r s t + at_ py * k_rs Y r s t + at_ pz * k_rs Z r s t) /\
  k_rt f r s t = qf3 (at_ pxx) (at_ pyy) (at_ pzz) (at_ pxy) (at_ pxz) (at_ pyz) (k_r X r s t) (k_r Y r s t) (k_r Z r s t) (k_t X r s t) (k_t Y r s t) (k_t Z r s t) + (at_ px * k_rt X r s t + at_ py * k_rt Y r s t + at_ pz * k_rt Z r s t) /\
  k_st f r s t = qf3 (at_ pxx) (at_ pyy) (at_ pzz) (at_ pxy) (at_ pxz) (at_ pyz) (k_s X r s t) (k_s Y r s t) (k_s Z r s t) (k_t X r s t) (k_t Y r s t) (k_t Z r s t) + (at_ px * k_st X r s t + at_ py * k_st Y r s t + at_ pz * k_st Z r s t).
Proof.
  intros (S1 & S2 & S3 & S4) HX HY HZ HF E.
  assert (Fr : forall r s t, k_r f r s t = px (k_f X r s t) (k_f Y r s t) (k_f Z r s t) * k_r X r s t + py (k_f X r s t) (k_f Y r s t) (k_f Z r s t) * k_r Y r s t + pz (k_f X r s t) (k_f Y r s t) (k_f Z r s t) * k_r Z r s t).
  { intros r s t. destruct (HF r s t) as (D & _). apply is_derive_unique in D. rewrite <- D. apply is_derive_unique.
    apply is_derive_ext with (fun u : R => phi (k_f X u s t) (k_f Y u s t) (k_f Z u s t)); [intros; now rewrite E|].
    apply (S1 (fun u => k_f X u s t) (fun u => k_f Y u s t) (fun u => k_f Z u s t)); [apply HX|apply HY|apply HZ]. }
  assert (Fs : forall r s t, k_s f r s t = px (k_f X r s t) (k_f Y r s t) (k_f Z r s t) * k_s X r s t + py (k_f X r s t) (k_f Y r s t) (k_f Z r s t) * k_s Y r s t + pz (k_f X r s t) (k_f Y r s t) (k_f Z r s t) * k_s Z r s t).
  { intros r s t. destruct (HF r s t) as (_ & D & _). apply is_derive_unique in D. rewrite <- D. apply is_derive_unique.
    apply is_derive_ext with (fun u : R => phi (k_f X r u t) (k_f Y r u t) (k_f Z r u t)); [intros; now rewrite E|].
    apply (S1 (fun u => k_f X r u t) (fun u => k_f Y r u t) (fun u => k_f Z r u t)); [apply HX|apply HY|apply HZ]. }
  assert (Ft : forall r s t, k_t f r s t = px (k_f X r s t) (k_f Y r s t) (k_f Z r s t) * k_t X r s t + py (k_f X r s t) (k_f Y r s t) (k_f Z r s t) * k_t Y r s t + pz (k_f X r s t) (k_f Y r s t) (k_f Z r s t) * k_t Z r s t).
  { intros r s t. destruct (HF r s t) as (_ & _ & D & _). apply is_derive_unique in D. rewrite <- D. apply is_derive_unique.
    apply is_derive_ext with (fun u : R => phi (k_f X r s u) (k_f Y r s u) (k_f Z r s u)); [intros; now rewrite E|].
    apply (S1 (fun u => k_f X r s u) (fun u => k_f Y r s u) (fun u => k_f Z r s u)); [apply HX|apply HY|apply HZ]. }
  intros r s t at_. destruct (HX r s t) as (X1 & X2 & X3 & X4 & X5 & X6 & X7 & X8 & X9). destruct (HY r s t) as (Y1 & Y2 & Y3 & Y4 & Y5 & Y6 & Y7 & Y8 & Y9). destruct (HZ r s t) as (Z1 & Z2 & Z3 & Z4 & Z5 & Z6 & Z7 & Z8 & Z9).
  split; [apply Fr|]. split; [apply Fs|]. split; [apply Ft|]. splits.
  - destruct (HF r s t) as (_ & _ & _ & D & _). apply is_derive_unique in D. rewrite <- D. apply is_derive_unique.
    apply is_derive_ext with (fun u : R => px (k_f X u s t) (k_f Y u s t) (k_f Z u s t) * k_r X u s t + py (k_f X u s t) (k_f Y u s t) (k_f Z u s t) * k_r Y u s t + pz (k_f X u s t) (k_f Y u s t) (k_f Z u s t) * k_r Z u s t); [intros; now rewrite Fr|].
    assert (D1 := S2 _ _ _ _ _ _ _ X1 Y1 Z1). assert (D2 := S3 _ _ _ _ _ _ _ X1 Y1 Z1). assert (D3 := S4 _ _ _ _ _ _ _ X1 Y1 Z1). cbv beta in D1, D2, D3.
    eapply is_derive_val; [apply d3mul; eassumption|]. unfold qf3, at_. ring.
  - destruct (HF r s t) as (_ & _ & _ & _ & D & _). apply is_derive_unique in D. rewrite <- D. apply is_derive_unique.
    apply is_derive_ext with (fun u : R => px (k_f X r u t) (k_f Y r u t) (k_f Z r u t) * k_s X r u t + py (k_f X r u t) (k_f Y r u t) (k_f Z r u t) * k_s Y r u t + pz (k_f X r u t) (k_f Y r u t) (k_f Z r u t) * k_s Z r u t); [intros; now rewrite Fs|].
    assert (D1 := S2 _ _ _ _ _ _ _ X2 Y2 Z2). assert (D2 := S3 _ _ _ _ _ _ _ X2 Y2 Z2). assert (D3 := S4 _ _ _ _ _ _ _ X2 Y2 Z2). cbv beta in D1, D2, D3.
    eapply is_derive_val; [apply d3mul; eassumption|]. unfold qf3, at_. ring.
  - destruct (HF r s t) as (_ & _ & _ & _ & _ & D & _). apply is_derive_unique in D. rewrite <- D. apply is_derive_unique.
    apply is_derive_ext with (fun u : R => px (k_f X r s u) (k_f Y r s u) (k_f Z r s u) * k_t X r s u + py (k_f X r s u) (k_f Y r s u) (k_f Z r s u) * k_t Y r s u + pz (k_f X r s u) (k_f Y r s u) (k_f Z r s u) * k_t Z r s u); [intros; now rewrite Ft|].
    assert (D1 := S2 _ _ _ _ _ _ _ X3 Y3 Z3). assert (D2 := S3 _ _ _ _ _ _ _ X3 Y3 Z3). assert (D3 := S4 _ _ _ _ _ _ _ X3 Y3 Z3). cbv beta in D1, D2, D3.
    eapply is_derive_val; [apply d3mul; eassumption|]. unfold qf3, at_. ring.
  - destruct (HF r s t) as (_ & _ & _ & _ & _ & _ & D & _). apply is_derive_unique in D. rewrite <- D. apply is_derive_unique.
    apply is_derive_ext with (fun u : R => px (k_f X r u t) (k_f Y r u t) (k_f Z r u t) * k_r X r u t + py (k_f X r u t) (k_f Y r u t) (k_f Z r u t) * k_r Y r u t + pz (k_f X r u t) (k_f Y r u t) (k_f Z r u t) * k_r Z r u t); [intros; now rewrite Fr|].
    assert (D1 := S2 _ _ _ _ _ _ _ X2 Y2 Z2). assert (D2 := S3 _ _ _ _ _ _ _ X2 Y2 Z2). assert (D3 := S4 _ _ _ _ _ _ _ X2 Y2 Z2). cbv beta in D1, D2, D3.
    eapply is_derive_val; [apply d3mul; eassumption|]. unfold qf3, at_. ring.
  - destruct (HF r s t) as (_ & _ & _ & _ & _ & _ & _ & D & _). apply is_derive_unique in D. rewrite <- D. apply is_derive_unique.
    apply is_derive_ext with (fun u : R => px (k_f X r s u) (k_f Y r s u) (k_f Z r s u) * k_r X r s u + py (k_f X r s u) (k_f Y r s u) (k_f Z r s u) * k_r Y r s u + pz (k_f X r s u) (k_f Y r s u) (k_f Z r s u) * k_r Z r s u); [intros; now rewrite Fr|].
    assert (D1 := S2 _ _ _ _ _ _ _ X3 Y3 Z3). assert (D2 := S3 _ _ _ _ _ _ _ X3 Y3 Z3). assert (D3 := S4 _ _ _ _ _ _ _ X3 Y3 Z3). cbv beta in D1, D2, D3.
    eapply is_derive_val; [apply d3mul; eassumption|]. unfold qf3, at_. ring.
  - destruct (HF r s t) as (_ & _ & _ & _ & _ & _ & _ & _ & D). apply is_derive_unique in D. rewrite <- D. apply is_derive_unique.
    apply is_derive_ext with (fun u : R => px (k_f X r s u) (k_f Y r s u) (k_f Z r s u) * k_s X r s u + py (k_f X r s u) (k_f Y r s u) (k_f Z r s u) * k_s Y r s u + pz (k_f X r s u) (k_f Y r s u) (k_f Z r s u) * k_s Z r s u); [intros; now rewrite Fs|].
    assert (D1 := S2 _ _ _ _ _ _ _ X3 Y3 Z3). assert (D2 := S3 _ _ _ _ _ _ _ X3 Y3 Z3). assert (D3 := S4 _ _ _ _ _ _ _ X3 Y3 Z3). cbv beta in D1, D2, D3.
    eapply is_derive_val; [apply d3mul; eassumption|]. unfold qf3, at_. ring.
Qed.

(** the same in three dimensions *)
Theorem C95_laplacian_3d : forall lapack m m' g (X Y Z : jet3) r s t phi px py pz pxx pyy pzz pxy pxz pyz (f : jet3), sized 3 false m -> is_jet3 X -> is_jet3 Y -> is_jet3 Z ->
  smooth3 phi px py pz pxx pyy pzz pxy pxz pyz -> is_jet3 f -> (forall r s t, k_f f r s t = phi (k_f X r s t) (k_f Y r s t) (k_f Z r s t)) ->
  mt_calculate_3d lapack m [k_r X r s t; k_r Y r s t; k_r Z r s t] [k_s X r s t; k_s Y r s t; k_s Z r s t] [k_t X r s t; k_t Y r s t; k_t Z r s t] (Some [k_rr X r s t; k_rr Y r s t; k_rr Z r s t]) (Some [k_ss X r s t; k_ss Y r s t; k_ss Z r s t]) (Some [k_tt X r s t; k_tt Y r s t; k_tt Z r s t]) (Some [k_rs X r s t; k_rs Y r s t; k_rs Z r s t]) (Some [k_rt X r s t; k_rt Y r s t; k_rt Z r s t]) (Some [k_st X r s t; k_st Y r s t; k_st Z r s t]) = Ok (m', Ok g) ->
  let x := k_f X r s t in let y := k_f Y r s t in let z := k_f Z r s t in
  px x y z = k_r f r s t * comp (mt_ctr m') 0 0 + k_s f r s t * comp (mt_ctr m') 1 0 + k_t f r s t * comp (mt_ctr m') 2 0 /\
  py x y z = k_r f r s t * comp (mt_ctr m') 0 1 + k_s f r s t * comp (mt_ctr m') 1 1 + k_t f r s t * comp (mt_ctr m') 2 1 /\
  pz x y z = k_r f r s t * comp (mt_ctr m') 0 2 + k_s f r s t * comp (mt_ctr m') 1 2 + k_t f r s t * comp (mt_ctr m') 2 2 /\
  exists L0 L1 L2, mt_ell m' 0 = Ok L0 /\ mt_ell m' 1 = Ok L1 /\ mt_ell m' 2 = Ok L2 /\
  pxx x y z + pyy x y z + pzz x y z = entry (mt_gg m') 0 0 * k_rr f r s t + entry (mt_gg m') 1 1 * k_ss f r s t + entry (mt_gg m') 2 2 * k_tt f r s t + 2 * entry (mt_gg m') 0 1 * k_rs f r s t + 2 * entry (mt_gg m') 0 2 * k_rt f r s t + 2 * entry (mt_gg m') 1 2 * k_st f r s t - L0 * k_r f r s t - L1 * k_s f r s t - L2 * k_t f r s t.
Proof.
  intros lapack m m' g X Y Z r s t phi px py pz pxx pyy pzz pxy pxz pyz f SZ HX HY HZ SM HF EF E x y z.
  destruct (chain3 phi px py pz pxx pyy pzz pxy pxz pyz X Y Z f SM HX HY HZ HF EF r s t) as (K1 & K2 & K3 & K4 & K5 & K6 & K7 & K8 & K9). cbv zeta in K1, K2, K3, K4, K5, K6, K7, K8, K9. fold x y z in K1, K2, K3, K4, K5, K6, K7, K8, K9.
  edestruct (C95_calculate_3d lapack m false) as (m1 & r1 & E1 & SZ1 & CB & CG); [exact SZ| | | | |rewrite E in E1]; try reflexivity; [intros _; splits; discriminate|].
  inversion E1; subst m1 r1; clear E1.
  match type of CG with (_ < ?q -> _) => assert (NB : / 10 ^ 15 < q) end.
  { apply Rnot_le_lt. intros Q. destruct (CB Q). discriminate. }
  destruct (CG NB) as (_ & (MC & MO) & CH). specialize (CH eq_refl). cbn [getv] in CH. clear CB CG NB MC E.
  set (a := k_r X r s t) in *.
  set (b := k_r Y r s t) in *.
  set (c := k_r Z r s t) in *.
  set (d := k_s X r s t) in *.
  set (e := k_s Y r s t) in *.
  set (h := k_s Z r s t) in *.
  set (p := k_t X r s t) in *.
  set (q := k_t Y r s t) in *.
  set (w := k_t Z r s t) in *.
  destruct (MO 0%nat 0%nat) as (_ & E00 & _ & G00); [lia|lia|].
  destruct (MO 0%nat 1%nat) as (_ & E01 & _ & G01); [lia|lia|].
  destruct (MO 0%nat 2%nat) as (_ & E02 & _ & G02); [lia|lia|].
  destruct (MO 1%nat 0%nat) as (_ & E10 & _ & G10); [lia|lia|].
  destruct (MO 1%nat 1%nat) as (_ & E11 & _ & G11); [lia|lia|].
  destruct (MO 1%nat 2%nat) as (_ & E12 & _ & G12); [lia|lia|].
  destruct (MO 2%nat 0%nat) as (_ & E20 & _ & G20); [lia|lia|].
  destruct (MO 2%nat 1%nat) as (_ & E21 & _ & G21); [lia|lia|].
  destruct (MO 2%nat 2%nat) as (_ & E22 & _ & G22); [lia|lia|].
  clear MO. unfold dot, kron in E00, E01, E02, E10, E11, E12, E20, E21, E22, G00, G01, G02, G10, G11, G12, G20, G21, G22. cbn [sumn Nat.eqb] in E00, E01, E02, E10, E11, E12, E20, E21, E22, G00, G01, G02, G10, G11, G12, G20, G21, G22.
  set (ctr := comp (mt_ctr m')) in *.
  change (comp [[a; b; c]; [d; e; h]; [p; q; w]] 0 0) with a in *.
  change (comp [[a; b; c]; [d; e; h]; [p; q; w]] 0 1) with b in *.
  change (comp [[a; b; c]; [d; e; h]; [p; q; w]] 0 2) with c in *.
  change (comp [[a; b; c]; [d; e; h]; [p; q; w]] 1 0) with d in *.
  change (comp [[a; b; c]; [d; e; h]; [p; q; w]] 1 1) with e in *.
  change (comp [[a; b; c]; [d; e; h]; [p; q; w]] 1 2) with h in *.
  change (comp [[a; b; c]; [d; e; h]; [p; q; w]] 2 0) with p in *.
  change (comp [[a; b; c]; [d; e; h]; [p; q; w]] 2 1) with q in *.
  change (comp [[a; b; c]; [d; e; h]; [p; q; w]] 2 2) with w in *.
  assert (F00 : ctr 0%nat 0%nat * a + ctr 1%nat 0%nat * d + ctr 2%nat 0%nat * p = 1) by lra.
  assert (F01 : ctr 0%nat 0%nat * b + ctr 1%nat 0%nat * e + ctr 2%nat 0%nat * q = 0) by lra.
  assert (F02 : ctr 0%nat 0%nat * c + ctr 1%nat 0%nat * h + ctr 2%nat 0%nat * w = 0) by lra.
  assert (F10 : ctr 0%nat 1%nat * a + ctr 1%nat 1%nat * d + ctr 2%nat 1%nat * p = 0) by lra.
  assert (F11 : ctr 0%nat 1%nat * b + ctr 1%nat 1%nat * e + ctr 2%nat 1%nat * q = 1) by lra.
  assert (F12 : ctr 0%nat 1%nat * c + ctr 1%nat 1%nat * h + ctr 2%nat 1%nat * w = 0) by lra.
  assert (F20 : ctr 0%nat 2%nat * a + ctr 1%nat 2%nat * d + ctr 2%nat 2%nat * p = 0) by lra.
  assert (F21 : ctr 0%nat 2%nat * b + ctr 1%nat 2%nat * e + ctr 2%nat 2%nat * q = 0) by lra.
  assert (F22 : ctr 0%nat 2%nat * c + ctr 1%nat 2%nat * h + ctr 2%nat 2%nat * w = 1) by lra.
  clear E00 E01 E02 E10 E11 E12 E20 E21 E22. split; [|split; [|split]].
  - rewrite K1, K2, K3. transitivity (px x y z * (ctr 0%nat 0%nat * a + ctr 1%nat 0%nat * d + ctr 2%nat 0%nat * p) + py x y z * (ctr 0%nat 0%nat * b + ctr 1%nat 0%nat * e + ctr 2%nat 0%nat * q) + pz x y z * (ctr 0%nat 0%nat * c + ctr 1%nat 0%nat * h + ctr 2%nat 0%nat * w)); [rewrite F00, F01, F02; ring|ring].
  - rewrite K1, K2, K3. transitivity (px x y z * (ctr 0%nat 1%nat * a + ctr 1%nat 1%nat * d + ctr 2%nat 1%nat * p) + py x y z * (ctr 0%nat 1%nat * b + ctr 1%nat 1%nat * e + ctr 2%nat 1%nat * q) + pz x y z * (ctr 0%nat 1%nat * c + ctr 1%nat 1%nat * h + ctr 2%nat 1%nat * w)); [rewrite F10, F11, F12; ring|ring].
  - rewrite K1, K2, K3. transitivity (px x y z * (ctr 0%nat 2%nat * a + ctr 1%nat 2%nat * d + ctr 2%nat 2%nat * p) + py x y z * (ctr 0%nat 2%nat * b + ctr 1%nat 2%nat * e + ctr 2%nat 2%nat * q) + pz x y z * (ctr 0%nat 2%nat * c + ctr 1%nat 2%nat * h + ctr 2%nat 2%nat * w)); [rewrite F20, F21, F22; ring|ring].
  - eexists _, _, _. split; [apply ell3; auto; lia|]. split; [apply ell3; auto; lia|]. split; [apply ell3; auto; lia|].
    cbn [sumn]. rewrite !CH by lia. unfold second3, dot. cbn [sumn nth]. rewrite G00, G01, G02, G10, G11, G12, G20, G21, G22, K1, K2, K3, K4, K5, K6, K7, K8, K9.
    rewrite <- (lap3 (ctr 0%nat 0%nat) (ctr 0%nat 1%nat) (ctr 0%nat 2%nat) (ctr 1%nat 0%nat) (ctr 1%nat 1%nat) (ctr 1%nat 2%nat) (ctr 2%nat 0%nat) (ctr 2%nat 1%nat) (ctr 2%nat 2%nat) a b c d e h p q w F00 F01 F02 F10 F11 F12 F20 F21 F22 (px x y z) (py x y z) (pz x y z) (pxx x y z) (pyy x y z) (pzz x y z) (pxy x y z) (pxz x y z) (pyz x y z) (k_rr X r s t) (k_rr Y r s t) (k_rr Z r s t) (k_ss X r s t) (k_ss Y r s t) (k_ss Z r s t) (k_tt X r s t) (k_tt Y r s t) (k_tt Z r s t) (k_rs X r s t) (k_rs Y r s t) (k_rs Z r s t) (k_rt X r s t) (k_rt Y r s t) (k_rt Z r s t) (k_st X r s t) (k_st Y r s t) (k_st Z r s t)).
    cbv zeta. unfold ctr. ring.
Qed.


(** ** findings *)
(** The base vectors of a square of side 1e-4 (half side 5e-5 on the reference square) are orthogonal and far from degenerate, but the metrics cannot be
    computed: the inverse of the covariant matrix is refused when the square of the Jacobian is at most 1e-15, an absolute bound that depends on the unit of length. *)
Theorem C95_small_domain_refuted : let a := / 20000 in forall lapack, jac2 [a; 0] [0; a] <> 0 /\
  exists m' e, mt_calculate_2d lapack (mt_new 2 true) [a; 0] [0; a] None None None = Ok (m', Err e).
Proof.
  intros a lapack. assert (J : jac2 [a; 0] [0; a] = / 400000000) by (unfold jac2, a; cbn; field). split; [rewrite J; lra|].
  destruct (C95_calculate_2d lapack (mt_new 2 true) true [a; 0] [0; a] None None None) as (m' & r & E & _ & B & _); try reflexivity; [apply C95_sizes; exact lapack|discriminate|].
  rewrite J in B. destruct (B ltac:(cbn; lra)) as (e & ->). eauto.
Qed.
(** The documentation of the L-coefficients says that `homogeneous` must be true; with `homogeneous` true the call panics after the calculation, since the Christoffel symbols are not stored. *)
Theorem C95_ell_homogeneous_refuted : forall lapack dr ds m' g k, mt_calculate_2d lapack (mt_new 2 true) dr ds None None None = Ok (m', Ok g) -> mt_ell m' k = Panic.
Proof.
  intros lapack dr ds m' g k E. unfold mt_calculate_2d in E. change (mt_ndim (mt_new 2 true)) with 2%nat in E. change (mt_hom (mt_new 2 true)) with true in E. cbn [Nat.eqb negb andb] in E.
  destruct (Nat.eqb_spec (length dr) 2); [|discriminate]. destruct (Nat.eqb_spec (length ds) 2); [|discriminate]. cbn [negb] in E.
  assert (C : mt_chr m' = [] /\ mt_ndim m' = 2%nat).
  { unfold mt_calculate in E. apply bind_ok in E. destruct E as (cov & _ & E). apply bind_ok in E. destruct E as (g0 & _ & E). destruct (mat_inverse _ _ _) as [[det gg]| |]; try discriminate.
    apply bind_ok in E. destruct E as (ctr & _ & E). unfold mt_set_chr in E. change (mt_hom (mt_new 2 true)) with true in E. cbn [bind] in E. inversion E. split; reflexivity. }
  destruct C as [C N]. unfold mt_ell. rewrite N. unfold for_range. cbn [Nat.sub for_n]. rewrite C. destruct k; reflexivity.
Qed.

(** ** examples *)
(** the sheared map x = r + s/2, y = s: a regular calculation, which meets the hypotheses above *)
Example C95_sheared_nonvacuous : forall lapack, sized 2 false (mt_new 2 false) /\
  exists m', mt_calculate_2d lapack (mt_new 2 false) [1; 0] [/ 2; 1] (Some [0; 0]) (Some [0; 0]) (Some [0; 0]) = Ok (m', Ok ((1 * 1 - 0 * / 2) ^ 2)) /\
  entry (mt_gg m') 0 1 = - / 2 /\ entry (mt_gg m') 0 0 = 5 / 4.
Proof.
  intros lapack. assert (S : sized 2 false (mt_new 2 false)) by (apply C95_sizes; exact lapack). split; auto.
  destruct (calc2 lapack (mt_new 2 false) false 1 0 (/ 2) 1 (Some [0; 0]) (Some [0; 0]) (Some [0; 0]) S) as (m' & E & _ & C); [intros _; splits; discriminate|].
  assert (Q : ZERO_DETERMINANT < (1 * 1 - 0 * / 2) ^ 2) by (unfold ZERO_DETERMINANT; cbn; lra).
  exists m'. destruct (C Q) as (_ & _ & _ & -> & _). split; [|split; unfold entry; cbn; field].
  unfold mt_calculate_2d. cbn [mt_ndim mt_hom mt_new Nat.eqb negb length andb is_none]. destruct (Rleb_spec ((1 * 1 - 0 * / 2) ^ 2) ZERO_DETERMINANT); [lra|]. exact E.
Qed.
(** smooth fields and polar coordinates *)
Example C95_polar_nonvacuous : is_jet2 (mkJ2 (fun r s => r * cos s) (fun _ s => cos s) (fun r s => - (r * sin s)) (fun _ _ => 0) (fun r s => - (r * cos s)) (fun _ s => - sin s)) /\
  smooth2 (fun x y => x * x * y) (fun x y => 2 * x * y) (fun x y => x * x) (fun x y => 2 * y) (fun x y => 0) (fun x y => 2 * x).
Proof.
  split.
  - intros r s. cbn [j_f j_r j_s j_rr j_ss j_rs]. splits; auto_derive; auto; ring.
  - assert (M : forall (a b : R -> R) t da db, is_derive a t da -> is_derive b t db -> is_derive (fun z => a z * b z) t (da * b t + a t * db)).
    { intros a b t da db Ha Hb. apply (is_derive_mult a b t da db Ha Hb). intros; apply Rmult_comm. }
    assert (K : forall (k t : R), is_derive (fun _ : R => k) t 0) by (intros; auto_derive; auto).
    unfold smooth2, has_grad2. splits; intros c1 c2 t d1 d2 H1 H2.
    + eapply is_derive_val; [apply (M (fun z => c1 z * c1 z) c2); [apply M; eauto|eauto]|cbv beta; ring].
    + eapply is_derive_val; [apply (M (fun z => 2 * c1 z) c2); [apply (M (fun _ => 2) c1); eauto|eauto]|cbv beta; ring].
    + eapply is_derive_val; [apply (M c1 c1); eauto|cbv beta; ring].
Qed.

Print Assumptions C95_calculate_2d.
Print Assumptions C95_calculate_3d.
Print Assumptions C95_sizes.
Print Assumptions C95_laplacian_2d.
Print Assumptions C95_laplacian_3d.
Print Assumptions C95_small_domain_refuted.
Print Assumptions C95_ell_homogeneous_refuted.
