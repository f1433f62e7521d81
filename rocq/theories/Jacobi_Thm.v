(** C20: Jacobi rotations *)
From Coq Require Import Reals Lra Lia List Psatz.
From Verif Require Import RSum Dense_Proofs Jacobi_Model.
Import ListNotations.
Open Scope R_scope.

(* ------------------------------------------------------------------ *)
(** * Specification *)

(** the n x n matrix m has the entries f *)
Definition entries (n : nat) (m : dmat R) (f : nat -> nat -> R) : Prop :=
  d_wf m /\ d_nrow m = n /\ d_ncol m = n /\ forall i j, (i < n)%nat -> (j < n)%nat -> dval 0 m i j = f i j.

Definition delta (i j : nat) : R := if (i =? j)%nat then 1 else 0.

(** the rows and the columns of V are orthonormal *)
Definition orthogonal (n : nat) (V : nat -> nat -> R) : Prop :=
  (forall i j, (i < n)%nat -> (j < n)%nat -> sumn n (fun k => V i k * V j k) = delta i j) /\
  (forall i j, (i < n)%nat -> (j < n)%nat -> sumn n (fun k => V k i * V k j) = delta i j).

(** the symmetric matrix with diagonal l whose upper triangle is that of f *)
Definition symof (f : nat -> nat -> R) (l : nat -> R) (i j : nat) : R :=
  if (i <? j)%nat then f i j else if (j <? i)%nat then f j i else l i.

(* ------------------------------------------------------------------ *)
(** * Sums *)

Lemma sumn_two n f p q : (p < n)%nat -> (q < n)%nat -> p <> q -> (forall k, (k < n)%nat -> k <> p -> k <> q -> f k = 0) -> sumn n f = f p + f q.
Proof.
  intros Hp Hq Hpq H.
  rewrite (sumn_ext n f (fun k => (if (k =? p)%nat then f p else 0) + (if (k =? q)%nat then f q else 0))).
  - rewrite sumn_plus. f_equal.
    + rewrite (sumn_single n _ p); auto; [now rewrite Nat.eqb_refl|]. intros i _ Hi. destruct (Nat.eqb_spec i p); [lia|reflexivity].
    + rewrite (sumn_single n _ q); auto; [now rewrite Nat.eqb_refl|]. intros i _ Hi. destruct (Nat.eqb_spec i q); [lia|reflexivity].
  - intros k Hk. destruct (Nat.eqb_spec k p) as [E1|E1]; destruct (Nat.eqb_spec k q) as [E2|E2]; try lia; [rewrite E1; lra|rewrite E2; lra|]. rewrite H by auto. lra.
Qed.
Lemma sumn_ge_two n f p q : (p < n)%nat -> (q < n)%nat -> p <> q -> (forall k, (k < n)%nat -> 0 <= f k) -> f p + f q <= sumn n f.
Proof.
  intros Hp Hq Hpq H.
    assert (E : f p + f q = sumn n (fun k => if (k =? p)%nat then f p else if (k =? q)%nat then f q else 0)).
    { rewrite (sumn_two n _ p q); auto; [rewrite Nat.eqb_refl; destruct (Nat.eqb_spec q p); [lia|]; now rewrite Nat.eqb_refl|].
      intros k _ H1 H2. destruct (Nat.eqb_spec k p); [lia|]. destruct (Nat.eqb_spec k q); [lia|reflexivity]. }
    rewrite E. apply sumn_le. intros k Hk. destruct (Nat.eqb_spec k p) as [->|]; [lra|]. destruct (Nat.eqb_spec k q) as [->|]; [lra|]. auto.
Qed.

(* ------------------------------------------------------------------ *)
(** * Plane rotations *)

Section Rot.
Variables (n p q : nat) (c s : R).
Hypothesis Hp : (p < n)%nat.
Hypothesis Hq : (q < n)%nat.
Hypothesis Hpq : p <> q.
Hypothesis Hcs : c * c + s * s = 1.

Definition rot2 (f : nat -> R) (j : nat) : R :=
  if (j =? p)%nat then c * f p - s * f q else if (j =? q)%nat then s * f p + c * f q else f j.

Lemma rot2_p f : rot2 f p = c * f p - s * f q.
Proof. unfold rot2. now rewrite Nat.eqb_refl. Qed.
Lemma rot2_q f : rot2 f q = s * f p + c * f q.
Proof. unfold rot2. destruct (Nat.eqb_spec q p); [lia|]. now rewrite Nat.eqb_refl. Qed.
Lemma rot2_o f j : j <> p -> j <> q -> rot2 f j = f j.
Proof. intros. unfold rot2. destruct (Nat.eqb_spec j p); [lia|]. destruct (Nat.eqb_spec j q); [lia|]. auto. Qed.

Lemma rot2_ext f g a : (forall k, f k = g k) -> rot2 f a = rot2 g a.
Proof. intros H. unfold rot2. now rewrite !H. Qed.
Lemma rot2_scal f x a : rot2 f a * x = rot2 (fun k => f k * x) a.
Proof. unfold rot2. destruct (a =? p)%nat; [ring|]. destruct (a =? q)%nat; ring. Qed.
Lemma rot2_sum (G : nat -> nat -> R) a : sumn n (fun i => rot2 (fun k => G k i) a) = rot2 (fun k => sumn n (G k)) a.
Proof.
  unfold rot2. destruct (a =? p)%nat.
  - rewrite <- !sumn_scal. rewrite <- sumn_minus. reflexivity.
  - destruct (a =? q)%nat; [|reflexivity]. rewrite <- !sumn_scal. rewrite <- sumn_plus. reflexivity.
Qed.

Lemma inner_rot f g : sumn n (fun k => rot2 f k * rot2 g k) = sumn n (fun k => f k * g k).
Proof.
  apply Rminus_diag_uniq. rewrite <- sumn_minus. rewrite (sumn_two n _ p q); auto.
  - rewrite !rot2_p, !rot2_q. replace (f p * g p) with ((c * c + s * s) * (f p * g p)) by (rewrite Hcs; ring).
    replace (f q * g q) with ((c * c + s * s) * (f q * g q)) by (rewrite Hcs; ring). ring.
  - intros k Hk H1 H2. rewrite !rot2_o by auto. ring.
Qed.

Lemma inner_rot_l (F : nat -> nat -> R) w a : sumn n (fun b => rot2 (fun k => F k b) a * w b) = rot2 (fun k => sumn n (fun b => F k b * w b)) a.
Proof.
  unfold rot2. destruct (a =? p)%nat.
  - rewrite <- !sumn_scal. rewrite <- sumn_minus. apply sumn_ext. intros. ring.
  - destruct (a =? q)%nat; [|reflexivity]. rewrite <- !sumn_scal. rewrite <- sumn_plus. apply sumn_ext. intros. ring.
Qed.

(** rotation of the rows and of the columns *)
Definition rotS (S : nat -> nat -> R) (a b : nat) : R := rot2 (fun k => rot2 (S k) b) a.

Lemma congruence_rot (S V : nat -> nat -> R) i j :
  sumn n (fun a => rot2 (V i) a * sumn n (fun b => rotS S a b * rot2 (V j) b)) = sumn n (fun a => V i a * sumn n (fun b => S a b * V j b)).
Proof.
  unfold rotS. rewrite (sumn_ext n _ (fun a => rot2 (V i) a * rot2 (fun k => sumn n (fun b => S k b * V j b)) a)).
  - apply inner_rot.
  - intros a Ha. f_equal. rewrite inner_rot_l. apply rot2_ext. intros k. apply inner_rot.
Qed.

Lemma orthogonal_rot V : orthogonal n V -> orthogonal n (fun i => rot2 (V i)).
Proof.
  intros [H1 H2]. split.
  - intros i j Hi Hj. rewrite inner_rot. auto.
  - intros a b Ha Hb.
    rewrite (sumn_ext n _ (fun i => rot2 (fun k => V i k * rot2 (V i) b) a)) by (intros; apply rot2_scal).
    rewrite (rot2_sum (fun k i => V i k * rot2 (V i) b)).
    rewrite (rot2_ext _ (fun k => rot2 (fun m => sumn n (fun i => V i k * V i m)) b)).
    2: { intros k. rewrite <- (rot2_sum (fun m i => V i k * V i m)). apply sumn_ext. intros i _. rewrite Rmult_comm, rot2_scal. apply rot2_ext. intros; ring. }
    unfold rot2.
    destruct (Nat.eqb_spec a p) as [->|A1]; [|destruct (Nat.eqb_spec a q) as [->|A2]];
      (destruct (Nat.eqb_spec b p) as [->|B1]; [|destruct (Nat.eqb_spec b q) as [->|B2]]); rewrite !H2 by auto; unfold delta;
      repeat match goal with |- context [(?x =? ?y)%nat] => destruct (Nat.eqb_spec x y); try lia end; lra.
Qed.
End Rot.

(* ------------------------------------------------------------------ *)
(** * The angle *)

(** how far the pair is from being annihilated by the rotation with tangent t *)
Definition defect (lp lq apq t : R) : R := (lq - lp) * t - apq * (1 - t * t).

Lemma jacobi_t_defect lp lq apq : let t := jacobi_t lp lq apq in
  (TOLERANCE < Rabs (lq - lp) -> defect lp lq apq t = 0) /\
  (Rabs (lq - lp) <= TOLERANCE -> t = 1 /\ defect lp lq apq t = lq - lp).
Proof.
  cbv zeta. unfold jacobi_t, defect. cbv zeta. destruct (Rleb_spec (Rabs (lq - lp)) TOLERANCE) as [C|C].
  - split; [lra|]. intros _. split; [reflexivity|ring].
  - split; [|lra]. intros _. destruct (Reqb_spec apq 0) as [->|N]; [ring|].
    set (th := 0.5 * (lq - lp) / apq). assert (Eh : lq - lp = 2 * th * apq) by (unfold th; replace 0.5 with (/2) by lra; field; auto).
    rewrite Eh. set (w := sqrt (1 + th * th)). assert (W : w * w = 1 + th * th) by (apply sqrt_sqrt; nra).
    assert (W0 : 0 < w) by (apply sqrt_lt_R0; nra).
    assert (Wt : forall x, 0 <= x -> x * x = th * th -> 2 * x * (1 / (x + w)) = 1 - 1 / (x + w) * (1 / (x + w))).
    { intros x Hx Hxx. assert (0 < x + w) by lra. apply Rmult_eq_reg_r with ((x + w) * (x + w)); [|nra].
      replace (2 * x * (1 / (x + w)) * ((x + w) * (x + w))) with (2 * x * (x + w)) by (field; lra).
      replace ((1 - 1 / (x + w) * (1 / (x + w))) * ((x + w) * (x + w))) with ((x + w) * (x + w) - 1) by (field; lra). nra. }
    destruct (Rltb_spec th 0) as [T|T].
    + rewrite Rabs_left by auto. pose proof (Wt (- th) ltac:(lra) ltac:(ring)) as K. set (t := 1 / (- th + w)) in *. nra.
    + rewrite Rabs_pos_eq by lra. pose proof (Wt th T eq_refl) as K. set (t := 1 / (th + w)) in *. nra.
Qed.

Section Scalars.
Variable t : R.
Let c := 1 / sqrt (1 + t * t).
Let s := t * c.
Let tau := s / (1 + c).

Lemma c_pos : 0 < c.
Proof. unfold c. apply Rdiv_lt_0_compat; [lra|]. apply sqrt_lt_R0. nra. Qed.
Lemma c_sq : c * c * (1 + t * t) = 1.
Proof.
  assert (H : 0 < sqrt (1 + t * t)) by (apply sqrt_lt_R0; nra). assert (W : sqrt (1 + t * t) * sqrt (1 + t * t) = 1 + t * t) by (apply sqrt_sqrt; nra).
  unfold c. set (w := sqrt (1 + t * t)) in *. rewrite <- W. field. lra.
Qed.
Lemma cs_one : c * c + s * s = 1.
Proof. unfold s. rewrite <- c_sq. ring. Qed.
Lemma tau_c : s * tau = 1 - c.
Proof. unfold tau. pose proof c_pos. pose proof cs_one. apply Rmult_eq_reg_r with (1 + c); [|lra]. unfold Rdiv. replace (s * (s * / (1 + c)) * (1 + c)) with (s * s) by (field; lra). nra. Qed.
Lemma rot_first g h : g - s * (h + g * tau) = c * g - s * h.
Proof. pose proof tau_c. replace (g - s * (h + g * tau)) with (g - s * h - g * (s * tau)) by ring. rewrite H. ring. Qed.
Lemma rot_second g h : h + s * (g - h * tau) = s * g + c * h.
Proof. pose proof tau_c. replace (h + s * (g - h * tau)) with (h + s * g - h * (s * tau)) by ring. rewrite H. ring. Qed.
End Scalars.

(* ------------------------------------------------------------------ *)
(** * One loop of rotated pairs *)

Lemma entries_get n m f i j : entries n m f -> (i < n)%nat -> (j < n)%nat -> d_get m i j = Ok (f i j).
Proof. intros (W & E1 & E2 & H) Hi Hj. rewrite (d_get_val _ 0) by (auto; lia). now rewrite H. Qed.
Lemma entries_set n m f i j x : entries n m f -> (i < n)%nat -> (j < n)%nat ->
  exists m', d_set m i j x = Ok m' /\ entries n m' (fun a b => if (a =? i)%nat && (b =? j)%nat then x else f a b).
Proof.
  intros (W & E1 & E2 & H) Hi Hj. destruct (d_set_spec R 0 m i j x W ltac:(lia) ltac:(lia)) as (m' & E & W' & N1 & N2 & V).
  exists m'. split; auto. unfold entries. splits; auto; try lia. intros a b Ha Hb. rewrite V by lia. rewrite H by auto. reflexivity.
Qed.

Lemma rot_loop n t lo hi (i1 j1 i2 j2 : nat -> nat) m f :
  let c := 1 / sqrt (1 + t * t) in let s := t * c in let tau := s / (1 + c) in
  (lo <= hi)%nat -> entries n m f ->
  (forall k, (lo <= k < hi)%nat -> (i1 k < n)%nat /\ (j1 k < n)%nat /\ (i2 k < n)%nat /\ (j2 k < n)%nat) ->
  (forall k k', (lo <= k < hi)%nat -> (lo <= k' < hi)%nat -> k <> k' -> (i1 k <> i1 k' \/ j1 k <> j1 k') /\ (i2 k <> i2 k' \/ j2 k <> j2 k')) ->
  (forall k k', (lo <= k < hi)%nat -> (lo <= k' < hi)%nat -> (i1 k <> i2 k' \/ j1 k <> j2 k')) ->
  exists m' f', for_range lo hi (fun k a => rot_pair s tau (i1 k) (j1 k) (i2 k) (j2 k) a) m = Ok m' /\ entries n m' f' /\
    (forall k, (lo <= k < hi)%nat -> f' (i1 k) (j1 k) = c * f (i1 k) (j1 k) - s * f (i2 k) (j2 k) /\
                                     f' (i2 k) (j2 k) = s * f (i1 k) (j1 k) + c * f (i2 k) (j2 k)) /\
    (forall a b, (forall k, (lo <= k < hi)%nat -> (a <> i1 k \/ b <> j1 k) /\ (a <> i2 k \/ b <> j2 k)) -> f' a b = f a b).
Proof.
  intros c s tau Hle Hm Hb Hinj Hdis.
  set (Inv := fun (h : nat) (m' : dmat R) => exists f', entries n m' f' /\
    (forall k, (lo <= k < h)%nat -> f' (i1 k) (j1 k) = c * f (i1 k) (j1 k) - s * f (i2 k) (j2 k) /\
                                     f' (i2 k) (j2 k) = s * f (i1 k) (j1 k) + c * f (i2 k) (j2 k)) /\
    (forall a b, (forall k, (lo <= k < h)%nat -> (a <> i1 k \/ b <> j1 k) /\ (a <> i2 k \/ b <> j2 k)) -> f' a b = f a b)).
  destruct (for_range_inv Inv (fun k a => rot_pair s tau (i1 k) (j1 k) (i2 k) (j2 k) a) lo hi m) as (m' & E & f' & I1 & I2 & I3); auto.
  - exists f. splits; auto. intros; lia.
  - intros k m0 Hk (f0 & F1 & F2 & F3). destruct (Hb k Hk) as (B1 & B2 & B3 & B4). unfold rot_pair.
    assert (G1 : f0 (i1 k) (j1 k) = f (i1 k) (j1 k)).
    { apply F3. intros k' Hk'. split; [apply (Hinj k k'); lia|apply Hdis; lia]. }
    assert (G2 : f0 (i2 k) (j2 k) = f (i2 k) (j2 k)).
    { apply F3. intros k' Hk'. split; [|apply (Hinj k k'); lia]. specialize (Hdis k' k ltac:(lia) Hk). lia. }
    rewrite (entries_get n m0 f0) by auto. cbn [bind]. rewrite (entries_get n m0 f0) by auto. cbn [bind]. rewrite G1, G2.
    rewrite (rot_first t), (rot_second t). fold c. fold s.
    destruct (entries_set n m0 f0 (i1 k) (j1 k) (c * f (i1 k) (j1 k) - s * f (i2 k) (j2 k)) F1 B1 B2) as (m1 & E1 & M1). rewrite E1. cbn [bind].
    destruct (entries_set n m1 _ (i2 k) (j2 k) (s * f (i1 k) (j1 k) + c * f (i2 k) (j2 k)) M1 B3 B4) as (m2 & E2 & M2). rewrite E2.
    exists m2. split; [reflexivity|]. eexists. split; [exact M2|]. cbv beta. split.
    + intros k' Hk'. destruct (Nat.eq_dec k' k) as [->|N].
      * specialize (Hdis k k Hk Hk). rewrite !Nat.eqb_refl. cbn [andb]. split; [|reflexivity].
        destruct (Nat.eqb_spec (i1 k) (i2 k)); destruct (Nat.eqb_spec (j1 k) (j2 k)); cbn [andb]; try reflexivity. lia.
      * destruct (Hinj k' k ltac:(lia) Hk N) as [H1 H2]. pose proof (Hdis k' k ltac:(lia) Hk) as H3. pose proof (Hdis k k' Hk ltac:(lia)) as H4.
        destruct (F2 k' ltac:(lia)) as [V1 V2].
        split.
        -- destruct (Nat.eqb_spec (i1 k') (i2 k)); destruct (Nat.eqb_spec (j1 k') (j2 k)); cbn [andb]; try lia;
           destruct (Nat.eqb_spec (i1 k') (i1 k)); destruct (Nat.eqb_spec (j1 k') (j1 k)); cbn [andb]; try lia; auto.
        -- destruct (Nat.eqb_spec (i2 k') (i2 k)); destruct (Nat.eqb_spec (j2 k') (j2 k)); cbn [andb]; try lia;
           destruct (Nat.eqb_spec (i2 k') (i1 k)); destruct (Nat.eqb_spec (j2 k') (j1 k)); cbn [andb]; try lia; auto.
    + intros a b Hab. destruct (Hab k ltac:(lia)) as [H1 H2].
      destruct (Nat.eqb_spec a (i2 k)); destruct (Nat.eqb_spec b (j2 k)); cbn [andb]; try lia;
      destruct (Nat.eqb_spec a (i1 k)); destruct (Nat.eqb_spec b (j1 k)); cbn [andb]; try lia; apply F3; intros k' Hk'; apply Hab; lia.
  - exists m', f'. splits; auto.
Qed.

Lemma entries_ext n m f g : entries n m f -> (forall i j, (i < n)%nat -> (j < n)%nat -> f i j = g i j) -> entries n m g.
Proof. intros (W & E1 & E2 & H) K. unfold entries. splits; auto. intros. rewrite H by auto. auto. Qed.

Lemma vadd_ok l i x : (i < length l)%nat -> vadd l i x = Ok (upd l i (nth i l 0 + x)).
Proof. intros H. unfold vadd. rewrite (vget_ok _ _ 0) by auto. cbn [bind]. now rewrite vset_ok. Qed.

(* ------------------------------------------------------------------ *)
(** * One rotation *)

(** what the rotation neglects *)
Definition neglect (p q : nat) (e t : R) (i j : nat) : R :=
  if (i =? p)%nat then (if (j =? p)%nat then - (e * t) else if (j =? q)%nat then e else 0)
  else if (i =? q)%nat then (if (j =? p)%nat then e else if (j =? q)%nat then e * t else 0)
  else 0.

Lemma rotate_ok n p q a fa l z v V : (p < q)%nat -> (q < n)%nat -> entries n a fa -> length l = n -> length z = n -> entries n v V ->
  let L := fun i => nth i l 0 in
  let t := jacobi_t (L p) (L q) (fa p q) in
  let c := 1 / sqrt (1 + t * t) in
  let s := t * c in
  exists a' l' z' v' fa', jacobi_rotate n p q (a, l, z, v) = Ok (a', l', z', v') /\ entries n a' fa' /\ length l' = n /\ length z' = n /\
    entries n v' (fun i => rot2 p q c s (V i)) /\
    fa' p q = 0 /\ (forall i, nth i l' 0 - L i = nth i z' 0 - nth i z 0) /\
    (forall i j, (i < n)%nat -> (j < n)%nat -> symof fa' (fun i => nth i l' 0) i j = rotS p q c s (symof fa L) i j + neglect p q (c * c * defect (L p) (L q) (fa p q) t) t i j).
Proof.
  intros Hpq Hq Ha Hl Hz Hv L t c s. unfold jacobi_rotate.
  rewrite (vget_ok l _ 0), (vget_ok l _ 0) by lia. cbn [bind]. rewrite (entries_get n a fa) by (auto; lia). cbn [bind]. cbv zeta.
  fold (L p). fold (L q). fold t. fold c. fold s.
  set (h := t * fa p q). set (tau := s / (1 + c)).
  rewrite (vadd_ok z) by lia. cbn [bind]. rewrite vadd_ok by (rewrite upd_length; lia). cbn [bind].
  rewrite (vadd_ok l) by lia. cbn [bind]. rewrite vadd_ok by (rewrite upd_length; lia). cbn [bind].
  rewrite (nth_upd_ne z) by lia. rewrite (nth_upd_ne l) by lia. fold (L p). fold (L q).
  set (z' := upd (upd z p (nth p z 0 + - h)) q (nth q z 0 + h)). set (l' := upd (upd l p (L p + - h)) q (L q + h)).
  destruct (entries_set n a fa p q 0 Ha ltac:(lia) Hq) as (a1 & E1 & M1). rewrite E1. cbn [bind]. set (f1 := fun a b => if _ && _ then 0 else fa a b) in M1.
  destruct (rot_loop n t 0 p (fun k => k) (fun _ => p) (fun k => k) (fun _ => q) a1 f1) as (a2 & f2 & E2 & M2 & P2 & Q2); auto; try lia; try (intros; lia).
  fold c in E2, P2. fold s in E2, P2. fold tau in E2. rewrite E2. cbn [bind].
  destruct (rot_loop n t (p + 1) q (fun _ => p) (fun k => k) (fun k => k) (fun _ => q) a2 f2) as (a3 & f3 & E3 & M3 & P3 & Q3); auto; try lia; try (intros; lia).
  fold c in E3, P3. fold s in E3, P3. fold tau in E3. rewrite E3. cbn [bind].
  destruct (rot_loop n t (q + 1) n (fun _ => p) (fun k => k) (fun _ => q) (fun k => k) a3 f3) as (a4 & f4 & E4 & M4 & P4 & Q4); auto; try lia; try (intros; lia).
  fold c in E4, P4. fold s in E4, P4. fold tau in E4. rewrite E4. cbn [bind].
  destruct (rot_loop n t 0 n (fun k => k) (fun _ => p) (fun k => k) (fun _ => q) v V) as (v' & fv & Ev & Mv & Pv & Qv); auto; try lia; try (intros; lia).
  fold c in Ev, Pv. fold s in Ev, Pv. fold tau in Ev. rewrite Ev. cbn [bind].
  assert (Ll : length l' = n) by (unfold l'; now rewrite !upd_length). assert (Lz : length z' = n) by (unfold z'; now rewrite !upd_length).
  exists a4, l', z', v', f4. split; [reflexivity|]. split; auto. split; auto. split; auto. split; [|split; [|split]].
  - eapply entries_ext; [exact Mv|]. intros i j Hi Hj. unfold rot2. destruct (Nat.eqb_spec j p) as [->|N1]; [apply Pv; lia|].
    destruct (Nat.eqb_spec j q) as [->|N2]; [apply Pv; lia|]. apply Qv. lia.
  - rewrite Q4, Q3, Q2 by (intros; lia). unfold f1. rewrite !Nat.eqb_refl. reflexivity.
  - intros i. destruct (Nat.lt_ge_cases i n) as [Hi|Hi].
    + unfold l', z', L. rewrite !nth_upd by (rewrite ?upd_length; lia). destruct (Nat.eqb_spec i q) as [->|]; [ring|]. destruct (Nat.eqb_spec i p) as [->|]; ring.
    + unfold L. rewrite !nth_overflow by lia. ring.
  - (* the upper triangle *)
    assert (X1 : forall k, (k < p)%nat -> f4 k p = c * fa k p - s * fa k q /\ f4 k q = s * fa k p + c * fa k q).
    { intros k Hk. rewrite !Q4, !Q3 by (intros; lia). destruct (P2 k ltac:(lia)) as [-> ->].
      unfold f1. destruct (Nat.eqb_spec k p); [lia|]. cbn [andb]. auto. }
    assert (X2 : forall k, (p < k < q)%nat -> f4 p k = c * fa p k - s * fa k q /\ f4 k q = s * fa p k + c * fa k q).
    { intros k Hk. rewrite !Q4 by (intros; lia). destruct (P3 k ltac:(lia)) as [-> ->]. rewrite !Q2 by (intros; lia).
      unfold f1. destruct (Nat.eqb_spec k q); [lia|]. destruct (Nat.eqb_spec k p); [lia|]. rewrite Bool.andb_false_r. cbn [andb]. auto. }
    assert (X3 : forall k, (q < k < n)%nat -> f4 p k = c * fa p k - s * fa q k /\ f4 q k = s * fa p k + c * fa q k).
    { intros k Hk. destruct (P4 k ltac:(lia)) as [-> ->]. rewrite !Q3, !Q2 by (intros; lia).
      unfold f1. destruct (Nat.eqb_spec k q); [lia|]. rewrite !Bool.andb_false_r. auto. }
    assert (X4 : f4 p q = 0).
    { rewrite Q4, Q3, Q2 by (intros; lia). unfold f1. rewrite !Nat.eqb_refl. reflexivity. }
    assert (X5 : forall i j, i <> p -> i <> q -> j <> p -> j <> q -> f4 i j = fa i j).
    { intros i j H1 H2 H3 H4. rewrite Q4, Q3, Q2 by (intros; lia). unfold f1. destruct (Nat.eqb_spec i p); [lia|]. reflexivity. }
    assert (Lp : nth p l' 0 = L p - h) by (unfold l'; rewrite nth_upd_ne by lia; rewrite nth_upd_eq by lia; ring).
    assert (Lq : nth q l' 0 = L q + h) by (unfold l'; rewrite nth_upd_eq by (rewrite upd_length; lia); ring).
    assert (Lo : forall i, i <> p -> i <> q -> nth i l' 0 = L i) by (intros; unfold l'; rewrite !nth_upd_ne by lia; reflexivity).
    pose proof (c_sq t) as Cq. fold c in Cq.
    assert (Sy : forall f l i j, symof f l i j = symof f l j i).
    { intros f ll i j. unfold symof. destruct (Nat.ltb_spec i j); destruct (Nat.ltb_spec j i); try lia; auto. now replace i with j by lia. }
    assert (Sr : forall F i j, (forall i j, F i j = F j i) -> rotS p q c s F i j = rotS p q c s F j i).
    { intros F i j HF. unfold rotS, rot2. rewrite ?(HF q p).
      destruct (Nat.eqb_spec i p) as [E5|E5]; [|destruct (Nat.eqb_spec i q) as [E6|E6]]; (destruct (Nat.eqb_spec j p) as [E7|E7]; [|destruct (Nat.eqb_spec j q) as [E8|E8]]); rewrite ?(HF j), ?(HF i); try ring;
        rewrite ?(HF p i), ?(HF q i), ?(HF p j), ?(HF q j); try ring. }
    assert (Sn : forall e i j, neglect p q e t i j = neglect p q e t j i).
    { intros e i j. unfold neglect. destruct (i =? p)%nat, (i =? q)%nat, (j =? p)%nat, (j =? q)%nat; reflexivity. }
    assert (W : forall i j, (i <= j)%nat -> (j < n)%nat -> symof f4 (fun i => nth i l' 0) i j = rotS p q c s (symof fa L) i j + neglect p q (c * c * defect (L p) (L q) (fa p q) t) t i j).
    { intros i j Hij Hj.
      assert (G : forall f l a b, (a < b)%nat -> symof f l a b = f a b) by (intros f ll a0 b0 H; unfold symof; destruct (Nat.ltb_spec a0 b0); [reflexivity|lia]).
      assert (Gs : forall f l a b, (b < a)%nat -> symof f l a b = f b a) by (intros f ll a0 b0 H; rewrite Sy; auto).
      assert (Gd : forall f l a, symof f l a a = l a) by (intros; unfold symof; rewrite Nat.ltb_irrefl; reflexivity).
      unfold rotS, rot2, neglect.
      destruct (Nat.eqb_spec i p) as [->|N1].
      - destruct (Nat.eqb_spec j p) as [->|N2].
        + rewrite !Gd, !G, (Gs _ _ q p) by lia. rewrite Lp. unfold h, defect, s. 
          apply Rmult_eq_reg_l with (1 + t * t); [|nra].
          set (x := L p). set (y := L q). set (w := fa p q).
          replace ((1 + t * t) * (c * (c * x - t * c * w) - t * c * (c * w - t * c * y) + - (c * c * ((y - x) * t - w * (1 - t * t)) * t)))
            with ((c * c * (1 + t * t)) * (x - t * w - t * (w - t * y) - ((y - x) * t - w * (1 - t * t)) * t)) by ring. rewrite Cq. ring.
        + destruct (Nat.eqb_spec j q) as [->|N3].
          * rewrite !Gd, !G, (Gs _ _ q p) by lia. rewrite X4. unfold defect, s. ring.
          * destruct (Nat.lt_ge_cases j q).
            -- rewrite !G, (Gs _ _ q j) by lia. destruct (X2 j ltac:(lia)) as [-> _]. ring.
            -- rewrite !G by lia. destruct (X3 j ltac:(lia)) as [-> _]. ring.
      - destruct (Nat.eqb_spec i q) as [->|N2].
        + destruct (Nat.eqb_spec j p) as [->|N3]; [lia|]. destruct (Nat.eqb_spec j q) as [->|N4].
          * rewrite !Gd, !G, (Gs _ _ q p) by lia. rewrite Lq. unfold h, defect, s.
            apply Rmult_eq_reg_l with (1 + t * t); [|nra].
            set (x := L p). set (y := L q). set (w := fa p q).
            replace ((1 + t * t) * (t * c * (t * c * x + c * w) + c * (t * c * w + c * y) + c * c * ((y - x) * t - w * (1 - t * t)) * t))
              with ((c * c * (1 + t * t)) * (t * (t * x + w) + (t * w + y) + ((y - x) * t - w * (1 - t * t)) * t)) by ring. rewrite Cq. ring.
          * rewrite !G by lia. destruct (X3 j ltac:(lia)) as [_ ->]. ring.
        + destruct (Nat.eqb_spec j p) as [->|N3].
          * rewrite !G by lia. destruct (X1 i ltac:(lia)) as [-> _]. ring.
          * destruct (Nat.eqb_spec j q) as [->|N4].
            -- destruct (Nat.lt_ge_cases i p).
               ++ rewrite !G by lia. destruct (X1 i ltac:(lia)) as [_ ->]. ring.
               ++ rewrite (Gs _ _ i p), !G by lia. destruct (X2 i ltac:(lia)) as [_ ->]. ring.
            -- rewrite Rplus_0_r. destruct (Nat.eq_dec i j) as [->|N5].
               ++ rewrite !Gd. apply Lo; auto.
               ++ rewrite !G by lia. apply X5; auto. }
    intros i j Hi Hj. destruct (Nat.le_ge_cases i j) as [H|H]; [apply W; auto|].
    rewrite Sy, Sr, Sn by (intros; apply Sy). apply W; auto.
Qed.

(* ------------------------------------------------------------------ *)
(** * The invariant of the sweeps *)

(** entry (i, j) of V S V^T *)
Definition conj (n : nat) (V S : nat -> nat -> R) (i j : nat) : R :=
  sumn n (fun a => V i a * sumn n (fun b => S a b * V j b)).

Lemma neglect_conj n p q e t x y : (p < n)%nat -> (q < n)%nat -> p <> q ->
  sumn n (fun a => x a * sumn n (fun b => neglect p q e t a b * y b)) = e * (- t * x p * y p + x p * y q + x q * y p + t * x q * y q).
Proof.
  intros Hp Hq Hpq.
  assert (In : forall a, sumn n (fun b => neglect p q e t a b * y b) = if (a =? p)%nat then - (e * t) * y p + e * y q else if (a =? q)%nat then e * y p + e * t * y q else 0).
  { intros a. rewrite (sumn_two n _ p q); auto.
    - unfold neglect. rewrite !Nat.eqb_refl. destruct (Nat.eqb_spec q p); [lia|]. destruct (a =? p)%nat; [ring|]. destruct (a =? q)%nat; ring.
    - intros k _ H1 H2. unfold neglect. destruct (Nat.eqb_spec k p); [lia|]. destruct (Nat.eqb_spec k q); [lia|]. destruct (a =? p)%nat; [ring|]. destruct (a =? q)%nat; ring. }
  rewrite (sumn_two n _ p q); auto.
  - rewrite !In, !Nat.eqb_refl. destruct (Nat.eqb_spec q p); [lia|]. ring.
  - intros k _ H1 H2. rewrite In. destruct (Nat.eqb_spec k p); [lia|]. destruct (Nat.eqb_spec k q); [lia|]. ring.
Qed.

Lemma conj_plus n V S D i j : conj n V (fun a b => S a b + D a b) i j = conj n V S i j + conj n V D i j.
Proof.
  unfold conj. rewrite <- sumn_plus. apply sumn_ext. intros a _. rewrite <- Rmult_plus_distr_l. f_equal. rewrite <- sumn_plus. apply sumn_ext. intros. ring.
Qed.

Lemma conj_ext n V S T i j : (forall a b, (a < n)%nat -> (b < n)%nat -> S a b = T a b) -> conj n V S i j = conj n V T i j.
Proof. intros H. unfold conj. apply sumn_ext. intros a Ha. f_equal. apply sumn_ext. intros b Hb. now rewrite H. Qed.

Lemma unit_pair n V i p q : orthogonal n V -> (i < n)%nat -> (p < n)%nat -> (q < n)%nat -> p <> q -> V i p * V i p + V i q * V i q <= 1.
Proof.
  intros [H _] Hi Hp Hq Hpq. pose proof (H i i Hi Hi) as E. unfold delta in E. rewrite Nat.eqb_refl in E.
  rewrite <- E. apply (sumn_ge_two n (fun k => V i k * V i k)); auto. intros. nra.
Qed.

Lemma unit_entry n V i p : orthogonal n V -> (i < n)%nat -> (p < n)%nat -> Rabs (V i p) <= 1.
Proof.
  intros [H _] Hi Hp. pose proof (H i i Hi Hi) as E. unfold delta in E. rewrite Nat.eqb_refl in E.
  assert (K : V i p * V i p <= 1).
  { rewrite <- E. apply Rle_trans with (sumn n (fun k => if (k =? p)%nat then V i p * V i p else 0)).
    { rewrite (sumn_single n _ p Hp); [rewrite Nat.eqb_refl; lra|]. intros k _ N. destruct (Nat.eqb_spec k p); [lia|reflexivity]. }
    apply sumn_le. intros k _. destruct (Nat.eqb_spec k p) as [->|]; nra. }
  apply Rabs_le. split; nra.
Qed.

(** k rotations have been made *)
Definition jinv (n : nat) (A : nat -> nat -> R) (k : nat) (st : jst) : Prop :=
  let '(a, l, z, v) := st in
  length l = n /\ length z = n /\ exists fa V, entries n a fa /\ entries n v V /\ orthogonal n V /\
    forall i j, (i < n)%nat -> (j < n)%nat -> Rabs (conj n V (symof fa (fun i => nth i l 0)) i j - A i j) <= INR k * TOLERANCE.

Lemma rotate_jinv n A k p q st : (p < q)%nat -> (q < n)%nat -> jinv n A k st ->
  exists st', jacobi_rotate n p q st = Ok st' /\ jinv n A (k + 1) st' /\
    (forall i, nth i (snd (fst (fst st'))) 0 - nth i (snd (fst (fst st))) 0 = nth i (snd (fst st')) 0 - nth i (snd (fst st)) 0).
Proof.
  intros Hpq Hq. destruct st as (((a, l), z), v). intros (Hl & Hz & fa & V & Ha & Hv & HO & HC). cbn [fst snd].
  destruct (rotate_ok n p q a fa l z v V Hpq Hq Ha Hl Hz Hv) as (a' & l' & z' & v' & fa' & E & Ha' & Hl' & Hz' & Hv' & _ & Hb & HS).
  set (L := fun i => nth i l 0) in *. set (t := jacobi_t (nth p l 0) (nth q l 0) (fa p q)) in *.
  change (jacobi_t (L p) (L q) (fa p q)) with t in *.
  set (c := 1 / sqrt (1 + t * t)) in *. set (s := t * c) in *. exists (a', l', z', v'). split; [exact E|]. split; [|exact Hb].
  assert (Hcs : c * c + s * s = 1) by (apply cs_one).
  unfold jinv. split; auto. split; auto. exists fa', (fun i => rot2 p q c s (V i)). split; auto. split; auto.
  assert (HO' : orthogonal n (fun i => rot2 p q c s (V i))) by (apply orthogonal_rot; auto; lia).
  split; auto. intros i j Hi Hj. specialize (HC i j Hi Hj).
  rewrite (conj_ext n _ _ (fun a b => rotS p q c s (symof fa L) a b + neglect p q (c * c * defect (L p) (L q) (fa p q) t) t a b)) by (intros; apply HS; auto).
  rewrite conj_plus. unfold conj at 1. rewrite (congruence_rot n p q c s ltac:(lia) Hq ltac:(lia) Hcs). fold (conj n V (symof fa L) i j).
  unfold conj at 2. rewrite (neglect_conj n p q _ t (rot2 p q c s (V i)) (rot2 p q c s (V j))) by lia.
  pose proof (unit_pair n _ i p q HO' Hi ltac:(lia) Hq ltac:(lia)) as U1. pose proof (unit_pair n _ j p q HO' Hj ltac:(lia) Hq ltac:(lia)) as U2. cbv beta in U1, U2.
  set (xp := rot2 p q c s (V i) p) in *. set (xq := rot2 p q c s (V i) q) in *. set (yp := rot2 p q c s (V j) p) in *. set (yq := rot2 p q c s (V j) q) in *.
  set (e := c * c * defect (L p) (L q) (fa p q) t). set (X := conj n V (symof fa L) i j) in *.
  assert (B : Rabs (e * (- t * xp * yp + xp * yq + xq * yp + t * xq * yq)) <= TOLERANCE).
  { destruct (jacobi_t_defect (L p) (L q) (fa p q)) as [D1 D2]. change (jacobi_t (L p) (L q) (fa p q)) with t in *.
    assert (T0 : 0 < TOLERANCE) by (unfold TOLERANCE; lra).
    destruct (Rle_lt_dec (Rabs (L q - L p)) TOLERANCE) as [Hs|Hs].
    - destruct (D2 Hs) as [T1 D3]. unfold e. rewrite D3. assert (C2 : c * c = / 2).
      { pose proof (c_sq t) as K. fold c in K. rewrite T1 in K. lra. }
      rewrite C2, T1. replace (/ 2 * (L q - L p) * (- (1) * xp * yp + xp * yq + xq * yp + 1 * xq * yq)) with ((L q - L p) * ((- xp * yp + xp * yq + xq * yp + xq * yq) / 2)) by field.
      rewrite Rabs_mult. apply Rle_trans with (TOLERANCE * 1); [|lra].
      apply Rmult_le_compat; auto using Rabs_pos. apply Rabs_le.
      pose proof (Rle_0_sqr (xp + yp)). pose proof (Rle_0_sqr (xp - yp)). pose proof (Rle_0_sqr (xp + yq)). pose proof (Rle_0_sqr (xp - yq)).
      pose proof (Rle_0_sqr (xq + yp)). pose proof (Rle_0_sqr (xq - yp)). pose proof (Rle_0_sqr (xq + yq)). pose proof (Rle_0_sqr (xq - yq)). unfold Rsqr in *. lra.
    - unfold e. rewrite (D1 Hs). rewrite Rmult_0_r, Rmult_0_l, Rabs_R0. lra. }
  rewrite plus_INR. change (INR 1) with 1. rewrite Rmult_plus_distr_r, Rmult_1_l.
  set (Y := e * _) in *. replace (X + Y - A i j) with ((X - A i j) + Y) by ring. eapply Rle_trans; [apply Rabs_triang|]. lra.
Qed.

(** rotations made before row p of a sweep *)
Fixpoint rots (n p : nat) : nat := match p with O => O | S p' => (rots n p' + (n - S p'))%nat end.

Lemma rots_val n p : (p <= n)%nat -> (2 * rots n p = p * (n + n - p - 1))%nat.
Proof. induction p as [|p IH]; intros H; cbn [rots]; [lia|]. rewrite Nat.mul_add_distr_l, IH by lia.
  assert (E : exists d, n = (S p + d)%nat) by (exists (n - S p)%nat; lia). destruct E as [d ->].
  replace (S p + d + (S p + d) - p - 1)%nat with (p + 1 + 2 * d)%nat by lia. replace (S p + d + (S p + d) - S p - 1)%nat with (p + 2 * d)%nat by lia.
  replace (S p + d - S p)%nat with d by lia. ring.
Qed.

Lemma rotations_jinv n A k st : (1 <= n)%nat -> jinv n A k st ->
  exists st', jacobi_rotations n st = Ok st' /\ jinv n A (k + rots n (n - 1)) st' /\
    (forall i, nth i (snd (fst (fst st'))) 0 - nth i (snd (fst (fst st))) 0 = nth i (snd (fst st')) 0 - nth i (snd (fst st)) 0).
Proof.
  intros Hn Hst. unfold jacobi_rotations. unfold usub. destruct (Nat.leb_spec 1 n); [|lia]. cbn [bind].
  set (D := fun s' : jst => forall i, nth i (snd (fst (fst s'))) 0 - nth i (snd (fst (fst st))) 0 = nth i (snd (fst s')) 0 - nth i (snd (fst st)) 0).
  destruct (for_range_inv (fun p s' => jinv n A (k + rots n p) s' /\ D s') (fun p st => for_range (p + 1) n (fun q st => jacobi_rotate n p q st) st) 0 (n - 1) st) as (st' & E & H1 & H2).
  - lia.
  - split; [cbn [rots]; now rewrite Nat.add_0_r|]. intros i. ring.
  - intros p s1 Hp [I1 I2].
    destruct (for_range_inv (fun q s' => jinv n A (k + rots n p + (q - S p)) s' /\ D s') (fun q st => jacobi_rotate n p q st) (p + 1) n s1) as (s2 & E2 & I3 & I4).
    + lia.
    + split; auto. replace (k + rots n p + (p + 1 - S p))%nat with (k + rots n p)%nat by lia. auto.
    + intros q s2 Hq [J1 J2]. destruct (rotate_jinv n A _ p q s2 ltac:(lia) ltac:(lia) J1) as (s3 & E3 & J3 & J4).
      exists s3. split; auto. split.
      * replace (k + rots n p + (S q - S p))%nat with (k + rots n p + (q - S p) + 1)%nat by lia. auto.
      * intros i. specialize (J4 i). specialize (J2 i). lra.
    + exists s2. split; auto. split; auto. cbn [rots]. replace (k + (rots n p + (n - S p)))%nat with (k + rots n p + (n - S p))%nat by lia. auto.
  - exists st'. split; auto.
Qed.

Lemma refresh_ok n b l z : length b = n -> length l = n -> length z = n -> (forall i, (i < n)%nat -> nth i l 0 = nth i b 0 + nth i z 0) ->
  exists b' z', jacobi_refresh n b l z = Ok (b', l, z') /\ length b' = n /\ length z' = n /\ (forall i, (i < n)%nat -> nth i l 0 = nth i b' 0 + nth i z' 0).
Proof.
  intros Hb Hl Hz H. unfold jacobi_refresh.
  destruct (for_range_inv (fun h s => let '(b1, l1, z1) := s in length b1 = n /\ l1 = l /\ length z1 = n /\
     (forall i, (i < n)%nat -> nth i l 0 = nth i b1 0 + nth i z1 0))
    (fun p blz => let '(b, l, z) := blz in zp <- vget z p ;; b <- vadd b p zp ;; bp <- vget b p ;; l <- vset l p bp ;; z <- vset z p 0 ;; Ok (b, l, z))
    0 n (b, l, z)) as (((b1, l1), z1) & E & I1 & I2 & I3 & I4).
  - lia.
  - splits; auto.
  - intros p ((b1, l1), z1) Hp (I1 & I2 & I3 & I4). subst l1.
    rewrite (vget_ok z1 _ 0) by lia. cbn [bind]. rewrite vadd_ok by lia. cbn [bind].
    rewrite (vget_ok _ _ 0) by (rewrite upd_length; lia). cbn [bind]. rewrite nth_upd_eq by lia. rewrite vset_ok by lia. cbn [bind]. rewrite vset_ok by lia. cbn [bind].
    eexists. split; [reflexivity|]. cbv iota beta. rewrite !upd_length. splits; auto.
    + apply nth_ext with (d := 0) (d' := 0); [now rewrite upd_length|]. intros i Hi. rewrite upd_length in Hi. rewrite nth_upd by lia.
      destruct (Nat.eqb_spec i p) as [->|]; auto. rewrite <- I4 by lia. reflexivity.
    + intros i Hi. rewrite !nth_upd by lia. destruct (Nat.eqb_spec i p) as [->|]; auto. rewrite I4 by lia. lra.
  - subst l1. exists b1, z1. splits; auto.
Qed.

(** the sum that decides about convergence *)
Lemma sm_ok n a fa : (1 <= n)%nat -> entries n a fa ->
  jacobi_sm n a = Ok (sumn n (fun p => sumn n (fun q => if (p <? q)%nat then Rabs (fa p q) else 0))).
Proof.
  intros Hn Ha. unfold jacobi_sm, usub. destruct (Nat.leb_spec 1 n); [|lia]. cbn [bind].
  set (row := fun p => sumn n (fun q => if (p <? q)%nat then Rabs (fa p q) else 0)).
  destruct (for_range_inv (fun p s => s = sumn p row) (fun p sm => for_range (p + 1) n (fun q sm => x <- d_get a p q ;; Ok (sm + Rabs x)) sm) 0 (n - 1) 0) as (s & E & Hs).
  - lia.
  - reflexivity.
  - intros p s Hp ->.
    destruct (for_range_inv (fun q s => s = sumn p row + sumn q (fun q => if (p <? q)%nat then Rabs (fa p q) else 0)) (fun q sm => x <- d_get a p q ;; Ok (sm + Rabs x)) (p + 1) n (sumn p row)) as (s2 & E2 & I2).
    + lia.
    + rewrite (sumn_zero (p + 1)); [lra|]. intros i Hi. destruct (Nat.ltb_spec p i); [lia|reflexivity].
    + intros q s Hq ->. rewrite (entries_get n a fa) by (auto; lia). cbn [bind]. eexists. split; [reflexivity|]. cbn [sumn]. destruct (Nat.ltb_spec p q); [lra|lia].
    + exists s2. split; auto.
  - rewrite E. f_equal. rewrite Hs. fold row. destruct n as [|m]; [lia|]. replace (S m - 1)%nat with m by lia. cbn [sumn].
    unfold row at 3. rewrite (sumn_zero (S m)); [lra|]. intros i Hi. destruct (Nat.ltb_spec m i); [lia|reflexivity].
Qed.

Lemma offcol_le n fa j : (j < n)%nat ->
  sumn n (fun a => if (a =? j)%nat then 0 else Rabs (symof fa (fun _ => 0) a j)) <= sumn n (fun p => sumn n (fun q => if (p <? q)%nat then Rabs (fa p q) else 0)).
Proof.
  intros Hj. set (row := fun p => sumn n (fun q => if (p <? q)%nat then Rabs (fa p q) else 0)).
  assert (R0 : forall p q, 0 <= (if (p <? q)%nat then Rabs (fa p q) else 0)) by (intros p q; destruct (p <? q)%nat; [apply Rabs_pos|lra]).
  rewrite (sumn_ext n _ (fun a => (if (a <? j)%nat then Rabs (fa a j) else 0) + (if (j <? a)%nat then Rabs (fa j a) else 0))).
  2: { intros a Ha. unfold symof. destruct (Nat.eqb_spec a j); destruct (Nat.ltb_spec a j); destruct (Nat.ltb_spec j a); try lia; lra. }
  rewrite sumn_plus. fold (row j).
  replace (sumn n row) with (sumn n (fun p => (if (p =? j)%nat then 0 else row p) + (if (p =? j)%nat then row j else 0))).
  2: { apply sumn_ext. intros p _. destruct (Nat.eqb_spec p j) as [->|]; lra. }
  rewrite sumn_plus. rewrite (sumn_single n (fun p => if (p =? j)%nat then row j else 0) j Hj).
  2: { intros i _ Hi. destruct (Nat.eqb_spec i j); [lia|reflexivity]. }
  rewrite Nat.eqb_refl. apply Rplus_le_compat_r. apply sumn_le. intros p Hp. destruct (Nat.eqb_spec p j) as [->|N].
  - rewrite Nat.ltb_irrefl. lra.
  - unfold row. apply Rle_trans with (sumn n (fun q => if (q =? j)%nat then (if (p <? j)%nat then Rabs (fa p j) else 0) else 0)).
    + rewrite (sumn_single n _ j Hj); [rewrite Nat.eqb_refl; lra|]. intros i _ Hi. destruct (Nat.eqb_spec i j); [lia|reflexivity].
    + apply sumn_le. intros q _. destruct (Nat.eqb_spec q j) as [->|]; [lra|apply R0].
Qed.

(* ------------------------------------------------------------------ *)
(** * The result *)

(** what a converged state says about A *)
Definition eigenpairs (n : nat) (A : nat -> nat -> R) (V : nat -> nat -> R) (l : list R) (err : R) : Prop :=
  orthogonal n V /\ length l = n /\
  forall i j, (i < n)%nat -> (j < n)%nat -> Rabs (sumn n (fun m => A i m * V m j) - nth j l 0 * V i j) <= err.

Lemma conj_right n V S i j : orthogonal n V -> (i < n)%nat -> (j < n)%nat ->
  sumn n (fun m => conj n V S i m * V m j) = sumn n (fun a => V i a * S a j).
Proof.
  intros [_ HO] Hi Hj. unfold conj.
  rewrite (sumn_ext n _ (fun m => sumn n (fun a => V i a * sumn n (fun b => S a b * V m b) * V m j))) by (intros; now rewrite sumn_scal_r).
  rewrite sumn_swap. apply sumn_ext. intros a Ha.
  rewrite (sumn_ext n _ (fun m => V i a * (sumn n (fun b => S a b * V m b) * V m j))) by (intros; ring). rewrite sumn_scal. f_equal.
  rewrite (sumn_ext n _ (fun m => sumn n (fun b => S a b * (V m b * V m j)))) by (intros; rewrite <- sumn_scal_r; apply sumn_ext; intros; ring).
  rewrite sumn_swap. rewrite (sumn_ext n _ (fun b => S a b * delta b j)).
  - rewrite (sumn_single n _ j Hj); [unfold delta; rewrite Nat.eqb_refl; ring|]. intros b _ Hb. unfold delta. destruct (Nat.eqb_spec b j); [lia|ring].
  - intros b Hb. rewrite sumn_scal. now rewrite HO.
Qed.

Lemma converged n A k a fa l z v V sm : (1 <= n)%nat -> entries n a fa -> entries n v V -> orthogonal n V -> length l = n ->
  (forall i j, (i < n)%nat -> (j < n)%nat -> Rabs (conj n V (symof fa (fun i => nth i l 0)) i j - A i j) <= INR k * TOLERANCE) ->
  jacobi_sm n a = Ok sm -> sm < TOLERANCE -> jinv n A k (a, l, z, v) ->
  eigenpairs n A V l (TOLERANCE * (1 + INR n * INR k)).
Proof.
  intros Hn Ha Hv HO Hl HC Es Hs _. rewrite (sm_ok n a fa Hn Ha) in Es. injection Es as Es.
  split; auto. split; auto. intros i j Hi Hj. set (S := symof fa (fun i => nth i l 0)) in *.
  set (X := sumn n (fun m => conj n V S i m * V m j)).
  assert (B1 : Rabs (X - nth j l 0 * V i j) <= TOLERANCE).
  { unfold X. rewrite conj_right by auto.
    replace (nth j l 0 * V i j) with (sumn n (fun a => if (a =? j)%nat then V i a * S a j else 0)).
    2: { rewrite (sumn_single n _ j Hj); [rewrite Nat.eqb_refl; unfold S, symof; rewrite Nat.ltb_irrefl; ring|]. intros b _ Hb. destruct (Nat.eqb_spec b j); [lia|ring]. }
    rewrite <- sumn_minus. eapply Rle_trans; [apply sumn_abs|]. left. eapply Rle_lt_trans; [|exact Hs]. rewrite <- Es.
    eapply Rle_trans; [|apply (offcol_le n fa j Hj)]. apply sumn_le. intros b Hb. destruct (Nat.eqb_spec b j) as [->|N].
    - rewrite Rminus_diag_eq by reflexivity. rewrite Rabs_R0. lra.
    - rewrite Rminus_0_r, Rabs_mult. rewrite <- (Rmult_1_l (Rabs (symof fa (fun _ => 0) b j))). apply Rmult_le_compat; auto using Rabs_pos.
      + apply (unit_entry n); auto.
      + unfold S, symof. destruct (Nat.ltb_spec b j); [lra|]. destruct (Nat.ltb_spec j b); [lra|lia]. }
  assert (B2 : Rabs (sumn n (fun m => A i m * V m j) - X) <= INR n * (INR k * TOLERANCE)).
  { unfold X. rewrite <- sumn_minus. eapply Rle_trans; [apply sumn_abs|]. rewrite <- sumn_const. apply sumn_le. intros m Hm.
    replace (A i m * V m j - conj n V S i m * V m j) with (- ((conj n V S i m - A i m) * V m j)) by ring. rewrite Rabs_Ropp, Rabs_mult.
    rewrite <- (Rmult_1_r (INR k * TOLERANCE)). apply Rmult_le_compat; auto using Rabs_pos. apply (unit_entry n); auto. }
  set (Y := sumn n (fun m => A i m * V m j)) in *. replace (Y - nth j l 0 * V i j) with ((Y - X) + (X - nth j l 0 * V i j)) by ring.
  eapply Rle_trans; [apply Rabs_triang|]. lra.
Qed.

Lemma iterate_spec n A : (1 <= n)%nat -> forall fuel iteration k b a l z v,
  jinv n A k (a, l, z, v) -> length b = n -> (forall i, (i < n)%nat -> nth i l 0 = nth i b 0 + nth i z 0) ->
  jacobi_iterate fuel n iteration b (a, l, z, v) = Err "Jacobi rotation did not converge" \/
  exists it l' v' a' V, jacobi_iterate fuel n iteration b (a, l, z, v) = Ok (it, l', v', a') /\ (iteration < it <= iteration + fuel)%nat /\ entries n v' V /\
    eigenpairs n A V l' (TOLERANCE * (1 + INR n * INR (k + (it - 1 - iteration) * rots n (n - 1)))).
Proof.
  intros Hn. induction fuel as [|fuel IH]; intros it k b a l z v HI Hb Hlz; cbn [jacobi_iterate]; [left; reflexivity|].
  pose proof HI as (Hl & Hz & fa & V & Ha & Hv & HO & HC).
  pose proof (sm_ok n a fa Hn Ha) as Es. rewrite Es. cbn [bind]. set (sm := sumn n _) in *.
  destruct (Rltb_spec sm TOLERANCE) as [Hs|Hs].
  - right. exists (it + 1)%nat, l, v, a, V. split; [reflexivity|]. split; [lia|]. split; auto.
    replace (k + (it + 1 - 1 - it) * rots n (n - 1))%nat with k by nia. apply (converged n A k a fa l z v V sm); auto.
  - destruct (rotations_jinv n A k _ Hn HI) as ((((a1, l1), z1), v1) & E1 & I1 & D1). rewrite E1. cbn [bind]. cbn [fst snd] in D1.
    pose proof I1 as (Hl1 & Hz1 & _).
    destruct (refresh_ok n b l1 z1) as (b2 & z2 & E2 & Hb2 & Hz2 & D2); auto.
    { intros i Hi. specialize (D1 i). specialize (Hlz i Hi). lra. }
    rewrite E2. cbn [bind].
    assert (I2 : jinv n A (k + rots n (n - 1)) (a1, l1, z2, v1)).
    { destruct I1 as (_ & _ & fa1 & V1 & J). split; auto. split; auto. exists fa1, V1. exact J. }
    destruct (IH (it + 1)%nat _ b2 a1 l1 z2 v1 I2 Hb2 D2) as [E3|(it3 & l3 & v3 & a3 & V3 & E3 & B3 & H3 & H4)].
    + left. exact E3.
    + right. exists it3, l3, v3, a3, V3. split; auto. split; [lia|]. split; auto.
      replace (k + (it3 - 1 - it) * rots n (n - 1))%nat with (k + rots n (n - 1) + (it3 - 1 - (it + 1)) * rots n (n - 1))%nat; auto.
      replace (it3 - 1 - it)%nat with (S (it3 - 1 - (it + 1))) by lia. cbn [Nat.mul]. lia.
Qed.

(** initialization *)
Lemma init_diag n a A l : entries n a A -> length l = n ->
  exists b l', for_range 0 n (fun p bl => let '(b, l) := bl in x <- d_get a p p ;; b <- vset b p x ;; l <- vset l p x ;; Ok (b, l)) (repeat 0 n, l) = Ok (b, l') /\
    length b = n /\ length l' = n /\ forall i, (i < n)%nat -> nth i b 0 = A i i /\ nth i l' 0 = A i i.
Proof.
  intros Ha Hl.
  destruct (for_range_inv (fun h s => let '(b, l') := s in length b = n /\ length l' = n /\ forall i, (i < h)%nat -> nth i b 0 = A i i /\ nth i l' 0 = A i i)
    (fun p bl => let '(b, l) := bl in x <- d_get a p p ;; b <- vset b p x ;; l <- vset l p x ;; Ok (b, l)) 0 n (repeat 0 n, l)) as ((b, l') & E & I1 & I2 & I3).
  - lia.
  - rewrite repeat_length. splits; auto; intros; lia.
  - intros p (b, l1) Hp (I1 & I2 & I3). rewrite (entries_get n a A) by (auto; lia). cbn [bind]. rewrite !vset_ok by lia. cbn [bind].
    eexists. split; [reflexivity|]. cbv iota beta. rewrite !upd_length. split; auto. split; auto. intros i Hi. rewrite !nth_upd by lia.
    destruct (Nat.eqb_spec i p) as [->|]; auto. apply I3. lia.
  - exists b, l'. auto.
Qed.

Lemma init_identity n v : d_wf v -> d_nrow v = n -> d_ncol v = n ->
  exists v', for_range 0 n (fun p v => v <- for_range 0 n (fun q v => d_set v p q 0) v ;; d_set v p p 1) v = Ok v' /\ entries n v' delta.
Proof.
  intros W N1 N2.
  assert (H0 : entries n v (dval 0 v)) by (unfold entries; splits; auto).
  destruct (for_range_inv (fun h m => exists f, entries n m f /\ forall i j, (i < h)%nat -> (j < n)%nat -> f i j = delta i j)
    (fun p v => v <- for_range 0 n (fun q v => d_set v p q 0) v ;; d_set v p p 1) 0 n v) as (v' & E & f & I1 & I2).
  - lia.
  - exists (dval 0 v). split; auto. intros; lia.
  - intros p m Hp (f & I1 & I2).
    destruct (for_range_inv (fun h m => exists g, entries n m g /\ (forall j, (j < h)%nat -> g p j = 0) /\ (forall i j, i <> p -> g i j = f i j)) (fun q v => d_set v p q 0) 0 n m) as (m1 & E1 & g & J1 & J2 & J3).
    + lia.
    + exists f. split; auto. split; auto. intros; lia.
    + intros q m1 Hq (g & J1 & J2 & J3). destruct (entries_set n m1 g p q 0 J1 ltac:(lia) ltac:(lia)) as (m2 & E2 & K). exists m2. split; auto. eexists. split; [exact K|]. cbv beta. split.
      * intros j Hj. rewrite Nat.eqb_refl. cbn [andb]. destruct (Nat.eqb_spec j q); auto. apply J2. lia.
      * intros i j Hi. destruct (Nat.eqb_spec i p); [lia|]. cbn [andb]. auto.
    + rewrite E1. cbn [bind]. destruct (entries_set n m1 g p p 1 J1 ltac:(lia) ltac:(lia)) as (m2 & E2 & K). exists m2. split; auto. eexists. split; [exact K|]. cbv beta.
      intros i j Hi Hj. unfold delta. destruct (Nat.eqb_spec i p) as [->|N]; cbn [andb].
      * rewrite (Nat.eqb_sym p j). destruct (Nat.eqb_spec j p); auto.
      * rewrite J3 by auto. rewrite I2 by lia. reflexivity.
  - exists v'. split; auto. eapply entries_ext; eauto.
Qed.

Lemma orthogonal_delta n : orthogonal n delta.
Proof.
  split; intros i j Hi Hj; rewrite (sumn_single n _ i Hi); unfold delta; rewrite ?Nat.eqb_refl, ?(Nat.eqb_sym j i); try lra; intros k _ Hk; destruct (Nat.eqb_spec i k); destruct (Nat.eqb_spec k i); try lia; lra.
Qed.

Lemma init_conj n A (L : nat -> R) : (forall i j, (i < n)%nat -> (j < n)%nat -> A i j = A j i) -> (forall i, (i < n)%nat -> L i = A i i) ->
  forall i j, (i < n)%nat -> (j < n)%nat -> conj n delta (symof A L) i j = A i j.
Proof.
  intros HA HL i j Hi Hj. unfold conj. rewrite (sumn_single n _ i Hi).
  - unfold delta at 1. rewrite Nat.eqb_refl, Rmult_1_l. rewrite (sumn_single n _ j Hj).
    + unfold delta. rewrite Nat.eqb_refl, Rmult_1_r. unfold symof. destruct (Nat.ltb_spec i j); auto. destruct (Nat.ltb_spec j i); auto. replace j with i by lia. auto.
    + intros k _ Hk. unfold delta. destruct (Nat.eqb_spec j k); [lia|ring].
  - intros k _ Hk. unfold delta at 1. destruct (Nat.eqb_spec i k); [lia|ring].
Qed.

(** C20 (one rotation): for every symmetric matrix S = symof fa l and every
    orthogonal V, V stays orthogonal, the entry (p, q) becomes zero and
    V S V^T is exactly preserved, unless the two diagonal entries differ by a
    non-zero amount of at most the tolerance, which is then the size of the
    largest change. *)
Theorem C20_rotation n p q a fa l z v V : (p < q)%nat -> (q < n)%nat -> entries n a fa -> length l = n -> length z = n -> entries n v V -> orthogonal n V ->
  exists a' l' z' v' fa' V', jacobi_rotate n p q (a, l, z, v) = Ok (a', l', z', v') /\ entries n a' fa' /\ entries n v' V' /\ orthogonal n V' /\ fa' p q = 0 /\
    forall i j, (i < n)%nat -> (j < n)%nat ->
      let change := conj n V' (symof fa' (fun i => nth i l' 0)) i j - conj n V (symof fa (fun i => nth i l 0)) i j in
      (TOLERANCE < Rabs (nth q l 0 - nth p l 0) -> change = 0) /\ Rabs change <= Rabs (nth q l 0 - nth p l 0).
Proof.
  intros Hpq Hq Ha Hl Hz Hv HO.
  destruct (rotate_ok n p q a fa l z v V Hpq Hq Ha Hl Hz Hv) as (a' & l' & z' & v' & fa' & E & Ha' & Hl' & Hz' & Hv' & H0 & Hb & HS).
  set (L := fun i => nth i l 0) in *. set (t := jacobi_t (nth p l 0) (nth q l 0) (fa p q)) in *.
  change (jacobi_t (L p) (L q) (fa p q)) with t in *.
  set (c := 1 / sqrt (1 + t * t)) in *. set (s := t * c) in *.
  assert (Hcs : c * c + s * s = 1) by (apply cs_one).
  assert (HO' : orthogonal n (fun i => rot2 p q c s (V i))) by (apply orthogonal_rot; auto; lia).
  exists a', l', z', v', fa', (fun i => rot2 p q c s (V i)). split; auto. split; auto. split; auto. split; auto. split; auto.
  intros i j Hi Hj change.
  assert (CE : change = c * c * defect (L p) (L q) (fa p q) t *
    (- t * rot2 p q c s (V i) p * rot2 p q c s (V j) p + rot2 p q c s (V i) p * rot2 p q c s (V j) q + rot2 p q c s (V i) q * rot2 p q c s (V j) p + t * rot2 p q c s (V i) q * rot2 p q c s (V j) q)).
  { unfold change. fold L. rewrite (conj_ext n _ _ (fun a b => rotS p q c s (symof fa L) a b + neglect p q (c * c * defect (L p) (L q) (fa p q) t) t a b)) by (intros; apply HS; auto).
    rewrite conj_plus. unfold conj at 1. rewrite (congruence_rot n p q c s ltac:(lia) Hq ltac:(lia) Hcs). fold (conj n V (symof fa L) i j).
    unfold conj at 2. rewrite (neglect_conj n p q _ t (rot2 p q c s (V i)) (rot2 p q c s (V j))) by lia. ring. }
  rewrite CE. clear CE. clear change.
  pose proof (unit_pair n _ i p q HO' Hi ltac:(lia) Hq ltac:(lia)) as U1. pose proof (unit_pair n _ j p q HO' Hj ltac:(lia) Hq ltac:(lia)) as U2. cbv beta in U1, U2.
  set (xp := rot2 p q c s (V i) p) in *. set (xq := rot2 p q c s (V i) q) in *. set (yp := rot2 p q c s (V j) p) in *. set (yq := rot2 p q c s (V j) q) in *.
  change (nth q l 0) with (L q). change (nth p l 0) with (L p).
  destruct (jacobi_t_defect (L p) (L q) (fa p q)) as [D1 D2]. change (jacobi_t (L p) (L q) (fa p q)) with t in *.
  split; [intros H; rewrite (D1 H); ring|].
  destruct (Rle_lt_dec (Rabs (L q - L p)) TOLERANCE) as [Hs|Hs].
  - destruct (D2 Hs) as [T1 D3]. rewrite D3. assert (C2 : c * c = / 2).
    { pose proof (c_sq t) as K. fold c in K. rewrite T1 in K. lra. }
    rewrite C2, T1. replace (/ 2 * (L q - L p) * (- (1) * xp * yp + xp * yq + xq * yp + 1 * xq * yq)) with ((L q - L p) * ((- xp * yp + xp * yq + xq * yp + xq * yq) / 2)) by field.
    rewrite Rabs_mult. apply Rle_trans with (Rabs (L q - L p) * 1); [|lra].
    apply Rmult_le_compat; auto using Rabs_pos; [lra|]. apply Rabs_le.
    pose proof (Rle_0_sqr (xp + yp)). pose proof (Rle_0_sqr (xp - yp)). pose proof (Rle_0_sqr (xp + yq)). pose proof (Rle_0_sqr (xp - yq)).
    pose proof (Rle_0_sqr (xq + yp)). pose proof (Rle_0_sqr (xq - yp)). pose proof (Rle_0_sqr (xq + yq)). pose proof (Rle_0_sqr (xq - yq)). unfold Rsqr in *. lra.
  - rewrite (D1 Hs). rewrite Rmult_0_r, Rmult_0_l, Rabs_R0. apply Rabs_pos.
Qed.

(** C20: for every symmetric matrix A, of any size, the function either
    reports that it did not converge or returns, after k iterations, an
    orthogonal V and values l with A V = V diag(l), up to the off-diagonal
    part which it neglects (below the tolerance) and, for each of the
    (k-1) n (n-1) / 2 rotations, up to the tolerance with which it takes two
    diagonal entries as equal. *)
Theorem C20_eigenpairs n a A l v : (1 <= n)%nat -> entries n a A -> (forall i j, (i < n)%nat -> (j < n)%nat -> A i j = A j i) ->
  d_wf v -> d_nrow v = n -> d_ncol v = n -> length l = n ->
  mat_eigen_sym_jacobi l v a = Err "Jacobi rotation did not converge" \/
  exists k l' v' a' V, mat_eigen_sym_jacobi l v a = Ok (k, l', v', a') /\ (1 <= k <= 20)%nat /\ entries n v' V /\ orthogonal n V /\ length l' = n /\
    forall i j, (i < n)%nat -> (j < n)%nat ->
      Rabs (sumn n (fun m => A i m * V m j) - nth j l' 0 * V i j) <= 1e-15 * (1 + INR n * (INR (k - 1) * (INR n * INR (n - 1) / 2))).
Proof.
  intros Hn Ha HA Wv Nv1 Nv2 Hl. unfold mat_eigen_sym_jacobi. pose proof Ha as (Wa & Na1 & Na2 & _). rewrite Na1, Na2, Nv1, Nv2, Hl, !Nat.eqb_refl. cbn [negb andb].
  destruct (Nat.eqb_spec n 0); [lia|].
  destruct (init_diag n a A l Ha Hl) as (b1 & l1 & E1 & Hb1 & Hl1 & H1). rewrite E1. cbn [bind].
  destruct (init_identity n v Wv Nv1 Nv2) as (v1 & E2 & H2). rewrite E2. cbn [bind].
  assert (I : jinv n A 0 (a, l1, repeat 0 n, v1)).
  { split; auto. split; [apply repeat_length|]. exists A, delta. split; auto. split; auto. split; [apply orthogonal_delta|]. intros i j Hi Hj.
    rewrite init_conj; auto; [|intros; apply H1; auto]. rewrite Rminus_diag_eq by reflexivity. rewrite Rabs_R0. cbn [INR]. lra. }
  destruct (iterate_spec n A Hn N_MAX_ITERATIONS 0 0 b1 a l1 (repeat 0 n) v1 I Hb1) as [E|(k & l' & v' & a' & V & E & Hk & Hv & HO & Hl' & HE)].
  - intros i Hi. destruct (H1 i Hi) as [-> ->]. rewrite nth_repeat_lt by auto. ring.
  - left. exact E.
  - right. exists k, l', v', a', V. split; [exact E|]. split; [unfold N_MAX_ITERATIONS in Hk; lia|]. split; auto. split; auto. split; auto.
    intros i j Hi Hj. specialize (HE i j Hi Hj). eapply Rle_trans; [exact HE|]. right. change TOLERANCE with 1e-15. f_equal. f_equal. f_equal.
    rewrite Nat.add_0_l, Nat.sub_0_r, mult_INR. f_equal. pose proof (rots_val n (n - 1) ltac:(lia)) as K.
    assert (K2 : (2 * rots n (n - 1) = n * (n - 1))%nat).
    { rewrite K. replace (n + n - (n - 1) - 1)%nat with n by lia. apply Nat.mul_comm. }
    apply (f_equal INR) in K2. rewrite !mult_INR in K2. cbn [INR] in K2. lra.
Qed.

(** C20: dimensions *)
Theorem C20_dimensions l v a :
  (d_nrow a <> d_ncol a -> mat_eigen_sym_jacobi l v a = Err "matrix must be square") /\
  (d_nrow a = 0%nat -> d_ncol a = 0%nat -> mat_eigen_sym_jacobi l v a = Err "matrix dimension must be ≥ 1") /\
  (d_nrow a = d_ncol a -> d_nrow a <> 0%nat -> d_nrow v <> d_nrow a \/ d_ncol v <> d_ncol a -> mat_eigen_sym_jacobi l v a = Err "v and a matrices must have the same dimensions") /\
  (d_nrow a = d_ncol a -> d_nrow a <> 0%nat -> d_nrow v = d_nrow a -> d_ncol v = d_ncol a -> length l <> d_ncol a -> mat_eigen_sym_jacobi l v a = Err "l vector has incompatible dimension").
Proof.
  unfold mat_eigen_sym_jacobi. splits.
  - intros H. destruct (Nat.eqb_spec (d_nrow a) (d_ncol a)); [lia|reflexivity].
  - intros -> ->. reflexivity.
  - intros -> H0 H. rewrite Nat.eqb_refl. cbn [negb]. destruct (Nat.eqb_spec (d_ncol a) 0); [lia|].
    destruct (Nat.eqb_spec (d_nrow v) (d_ncol a)); destruct (Nat.eqb_spec (d_ncol v) (d_ncol a)); try reflexivity; lia.
  - intros E H0 H1 H2 H. rewrite H1, H2, E, !Nat.eqb_refl. cbn [negb andb]. destruct (Nat.eqb_spec (d_ncol a) 0); [lia|]. destruct (Nat.eqb_spec (length l) (d_ncol a)); [lia|reflexivity].
Qed.

(** C20: every symmetric 2 x 2 matrix converges, in at most two iterations *)
Theorem C20_two_by_two a A l v : entries 2 a A -> A 0%nat 1%nat = A 1%nat 0%nat -> d_wf v -> d_nrow v = 2%nat -> d_ncol v = 2%nat -> length l = 2%nat ->
  exists k l' v' a', mat_eigen_sym_jacobi l v a = Ok (k, l', v', a') /\ (k <= 2)%nat.
Proof.
  intros Ha HA Wv Nv1 Nv2 Hl. unfold mat_eigen_sym_jacobi. pose proof Ha as (Wa & Na1 & Na2 & _). rewrite Na1, Na2, Nv1, Nv2, Hl, !Nat.eqb_refl. cbn [negb andb].
  destruct (Nat.eqb_spec 2 0); [lia|].
  destruct (init_diag 2 a A l Ha Hl) as (b1 & l1 & E1 & Hb1 & Hl1 & H1). rewrite E1. cbn [bind].
  destruct (init_identity 2 v Wv Nv1 Nv2) as (v1 & E2 & H2). rewrite E2. cbn [bind].
  unfold N_MAX_ITERATIONS. cbn [jacobi_iterate]. rewrite (sm_ok 2 a A) by (auto; lia). cbn [bind].
  match goal with |- context [Rltb ?x TOLERANCE] => destruct (Rltb_spec x TOLERANCE) as [K|K] end.
  - eexists _, _, _, _. split; [reflexivity|]. lia.
  - destruct (rotate_ok 2 0 1 a A l1 (repeat 0 2) v1 delta) as (a' & l' & z' & v' & fa' & E & Ha' & Hl' & Hz' & Hv' & H0 & Hb & HS); auto.
    unfold jacobi_rotations, usub, for_range. cbn [Nat.leb Nat.sub Nat.add for_n bind]. rewrite E. cbn [bind].
    destruct (refresh_ok 2 b1 l' z') as (b2 & z2 & E3 & _); auto.
    { intros i Hi. specialize (Hb i). destruct (H1 i Hi) as [Q1 Q2]. rewrite nth_repeat_lt in Hb by auto. lra. }
    rewrite E3. cbn [bind]. rewrite (sm_ok 2 a' fa') by (auto; lia). cbn [bind].
    match goal with |- context [Rltb ?x TOLERANCE] => destruct (Rltb_spec x TOLERANCE) as [K2|K2] end.
    + eexists _, _, _, _. split; [reflexivity|]. lia.
    + exfalso. apply (Rle_not_lt _ _ K2). cbn [sumn Nat.ltb Nat.leb]. rewrite H0, Rabs_R0. unfold TOLERANCE. lra.
Qed.

(** Refuted: the error is not relative to the matrix.  If e is below the
    tolerance, then the values 0, 0 and the vectors (1, 0), (0, 1) are returned
    for [[0, e], [e, 0]], whose eigenvalues are e and -e. *)
Theorem C20_scale_refuted e : Rabs e < 1e-15 ->
  let a := {| d_nrow := 2; d_ncol := 2; d_data := [0; e; e; 0] |} in
  let v := {| d_nrow := 2; d_ncol := 2; d_data := [0; 0; 0; 0] |} in
  mat_eigen_sym_jacobi [5; 7] v a = Ok (1%nat, [0; 0], {| d_nrow := 2; d_ncol := 2; d_data := [1; 0; 0; 1] |}, a).
Proof.
  intros He. cbv zeta. unfold mat_eigen_sym_jacobi. cbn -[jacobi_iterate N_MAX_ITERATIONS IZR]. unfold N_MAX_ITERATIONS. cbn [jacobi_iterate].
  unfold jacobi_sm. cbn -[jacobi_rotations jacobi_refresh jacobi_iterate IZR TOLERANCE Rltb].
  destruct (Rltb_spec (0 + Rabs e) TOLERANCE) as [K|K]; [reflexivity|].
  exfalso. apply (Rle_not_lt _ _ K). unfold TOLERANCE. lra.
Qed.

(** a matrix that needs a rotation *)
Example C20_example : exists k l' v' a' V,
  mat_eigen_sym_jacobi [0; 0] {| d_nrow := 2; d_ncol := 2; d_data := [0; 0; 0; 0] |} {| d_nrow := 2; d_ncol := 2; d_data := [2; 1; 1; 2] |} = Ok (k, l', v', a') /\
  (k <= 2)%nat /\ entries 2 v' V /\ orthogonal 2 V.
Proof.
  set (a := {| d_nrow := 2; d_ncol := 2; d_data := [2; 1; 1; 2] |}). set (v := {| d_nrow := 2; d_ncol := 2; d_data := [0; 0; 0; 0] |}).
  assert (Ha : entries 2 a (dval 0 a)) by (unfold entries; splits; auto; reflexivity).
  destruct (C20_two_by_two a (dval 0 a) [0; 0] v) as (k & l' & v' & a' & E & Hk); auto; try reflexivity.
  destruct (C20_eigenpairs 2 a (dval 0 a) [0; 0] v) as [E2|(k2 & l2 & v2 & a2 & V & E2 & _ & Hv & HO & _)]; auto; try reflexivity.
  - intros i j Hi Hj. destruct i as [|[|]]; destruct j as [|[|]]; try lia; reflexivity.
  - rewrite E in E2. discriminate E2.
  - rewrite E in E2. injection E2 as <- <- <- <-. exists k, l', v', a', V. auto.
Qed.

Print Assumptions C20_rotation.
Print Assumptions C20_eigenpairs.
Print Assumptions C20_dimensions.
Print Assumptions C20_two_by_two.
Print Assumptions C20_scale_refuted.
