(** C74, C75: in-place matrix inverses and linear solvers for small matrices
    return exact inverses and solutions in real arithmetic. *)
From Coq Require Import Reals Lra List.
From Verif Require Import Base RBase Tensor_Model Tensor_Spec Tensor_Lib TensorMix_Thm SmallMat_Model.
Import ListNotations.
Open Scope R_scope.

(** ** specification *)
Definition inverse_of (n : nat) (x a : nat -> nat -> R) : Prop :=
  forall i j, (i < n)%nat -> (j < n)%nat ->
    summ n (fun l => x i l * a l j) = kron i j /\ summ n (fun l => a i l * x l j) = kron i j.
(** a determinant of n x n matrices: the function fixed by the elimination rules *)
Record determinant (n : nat) (D : (nat -> nat -> R) -> R) : Prop := {
  det_ext : forall w w', (forall i j, (i < n)%nat -> (j < n)%nat -> w i j = w' i j) -> D w = D w';
  det_swap : forall w p q, (p < n)%nat -> (q < n)%nat -> p <> q ->
    D (fun i j => if (i =? p)%nat then w q j else if (i =? q)%nat then w p j else w i j) = - D w;
  det_scale : forall w p c, (p < n)%nat -> D (fun i j => if (i =? p)%nat then c * w p j else w i j) = c * D w;
  det_add : forall w p q c, (p < n)%nat -> (q < n)%nat -> p <> q ->
    D (fun i j => if (i =? p)%nat then w p j + c * w q j else w i j) = D w;
  det_one : D kron = 1 }.

(** ** row operations *)
Section Rows.
Variable n : nat.
(** u is the combination of the rows of C with the weights v *)
Definition rowrel (C : nat -> nat -> R) (c : nat) (u v : nat -> R) : Prop :=
  forall j, (j < c)%nat -> u j = summ n (fun l => v l * C l j).
Definition inj (r : nat -> nat -> R) : Prop :=
  forall x, (forall i, (i < n)%nat -> summ n (fun l => r i l * x l) = 0) -> forall l, (l < n)%nat -> x l = 0.
Definition stepM (k : nat) (f : nat -> R) (X : nat -> nat -> R) : nat -> nat -> R :=
  fun i j => if (i =? k)%nat then X k j / f k else X i j - f i * (X k j / f k).
Lemma rowrel_ext C c u u' v v' : (forall j, (j < c)%nat -> u j = u' j) -> (forall j, (j < n)%nat -> v j = v' j) ->
  rowrel C c u v -> rowrel C c u' v'.
Proof. intros E1 E2 H j Hj. rewrite <- E1, H by assumption. apply summ_ext_eq. intros l Hl. rewrite E2 by assumption. reflexivity. Qed.
Lemma step_rel C c k f W V : (forall i, (i < n)%nat -> rowrel C c (W i) (V i)) -> (k < n)%nat ->
  forall i, (i < n)%nat -> rowrel C c (stepM k f W i) (stepM k f V i).
Proof.
  intros H Hk i Hi j Hj. unfold stepM. destruct (i =? k)%nat.
  - rewrite (H k Hk j Hj). unfold Rdiv. rewrite Rmult_comm, <- summ_scal. apply summ_ext_eq. intros. ring.
  - rewrite (H i Hi j Hj), (H k Hk j Hj).
    replace (summ n (fun l => V i l * C l j) - f i * (summ n (fun l => V k l * C l j) / f k))
      with (summ n (fun l => V i l * C l j) + (- f i / f k) * summ n (fun l => V k l * C l j)) by (unfold Rdiv; ring).
    rewrite <- summ_scal, <- summ_plus. apply summ_ext_eq. intros. unfold Rdiv. ring.
Qed.
Lemma swap_rel C c k m W V : (forall i, (i < n)%nat -> rowrel C c (W i) (V i)) -> (k < n)%nat -> (m < n)%nat ->
  forall i, (i < n)%nat -> rowrel C c (swap_rows W k m i) (swap_rows V k m i).
Proof.
  intros H Hk Hm i Hi j Hj. unfold swap_rows. destruct (i =? k)%nat; [apply H; assumption|].
  destruct (i =? m)%nat; apply H; assumption.
Qed.
Lemma inj_ext r r' : (forall i j, (i < n)%nat -> (j < n)%nat -> r i j = r' i j) -> inj r -> inj r'.
Proof.
  intros E H x Hx. apply H. intros i Hi. rewrite <- (Hx i Hi). apply summ_ext_eq. intros l Hl. rewrite E by assumption. reflexivity.
Qed.
Lemma inj_step k f r : (k < n)%nat -> f k <> 0 -> inj r -> inj (stepM k f r).
Proof.
  intros Hk Hf H x Hx. apply H.
  assert (K : summ n (fun l => r k l * x l) = 0).
  { specialize (Hx k Hk). unfold stepM in Hx. rewrite Nat.eqb_refl in Hx.
    rewrite (summ_ext_eq _ _ (fun l => / f k * (r k l * x l))), summ_scal in Hx by (intros; unfold Rdiv; ring).
    apply Rmult_integral in Hx. destruct Hx as [Hx|Hx]; [|exact Hx]. exfalso. apply Rinv_neq_0_compat in Hf. contradiction. }
  intros i Hi. specialize (Hx i Hi). unfold stepM in Hx. destruct (Nat.eqb_spec i k) as [E|]; [rewrite E; exact K|].
  rewrite (summ_ext_eq _ _ (fun l => r i l * x l + (- (f i / f k)) * (r k l * x l))), summ_plus, summ_scal, K in Hx
    by (intros; unfold Rdiv; ring). lra.
Qed.
Lemma inj_swap k m r : (k < n)%nat -> (m < n)%nat -> inj r -> inj (swap_rows r k m).
Proof.
  intros Hk Hm H x Hx. apply H. intros i Hi.
  destruct (Nat.eq_dec i k) as [->|Nk].
  - destruct (Nat.eq_dec m k) as [->|N].
    + specialize (Hx k Hk). unfold swap_rows in Hx. rewrite Nat.eqb_refl in Hx. exact Hx.
    + specialize (Hx m Hm). unfold swap_rows in Hx. rewrite Nat.eqb_refl in Hx.
      destruct (Nat.eqb_spec m k) as [E|]; [contradiction|]. exact Hx.
  - destruct (Nat.eq_dec i m) as [->|Nm].
    + specialize (Hx k Hk). unfold swap_rows in Hx. rewrite Nat.eqb_refl in Hx. exact Hx.
    + specialize (Hx i Hi). unfold swap_rows in Hx. destruct (Nat.eqb_spec i k), (Nat.eqb_spec i m); try contradiction. exact Hx.
Qed.
Lemma summ_kron_l i f : (i < n)%nat -> summ n (fun l => kron i l * f l) = f i.
Proof.
  unfold kron. generalize n. intros N. induction N; [lia|]. intros Hi. cbn [summ].
  destruct (Nat.eqb_spec i N) as [->|].
  - rewrite (summ_ext_eq _ _ (fun _ => 0)), summ_zero; [lra|]. intros m Hm. destruct (Nat.eqb_spec N m); [lia|ring].
  - rewrite IHN by lia. ring.
Qed.
Lemma inj_one : inj kron.
Proof. intros x Hx l Hl. rewrite <- (Hx l Hl). symmetry. apply summ_kron_l. exact Hl. Qed.
(** a one-sided inverse with independent rows is an inverse *)
Lemma left_inverse r a : inj r -> (forall i j, (i < n)%nat -> (j < n)%nat -> summ n (fun l => r i l * a l j) = kron i j) ->
  inverse_of n r a.
Proof.
  intros I H i j Hi Hj. split; [apply H; assumption|].
  enough (summ n (fun l => a i l * r l j) - kron i j = 0) by lra.
  apply (I (fun p => summ n (fun l => a p l * r l j) - kron p j)); [|exact Hi].
  intros p Hp.
  rewrite (summ_ext_eq _ _ (fun l => summ n (fun m => (r p l * a l m) * r m j) + - 1 * (kron j l * r p l))).
  2: { intros l Hl. rewrite (summ_ext_eq n (fun m => r p l * a l m * r m j) (fun m => r p l * (a l m * r m j))) by (intros; ring). rewrite summ_scal.
       replace (kron l j) with (kron j l) by (unfold kron; rewrite Nat.eqb_sym; reflexivity). ring. }
  rewrite summ_plus, summ_scal, summ_kron_l, summ_swap by assumption.
  rewrite (summ_ext_eq _ _ (fun m => kron p m * r m j)).
  2: { intros m Hm. rewrite <- (H p m) by assumption. rewrite Rmult_comm, <- summ_scal. apply summ_ext_eq. intros. ring. }
  rewrite summ_kron_l by assumption. ring.
Qed.
Lemma det_step D k f W : determinant n D -> (k < n)%nat -> f k <> 0 -> D W = f k * D (stepM k f W).
Proof.
  intros HD Hk Hf.
  set (P := fun m (i j : nat) => if (i =? k)%nat then W k j / f k else if (i <? m)%nat then W i j - f i * (W k j / f k) else W i j).
  assert (A : forall m, (m <= n)%nat -> D (P m) = D (P 0%nat)).
  { induction m; intros Hm; [reflexivity|]. rewrite <- IHm by lia. clear IHm. destruct (Nat.eq_dec m k) as [->|N].
    - apply (det_ext _ _ HD). intros i j Hi Hj. unfold P. destruct (Nat.eqb_spec i k); [reflexivity|].
      destruct (Nat.ltb_spec i (S k)), (Nat.ltb_spec i k); try lia; reflexivity.
    - rewrite <- (det_add _ _ HD (P m) m k (- f m)) by lia.
      apply (det_ext _ _ HD). intros i j Hi Hj. unfold P. rewrite Nat.eqb_refl, Nat.ltb_irrefl.
      destruct (Nat.eqb_spec m k) as [|_]; [contradiction|].
      destruct (Nat.eqb_spec i m) as [->|].
      + destruct (Nat.eqb_spec m k) as [|_]; [contradiction|]. destruct (Nat.ltb_spec m (S m)); [|lia]. ring.
      + destruct (Nat.ltb_spec i (S m)), (Nat.ltb_spec i m); try lia; reflexivity. }
  transitivity (f k * D (P n)).
  - rewrite (A n) by lia. rewrite <- (det_scale _ _ HD (P 0%nat) k (f k)) by assumption.
    apply (det_ext _ _ HD). intros i j Hi Hj. unfold P. rewrite Nat.eqb_refl. cbn [Nat.ltb Nat.leb].
    destruct (Nat.eqb_spec i k) as [->|]; [field; exact Hf|reflexivity].
  - f_equal. apply (det_ext _ _ HD). intros i j Hi Hj. unfold P, stepM. destruct (i =? k)%nat; [reflexivity|].
    destruct (Nat.ltb_spec i n); [reflexivity|lia].
Qed.
Lemma det_swaps D k m W : determinant n D -> (k < n)%nat -> (m < n)%nat -> k <> m -> D (swap_rows W k m) = - D W.
Proof. intros HD Hk Hm N. apply (det_swap _ _ HD); assumption. Qed.
End Rows.

(** ** C74: the inverse with row pivoting *)
Lemma loop_pair {A B : Type} n (f : nat -> A -> A) (g : nat -> B -> B) a b :
  loop n (fun j p => (f j (fst p), g j (snd p))) (a, b) = (loop n f a, loop n g b).
Proof. induction n; [reflexivity|]. rewrite !loop_S, IHn. reflexivity. Qed.
Lemma loop_elim n i k c w a b : i <> k ->
  loop n (fun j w => wr2 w i j (w i j - c * w k j)) w a b = if ((a =? i) && (b <? n))%nat then w i b - c * w k b else w a b.
Proof.
  intros N. revert a b. induction n; intros a b; [cbn; rewrite Bool.andb_false_r; reflexivity|].
  rewrite loop_S. unfold wr2 at 1. rewrite !IHn.
  destruct (Nat.eqb_spec a i) as [->|]; cbn [andb]; [|reflexivity].
  rewrite Nat.eqb_refl. cbn [andb]. rewrite Nat.ltb_irrefl. destruct (Nat.eqb_spec k i); [congruence|]. cbn [andb].
  destruct (Nat.eqb_spec b n) as [->|].
  - destruct (Nat.ltb_spec n (S n)); [reflexivity|lia].
  - destruct (Nat.ltb_spec b n), (Nat.ltb_spec b (S n)); try lia; reflexivity.
Qed.
Lemma gj_step n k w ai p : (k < n)%nat -> w k k <> 0 ->
  p = loop n (fun i p => gj_eliminate n k i p) (gj_normalize n k (w k k) (w, ai)) ->
  forall i j, (i < n)%nat -> (j < n)%nat ->
    fst p i j = stepM k (fun i => w i k) w i j /\ snd p i j = stepM k (fun i => w i k) ai i j.
Proof.
  intros Hk Hp ->. set (f := fun i => w i k).
  set (p0 := gj_normalize n k (w k k) (w, ai)).
  assert (N0 : forall i j, (i < n)%nat -> (j < n)%nat ->
     fst p0 i j = (if (i =? k)%nat then w k j / f k else w i j) /\ snd p0 i j = (if (i =? k)%nat then ai k j / f k else ai i j)).
  { intros i j Hi Hj. unfold p0, gj_normalize.
    rewrite (loop_pair n (fun j x => wr2 x k j (x k j / w k k)) (fun j x => wr2 x k j (x k j / w k k))). cbn [fst snd].
    unfold wr2 at 1. rewrite !(loop_row n (fun _ x => x / w k k)). apply Nat.ltb_lt in Hj as Bj. rewrite Bj, !Bool.andb_true_r.
    unfold f. destruct (Nat.eqb_spec i k) as [->|]; cbn [andb]; split; try reflexivity.
    destruct (Nat.eqb_spec j k) as [->|]; [field; exact Hp|reflexivity]. }
  assert (L : forall m, (m <= n)%nat -> forall i j, (i < n)%nat -> (j < n)%nat ->
    let p := loop m (fun i p => gj_eliminate n k i p) p0 in
    fst p i j = (if (i <? m)%nat then stepM k f w i j else fst p0 i j) /\
    snd p i j = (if (i <? m)%nat then stepM k f ai i j else snd p0 i j)).
  { induction m; intros Hm i j Hi Hj; cbn zeta; [split; reflexivity|].
    rewrite loop_S. set (p := loop m (fun i p => gj_eliminate n k i p) p0) in *. cbn zeta in IHm.
    unfold gj_eliminate. destruct (Nat.eqb_spec m k) as [->|Nm].
    - destruct (IHm ltac:(lia) i j Hi Hj) as [-> ->].
      destruct (Nat.ltb_spec i (S k)), (Nat.ltb_spec i k); try lia; try (split; reflexivity).
      assert (i = k) by lia. subst i. destruct (N0 k j Hk Hj) as [-> ->]. unfold stepM. rewrite Nat.eqb_refl. split; reflexivity.
    - destruct (IHm ltac:(lia) m k ltac:(lia) Hk) as [F _]. rewrite Nat.ltb_irrefl in F. destruct (N0 m k ltac:(lia) Hk) as [F' _].
      destruct (Nat.eqb_spec m k) as [|_]; [contradiction|]. rewrite F' in F. fold (f m) in F.
      assert (RM : fst p m j = w m j /\ snd p m j = ai m j).
      { destruct (IHm ltac:(lia) m j ltac:(lia) Hj) as [-> ->]. rewrite Nat.ltb_irrefl. destruct (N0 m j ltac:(lia) Hj) as [-> ->].
        destruct (Nat.eqb_spec m k) as [|_]; [contradiction|]. split; reflexivity. }
      assert (RK : fst p k j = w k j / f k /\ snd p k j = ai k j / f k).
      { destruct (IHm ltac:(lia) k j Hk Hj) as [-> ->]. destruct (N0 k j Hk Hj) as [-> ->].
        unfold stepM. rewrite Nat.eqb_refl. destruct (k <? m)%nat; split; reflexivity. }
      assert (RI : i <> m -> fst p i j = (if (i <? S m)%nat then stepM k f w i j else fst p0 i j) /\
                             snd p i j = (if (i <? S m)%nat then stepM k f ai i j else snd p0 i j)).
      { intros N. destruct (IHm ltac:(lia) i j Hi Hj) as [-> ->].
        destruct (Nat.ltb_spec i (S m)), (Nat.ltb_spec i m); try lia; split; reflexivity. }
      rewrite F. apply Nat.ltb_lt in Hj as Bj. clear IHm. destruct p as [x y]. cbn [fst snd] in *.
      destruct (Nat.eq_dec i m) as [->|Ni].
      + destruct (Nat.ltb_spec m (S m)) as [_|]; [|lia]. unfold stepM. destruct (Nat.eqb_spec m k) as [|_]; [contradiction|].
        destruct RM as [R1 R2], RK as [R3 R4].
        destruct (Reqb (f m) 0) eqn:Z.
        * apply Reqb_true in Z. cbn [fst snd]. rewrite R1, R2, Z. split; ring.
        * rewrite (loop_pair n (fun j x => wr2 x m j (x m j - f m * x k j)) (fun j x => wr2 x m j (x m j - f m * x k j))). cbn [fst snd].
          unfold wr2 at 1. rewrite !loop_elim by assumption. rewrite Nat.eqb_refl, Bj. cbn [andb]. rewrite R1, R2, R3, R4.
          split; [|reflexivity]. destruct (Nat.eqb_spec j k) as [->|]; [|reflexivity]. fold (f m). fold (f k). field. exact Hp.
      + destruct (RI Ni) as [R1 R2]. destruct (Reqb (f m) 0); cbn [fst snd]; [split; assumption|].
        rewrite (loop_pair n (fun j x => wr2 x m j (x m j - f m * x k j)) (fun j x => wr2 x m j (x m j - f m * x k j))). cbn [fst snd].
        unfold wr2 at 1. rewrite !loop_elim by assumption. destruct (Nat.eqb_spec i m) as [|_]; [contradiction|]. cbn [andb]. split; assumption. }
  intros i j Hi Hj. destruct (L n ltac:(lia) i j Hi Hj) as [-> ->]. destruct (Nat.ltb_spec i n); [|lia]. split; reflexivity.
Qed.
Lemma gj_pivot_spec w n k : (k < n)%nat -> let '(m, v) := gj_pivot w n k in (k <= m < n)%nat /\ v = Rabs (w m k).
Proof.
  intros Hk. unfold gj_pivot.
  set (g := fun d s => let i := (k + 1 + d)%nat in let value := Rabs (w i k) in if Rltb (snd s) value then (i, value) else s).
  assert (H : forall c, (c <= n - (k + 1))%nat -> let '(m, v) := loop c g (k, Rabs (w k k)) in (k <= m < n)%nat /\ v = Rabs (w m k)).
  { induction c; intros Hc; [cbn; split; [lia|reflexivity]|]. rewrite loop_S.
    destruct (loop c g (k, Rabs (w k k))) as [m v]. specialize (IHc ltac:(lia)). unfold g. cbn [snd].
    destruct (Rltb v _); [split; [lia|reflexivity]|exact IHc]. }
  exact (H _ (le_n _)).
Qed.
Definition gj_ok (n : nat) (A : nat -> nat -> R) (k : nat) (s : (nat -> nat -> R) * (nat -> nat -> R) * R) : Prop :=
  let '(w, r, d) := s in
  (forall i, (i < n)%nat -> rowrel n A n (w i) (r i)) /\ inj n r /\
  (forall i j, (i < n)%nat -> (j < k)%nat -> w i j = kron i j) /\
  (forall D, determinant n D -> D A = d * D w).
Lemma gj_column_ok n A k s s' : (k < n)%nat -> gj_ok n A k s -> gj_column n k s = Some s' -> gj_ok n A (S k) s'.
Proof.
  intros Hk. destruct s as [[w r] d]. intros (H1 & H2 & H3 & H4). unfold gj_column.
  pose proof (gj_pivot_spec w n k Hk) as P. destruct (gj_pivot w n k) as [m v]. destruct P as [Hm ->].
  destruct (Rleb (Rabs (w m k)) ZERO_DETERMINANT) eqn:T; [discriminate|]. apply Rleb_false in T.
  assert (Zp : w m k <> 0).
  { intros E. rewrite E, Rabs_R0 in T. unfold ZERO_DETERMINANT in T. assert (0 < / 10 ^ 15) by (apply Rinv_0_lt_compat; lra). lra. }
  set (q := if negb (m =? k)%nat then (swap_rows w k m, swap_rows r k m, - d) else (w, r, d)).
  assert (Q : gj_ok n A k q /\ fst (fst q) k k <> 0).
  { unfold q. destruct (Nat.eqb_spec m k) as [->|N]; cbn [negb]; [split; [unfold gj_ok; auto|exact Zp]|]. split.
    2: { cbn [fst]. unfold swap_rows. rewrite Nat.eqb_refl. exact Zp. }
    unfold gj_ok. splits.
    - apply swap_rel; [exact H1|lia|lia].
    - apply inj_swap; [lia|lia|exact H2].
    - intros i j Hi Hj. unfold swap_rows. destruct (Nat.eqb_spec i k) as [->|]; [rewrite H3 by lia|].
      + unfold kron. destruct (Nat.eqb_spec m j), (Nat.eqb_spec k j); try lia; reflexivity.
      + destruct (Nat.eqb_spec i m) as [->|]; [rewrite H3 by lia|apply H3; lia].
        unfold kron. destruct (Nat.eqb_spec m j), (Nat.eqb_spec k j); try lia; reflexivity.
    - intros D HD. rewrite (det_swaps n D k m w HD) by lia. rewrite (H4 D HD). ring. }
  clear H1 H2 H3 H4 T Zp. destruct q as [[w2 r2] d2]. destruct Q as [(H1 & H2 & H3 & H4) Zp]. cbn [fst] in Zp.
  intros E. injection E as <-. 
  pose proof (gj_step n k w2 r2 _ Hk Zp eq_refl) as G.
  set (p := loop n (fun i p => gj_eliminate n k i p) (gj_normalize n k (w2 k k) (w2, r2))) in *. clearbody p. destruct p as [w' r'].
  cbn [fst snd] in *. unfold gj_ok. splits.
  - intros i Hi. apply (rowrel_ext n A n (stepM k (fun i => w2 i k) w2 i) _ (stepM k (fun i => w2 i k) r2 i)).
    + intros j Hj. symmetry. apply (G i j Hi Hj).
    + intros j Hj. symmetry. apply (G i j Hi Hj).
    + apply step_rel; assumption.
  - apply (inj_ext n (stepM k (fun i => w2 i k) r2)).
    + intros i j Hi Hj. symmetry. apply (G i j Hi Hj).
    + apply inj_step; assumption.
  - intros i j Hi Hj. destruct (G i j Hi ltac:(lia)) as [-> _]. unfold stepM.
    destruct (Nat.eq_dec j k) as [->|N].
    + destruct (Nat.eqb_spec i k) as [->|N]; unfold kron.
      * rewrite Nat.eqb_refl. field. exact Zp.
      * destruct (Nat.eqb_spec i k) as [|_]; [contradiction|]. field. exact Zp.
    + rewrite (H3 i j), (H3 k j) by lia. destruct (Nat.eqb_spec i k) as [->|]; unfold kron; (destruct (Nat.eqb_spec k j) as [|_]; [lia|]).
      * field. exact Zp.
      * field. exact Zp.
  - intros D HD. rewrite (H4 D HD), (det_step n D k (fun i => w2 i k) w2 HD Hk Zp).
    rewrite (det_ext _ _ HD w' (stepM k (fun i => w2 i k) w2)); [ring|]. intros i j Hi Hj. apply (G i j Hi Hj).
Qed.
Lemma gj_columns_ok n A : forall count k s x d, (k + count = n)%nat -> gj_ok n A k s -> gj_columns n count k s = (x, Ok d) ->
  inverse_of n x A /\ forall D, determinant n D -> D A = d.
Proof.
  induction count; intros k s x d Hc HI; cbn [gj_columns].
  - destruct s as [[w r] e]. cbn [fst snd]. intros E. injection E as <- <-. destruct HI as (H1 & H2 & H3 & H4).
    assert (k = n) by lia. subst k. split.
    + apply left_inverse; [exact H2|]. intros i j Hi Hj. rewrite <- (H1 i Hi j Hj). apply H3; assumption.
    + intros D HD. rewrite (H4 D HD), (det_ext _ _ HD w kron), (det_one _ _ HD); [ring|]. intros; apply H3; assumption.
  - destruct (gj_column n k s) as [s'|] eqn:E; [|unfold singular; discriminate]. intros F.
    apply (IHcount (S k) s'); [lia|apply (gj_column_ok n A k s); [lia|exact HI|exact E]|exact F].
Qed.
Lemma gj_identity_val n ai i j : (i < n)%nat -> (j < n)%nat -> gj_identity n ai i j = kron i j.
Proof.
  intros Hi Hj. unfold gj_identity.
  assert (H : forall m i j, (j < n)%nat -> loop m (fun i ai => wr2 (loop n (fun j ai => wr2 ai i j 0) ai) i i 1) ai i j
              = if (i <? m)%nat then kron i j else ai i j).
  { clear i j Hi Hj. induction m; intros i j Hj; [reflexivity|]. rewrite loop_S. unfold wr2 at 1.
    rewrite (loop_row n (fun _ _ => 0)), IHm by assumption. unfold kron.
    apply Nat.ltb_lt in Hj as Bj. rewrite Bj, Bool.andb_true_r.
    destruct (Nat.eqb_spec i m) as [->|]; cbn [andb].
    - destruct (Nat.ltb_spec m (S m)); [|lia]. destruct (Nat.eqb_spec j m), (Nat.eqb_spec m j); try lia; reflexivity.
    - destruct (Nat.ltb_spec i (S m)), (Nat.ltb_spec i m); try lia; reflexivity. }
  rewrite H by assumption. destruct (Nat.ltb_spec i n); [reflexivity|lia].
Qed.

Theorem C74_inverse N ai a n x d : small_mat_inv N ai a n = (x, Ok d) -> inverse_of n x a.
Proof.
  unfold small_mat_inv. destruct (n <=? N)%nat; cbn [negb]; [|discriminate].
  destruct (Nat.eqb_spec n 1) as [->|N1].
  { destruct (Rleb _ _) eqn:T; [unfold singular; discriminate|]. apply Rleb_false in T. intros E. injection E as <- <-.
    assert (Z : a 0%nat 0%nat <> 0).
    { intros Z. rewrite Z, Rabs_R0 in T. unfold ZERO_DETERMINANT in T. assert (0 < / 10 ^ 15) by (apply Rinv_0_lt_compat; lra). lra. }
    intros i j Hi Hj. destruct i; [|lia]. destruct j; [|lia]. cbn. split; field; exact Z. }
  destruct (Nat.eqb_spec n 2) as [->|N2].
  { set (det := _ - _). destruct (Rleb _ _) eqn:T; [unfold singular; discriminate|]. apply Rleb_false in T. intros E. injection E as <- <-.
    assert (Z : det <> 0).
    { intros Z. rewrite Z, Rabs_R0 in T. unfold ZERO_DETERMINANT in T. assert (0 < / 10 ^ 15) by (apply Rinv_0_lt_compat; lra). lra. }
    unfold det in *. clear det T.
    intros i j Hi Hj. destruct i as [|[|]]; try lia; (destruct j as [|[|]]; try lia); cbn; split; field; exact Z. }
  destruct (Nat.eqb_spec n 3) as [->|N3].
  { set (det := _ + _). destruct (Rleb _ _) eqn:T; [unfold singular; discriminate|]. apply Rleb_false in T. intros E. injection E as <- <-.
    assert (Z : det <> 0).
    { intros Z. rewrite Z, Rabs_R0 in T. unfold ZERO_DETERMINANT in T. assert (0 < / 10 ^ 15) by (apply Rinv_0_lt_compat; lra). lra. }
    unfold det in *. clear det T.
    intros i j Hi Hj. destruct i as [|[|[|]]]; try lia; (destruct j as [|[|[|]]]; try lia); cbn; split; field; exact Z. }
  intros E. eapply gj_columns_ok in E; [apply E|lia|]. unfold gj_ok. splits.
  - intros i Hi j Hj. rewrite (summ_ext_eq _ _ (fun l => kron i l * a l j)).
    + rewrite summ_kron_l by assumption. reflexivity.
    + intros l Hl. rewrite gj_identity_val by assumption. reflexivity.
  - apply (inj_ext n kron); [intros; symmetry; apply gj_identity_val; assumption|apply inj_one].
  - intros; lia.
  - intros D HD. ring.
Qed.
(** the value returned is the determinant *)
Theorem C74_determinant N ai a n x d : small_mat_inv N ai a n = (x, Ok d) ->
  (n = 1%nat /\ d = a 0%nat 0%nat) \/
  (n = 2%nat /\ d = a 0%nat 0%nat * a 1%nat 1%nat - a 0%nat 1%nat * a 1%nat 0%nat) \/
  (n = 3%nat /\ d = mdet a) \/
  (n <> 1%nat /\ n <> 2%nat /\ n <> 3%nat /\ forall D, determinant n D -> d = D a).
Proof.
  unfold small_mat_inv. destruct (n <=? N)%nat; cbn [negb]; [|discriminate].
  destruct (Nat.eqb_spec n 1) as [->|N1].
  { destruct (Rleb _ _); [unfold singular; discriminate|]. intros E. injection E as _ <-. auto. }
  destruct (Nat.eqb_spec n 2) as [->|N2].
  { destruct (Rleb _ _); [unfold singular; discriminate|]. intros E. injection E as _ <-. auto. }
  destruct (Nat.eqb_spec n 3) as [->|N3].
  { destruct (Rleb _ _); [unfold singular; discriminate|]. intros E. injection E as _ <-. right; right; left. split; [reflexivity|].
    unfold mdet, sum3, lc. cbn -[IZR]. ring. }
  intros E. right; right; right. splits; try assumption. intros D HD.
  eapply gj_columns_ok in E; [symmetry; apply E; exact HD|lia|]. unfold gj_ok. splits.
  - intros i Hi j Hj. rewrite (summ_ext_eq _ _ (fun l => kron i l * a l j)).
    + rewrite summ_kron_l by assumption. reflexivity.
    + intros l Hl. rewrite gj_identity_val by assumption. reflexivity.
  - apply (inj_ext n kron); [intros; symmetry; apply gj_identity_val; assumption|apply inj_one].
  - intros; lia.
  - intros D' HD'. ring.
Qed.
(** it panics exactly when n > N and otherwise returns the inverse or reports a singular matrix *)
Theorem C74_total N ai a n :
  (N < n)%nat /\ small_mat_inv N ai a n = (ai, Panic) \/
  (n <= N)%nat /\ exists x r, small_mat_inv N ai a n = (x, r) /\ (r = singular \/ exists d, r = Ok d).
Proof.
  unfold small_mat_inv. destruct (Nat.leb_spec n N); cbn [negb]; [right; split; [assumption|]|left; split; [lia|reflexivity]].
  assert (G : forall c k s, exists x r, gj_columns n c k s = (x, r) /\ (r = singular \/ exists d, r = Ok d)).
  { induction c; intros k s; cbn [gj_columns]; [do 2 eexists; split; [reflexivity|right; eauto]|].
    destruct (gj_column n k s); [apply IHc|]. do 2 eexists; split; [reflexivity|left; reflexivity]. }
  destruct (n =? 1)%nat; [destruct (Rleb _ _); (do 2 eexists; split; [reflexivity|eauto])|].
  destruct (n =? 2)%nat; [destruct (Rleb _ _); (do 2 eexists; split; [reflexivity|eauto])|].
  destruct (n =? 3)%nat; [destruct (Rleb _ _); (do 2 eexists; split; [reflexivity|eauto])|].
  apply G.
Qed.
(** a matrix with a null vector is always reported *)
Theorem C74_singular N ai a n v p : (n <= N)%nat -> (p < n)%nat -> v p <> 0 ->
  (forall i, (i < n)%nat -> summ n (fun l => a i l * v l) = 0) ->
  exists x, small_mat_inv N ai a n = (x, singular).
Proof.
  intros Hn Hp Hv H. destruct (C74_total N ai a n) as [[L _]|[_ (x & r & E & [->|[d ->]])]]; [lia|eauto|].
  exfalso. apply Hv. pose proof (C74_inverse _ _ _ _ _ _ E) as I.
  rewrite <- (summ_kron_l n p v Hp).
  rewrite (summ_ext_eq _ _ (fun l => summ n (fun m => x p m * (a m l * v l)))).
  2: { intros l Hl. rewrite <- (proj1 (I p l Hp Hl)). rewrite Rmult_comm, <- summ_scal. apply summ_ext_eq. intros. ring. }
  rewrite summ_swap, (summ_ext_eq _ _ (fun _ => 0)); [apply summ_zero|]. intros m Hm. rewrite summ_scal, H by assumption. ring.
Qed.
(** finding: the test for a singular matrix is not relative to its entries *)
Theorem C74_scale_refuted : exists a x, inverse_of 2 x a /\
  (forall i j, (i < 2)%nat -> (j < 2)%nat -> a i j = kron i j / 10 ^ 8) /\
  forall ai, small_mat_inv 2 ai a 2 = (ai, singular).
Proof.
  exists (fun i j => kron i j / 10 ^ 8), (fun i j => kron i j * 10 ^ 8). splits.
  - intros i j Hi Hj. destruct i as [|[|]]; try lia; (destruct j as [|[|]]; try lia); unfold kron; cbn -[pow]; split; field; lra.
  - intros; reflexivity.
  - intros ai. unfold small_mat_inv. cbn [Nat.leb negb Nat.eqb].
    replace (Rleb _ _) with true; [reflexivity|]. symmetry. apply Rleb_true. unfold kron, ZERO_DETERMINANT. cbn [Nat.eqb].
    rewrite Rabs_pos_eq; lra.
Qed.
(** finding: although only the n x n block of the target is documented to be
    overwritten, the row swaps of the elimination move the entries beside it *)
Lemma gj_frame n k i q p : (n <= q)%nat -> snd (gj_eliminate n k i p) = snd (gj_eliminate n k i p) ->
  forall a, snd (gj_eliminate n k i p) a q = snd p a q.
Proof.
  intros Hq _ a. unfold gj_eliminate. destruct (Nat.eqb_spec i k) as [|N]; [reflexivity|]. destruct (Reqb _ _); [reflexivity|].
  destruct p as [x y]. cbn [fst snd].
  rewrite (loop_pair n (fun j w => wr2 w i j (w i j - x i k * w k j)) (fun j w => wr2 w i j (w i j - x i k * w k j))). cbn [fst snd].
  rewrite loop_elim by assumption. destruct (Nat.ltb_spec q n); [lia|]. rewrite Bool.andb_false_r. reflexivity.
Qed.
Lemma gj_column_frame n k w r d w' r' d' q : (n <= q)%nat -> gj_column n k (w, r, d) = Some (w', r', d') ->
  forall a, r' a q = (if negb (fst (gj_pivot w n k) =? k)%nat then swap_rows r k (fst (gj_pivot w n k)) else r) a q.
Proof.
  intros Hq. unfold gj_column. destruct (gj_pivot w n k) as [m v]. cbn [fst]. destruct (Rleb _ _); [discriminate|].
  set (s := if negb (m =? k)%nat then _ else _). 
  assert (S : snd (fst s) = if negb (m =? k)%nat then swap_rows r k m else r) by (unfold s; destruct (negb _); reflexivity).
  rewrite <- S. clear S. destruct s as [[w2 r2] d2]. cbn [fst snd]. intros E. injection E as _ <- _. intros a.
  assert (L : forall c p, snd (loop c (fun i p => gj_eliminate n k i p) p) a q = snd p a q).
  { induction c; intros p; [reflexivity|]. rewrite loop_S, gj_frame by (assumption || reflexivity). apply IHc. }
  rewrite L. unfold gj_normalize.
  rewrite (loop_pair n (fun j x => wr2 x k j (x k j / w2 k k)) (fun j x => wr2 x k j (x k j / w2 k k))). cbn [fst snd].
  rewrite (loop_row n (fun _ x => x / w2 k k)). destruct (Nat.ltb_spec q n); [lia|]. rewrite Bool.andb_false_r. reflexivity.
Qed.
Lemma gj_diag n : forall count k w r d x v q, (k + count = n)%nat -> (n <= q)%nat ->
  (forall i j, (i < n)%nat -> (j < n)%nat -> w i j = kron i j) ->
  gj_columns n count k (w, r, d) = (x, v) -> (exists e, v = Ok e) /\ forall a, x a q = r a q.
Proof.
  induction count; intros k w r d x v q Hc Hq HW; cbn [gj_columns].
  - intros E. cbn in E. injection E as <- <-. split; eauto.
  - assert (P : gj_pivot w n k = (k, 1)).
    { unfold gj_pivot. rewrite HW by lia. unfold kron at 1. rewrite Nat.eqb_refl, Rabs_R1.
      assert (L : forall c, (c <= n - (k + 1))%nat -> loop c (fun d s => let i := (k + 1 + d)%nat in let value := Rabs (w i k) in
        if Rltb (snd s) value then (i, value) else s) (k, 1) = (k, 1)).
      { induction c; intros Hl; [reflexivity|]. rewrite loop_S, IHc by lia. cbn zeta. cbn [snd]. rewrite HW by lia.
        unfold kron. destruct (Nat.eqb_spec (k + 1 + c) k); [lia|]. rewrite Rabs_R0.
        replace (Rltb 1 0) with false by (symmetry; apply Rltb_false; lra). reflexivity. }
      apply L. lia. }
    destruct (gj_column n k (w, r, d)) as [[[w' r'] d']|] eqn:E.
    2: { unfold gj_column in E. rewrite P, Nat.eqb_refl in E. replace (Rleb 1 ZERO_DETERMINANT) with false in E; [discriminate|].
         symmetry. apply Rleb_false. unfold ZERO_DETERMINANT. lra. }
    pose proof (gj_column_frame n k w r d w' r' d' q Hq E) as F. rewrite P in F. cbn [fst] in F. rewrite Nat.eqb_refl in F. cbn [negb] in F.
    intros G. apply (IHcount (S k) w' r' d' x v q) in G; [|lia|assumption|].
    + destruct G as [G1 G2]. split; [exact G1|]. intros a. rewrite G2. apply F.
    + unfold gj_column in E. rewrite P in E. destruct (Rleb 1 ZERO_DETERMINANT); [discriminate|]. rewrite Nat.eqb_refl in E. cbn [negb] in E.
      assert (Z : w k k = 1) by (rewrite HW by lia; unfold kron; rewrite Nat.eqb_refl; reflexivity).
      assert (Z0 : w k k <> 0) by lra.
      pose proof (gj_step n k w r _ ltac:(lia) Z0 eq_refl) as S. injection E as <- _ _.
      intros i j Hi Hj. rewrite (proj1 (S i j Hi Hj)). unfold stepM. rewrite !HW by lia. unfold kron. rewrite Nat.eqb_refl.
      destruct (Nat.eqb_spec i k) as [->|]; [field|]. destruct (Nat.eqb_spec k j) as [->|]; [|field].
      destruct (Nat.eqb_spec i j); [contradiction|field].
Qed.
Theorem C74_block_refuted : exists ai a x d,
  small_mat_inv 5 ai a 4 = (x, Ok d) /\ ai 0%nat 4%nat = 7 /\ x 0%nat 4%nat = 0.
Proof.
  set (a := fun i j => kron (match i with 0 => 1 | 1 => 0 | _ => i end)%nat j).
  set (ai := fun i j : nat => if ((i =? 0) && (j =? 4))%nat then 7 else 0).
  exists ai, a. unfold small_mat_inv. cbn [Nat.leb negb Nat.eqb].
  assert (P : gj_pivot a 4 0 = (1%nat, 1)).
  { unfold gj_pivot, loop, a, kron. cbn [Nat.sub Nat.add seq fold_left snd Nat.eqb]. rewrite Rabs_R0, Rabs_R1.
    replace (Rltb 0 1) with true by (symmetry; apply Rltb_true; lra). cbn [snd].
    replace (Rltb 1 0) with false by (symmetry; apply Rltb_false; lra). cbn [snd].
    replace (Rltb 1 0) with false by (symmetry; apply Rltb_false; lra). reflexivity. }
  cbn [gj_columns].
  destruct (gj_column 4 0 (a, gj_identity 4 ai, 1)) as [[[w' r'] d']|] eqn:E.
  2: { unfold gj_column in E. rewrite P in E. cbn [negb Nat.eqb] in E. replace (Rleb 1 ZERO_DETERMINANT) with false in E; [discriminate|].
       symmetry. apply Rleb_false. unfold ZERO_DETERMINANT. lra. }
  pose proof (gj_column_frame 4 0 _ _ _ _ _ _ 4 ltac:(lia) E) as F. rewrite P in F. cbn [fst negb Nat.eqb] in F.
  destruct (gj_columns 4 3 1 (w', r', d')) as [x v] eqn:G. pose proof G as G0.
  apply (gj_diag 4 3 1 w' r' d' x v 4) in G; [|lia|lia|].
  - destruct G as [[e ->] G]. exists x, e. splits; [exact G0|reflexivity|]. rewrite G, F. reflexivity.
  - unfold gj_column in E. rewrite P in E. destruct (Rleb 1 ZERO_DETERMINANT); [discriminate|]. cbn [negb Nat.eqb] in E.
    assert (Z : swap_rows a 0 1 0%nat 0%nat = 1) by reflexivity.
    assert (Z0 : swap_rows a 0 1 0%nat 0%nat <> 0) by lra.
    pose proof (gj_step 4 0 _ (swap_rows (gj_identity 4 ai) 0 1) _ ltac:(lia) Z0 eq_refl) as S. injection E as <- _ _.
    intros i j Hi Hj. rewrite (proj1 (S i j Hi Hj)). unfold stepM, swap_rows, a, kron.
    destruct i as [|[|[|[|]]]]; try lia; (destruct j as [|[|[|[|]]]]; try lia); cbn; field.
Qed.
(** non-vacuity: the 4 x 4 determinant obeys the rules, and 2 I is inverted *)
Definition det4 (w : nat -> nat -> R) : R :=
  let m a b c := w 1%nat a * (w 2%nat b * w 3%nat c - w 2%nat c * w 3%nat b) - w 1%nat b * (w 2%nat a * w 3%nat c - w 2%nat c * w 3%nat a)
                 + w 1%nat c * (w 2%nat a * w 3%nat b - w 2%nat b * w 3%nat a) in
  w 0%nat 0%nat * m 1%nat 2%nat 3%nat - w 0%nat 1%nat * m 0%nat 2%nat 3%nat + w 0%nat 2%nat * m 0%nat 1%nat 3%nat - w 0%nat 3%nat * m 0%nat 1%nat 2%nat.
Example C74_example_det : determinant 4 det4.
Proof.
  split.
  - intros w w' H. unfold det4. rewrite !H by lia. reflexivity.
  - intros w p q Hp Hq N. unfold det4. destruct p as [|[|[|[|]]]]; try lia; (destruct q as [|[|[|[|]]]]; try lia); cbn [Nat.eqb]; ring.
  - intros w p c Hp. unfold det4. destruct p as [|[|[|[|]]]]; try lia; cbn [Nat.eqb]; ring.
  - intros w p q c Hp Hq N. unfold det4. destruct p as [|[|[|[|]]]]; try lia; (destruct q as [|[|[|[|]]]]; try lia); cbn [Nat.eqb]; ring.
  - unfold det4, kron. cbn [Nat.eqb]. ring.
Qed.
Example C74_example : exists x, small_mat_inv 3 (fun _ _ => 9) (fun i j => 2 * kron i j) 2 = (x, Ok 4) /\ x 1%nat 1%nat = / 2.
Proof.
  eexists. unfold small_mat_inv. cbn [Nat.leb negb Nat.eqb]. unfold kron. cbn [Nat.eqb].
  replace (2 * 1 * (2 * 1) - 2 * 0 * (2 * 0)) with 4 by ring.
  replace (Rleb (Rabs 4) ZERO_DETERMINANT) with false.
  2: { symmetry. apply Rleb_false. unfold ZERO_DETERMINANT. rewrite Rabs_pos_eq; lra. }
  split; [reflexivity|]. unfold wr2. cbn [Nat.eqb andb]. lra.
Qed.
Print Assumptions C74_inverse.
Print Assumptions C74_determinant.
Print Assumptions C74_singular.
