(** C63: mixed tensor operations on Kelvin-Mandel components equal their
    index-notation definitions; and the linear operations on Tensor4. *)
From Coq Require Import Reals Lra List.
From Verif Require Import Base RBase Tensor_Model Tensor4_Model Tensor_Spec Tensor_Lib Tensor_Thm Tensor4_Thm.
Import ListNotations.
Open Scope R_scope.

(** ** loops *)
Lemma loop_S {S : Type} n (f : nat -> S -> S) s : loop (Datatypes.S n) f s = f n (loop n f s).
Proof. unfold loop. rewrite seq_S, fold_left_app. reflexivity. Qed.
Lemma loop_sum n (f : nat -> R) a : loop n (fun k s => s + f k) a = a + summ n f.
Proof. induction n; cbn [summ]; [unfold loop; cbn; ring|]. rewrite loop_S, IHn. ring. Qed.
Lemma loop_wr n (F : nat -> R -> R) v m :
  loop n (fun k v => wr v k (F k (v k))) v m = if (m <? n)%nat then F m (v m) else v m.
Proof.
  revert m. induction n; intros m; [reflexivity|]. rewrite loop_S. unfold wr at 1. rewrite !IHn.
  rewrite Nat.ltb_irrefl. destruct (Nat.eqb_spec m n) as [->|H].
  - replace (n <? S n)%nat with true by (symmetry; apply Nat.ltb_lt; lia). reflexivity.
  - destruct (Nat.ltb_spec m n), (Nat.ltb_spec m (S n)); reflexivity || lia.
Qed.
Lemma loop_row q (G : nat -> R -> R) m mm a b :
  loop q (fun n mm => wr2 mm m n (G n (mm m n))) mm a b
  = if ((a =? m) && (b <? q))%nat then G b (mm a b) else mm a b.
Proof.
  revert a b. induction q; intros a b; [cbn; rewrite Bool.andb_false_r; reflexivity|]. rewrite loop_S. unfold wr2 at 1. rewrite !IHq.
  destruct (Nat.eqb_spec a m) as [->|H]; cbn [andb]; [|reflexivity].
  rewrite Nat.eqb_refl, Nat.ltb_irrefl. cbn [andb]. destruct (Nat.eqb_spec b q) as [->|K].
  - replace (q <? S q)%nat with true by (symmetry; apply Nat.ltb_lt; lia). reflexivity.
  - destruct (Nat.ltb_spec b q), (Nat.ltb_spec b (S q)); reflexivity || lia.
Qed.
Lemma loop_wr2 p q (F : nat -> nat -> R -> R) mm a b :
  loop p (fun m mm => loop q (fun n mm => wr2 mm m n (F m n (mm m n))) mm) mm a b
  = if ((a <? p) && (b <? q))%nat then F a b (mm a b) else mm a b.
Proof.
  revert a b. induction p; intros a b; [reflexivity|]. rewrite loop_S, (loop_row q (F p)), !IHp.
  destruct (Nat.eqb_spec a p) as [->|H]; cbn [andb].
  - rewrite Nat.ltb_irrefl. replace (p <? S p)%nat with true by (symmetry; apply Nat.ltb_lt; lia). reflexivity.
  - destruct (Nat.ltb_spec a p), (Nat.ltb_spec a (S p)); reflexivity || lia.
Qed.
Lemma loop2_eq p q (f : nat -> nat -> (nat -> nat -> R) -> (nat -> nat -> R)) F mm :
  (forall m n mm, f m n mm = wr2 mm m n (F m n (mm m n))) ->
  forall a b, loop p (fun m mm => loop q (fun n mm => f m n mm) mm) mm a b
  = if ((a <? p) && (b <? q))%nat then F a b (mm a b) else mm a b.
Proof.
  intros H a b. rewrite <- (loop_wr2 p q F).
  rewrite (loop_ext p _ (fun m mm => loop q (fun n mm => wr2 mm m n (F m n (mm m n))) mm)); [reflexivity|].
  intros m s _. apply loop_ext. intros n s' _. apply H.
Qed.

(** ** sums over the basis *)
Lemma summ_dim9 r f : summ (rep_dim r) f = summ 9 (fun m => if (m <? rep_dim r)%nat then f m else 0).
Proof. destruct r; cbn; ring. Qed.
Lemma c2_orth f g : sum3 (fun p => sum3 (fun q => c2 p q f * c2 p q g)) = summ 9 (fun m => f m * g m).
Proof. unfold sum3, c2, summ. kfield. Qed.
Lemma c2_lin2 i j (F : nat -> nat -> nat -> R) g :
  sum3 (fun k => sum3 (fun l => c2 i j (fun m => F m k l) * g k l))
  = c2 i j (fun m => sum3 (fun k => sum3 (fun l => F m k l * g k l))).
Proof. unfold c2, sum3. destruct i as [|[|[|i]]], j as [|[|[|j]]]; try ring; kfield. Qed.
Lemma c2_lin2l i j (F : nat -> nat -> nat -> R) g :
  sum3 (fun k => sum3 (fun l => g k l * c2 i j (fun m => F m k l)))
  = c2 i j (fun m => sum3 (fun k => sum3 (fun l => g k l * F m k l))).
Proof. unfold c2, sum3. destruct i as [|[|[|i]]], j as [|[|[|j]]]; try ring; kfield. Qed.
Lemma c2_scal i j a f : a * c2 i j f = c2 i j (fun m => a * f m).
Proof. unfold c2. destruct i as [|[|[|i]]], j as [|[|[|j]]]; try ring; kfield. Qed.
Lemma c2_plus i j f g : c2 i j f + c2 i j g = c2 i j (fun m => f m + g m).
Proof. unfold c2. destruct i as [|[|[|i]]], j as [|[|[|j]]]; try ring; kfield. Qed.
Lemma c2_swap i j k l F : c2 i j (fun m => c2 k l (fun n => F m n)) = c2 k l (fun n => c2 i j (fun m => F m n)).
Proof.
  unfold c2. destruct i as [|[|[|i]]], j as [|[|[|j]]]; destruct k as [|[|[|k]]], l as [|[|[|l]]]; try reflexivity; kfield.
Qed.
Lemma sum3_ext f g : (forall i, (i < 3)%nat -> f i = g i) -> sum3 f = sum3 g.
Proof. intros H. unfold sum3. rewrite !H by lia. reflexivity. Qed.
Lemma ext2_row n D m : ext2 n D m = if (m <? n)%nat then ext n (D m) else fun _ => 0.
Proof. unfold ext2, ext. destruct (m <? n)%nat; reflexivity. Qed.
Lemma row_sum r D a m : summ 9 (fun n => ext2 (rep_dim r) D m n * ext (rep_dim r) a n)
  = ext (rep_dim r) (fun m => summ (rep_dim r) (fun n => D m n * a n)) m.
Proof.
  rewrite ext2_row. unfold ext. destruct (m <? rep_dim r)%nat.
  - rewrite summ_dim9. apply summ_ext_eq. intros n Hn. destruct (n <? rep_dim r)%nat; ring.
  - rewrite (summ_ext_eq 9 _ (fun _ => 0)) by (intros; ring). apply summ_zero.
Qed.
Lemma col_sum r D a n : summ 9 (fun m => ext (rep_dim r) a m * ext2 (rep_dim r) D m n)
  = ext (rep_dim r) (fun n => summ (rep_dim r) (fun m => a m * D m n)) n.
Proof.
  unfold ext2, ext. destruct (n <? rep_dim r)%nat.
  - rewrite summ_dim9. apply summ_ext_eq. intros m Hm. destruct (m <? rep_dim r)%nat; cbn [andb]; ring.
  - rewrite (summ_ext_eq 9 _ (fun _ => 0)) by (intros m Hm; rewrite Bool.andb_false_r; ring). apply summ_zero.
Qed.
Lemma mat_sum r C D m n : summ 9 (fun p => ext2 (rep_dim r) C m p * ext2 (rep_dim r) D p n)
  = ext2 (rep_dim r) (fun m n => summ (rep_dim r) (fun p => C m p * D p n)) m n.
Proof.
  unfold ext2. destruct (m <? rep_dim r)%nat, (n <? rep_dim r)%nat; cbn [andb].
  - rewrite summ_dim9. apply summ_ext_eq. intros p Hp. destruct (p <? rep_dim r)%nat; cbn [andb]; ring.
  - rewrite (summ_ext_eq 9 _ (fun _ => 0)); [apply summ_zero|]. intros p Hp. rewrite Bool.andb_false_r. ring.
  - rewrite (summ_ext_eq 9 _ (fun _ => 0)); [apply summ_zero|]. intros p Hp. ring.
  - rewrite (summ_ext_eq 9 _ (fun _ => 0)); [apply summ_zero|]. intros p Hp. ring.
Qed.
(** contractions of expansions, component by component *)
Lemma ddot2_c2 d a i j : (i < 3)%nat -> (j < 3)%nat -> t2_rep a = t4_rep d ->
  a4_ddot2 (tens4 d) (tens2 a) i j
  = c2 i j (ext (t4_dim d) (fun m => summ (t4_dim d) (fun n => t4_mat d m n * t2_vec a n))).
Proof.
  intros Hi Hj E. unfold a4_ddot2.
  rewrite (sum3_ext _ (fun k => sum3 (fun l =>
    c2 i j (fun m => c2 k l (fun n => ext2 (t4_dim d) (t4_mat d) m n)) * c2 k l (ext (t2_dim a) (t2_vec a))))).
  2: { intros k Hk. apply sum3_ext. intros l Hl. tens. tens4t. reflexivity. }
  rewrite (c2_lin2 i j (fun m k l => c2 k l (fun n => ext2 (t4_dim d) (t4_mat d) m n)) (fun k l => c2 k l (ext (t2_dim a) (t2_vec a)))).
  apply c2_ext. intros m Hm. rewrite c2_orth. unfold t4_dim, t2_dim. rewrite E. apply row_sum.
Qed.
Lemma ddot2l_c2 d a k l : (k < 3)%nat -> (l < 3)%nat -> t2_rep a = t4_rep d ->
  a2_ddot4 (tens2 a) (tens4 d) k l
  = c2 k l (ext (t4_dim d) (fun n => summ (t4_dim d) (fun m => t2_vec a m * t4_mat d m n))).
Proof.
  intros Hk Hl E. unfold a2_ddot4.
  rewrite (sum3_ext _ (fun i => sum3 (fun j =>
    c2 i j (ext (t2_dim a) (t2_vec a)) * c2 k l (fun n => c2 i j (fun m => ext2 (t4_dim d) (t4_mat d) m n))))).
  2: { intros i Hi. apply sum3_ext. intros j Hj. tens. tens4t. rewrite c2_swap. reflexivity. }
  rewrite (c2_lin2l k l (fun n i j => c2 i j (fun m => ext2 (t4_dim d) (t4_mat d) m n)) (fun i j => c2 i j (ext (t2_dim a) (t2_vec a)))).
  apply c2_ext. intros n Hn. rewrite c2_orth. unfold t4_dim, t2_dim. rewrite E. apply col_sum.
Qed.
Lemma ddot4_c2 c d i j k l : (i < 3)%nat -> (j < 3)%nat -> (k < 3)%nat -> (l < 3)%nat -> t4_rep c = t4_rep d ->
  a4_ddot4 (tens4 c) (tens4 d) i j k l
  = c2 i j (fun m => c2 k l (fun n => ext2 (t4_dim d) (fun m n => summ (t4_dim d) (fun p => t4_mat c m p * t4_mat d p n)) m n)).
Proof.
  intros Hi Hj Hk Hl E. unfold a4_ddot4.
  rewrite (sum3_ext _ (fun p => sum3 (fun q =>
    c2 i j (fun m => c2 p q (fun n => ext2 (t4_dim c) (t4_mat c) m n)) *
    c2 k l (fun n => c2 p q (fun m => ext2 (t4_dim d) (t4_mat d) m n))))).
  2: { intros p Hp. apply sum3_ext. intros q Hq. tens4t. rewrite (c2_swap p q k l). reflexivity. }
  rewrite (c2_lin2 i j (fun m p q => c2 p q (fun n => ext2 (t4_dim c) (t4_mat c) m n)) (fun p q => c2 k l (fun n => c2 p q (fun m => ext2 (t4_dim d) (t4_mat d) m n)))).
  apply c2_ext. intros m Hm.
  rewrite (c2_lin2l k l (fun n p q => c2 p q (fun m => ext2 (t4_dim d) (t4_mat d) m n)) (fun p q => c2 p q (fun n => ext2 (t4_dim c) (t4_mat c) m n))).
  apply c2_ext. intros n Hn. rewrite c2_orth. unfold t4_dim. rewrite E. apply mat_sum.
Qed.

(** the matrix inner product is the full contraction *)
Theorem C61_t4_inner_product c d : t4_rep c = t4_rep d ->
  summ (t4_dim c) (fun m => summ (t4_dim c) (fun n => t4_mat c m n * t4_mat d m n)) = a4_inner (tens4 c) (tens4 d).
Proof.
  intros E. unfold a4_inner.
  rewrite (sum3_ext _ (fun i => sum3 (fun j => sum3 (fun k => sum3 (fun l =>
    c2 i j (fun m => c2 k l (fun n => ext2 (t4_dim c) (t4_mat c) m n)) *
    c2 k l (fun n => c2 i j (fun m => ext2 (t4_dim d) (t4_mat d) m n))))))).
  2: { intros i Hi. apply sum3_ext. intros j Hj. apply sum3_ext. intros k Hk. apply sum3_ext. intros l Hl.
       tens4t. rewrite (c2_swap i j k l (fun m n => ext2 (t4_dim d) (t4_mat d) m n)). reflexivity. }
  rewrite (sum3_ext _ (fun i => sum3 (fun j => c2 i j (fun m => sum3 (fun k => sum3 (fun l =>
    c2 k l (fun n => ext2 (t4_dim c) (t4_mat c) m n) * c2 k l (fun n => c2 i j (fun m => ext2 (t4_dim d) (t4_mat d) m n)))))))).
  2: { intros i Hi. apply sum3_ext. intros j Hj.
       apply (c2_lin2 i j (fun m k l => c2 k l (fun n => ext2 (t4_dim c) (t4_mat c) m n)) (fun k l => c2 k l (fun n => c2 i j (fun m => ext2 (t4_dim d) (t4_mat d) m n)))). }
  rewrite (sum3_ext _ (fun i => sum3 (fun j => c2 i j (fun m => summ 9 (fun n => ext2 (t4_dim c) (t4_mat c) m n * c2 i j (fun m => ext2 (t4_dim d) (t4_mat d) m n)))))).
  2: { intros i Hi. apply sum3_ext. intros j Hj. apply c2_ext. intros m Hm. apply c2_orth. }
  assert (S : forall i j (F : nat -> nat -> R) (G : nat -> R), c2 i j (fun m => summ 9 (fun n => F m n * G n)) = summ 9 (fun n => c2 i j (fun m => F m n) * G n)).
  { intros i j F G. unfold c2, summ. destruct i as [|[|[|i]]], j as [|[|[|j]]]; try ring; kfield. }
  rewrite (sum3_ext _ (fun i => sum3 (fun j => summ 9 (fun n => c2 i j (fun m => ext2 (t4_dim c) (t4_mat c) m n) * c2 i j (fun m => ext2 (t4_dim d) (t4_mat d) m n))))).
  2: { intros i Hi. apply sum3_ext. intros j Hj. apply S. }
  assert (W : forall F : nat -> nat -> nat -> R, sum3 (fun i => sum3 (fun j => summ 9 (fun n => F i j n))) = summ 9 (fun n => sum3 (fun i => sum3 (fun j => F i j n)))).
  { intros F. unfold sum3, summ. ring. }
  rewrite W. rewrite (summ_ext_eq 9 _ (fun n => summ 9 (fun m => ext2 (t4_dim c) (t4_mat c) m n * ext2 (t4_dim d) (t4_mat d) m n))).
  2: { intros n Hn. apply c2_orth. }
  rewrite summ_swap. unfold t4_dim. rewrite <- E. set (r := t4_rep c). clearbody r. rewrite summ_dim9. apply summ_ext_eq. intros m Hm.
  unfold ext2. destruct (m <? rep_dim r)%nat; cbn [andb].
  - rewrite summ_dim9. apply summ_ext_eq. intros n Hn. destruct (n <? rep_dim r)%nat; cbn [andb]; ring.
  - symmetry. rewrite (summ_ext_eq 9 _ (fun _ => 0)); [apply summ_zero|]. intros. rewrite Bool.andb_false_r. ring.
Qed.

(** ** linear operations on Tensor4 *)
Ltac reps := repeat match goal with H : _ = _ :> rep |- _ => rewrite H end;
  repeat match goal with |- context [rep_eqb ?r ?r] => replace (rep_eqb r r) with true by (destruct r; reflexivity) end;
  cbn [assert_ bind].
Lemma tens4_val d mm (F : nat -> nat -> R) i j k l : (i < 3)%nat -> (j < 3)%nat -> (k < 3)%nat -> (l < 3)%nat ->
  (forall m n, (m < t4_dim d)%nat -> (n < t4_dim d)%nat -> mm m n = F m n) ->
  tens4 (t4_put d mm) i j k l = c2 i j (fun m => c2 k l (fun n => ext2 (t4_dim d) F m n)).
Proof.
  intros Hi Hj Hk Hl H. tens4t. apply c2_ext. intros m Hm. apply c2_ext. intros n Hn.
  change (t4_dim (t4_put d mm)) with (t4_dim d). change (t4_mat (t4_put d mm)) with mm. unfold ext2.
  destruct (Nat.ltb_spec m (t4_dim d)), (Nat.ltb_spec n (t4_dim d)); cbn [andb]; try reflexivity. apply H; assumption.
Qed.
Lemma tens2_val t v (F : nat -> R) i j : (i < 3)%nat -> (j < 3)%nat ->
  (forall m, (m < t2_dim t)%nat -> v m = F m) -> tens2 (t2_put t v) i j = c2 i j (ext (t2_dim t) F).
Proof.
  intros Hi Hj H. tens. apply c2_ext. intros m Hm. change (t2_dim (t2_put t v)) with (t2_dim t). cbn [t2_put t2_vec]. unfold ext.
  destruct (Nat.ltb_spec m (t2_dim t)); [apply H; assumption|reflexivity].
Qed.
Lemma lt2 (a b n : nat) : (a < n)%nat -> (b < n)%nat -> ((a <? n) && (b <? n))%nat = true.
Proof. intros A B. apply Nat.ltb_lt in A, B. rewrite A, B. reflexivity. Qed.
Lemma rep_dim_le r : (rep_dim r <=? 9)%nat = true. Proof. destruct r; reflexivity. Qed.
Lemma c22_scal i j k l a F : a * c2 i j (fun m => c2 k l (fun n => F m n)) = c2 i j (fun m => c2 k l (fun n => a * F m n)).
Proof. rewrite c2_scal. apply c2_ext. intros. apply c2_scal. Qed.
Lemma c22_plus i j k l F G : c2 i j (fun m => c2 k l (fun n => F m n)) + c2 i j (fun m => c2 k l (fun n => G m n)) = c2 i j (fun m => c2 k l (fun n => F m n + G m n)).
Proof. rewrite c2_plus. apply c2_ext. intros. apply c2_plus. Qed.
Lemma c22_ext i j k l F G : (forall m n, F m n = G m n) -> c2 i j (fun m => c2 k l (fun n => F m n)) = c2 i j (fun m => c2 k l (fun n => G m n)).
Proof. intros H. apply c2_ext. intros. apply c2_ext. intros. apply H. Qed.

Definition a4_scale (s : R) (d : a4) : a4 := fun i j k l => s * d i j k l.
Definition a4_add (c d : a4) : a4 := fun i j k l => c i j k l + d i j k l.

Theorem C63_t4_set_tensor d alpha o : t4_rep o = t4_rep d ->
  exists d', t4_set_tensor d alpha o = Ok d' /\ t4_rep d' = t4_rep d /\ eq4 (tens4 d') (a4_scale alpha (tens4 o)).
Proof.
  intros E. unfold t4_set_tensor. rewrite E. reps. eexists; split; [reflexivity|]. split; [reflexivity|].
  in4. rewrite (tens4_val d _ (fun m n => alpha * t4_mat o m n)); try assumption.
  2: { intros m n Hm Hn. rewrite (loop2_eq _ _ _ (fun m n _ => alpha * t4_mat o m n)) by reflexivity. rewrite lt2 by assumption. reflexivity. }
  unfold a4_scale. tens4t. unfold t4_dim. rewrite E, c22_scal. apply c22_ext. intros m n. unfold ext2.
  destruct ((m <? _) && (n <? _))%nat; ring.
Qed.
Theorem C63_t4_update d alpha o : t4_rep o = t4_rep d ->
  exists d', t4_update d alpha o = Ok d' /\ t4_rep d' = t4_rep d /\ eq4 (tens4 d') (a4_add (tens4 d) (a4_scale alpha (tens4 o))).
Proof.
  intros E. unfold t4_update. rewrite E. reps. eexists; split; [reflexivity|]. split; [reflexivity|].
  in4. rewrite (tens4_val d _ (fun m n => t4_mat d m n + alpha * t4_mat o m n)); try assumption.
  2: { intros m n Hm Hn. rewrite (loop2_eq _ _ _ (fun m n x => x + alpha * t4_mat o m n)) by reflexivity. rewrite lt2 by assumption. reflexivity. }
  unfold a4_add, a4_scale. tens4t. unfold t4_dim. rewrite E, c22_scal, c22_plus. apply c22_ext. intros m n. unfold ext2.
  destruct ((m <? _) && (n <? _))%nat; ring.
Qed.
Theorem C63_t4_add c alpha a beta b : t4_rep b = t4_rep a -> t4_rep c = t4_rep a ->
  exists c', t4_add c alpha a beta b = Ok c' /\ t4_rep c' = t4_rep a /\
    eq4 (tens4 c') (a4_add (a4_scale alpha (tens4 a)) (a4_scale beta (tens4 b))).
Proof.
  intros E1 E2. unfold t4_add, small_mat_add. rewrite E1, E2. reps. unfold t4_dim. rewrite rep_dim_le. cbn [assert_ bind].
  eexists; split; [reflexivity|]. split; [exact E2|].
  in4. rewrite (tens4_val c _ (fun m n => alpha * t4_mat a m n + beta * t4_mat b m n)); try assumption.
  2: { intros m n Hm Hn. rewrite (loop2_eq _ _ _ (fun m n x => alpha * t4_mat a m n + beta * t4_mat b m n)) by reflexivity. rewrite lt2 by assumption. reflexivity. }
  unfold a4_add, a4_scale. tens4t. unfold t4_dim. rewrite E1, E2, !c22_scal, c22_plus. apply c22_ext. intros m n. unfold ext2.
  destruct ((m <? _) && (n <? _))%nat; ring.
Qed.

(** ** products of fourth-order tensors *)
Theorem C63_t4_ddot_t4_update e alpha c d beta : t4_rep c = t4_rep d -> t4_rep e = t4_rep d ->
  exists e', t4_ddot_t4_update e alpha c d beta = Ok e' /\ t4_rep e' = t4_rep d /\
    eq4 (tens4 e') (a4_add (a4_scale alpha (a4_ddot4 (tens4 c) (tens4 d))) (a4_scale beta (tens4 e))).
Proof.
  intros E1 E2. unfold t4_ddot_t4_update, small_mat_mat_mul. rewrite E1, E2. reps. unfold t4_dim. rewrite rep_dim_le. cbn [assert_ bind].
  eexists; split; [reflexivity|]. split; [exact E2|].
  in4. rewrite (tens4_val e _ (fun m n => alpha * summ (t4_dim d) (fun p => t4_mat c m p * t4_mat d p n) + beta * t4_mat e m n)); try assumption.
  2: { intros m n Hm Hn. rewrite (loop2_eq _ _ _ (fun m n x => alpha * summ (t4_dim d) (fun p => t4_mat c m p * t4_mat d p n) + beta * x)).
       2: { intros m' n' mm. rewrite loop_sum. unfold t4_dim. rewrite E2. f_equal. ring. }
       rewrite lt2 by assumption. reflexivity. }
  unfold a4_add, a4_scale. rewrite ddot4_c2 by assumption. tens4t. unfold t4_dim. rewrite E2, !c22_scal, c22_plus. apply c22_ext. intros m n. unfold ext2.
  destruct ((m <? _) && (n <? _))%nat; ring.
Qed.
Theorem C63_t4_ddot_t4 e alpha c d : t4_rep c = t4_rep d -> t4_rep e = t4_rep d ->
  exists e', t4_ddot_t4 e alpha c d = Ok e' /\ t4_rep e' = t4_rep d /\
    eq4 (tens4 e') (a4_scale alpha (a4_ddot4 (tens4 c) (tens4 d))).
Proof.
  intros E1 E2. destruct (C63_t4_ddot_t4_update e alpha c d 0 E1 E2) as (e' & A & B & C). exists e'. split; [exact A|]. split; [exact B|].
  in4. rewrite C by assumption. unfold a4_add, a4_scale. ring.
Qed.
Theorem C63_t4_ddot_t2_update b alpha d a beta : t2_rep a = t4_rep d -> t2_rep b = t4_rep d ->
  exists b', t4_ddot_t2_update b alpha d a beta = Ok b' /\ t2_rep b' = t4_rep d /\
    eq2 (tens2 b') (madd (mscale alpha (a4_ddot2 (tens4 d) (tens2 a))) (mscale beta (tens2 b))).
Proof.
  intros E1 E2. unfold t4_ddot_t2_update. rewrite E1, E2. reps. eexists; split; [reflexivity|]. split; [exact E2|].
  intros i j Hi Hj. rewrite (tens2_val b _ (fun m => alpha * summ (t4_dim d) (fun n => t4_mat d m n * t2_vec a n) + beta * t2_vec b m)); try assumption.
  2: { intros m Hm. rewrite (loop_ext _ _ (fun m v => wr v m (alpha * summ (t4_dim d) (fun n => t4_mat d m n * t2_vec a n) + beta * v m))).
       2: { intros m' s _. rewrite loop_sum. unfold t4_dim, t2_dim. rewrite E2. f_equal. ring. }
       rewrite (loop_wr _ (fun m x => alpha * summ (t4_dim d) (fun n => t4_mat d m n * t2_vec a n) + beta * x)).
       apply Nat.ltb_lt in Hm. rewrite Hm. reflexivity. }
  unfold madd, mscale. rewrite ddot2_c2 by assumption. tens. unfold t2_dim, t4_dim. rewrite E2, !c2_scal, c2_plus. apply c2_ext. intros m Hm. unfold ext.
  destruct (m <? _)%nat; ring.
Qed.
Theorem C63_t4_ddot_t2 b alpha d a : t2_rep a = t4_rep d -> t2_rep b = t4_rep d ->
  exists b', t4_ddot_t2 b alpha d a = Ok b' /\ t2_rep b' = t4_rep d /\
    eq2 (tens2 b') (mscale alpha (a4_ddot2 (tens4 d) (tens2 a))).
Proof.
  intros E1 E2. unfold t4_ddot_t2. rewrite E1, E2. reps. eexists; split; [reflexivity|]. split; [exact E2|].
  intros i j Hi Hj. rewrite (tens2_val b _ (fun m => alpha * summ (t4_dim d) (fun n => t4_mat d m n * t2_vec a n))); try assumption.
  2: { intros m Hm. rewrite (loop_ext _ _ (fun m v => wr v m (alpha * summ (t4_dim d) (fun n => t4_mat d m n * t2_vec a n)))).
       2: { intros m' s _. rewrite loop_sum. unfold t4_dim, t2_dim. rewrite E2. f_equal. ring. }
       rewrite (loop_wr _ (fun m x => alpha * summ (t4_dim d) (fun n => t4_mat d m n * t2_vec a n))).
       apply Nat.ltb_lt in Hm. rewrite Hm. reflexivity. }
  unfold madd, mscale. rewrite ddot2_c2 by assumption. unfold t2_dim, t4_dim. rewrite E2, !c2_scal. apply c2_ext. intros m Hm. unfold ext.
  destruct (m <? _)%nat; ring.
Qed.
Theorem C63_t2_ddot_t4 b alpha a d : t2_rep a = t4_rep d -> t2_rep b = t4_rep d ->
  exists b', t2_ddot_t4 b alpha a d = Ok b' /\ t2_rep b' = t4_rep d /\
    eq2 (tens2 b') (mscale alpha (a2_ddot4 (tens2 a) (tens4 d))).
Proof.
  intros E1 E2. unfold t2_ddot_t4. rewrite E1, E2. reps. eexists; split; [reflexivity|]. split; [exact E2|].
  intros i j Hi Hj. rewrite (tens2_val b _ (fun n => alpha * summ (t4_dim d) (fun m => t2_vec a m * t4_mat d m n))); try assumption.
  2: { intros m Hm. rewrite (loop_ext _ _ (fun n v => wr v n (alpha * summ (t4_dim d) (fun m => t2_vec a m * t4_mat d m n)))).
       2: { intros m' s _. rewrite loop_sum. unfold t4_dim, t2_dim. rewrite E2. f_equal. ring. }
       rewrite (loop_wr _ (fun n x => alpha * summ (t4_dim d) (fun m => t2_vec a m * t4_mat d m n))).
       apply Nat.ltb_lt in Hm. rewrite Hm. reflexivity. }
  unfold madd, mscale. rewrite ddot2l_c2 by assumption. unfold t2_dim, t4_dim. rewrite E2, !c2_scal. apply c2_ext. intros m Hm. unfold ext.
  destruct (m <? _)%nat; ring.
Qed.
Theorem C63_t2_ddot_t4_ddot_t2 a d b : t2_rep a = t4_rep d -> t2_rep b = t4_rep d ->
  t2_ddot_t4_ddot_t2 a d b = Ok (mddot (tens2 a) (a4_ddot2 (tens4 d) (tens2 b))).
Proof.
  intros E1 E2. unfold t2_ddot_t4_ddot_t2. rewrite E1, E2. reps. f_equal. unfold mddot.
  rewrite (sum3_ext _ (fun i => sum3 (fun j => c2 i j (ext (t2_dim a) (t2_vec a)) *
    c2 i j (ext (t4_dim d) (fun m => summ (t4_dim d) (fun n => t4_mat d m n * t2_vec b n)))))).
  2: { intros i Hi. apply sum3_ext. intros j Hj. rewrite ddot2_c2 by assumption. tens. reflexivity. }
  rewrite c2_orth.
  rewrite (loop_ext _ _ (fun m s => s + t2_vec a m * summ (t4_dim d) (fun n => t4_mat d m n * t2_vec b n))).
  2: { intros m s _. rewrite loop_sum. f_equal. unfold t2_dim, t4_dim. rewrite E1, <- summ_scal. apply summ_ext_eq. intros; ring. }
  rewrite loop_sum. unfold t2_dim, t4_dim. rewrite E1, Rplus_0_l. set (r := t4_rep d). rewrite summ_dim9 at 1. apply summ_ext_eq. intros m Hm. unfold ext.
  destruct (m <? _)%nat; ring.
Qed.
Definition a22 (a b : m3) : a4 := fun i j k l => a i j * b k l.
Theorem C63_t2_dyad_t2 d alpha a b : t2_rep a = t4_rep d -> t2_rep b = t4_rep d ->
  exists d', t2_dyad_t2 d alpha a b = Ok d' /\ t4_rep d' = t4_rep d /\
    eq4 (tens4 d') (a4_scale alpha (a22 (tens2 a) (tens2 b))).
Proof.
  intros E1 E2. unfold t2_dyad_t2. rewrite E1, E2. reps. eexists; split; [reflexivity|]. split; [reflexivity|].
  in4. rewrite (tens4_val d _ (fun m n => alpha * t2_vec a m * t2_vec b n)); try assumption.
  2: { intros m n Hm Hn. rewrite (loop2_eq _ _ _ (fun m n _ => alpha * t2_vec a m * t2_vec b n)) by reflexivity. rewrite lt2 by assumption. reflexivity. }
  unfold a4_scale, a22. tens. unfold t2_dim, t4_dim. rewrite E1, E2.
  rewrite (Rmult_comm (c2 i j _)), c2_scal, c2_scal. apply c2_ext. intros m Hm.
  rewrite (Rmult_comm (c2 k l _)), <- Rmult_assoc, c2_scal. apply c2_ext. intros n Hn. unfold ext, ext2.
  destruct (m <? _)%nat, (n <? _)%nat; cbn [andb]; ring.
Qed.
Theorem C63_t2_dyad_t2_update d alpha a b : t2_rep a = t4_rep d -> t2_rep b = t4_rep d ->
  exists d', t2_dyad_t2_update d alpha a b = Ok d' /\ t4_rep d' = t4_rep d /\
    eq4 (tens4 d') (a4_add (tens4 d) (a4_scale alpha (a22 (tens2 a) (tens2 b)))).
Proof.
  intros E1 E2. unfold t2_dyad_t2_update. rewrite E1, E2. reps. eexists; split; [reflexivity|]. split; [reflexivity|].
  in4. rewrite (tens4_val d _ (fun m n => t4_mat d m n + alpha * t2_vec a m * t2_vec b n)); try assumption.
  2: { intros m n Hm Hn. rewrite (loop2_eq _ _ _ (fun m n x => x + alpha * t2_vec a m * t2_vec b n)) by reflexivity. rewrite lt2 by assumption. reflexivity. }
  unfold a4_add, a4_scale, a22. tens. tens4t. unfold t2_dim, t4_dim. rewrite E1, E2.
  rewrite (Rmult_comm (c2 i j _)), c2_scal, c2_scal, c2_plus. apply c2_ext. intros m Hm.
  rewrite (Rmult_comm (c2 k l _)), <- Rmult_assoc, c2_scal, c2_plus. apply c2_ext. intros n Hn. unfold ext, ext2.
  destruct (m <? _)%nat, (n <? _)%nat; cbn [andb]; ring.
Qed.
