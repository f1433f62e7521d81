(** Lemmas about the dense matrix model. *)
From Verif Require Import Base Dense_Model.

Lemma idx_lt i j m n : i < m -> j < n -> i + j * m < m * n.
Proof. nia. Qed.

Lemma idx_inj i j i' j' m :
  i < m -> i' < m -> i + j * m = i' + j' * m -> i = i' /\ j = j'.
Proof.
  intros Hi Hi' E.
  assert (H : j = j') by nia. subst. split; lia.
Qed.

Section P.
Variable T : Type.
Variables zero one : T.
Variables add mul : T -> T -> T.

Definition d_wf (a : dmat T) : Prop := length (d_data a) = d_nrow a * d_ncol a.

Definition dval (a : dmat T) (i j : nat) : T := nth (i + j * d_nrow a) (d_data a) zero.

Lemma d_get_val a i j : d_wf a -> i < d_nrow a -> j < d_ncol a -> d_get a i j = Ok (dval a i j).
Proof.
  intros W Hi Hj. unfold d_get, dval. apply vget_ok. rewrite W. now apply idx_lt.
Qed.

Lemma d_upd_spec (a : dmat T) i j x :
  d_wf a -> i < d_nrow a -> j < d_ncol a ->
  let a' := mkD (d_nrow a) (d_ncol a) (upd (d_data a) (i + j * d_nrow a) x) in
  d_wf a' /\
  (forall i' j', i' < d_nrow a -> j' < d_ncol a ->
     dval a' i' j' = if (i' =? i) && (j' =? j) then x else dval a i' j').
Proof.
  intros W Hi Hj a'. split.
  - unfold d_wf, a'; simpl. now rewrite upd_length.
  - intros i' j' Hi' Hj'. unfold dval, a'; simpl.
    assert (Hlt : i + j * d_nrow a < length (d_data a)) by (rewrite W; now apply idx_lt).
    rewrite nth_upd by assumption.
    destruct (Nat.eqb_spec (i' + j' * d_nrow a) (i + j * d_nrow a)) as [E|E].
    + apply idx_inj in E; try assumption. destruct E as [-> ->].
      now rewrite !Nat.eqb_refl.
    + destruct (Nat.eqb_spec i' i) as [->|]; destruct (Nat.eqb_spec j' j) as [->|]; simpl; auto.
      now elim E.
Qed.

Lemma d_set_spec a i j v :
  d_wf a -> i < d_nrow a -> j < d_ncol a ->
  exists a', d_set a i j v = Ok a' /\ d_wf a' /\ d_nrow a' = d_nrow a /\ d_ncol a' = d_ncol a /\
  (forall i' j', i' < d_nrow a -> j' < d_ncol a ->
     dval a' i' j' = if (i' =? i) && (j' =? j) then v else dval a i' j').
Proof.
  intros W Hi Hj. unfold d_set.
  rewrite vset_ok by (rewrite W; now apply idx_lt). simpl.
  eexists; split; [reflexivity|].
  destruct (d_upd_spec a i j v W Hi Hj) as [H1 H2]. auto.
Qed.

Lemma d_add_spec a i j v :
  d_wf a -> i < d_nrow a -> j < d_ncol a ->
  exists a', d_add T add a i j v = Ok a' /\ d_wf a' /\ d_nrow a' = d_nrow a /\ d_ncol a' = d_ncol a /\
  (forall i' j', i' < d_nrow a -> j' < d_ncol a ->
     dval a' i' j' = if (i' =? i) && (j' =? j) then add (dval a i j) v else dval a i' j').
Proof.
  intros W Hi Hj. unfold d_add.
  assert (Hlt : i + j * d_nrow a < length (d_data a)) by (rewrite W; now apply idx_lt).
  rewrite (vget_ok _ _ zero) by assumption. simpl.
  rewrite vset_ok by assumption. simpl.
  eexists; split; [reflexivity|].
  destruct (d_upd_spec a i j (add (nth (i + j * d_nrow a) (d_data a) zero) v) W Hi Hj) as [H1 H2].
  auto.
Qed.

Lemma d_mul_spec a i j v :
  d_wf a -> i < d_nrow a -> j < d_ncol a ->
  exists a', d_mul T mul a i j v = Ok a' /\ d_wf a' /\ d_nrow a' = d_nrow a /\ d_ncol a' = d_ncol a /\
  (forall i' j', i' < d_nrow a -> j' < d_ncol a ->
     dval a' i' j' = if (i' =? i) && (j' =? j) then mul (dval a i j) v else dval a i' j').
Proof.
  intros W Hi Hj. unfold d_mul.
  assert (Hlt : i + j * d_nrow a < length (d_data a)) by (rewrite W; now apply idx_lt).
  rewrite (vget_ok _ _ zero) by assumption. simpl.
  rewrite vset_ok by assumption. simpl.
  eexists; split; [reflexivity|].
  destruct (d_upd_spec a i j (mul (nth (i + j * d_nrow a) (d_data a) zero) v) W Hi Hj) as [H1 H2].
  auto.
Qed.

Lemma d_fill_spec a v :
  d_wf a -> d_wf (d_fill T a v) /\
  (forall i j, i < d_nrow a -> j < d_ncol a -> dval (d_fill T a v) i j = v).
Proof.
  intros W. split.
  - unfold d_wf, d_fill; simpl. now rewrite map_length.
  - intros i j Hi Hj. unfold dval, d_fill; simpl.
    rewrite nth_indep with (d' := v).
    + exact (map_nth (fun _ : T => v) (d_data a) v _).
    + rewrite map_length, W. now apply idx_lt.
Qed.

Lemma d_new_wf m n : d_wf (d_new T zero m n).
Proof. unfold d_wf, d_new; simpl. apply repeat_length. Qed.

End P.

Arguments d_wf {T}.
Arguments dval {T}.
