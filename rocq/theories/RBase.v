(** f64 read as a real number (exact arithmetic): comparisons as booleans. *)
From Coq Require Export Reals Lra.
From Verif Require Export Base.
Close Scope R_scope.

Definition Rltb (a b : R) : bool := if Rlt_dec a b then true else false.
Definition Rleb (a b : R) : bool := if Rle_dec a b then true else false.
Definition Reqb (a b : R) : bool := if Req_EM_T a b then true else false.

Lemma Rltb_spec a b : BoolSpec (a < b)%R (b <= a)%R (Rltb a b).
Proof. unfold Rltb. destruct (Rlt_dec a b); constructor; lra. Qed.
Lemma Rleb_spec a b : BoolSpec (a <= b)%R (b < a)%R (Rleb a b).
Proof. unfold Rleb. destruct (Rle_dec a b); constructor; lra. Qed.
Lemma Reqb_spec a b : BoolSpec (a = b)%R (a <> b)%R (Reqb a b).
Proof. unfold Reqb. destruct (Req_EM_T a b); constructor; lra. Qed.

Lemma Rltb_true a b : Rltb a b = true <-> (a < b)%R.
Proof. destruct (Rltb_spec a b); split; intros; try lra; discriminate. Qed.
Lemma Rltb_false a b : Rltb a b = false <-> (b <= a)%R.
Proof. destruct (Rltb_spec a b); split; intros; try lra; discriminate. Qed.
Lemma Rleb_true a b : Rleb a b = true <-> (a <= b)%R.
Proof. destruct (Rleb_spec a b); split; intros; try lra; discriminate. Qed.
Lemma Rleb_false a b : Rleb a b = false <-> (b < a)%R.
Proof. destruct (Rleb_spec a b); split; intros; try lra; discriminate. Qed.
Lemma Reqb_true a b : Reqb a b = true <-> a = b.
Proof. destruct (Reqb_spec a b); split; intros; try lra; try discriminate; contradiction. Qed.
Lemma Reqb_false a b : Reqb a b = false <-> a <> b.
Proof. destruct (Reqb_spec a b); split; intros; try congruence. Qed.
