(** C99: the LAPACK drivers return what they document. *)
From Coq Require Import Reals ZArith Lra Ring.
From Coquelicot Require Import Complex.
From Verif Require Import Base RBase RSum Dense_Model Dense_Proofs Dense_Thm Blas_Model Blas_Thm Decomp_Thm Lapack_Model.
Local Open Scope string_scope.
Local Open Scope nat_scope.

(* ------------------------------------------------------------------ *)
(** * Specification over a ring with a conjugation (the identity for the reals) *)
Section Spec.
Context {T : Type} (zero one : T) (add mul : T -> T -> T) (conj : T -> T) (emb : R -> T).
(** entry (i, j) of a column-major array with n rows *)
Definition cell (n : nat) (d : list T) (i j : nat) : T := nth (i + j * n) d zero.
Definition hermitian (n : nat) (A : nat -> nat -> T) : Prop := forall i j, i < n -> j < n -> A i j = conj (A j i).
Definition agree_on (upper : bool) (n : nat) (A B : nat -> nat -> T) : Prop := forall i j, i < n -> j < n -> in_triangle upper i j -> A i j = B i j.
(** the chosen triangle of x, with zeros elsewhere *)
Definition tri_part (upper : bool) (x : nat -> nat -> T) (i j : nat) : T := if (if upper then i <=? j else j <=? i) then x i j else zero.
(** U^H U or L L^H *)
Definition gram (upper : bool) (n : nat) (x : nat -> nat -> T) (i j : nat) : T :=
  total zero add n (fun k => if upper then mul (conj (x k i)) (x k j) else mul (x i k) (conj (x j k))).

(** what LAPACK documents for ?gesv with one right-hand side *)
Definition gesv_spec (gesv : nat -> nat -> list T -> nat -> list T -> nat -> Z * list T * list T) : Prop :=
  forall n a b, length a = n * n -> length b = n -> let '(info, a', x) := gesv n 1 a n b n in
  length a' = n * n /\ length x = n /\ (info = 0%Z -> forall i, i < n -> total zero add n (fun j => mul (cell n a i j) (nth j x zero)) = nth i b zero).
(** for ?potrf *)
Definition potrf_spec (potrf : bool -> nat -> list T -> nat -> Z * list T) : Prop :=
  forall upper n a, length a = n * n -> let '(info, x) := potrf upper n a n in
  length x = n * n /\ (forall i j, i < n -> j < n -> ~ in_triangle upper i j -> cell n x i j = cell n a i j) /\
  (info = 0%Z -> agree_on upper n (cell n a) (gram upper n (tri_part upper (cell n x)))).
(** for dsyev and zheev: [emb] reads an eigenvalue as an element of the ring *)
Definition syev_spec (syev : bool -> bool -> nat -> list T -> nat -> Z * list R * list T) : Prop :=
  forall upper n a, length a = n * n -> let '(info, w, x) := syev true upper n a n in
  info = 0%Z -> length w = n /\ length x = n * n /\ (forall j, j + 1 < n -> (nth j w 0 <= nth (j + 1) w 0)%R) /\
  (forall j k, j < n -> k < n -> total zero add n (fun i => mul (conj (cell n x i j)) (cell n x i k)) = if j =? k then one else zero) /\
  (forall A, hermitian n A -> agree_on upper n A (cell n a) -> forall i j, i < n -> j < n -> total zero add n (fun l => mul (A i l) (cell n x l j)) = mul (emb (nth j w 0%R)) (cell n x i j)).
End Spec.

Lemma classic_tri upper i j : in_triangle upper i j \/ in_triangle upper j i.
Proof. destruct upper; simpl; lia. Qed.

Section Thm.
Variable T : Type.
Variables zero one : T.
Variables add mul sub : T -> T -> T.
Variable opp : T -> T.
Hypothesis RT : ring_theory zero one add mul sub opp eq.
Add Ring Tring99 : RT.
Variable conj : T -> T.
Hypothesis conj_conj : forall x, conj (conj x) = x.
Hypothesis conj_add : forall x y, conj (add x y) = add (conj x) (conj y).
Hypothesis conj_mul : forall x y, conj (mul x y) = mul (conj x) (conj y).
Hypothesis conj_zero : conj zero = zero.
Variable emb : R -> T.
Notation total := (total zero add).
Notation cell := (cell zero).

Lemma mat_cell (a : dmat T) m n f i j : is_matrix a m n f -> i < m -> j < n -> cell m (d_data a) i j = f i j.
Proof using. apply mat_nth. Qed.
Lemma cell_mat (z : dmat T) n x : d_nrow z = n -> d_ncol z = n -> length x = n * n -> is_matrix (with_data T z x) n n (cell n x).
Proof using. intros R1 C1 L. apply is_matrix_dval with (zero := zero); auto. Qed.
Lemma after_err {X} info e1 e2 (x : X) : info <> 0%Z -> exists e, after info e1 e2 x = Err e.
Proof using. intros H. unfold after. destruct (Z.ltb_spec info 0); eauto. destruct (Z.ltb_spec 0 info); eauto. lia. Qed.

(** ** linear systems *)
Section Solve.
Variable gesv : nat -> nat -> list T -> nat -> list T -> nat -> Z * list T * list T.
Hypothesis SPEC : gesv_spec zero add mul gesv.
(** solve_lin_sys and complex_solve_lin_sys: the new b solves a x = b *)
Theorem C99_solve_lin_sys b a n f : is_matrix a n n f -> length b = n -> small n ->
  let '(info, _, _) := gesv n 1 (d_data a) n b n in
  (n <> 0 -> info <> 0%Z -> exists e, solve_lin_sys T gesv b a = Err e) /\
  (n = 0 \/ info = 0%Z -> exists x a', solve_lin_sys T gesv b a = Ok (x, a') /\ length x = n /\ d_nrow a' = n /\ d_ncol a' = n /\ length (d_data a') = n * n /\
     forall i, i < n -> total n (fun j => mul (f i j) (nth j x zero)) = nth i b zero).
Proof using SPEC.
  intros M Lb Sn. assert (M' := M). destruct M' as (R1 & C1 & LA & _). pose proof (SPEC n (d_data a) b LA Lb) as SP. destruct (gesv n 1 (d_data a) n b n) as [[info a'] x] eqn:E.
  unfold solve_lin_sys. rewrite R1, C1, Lb, !Nat.eqb_refl. cbn [negb]. split.
  - intros Hn Hi. rewrite (proj2 (Nat.eqb_neq n 0)) by auto. rewrite (small_i32 T zero n Sn). cbn [bind]. rewrite E. now apply after_err.
  - intros H. destruct (Nat.eqb_spec n 0) as [->|Hn].
    + exists b, a. splits; auto; intros; lia.
    + destruct H as [H| ->]; [lia|]. rewrite (small_i32 T zero n Sn). cbn [bind]. rewrite E. destruct SP as (L1 & L2 & S). exists x, (with_data T a a'). unfold after. simpl. splits; auto.
      intros i Hi. rewrite <- (S eq_refl i Hi). apply total_ext. intros j Hj. now rewrite <- (mat_cell a n n f i j M Hi Hj).
Qed.
Theorem C99_solve_sizes b a : d_nrow a <> d_ncol a \/ length b <> d_nrow a -> exists e, solve_lin_sys T gesv b a = Err e.
Proof using.
  intros H. unfold solve_lin_sys. destruct (Nat.eqb_spec (d_nrow a) (d_ncol a)); simpl; [|eauto]. destruct (Nat.eqb_spec (length b) (d_nrow a)); simpl; [|eauto]. lia.
Qed.
End Solve.

(** ** Cholesky *)
Lemma conj_total n f : conj (total n f) = total n (fun i => conj (f i)).
Proof using conj_add conj_zero. induction n as [|n IH]; simpl; auto. now rewrite conj_add, IH. Qed.
Lemma gram_herm upper n x i j : conj (gram zero add mul conj upper n x i j) = gram zero add mul conj upper n x j i.
Proof using RT conj_conj conj_add conj_mul conj_zero.
  unfold gram. rewrite conj_total. apply total_ext. intros k _. destruct upper; rewrite conj_mul, conj_conj; ring.
Qed.
Section Cholesky.
Variable potrf : bool -> nat -> list T -> nat -> Z * list T.
Hypothesis SPEC : potrf_spec zero add mul conj potrf.
(** mat_cholesky and complex_mat_cholesky: the chosen triangle of the result is a factor of every hermitian (symmetric)
    matrix with the given triangle; the other triangle is not modified *)
Theorem C99_cholesky a upper n f : is_matrix a n n f -> small n ->
  let '(info, _) := potrf upper n (d_data a) n in
  (info <> 0%Z -> exists e, mat_cholesky T potrf a upper = Err e) /\
  (info = 0%Z -> exists a' x, mat_cholesky T potrf a upper = Ok a' /\ is_matrix a' n n x /\
     (forall i j, i < n -> j < n -> ~ in_triangle upper i j -> x i j = f i j) /\
     forall A, hermitian conj n A -> agree_on upper n A f -> forall i j, i < n -> j < n ->
       A i j = gram zero add mul conj upper n (tri_part zero upper x) i j).
Proof using SPEC RT conj_conj conj_add conj_mul conj_zero.
  intros M Sn. assert (M' := M). destruct M' as (R1 & C1 & LA & _). pose proof (SPEC upper n (d_data a) LA) as SP. destruct (potrf upper n (d_data a) n) as [info x] eqn:E.
  unfold mat_cholesky. rewrite R1, C1, !Nat.eqb_refl, (small_i32 T zero n Sn). cbn [negb bind]. rewrite E. split; [apply after_err|]. intros ->. destruct SP as (L & K & F).
  exists (with_data T a x), (cell n x). unfold after. simpl. splits; auto using cell_mat.
  - intros i j Hi Hj N. rewrite K by auto. now apply mat_cell with n.
  - assert (D : forall A, agree_on upper n A f -> forall i j, i < n -> j < n -> in_triangle upper i j -> A i j = gram zero add mul conj upper n (tri_part zero upper (cell n x)) i j).
    { intros A HA i j Hi Hj Q. rewrite <- (F eq_refl i j Hi Hj Q). rewrite (HA i j Hi Hj Q). symmetry. now apply mat_cell with n. }
    intros A HH HA i j Hi Hj. destruct (classic_tri upper i j) as [Q|Q]; [now apply D|]. rewrite HH by auto. rewrite (D A HA j i Hj Hi Q). apply gram_herm.
Qed.
Theorem C99_cholesky_sizes a upper : d_nrow a <> d_ncol a -> exists e, mat_cholesky T potrf a upper = Err e.
Proof using. intros H. unfold mat_cholesky. destruct (Nat.eqb_spec (d_nrow a) (d_ncol a)); simpl; [lia|eauto]. Qed.
End Cholesky.

(** ** symmetric and hermitian eigenproblems *)
Section Syev.
Variable syev : bool -> bool -> nat -> list T -> nat -> Z * list R * list T.
Hypothesis SPEC : syev_spec zero one add mul conj emb syev.
Lemma total_zero_mul c n f : total n (fun l => mul c (f l)) = mul c (total n f).
Proof using RT. induction n as [|n IH]; simpl; [ring|]. rewrite IH. ring. Qed.
(** mat_eigen_sym and complex_mat_eigen_herm: ascending eigenvalues and orthonormal eigenvectors that diagonalise every
    hermitian (symmetric) matrix with the given triangle *)
Theorem C99_eigen_sym l a upper n f : is_matrix a n n f -> length l = n -> small n -> n <> 0 ->
  let '(info, _, _) := syev true upper n (d_data a) n in
  (info <> 0%Z -> exists e, mat_eigen_sym T syev l a upper = Err e) /\
  (info = 0%Z -> exists w a' v, mat_eigen_sym T syev l a upper = Ok (w, a') /\ length w = n /\ is_matrix a' n n v /\
     (forall j, j + 1 < n -> (nth j w 0 <= nth (j + 1) w 0)%R) /\
     (forall j k, j < n -> k < n -> total n (fun i => mul (conj (v i j)) (v i k)) = if j =? k then one else zero) /\
     forall A, hermitian conj n A -> agree_on upper n A f ->
       (forall i j, i < n -> j < n -> total n (fun l => mul (A i l) (v l j)) = mul (emb (nth j w 0%R)) (v i j)) /\
       (forall j k, j < n -> k < n -> total n (fun i => mul (conj (v i j)) (total n (fun l => mul (A i l) (v l k)))) = if j =? k then emb (nth k w 0%R) else zero)).
Proof using SPEC RT.
  intros M Ll Sn Hn. assert (M' := M). destruct M' as (R1 & C1 & LA & _). pose proof (SPEC upper n (d_data a) LA) as SP. destruct (syev true upper n (d_data a) n) as [[info w] x] eqn:E.
  unfold mat_eigen_sym. rewrite R1, C1, Ll, !Nat.eqb_refl, (small_i32 T zero n Sn). rewrite (proj2 (Nat.eqb_neq n 0)) by auto. cbn [negb bind]. rewrite E. split; [apply after_err|]. intros ->.
  destruct (SP eq_refl) as (Lw & Lx & ASC & ORT & EIG). exists w, (with_data T a x), (cell n x). unfold after. simpl. splits; auto using cell_mat.
  intros A HH HA. assert (HE : forall i j, i < n -> j < n -> total n (fun l => mul (A i l) (cell n x l j)) = mul (emb (nth j w 0%R)) (cell n x i j)).
  { apply EIG; auto. intros i j Hi Hj Q. rewrite (HA i j Hi Hj Q). symmetry. now apply mat_cell with n. }
  split; auto. intros j k Hj Hk. transitivity (total n (fun i => mul (emb (nth k w 0%R)) (mul (conj (cell n x i j)) (cell n x i k)))).
  - apply total_ext. intros i Hi. rewrite HE by auto. ring.
  - rewrite total_zero_mul, ORT by auto. destruct (Nat.eqb_spec j k); ring.
Qed.
Theorem C99_eigen_sym_sizes l a upper : d_nrow a <> d_ncol a \/ d_nrow a = 0 \/ length l <> d_nrow a -> exists e, mat_eigen_sym T syev l a upper = Err e.
Proof using.
  intros H. unfold mat_eigen_sym. destruct (Nat.eqb_spec (d_nrow a) (d_ncol a)); simpl; [|eauto]. destruct (Nat.eqb_spec (d_nrow a) 0); simpl; [eauto|]. destruct (Nat.eqb_spec (length l) (d_nrow a)); simpl; [|eauto]. lia.
Qed.
End Syev.
End Thm.

(* ------------------------------------------------------------------ *)
(** * Complex and generalised eigenproblems *)
Local Notation C := Complex.C.
Local Notation ctotal := (total (RtoC 0) Cplus).
Local Notation ccell := (cell (RtoC 0)).
Local Notation rcell := (cell 0%R).
Definition cright (n : nat) (a : nat -> nat -> C) (v : nat -> C) (lambda : C) : Prop :=
  unit_length n v /\ forall i, i < n -> ctotal n (fun l => a i l * v l)%C = (lambda * v i)%C.
Definition cleft (n : nat) (a : nat -> nat -> C) (u : nat -> C) (lambda : C) : Prop :=
  unit_length n u /\ forall j, j < n -> ctotal n (fun l => Cconj (u l) * a l j)%C = (lambda * Cconj (u j))%C.
(** the largest component has |re| + |im| = 1 *)
Definition scaled (n : nat) (v : nat -> C) : Prop :=
  (forall i, i < n -> (Rabs (fst (v i)) + Rabs (snd (v i)) <= 1)%R) /\ exists i, i < n /\ (Rabs (fst (v i)) + Rabs (snd (v i)) = 1)%R.
(** beta a v = alpha b v and beta u^H a = alpha u^H b *)
Definition gright (n : nat) (a b : nat -> nat -> C) (v : nat -> C) (alpha beta : C) : Prop :=
  scaled n v /\ forall i, i < n -> (beta * ctotal n (fun l => a i l * v l) = alpha * ctotal n (fun l => b i l * v l))%C.
Definition gleft (n : nat) (a b : nat -> nat -> C) (u : nat -> C) (alpha beta : C) : Prop :=
  scaled n u /\ forall j, j < n -> (beta * ctotal n (fun l => Cconj (u l) * a l j) = alpha * ctotal n (fun l => Cconj (u l) * b l j))%C.

(** what LAPACK documents for zgeev; an array of vectors that are not asked for is not referenced *)
Definition zgeev_spec (zgeev : bool -> bool -> nat -> list C -> nat -> list C -> nat -> list C -> nat -> Z * list C * list C * list C) : Prop :=
  forall cl cr n a vl ldl vr ldr, length a = n * n -> let '(info, w, x, y) := zgeev cl cr n a n vl ldl vr ldr in
  (cl = false -> x = vl) /\ (cr = false -> y = vr) /\
  (info = 0%Z -> length w = n /\
    (cl = true -> ldl = n -> length vl = n * n -> length x = n * n /\ forall j, j < n -> cleft n (ccell n a) (fun i => ccell n x i j) (nth j w (RtoC 0))) /\
    (cr = true -> ldr = n -> length vr = n * n -> length y = n * n /\ forall j, j < n -> cright n (ccell n a) (fun i => ccell n y i j) (nth j w (RtoC 0)))).
(** for zggev *)
Definition zggev_spec (zggev : bool -> bool -> nat -> list C -> nat -> list C -> nat -> list C -> nat -> list C -> nat -> Z * list C * list C * list C * list C) : Prop :=
  forall cl cr n a b vl ldl vr ldr, length a = n * n -> length b = n * n -> let '(info, al, be, x, y) := zggev cl cr n a n b n vl ldl vr ldr in
  (cl = false -> x = vl) /\ (cr = false -> y = vr) /\
  (info = 0%Z -> length al = n /\ length be = n /\
    (cl = true -> ldl = n -> length vl = n * n -> length x = n * n /\ forall j, j < n -> gleft n (ccell n a) (ccell n b) (fun i => ccell n x i j) (nth j al (RtoC 0)) (nth j be (RtoC 0))) /\
    (cr = true -> ldr = n -> length vr = n * n -> length y = n * n /\ forall j, j < n -> gright n (ccell n a) (ccell n b) (fun i => ccell n y i j) (nth j al (RtoC 0)) (nth j be (RtoC 0)))).

Lemma csame_mat (a : dmat C) n f : is_matrix a n n f -> forall i j, i < n -> j < n -> ccell n (d_data a) i j = f i j.
Proof. intros M i j Hi Hj. now apply (mat_cell C (RtoC 0) a n n f). Qed.
Lemma cright_ext n a b v l : (forall i j, i < n -> j < n -> a i j = b i j) -> cright n a v l -> cright n b v l.
Proof. intros H [U E]. split; auto. intros i Hi. rewrite <- E by auto. apply total_ext. intros k Hk. now rewrite H. Qed.
Lemma cleft_ext n a b v l : (forall i j, i < n -> j < n -> a i j = b i j) -> cleft n a v l -> cleft n b v l.
Proof. intros H [U E]. split; auto. intros i Hi. rewrite <- E by auto. apply total_ext. intros k Hk. now rewrite H. Qed.
Lemma gright_ext n a b a' b' v al be : (forall i j, i < n -> j < n -> a i j = a' i j) -> (forall i j, i < n -> j < n -> b i j = b' i j) -> gright n a b v al be -> gright n a' b' v al be.
Proof.
  intros H H' [U E]. split; auto. intros i Hi. specialize (E i Hi).
  rewrite (total_ext _ _ n (fun l => a i l * v l)%C (fun l => a' i l * v l)%C) in E by (intros; now rewrite H).
  rewrite (total_ext _ _ n (fun l => b i l * v l)%C (fun l => b' i l * v l)%C) in E by (intros; now rewrite H'). exact E.
Qed.
Lemma gleft_ext n a b a' b' v al be : (forall i j, i < n -> j < n -> a i j = a' i j) -> (forall i j, i < n -> j < n -> b i j = b' i j) -> gleft n a b v al be -> gleft n a' b' v al be.
Proof.
  intros H H' [U E]. split; auto. intros i Hi. specialize (E i Hi).
  rewrite (total_ext _ _ n (fun l => Cconj (v l) * a l i)%C (fun l => Cconj (v l) * a' l i)%C) in E by (intros; now rewrite H).
  rewrite (total_ext _ _ n (fun l => Cconj (v l) * b l i)%C (fun l => Cconj (v l) * b' l i)%C) in E by (intros; now rewrite H'). exact E.
Qed.
Ltac sizes := repeat match goal with H : ?x = _ |- context [?x] => rewrite H end; rewrite ?Nat.eqb_refl; cbn [negb orb bind].

Section Zgeev.
Variable zgeev : bool -> bool -> nat -> list C -> nat -> list C -> nat -> list C -> nat -> Z * list C * list C * list C.
Hypothesis SPEC : zgeev_spec zgeev.
(** complex_mat_eigen: unit right eigenvectors *)
Theorem C99_complex_eigen l v a n f g : is_matrix a n n f -> is_matrix v n n g -> length l = n -> small n ->
  let '(info, _, _, _) := zgeev false true n (d_data a) n [RtoC 0] 1 (d_data v) n in
  (info <> 0%Z -> exists e, complex_mat_eigen zgeev l v a = Err e) /\
  (info = 0%Z -> exists w v' x, complex_mat_eigen zgeev l v a = Ok (w, v') /\ length w = n /\ is_matrix v' n n x /\
     forall j, j < n -> cright n f (fun i => x i j) (nth j w (RtoC 0))).
Proof using SPEC.
  intros M V Ll Sn. assert (M' := M). assert (V' := V). destruct M' as (R1 & C1 & LA & _), V' as (R2 & C2 & LV & _). pose proof (SPEC false true n (d_data a) [RtoC 0] 1 (d_data v) n LA) as SP.
  destruct (zgeev false true n (d_data a) n [RtoC 0] 1 (d_data v) n) as [[[info w] x] y] eqn:E. unfold complex_mat_eigen. rewrite R1, C1, R2, C2, Ll, !Nat.eqb_refl, (small_i32 C (RtoC 0) n Sn). cbn [negb orb bind]. rewrite E.
  split; [apply after_err|]. intros ->. destruct SP as (_ & _ & SP). destruct (SP eq_refl) as (Lw & _ & SR). destruct (SR eq_refl eq_refl LV) as (Ly & HR).
  exists w, (with_data C v y), (ccell n y). unfold after. simpl. splits; auto using cell_mat. intros j Hj. apply cright_ext with (a := ccell n (d_data a)); auto using csame_mat.
Qed.
(** complex_mat_eigen_lr: unit left and right eigenvectors of the same eigenvalues *)
Theorem C99_complex_eigen_lr l u v a n f g h : is_matrix a n n f -> is_matrix u n n h -> is_matrix v n n g -> length l = n -> small n ->
  let '(info, _, _, _) := zgeev true true n (d_data a) n (d_data u) n (d_data v) n in
  (info <> 0%Z -> exists e, complex_mat_eigen_lr zgeev l u v a = Err e) /\
  (info = 0%Z -> exists w u' v' x y, complex_mat_eigen_lr zgeev l u v a = Ok (w, u', v') /\ length w = n /\ is_matrix u' n n x /\ is_matrix v' n n y /\
     forall j, j < n -> cleft n f (fun i => x i j) (nth j w (RtoC 0)) /\ cright n f (fun i => y i j) (nth j w (RtoC 0))).
Proof using SPEC.
  intros M U V Ll Sn. assert (M' := M). assert (V' := V). assert (U' := U). destruct M' as (R1 & C1 & LA & _), V' as (R2 & C2 & LV & _), U' as (R3 & C3 & LU & _). pose proof (SPEC true true n (d_data a) (d_data u) n (d_data v) n LA) as SP.
  destruct (zgeev true true n (d_data a) n (d_data u) n (d_data v) n) as [[[info w] x] y] eqn:E. unfold complex_mat_eigen_lr. rewrite R1, C1, R2, C2, R3, C3, Ll, !Nat.eqb_refl, (small_i32 C (RtoC 0) n Sn). cbn [negb orb bind]. rewrite E.
  split; [apply after_err|]. intros ->. destruct SP as (_ & _ & SP). destruct (SP eq_refl) as (Lw & SL & SR). destruct (SR eq_refl eq_refl LV) as (Ly & HR). destruct (SL eq_refl eq_refl LU) as (Lx & HL).
  exists w, (with_data C u x), (with_data C v y), (ccell n x), (ccell n y). unfold after. simpl. splits; auto using cell_mat.
  intros j Hj. split; [apply cleft_ext with (a := ccell n (d_data a))|apply cright_ext with (a := ccell n (d_data a))]; auto using csame_mat.
Qed.
End Zgeev.

Section Zggev.
Variable zggev : bool -> bool -> nat -> list C -> nat -> list C -> nat -> list C -> nat -> list C -> nat -> Z * list C * list C * list C * list C.
Hypothesis SPEC : zggev_spec zggev.
(** complex_mat_gen_eigen: right eigenvectors of the pair (a, b) *)
Theorem C99_complex_gen_eigen alpha beta v a b n f g h : is_matrix a n n f -> is_matrix b n n g -> is_matrix v n n h -> length alpha = n -> length beta = n -> small n ->
  let '(info, _, _, _, _) := zggev false true n (d_data a) n (d_data b) n [RtoC 0] 1 (d_data v) n in
  (info <> 0%Z -> exists e, complex_mat_gen_eigen zggev alpha beta v a b = Err e) /\
  (info = 0%Z -> exists al be v' x, complex_mat_gen_eigen zggev alpha beta v a b = Ok (al, be, v') /\ length al = n /\ length be = n /\ is_matrix v' n n x /\
     forall j, j < n -> gright n f g (fun i => x i j) (nth j al (RtoC 0)) (nth j be (RtoC 0))).
Proof using SPEC.
  intros M B V La Lb Sn. assert (M' := M). assert (V' := V). assert (B' := B). destruct M' as (R1 & C1 & LA & _), V' as (R2 & C2 & LV & _), B' as (R3 & C3 & LB & _).
  pose proof (SPEC false true n (d_data a) (d_data b) [RtoC 0] 1 (d_data v) n LA LB) as SP.
  destruct (zggev false true n (d_data a) n (d_data b) n [RtoC 0] 1 (d_data v) n) as [[[[info al] be] x] y] eqn:E. unfold complex_mat_gen_eigen. rewrite R1, C1, R2, C2, R3, C3, La, Lb, !Nat.eqb_refl, (small_i32 C (RtoC 0) n Sn). cbn [negb orb bind]. rewrite E.
  split; [apply after_err|]. intros ->. destruct SP as (_ & _ & SP). destruct (SP eq_refl) as (L1 & L2 & _ & SR). destruct (SR eq_refl eq_refl LV) as (Ly & HR).
  exists al, be, (with_data C v y), (ccell n y). unfold after. simpl. splits; auto using cell_mat. intros j Hj. apply gright_ext with (a := ccell n (d_data a)) (b := ccell n (d_data b)); auto using csame_mat.
Qed.
(** complex_mat_gen_eigen_lr: the right eigenvectors are right *)
Theorem C99_complex_gen_eigen_lr alpha beta u v a b n f g h k : is_matrix a n n f -> is_matrix b n n g -> is_matrix u n n k -> is_matrix v n n h -> length alpha = n -> length beta = n -> small n ->
  (exists e, complex_mat_gen_eigen_lr zggev alpha beta u v a b = Err e) \/
  (exists al be u' v' x, complex_mat_gen_eigen_lr zggev alpha beta u v a b = Ok (al, be, u', v') /\ length al = n /\ length be = n /\ is_matrix v' n n x /\
     forall j, j < n -> gright n f g (fun i => x i j) (nth j al (RtoC 0)) (nth j be (RtoC 0))).
Proof using SPEC.
  intros M B U V La Lb Sn. assert (M' := M). assert (V' := V). assert (B' := B). destruct M' as (R1 & C1 & LA & _), V' as (R2 & C2 & LV & _), B' as (R3 & C3 & LB & _), U as (R4 & C4 & LU & _).
  pose proof (SPEC false true n (d_data a) (d_data b) (d_data u) n (d_data v) n LA LB) as SP.
  destruct (zggev false true n (d_data a) n (d_data b) n (d_data u) n (d_data v) n) as [[[[info al] be] x] y] eqn:E. unfold complex_mat_gen_eigen_lr. rewrite R1, C1, R2, C2, R3, C3, R4, C4, La, Lb, !Nat.eqb_refl, (small_i32 C (RtoC 0) n Sn). cbn [negb orb bind]. rewrite E.
  destruct (Z.eq_dec info 0) as [->|N]; [|left; now apply after_err]. right. destruct SP as (_ & _ & SP). destruct (SP eq_refl) as (L1 & L2 & _ & SR). destruct (SR eq_refl eq_refl LV) as (Ly & HR).
  exists al, be, (with_data C u x), (with_data C v y), (ccell n y). unfold after. simpl. splits; auto using cell_mat. intros j Hj. apply gright_ext with (a := ccell n (d_data a)) (b := ccell n (d_data b)); auto using csame_mat.
Qed.

(** complex_mat_gen_eigen_lr documents that u holds the left eigenvectors. The code passes C_FALSE for the left eigenvectors
    (complex_mat_gen_eigen.rs:287; the real version passes C_TRUE), so LAPACK never touches u: whatever the caller put there is
    returned. With the zero matrix that the example and the test pass, no column of u is a left eigenvector of anything. The
    test prints u but does not check it. *)
Theorem C99_complex_left_refuted alpha beta u v a b n f g h k al be u' v' : is_matrix a n n f -> is_matrix b n n g -> is_matrix u n n k -> is_matrix v n n h -> length alpha = n -> length beta = n -> small n ->
  complex_mat_gen_eigen_lr zggev alpha beta u v a b = Ok (al, be, u', v') ->
  is_matrix u' n n k /\ ((forall i j, i < n -> j < n -> k i j = RtoC 0) -> forall j, j < n -> ~ gleft n f g (fun i => k i j) (nth j al (RtoC 0)) (nth j be (RtoC 0))).
Proof using SPEC.
  intros M B U V La Lb Sn. assert (M' := M). assert (V' := V). assert (B' := B). assert (U' := U). destruct M' as (R1 & C1 & LA & _), V' as (R2 & C2 & LV & _), B' as (R3 & C3 & LB & _), U' as (R4 & C4 & LU & KU).
  pose proof (SPEC false true n (d_data a) (d_data b) (d_data u) n (d_data v) n LA LB) as SP.
  destruct (zggev false true n (d_data a) n (d_data b) n (d_data u) n (d_data v) n) as [[[[info al1] be1] x] y] eqn:E. unfold complex_mat_gen_eigen_lr. rewrite R1, C1, R2, C2, R3, C3, R4, C4, La, Lb, !Nat.eqb_refl, (small_i32 C (RtoC 0) n Sn). cbn [negb orb bind]. rewrite E.
  unfold after. destruct (info <? 0)%Z; try discriminate. destruct (0 <? info)%Z; try discriminate. intros Q. injection Q as <- <- <- <-. destruct SP as (SX & _). rewrite (SX eq_refl).
  split; [unfold is_matrix; simpl; splits; auto|]. intros Z j Hj [[_ (i & Hi & S)] _]. rewrite Z in S by auto. simpl in S. rewrite Rabs_R0 in S. lra.
Qed.
End Zggev.

(** wrong sizes are refused *)
Theorem C99_complex_sizes zgeev zggev :
  (forall l v a, d_nrow a <> d_ncol a \/ length l <> d_nrow a \/ d_nrow v <> d_nrow a \/ d_ncol v <> d_nrow a -> exists e, complex_mat_eigen zgeev l v a = Err e) /\
  (forall l u v a, d_nrow a <> d_ncol a \/ length l <> d_nrow a \/ (exists x, In x [u; v] /\ (d_nrow x <> d_nrow a \/ d_ncol x <> d_nrow a)) -> exists e, complex_mat_eigen_lr zgeev l u v a = Err e) /\
  (forall alpha beta v a b, d_nrow a <> d_ncol a \/ length alpha <> d_nrow a \/ length beta <> d_nrow a \/ (exists x, In x [v; b] /\ (d_nrow x <> d_nrow a \/ d_ncol x <> d_nrow a)) ->
     exists e, complex_mat_gen_eigen zggev alpha beta v a b = Err e) /\
  (forall alpha beta u v a b, d_nrow a <> d_ncol a \/ length alpha <> d_nrow a \/ length beta <> d_nrow a \/ (exists x, In x [u; v; b] /\ (d_nrow x <> d_nrow a \/ d_ncol x <> d_nrow a)) ->
     exists e, complex_mat_gen_eigen_lr zggev alpha beta u v a b = Err e).
Proof.
  unfold complex_mat_eigen, complex_mat_eigen_lr, complex_mat_gen_eigen, complex_mat_gen_eigen_lr. splits.
  - intros l v a H. repeat (match goal with |- context [Nat.eqb ?x ?y] => destruct (Nat.eqb_spec x y); cbn [negb orb]; [|eauto] end). lia.
  - intros l u v a H. repeat (match goal with |- context [Nat.eqb ?x ?y] => destruct (Nat.eqb_spec x y); cbn [negb orb]; [|eauto] end). destruct H as [H|[H|(x & I1 & H)]]; try lia. simpl in I1. destruct I1 as [<-|[<-|[]]]; lia.
  - intros al be v a b H. repeat (match goal with |- context [Nat.eqb ?x ?y] => destruct (Nat.eqb_spec x y); cbn [negb orb]; [|eauto] end). destruct H as [H|[H|[H|(x & I1 & H)]]]; try lia. simpl in I1. destruct I1 as [<-|[<-|[]]]; lia.
  - intros al be u v a b H. repeat (match goal with |- context [Nat.eqb ?x ?y] => destruct (Nat.eqb_spec x y); cbn [negb orb]; [|eauto] end). destruct H as [H|[H|[H|(x & I1 & H)]]]; try lia. simpl in I1. destruct I1 as [<-|[<-|[<-|[]]]]; lia.
Qed.

(* ------------------------------------------------------------------ *)
(** * Real generalised eigenproblems *)
(** the compact form of dggev from column j on: one column for a real eigenvalue; two columns, the real and the imaginary
    part of the first vector, for two conjugate eigenvalues, the one with positive imaginary part first *)
Inductive gcompact (n : nat) (ar ai be : nat -> R) (x : nat -> nat -> R) (K : (nat -> C) -> C -> C -> Prop) : nat -> Prop :=
| gcompact_end : gcompact n ar ai be x K n
| gcompact_real j : j < n -> ai j = 0%R -> K (fun i => RtoC (x i j)) (RtoC (ar j)) (RtoC (be j)) -> gcompact n ar ai be x K (j + 1) -> gcompact n ar ai be x K j
| gcompact_pair j : j + 1 < n -> (0 < ai j)%R -> (ai (j + 1)%nat < 0)%R ->
    K (fun i => (x i j, x i (j + 1))) (ar j, ai j) (RtoC (be j)) -> K (fun i => (x i j, Ropp (x i (j + 1)))) (ar (j + 1), ai (j + 1)) (RtoC (be (j + 1))) ->
    gcompact n ar ai be x K (j + 2) -> gcompact n ar ai be x K j.
Definition dggev_spec (dggev : bool -> bool -> nat -> list R -> nat -> list R -> nat -> list R -> nat -> list R -> nat -> Z * list R * list R * list R * list R * list R) : Prop :=
  forall cl cr n a b vl ldl vr ldr, length a = n * n -> length b = n * n -> let '(info, ar, ai, be, x, y) := dggev cl cr n a n b n vl ldl vr ldr in
  (cl = false -> x = vl) /\ (cr = false -> y = vr) /\
  (info = 0%Z -> length ar = n /\ length ai = n /\ length be = n /\
    (cl = true -> ldl = n -> length vl = n * n -> length x = n * n /\
       gcompact n (fun j => nth j ar 0%R) (fun j => nth j ai 0%R) (fun j => nth j be 0%R) (rcell n x) (gleft n (fun i j => RtoC (rcell n a i j)) (fun i j => RtoC (rcell n b i j))) 0) /\
    (cr = true -> ldr = n -> length vr = n * n -> length y = n * n /\
       gcompact n (fun j => nth j ar 0%R) (fun j => nth j ai 0%R) (fun j => nth j be 0%R) (rcell n y) (gright n (fun i j => RtoC (rcell n a i j)) (fun i j => RtoC (rcell n b i j))) 0)).

(** how to read the columns of the result: by the sign of the imaginary part *)
Definition readable (n : nat) (ar ai be : list R) (x : nat -> nat -> R) (K : (nat -> C) -> C -> C -> Prop) : Prop :=
  forall j, j < n ->
    (nth j ai 0%R = 0%R -> K (fun i => RtoC (x i j)) (RtoC (nth j ar 0%R)) (RtoC (nth j be 0%R))) /\
    ((0 < nth j ai 0)%R -> j + 1 < n /\ (nth (j + 1) ai 0 < 0)%R /\ K (fun i => (x i j, x i (j + 1))) (nth j ar 0%R, nth j ai 0%R) (RtoC (nth j be 0%R))) /\
    ((nth j ai 0 < 0)%R -> 0 < j /\ (0 < nth (j - 1) ai 0)%R /\ K (fun i => (x i (j - 1), Ropp (x i j))) (nth j ar 0%R, nth j ai 0%R) (RtoC (nth j be 0%R))).
Lemma gcompact_readable n ar ai be x K j : gcompact n (fun j => nth j ar 0%R) (fun j => nth j ai 0%R) (fun j => nth j be 0%R) x K j ->
  forall c, j <= c < n ->
    (nth c ai 0%R = 0%R -> K (fun i => RtoC (x i c)) (RtoC (nth c ar 0%R)) (RtoC (nth c be 0%R))) /\
    ((0 < nth c ai 0)%R -> c + 1 < n /\ (nth (c + 1) ai 0 < 0)%R /\ K (fun i => (x i c, x i (c + 1))) (nth c ar 0%R, nth c ai 0%R) (RtoC (nth c be 0%R))) /\
    ((nth c ai 0 < 0)%R -> j < c /\ (0 < nth (c - 1) ai 0)%R /\ K (fun i => (x i (c - 1), Ropp (x i c))) (nth c ar 0%R, nth c ai 0%R) (RtoC (nth c be 0%R))).
Proof.
  induction 1 as [|j Hj Hw HK H IH|j Hj Hw Hw1 HK1 HK2 H IH]; intros c Hc; [lia| |].
  - destruct (Nat.eq_dec c j) as [->|N]; [splits; auto; lra|]. destruct (IH c ltac:(lia)) as (I1 & I2 & I3). splits; auto; intros Q; destruct (I3 Q); split; auto; lia.
  - destruct (Nat.eq_dec c j) as [->|N]; [splits; auto; lra|]. destruct (Nat.eq_dec c (j + 1)) as [->|N2].
    + splits; try lra; intros _; replace (j + 1 - 1) with j by lia; splits; auto; lia.
    + destruct (IH c ltac:(lia)) as (I1 & I2 & I3). splits; auto; intros Q; destruct (I3 Q); split; auto; lia.
Qed.
Lemma gcompact_read n ar ai be x K : gcompact n (fun j => nth j ar 0%R) (fun j => nth j ai 0%R) (fun j => nth j be 0%R) x K 0 -> readable n ar ai be x K.
Proof. intros H j Hj. apply (gcompact_readable n ar ai be x K 0 H j). lia. Qed.
Lemma readable_ext n ar ai be x (K K' : (nat -> C) -> C -> C -> Prop) : (forall v a b, K v a b -> K' v a b) -> readable n ar ai be x K -> readable n ar ai be x K'.
Proof. intros H Q j Hj. destruct (Q j Hj) as (I1 & I2 & I3). splits; intros E; [|destruct (I2 E) as (? & ? & ?)|destruct (I3 E) as (? & ? & ?)]; splits; auto. Qed.
Definition cmat (f : nat -> nat -> R) (i j : nat) : C := RtoC (f i j).
Lemma rsame_mat (a : dmat R) n f : is_matrix a n n f -> forall i j, i < n -> j < n -> RtoC (rcell n (d_data a) i j) = cmat f i j.
Proof. intros M i j Hi Hj. unfold cmat. f_equal. now apply (mat_cell R 0%R a n n f). Qed.

Section Dggev.
Variable dgeev : bool -> bool -> nat -> list R -> nat -> nat -> nat -> Z * list R * list R * list R * list R.
Variable dggev : bool -> bool -> nat -> list R -> nat -> list R -> nat -> list R -> nat -> list R -> nat -> Z * list R * list R * list R * list R * list R.
Hypothesis SPEC : dggev_spec dggev.
(** mat_gen_eigen: the columns of v hold the right eigenvectors in LAPACK's compact form *)
Theorem C99_gen_eigen alpha_r alpha_i beta v a b n f g h : is_matrix a n n f -> is_matrix b n n g -> is_matrix v n n h -> length alpha_r = n -> length alpha_i = n -> length beta = n -> small n ->
  let '(info, _, _, _, _, _) := dggev false true n (d_data a) n (d_data b) n [0%R] 1 (d_data v) n in
  (info <> 0%Z -> exists e, mat_gen_eigen dggev alpha_r alpha_i beta v a b = Err e) /\
  (info = 0%Z -> exists ar ai be v' x, mat_gen_eigen dggev alpha_r alpha_i beta v a b = Ok (ar, ai, be, v') /\ length ar = n /\ length ai = n /\ length be = n /\ is_matrix v' n n x /\
     readable n ar ai be x (gright n (cmat f) (cmat g))).
Proof using SPEC.
  intros M B V La Li Lb Sn. assert (M' := M). assert (V' := V). assert (B' := B). destruct M' as (R1 & C1 & LA & _), V' as (R2 & C2 & LV & _), B' as (R3 & C3 & LB & _).
  pose proof (SPEC false true n (d_data a) (d_data b) [0%R] 1 (d_data v) n LA LB) as SP.
  destruct (dggev false true n (d_data a) n (d_data b) n [0%R] 1 (d_data v) n) as [[[[[info ar] ai] be] x] y] eqn:E. unfold mat_gen_eigen. rewrite R1, C1, R2, C2, R3, C3, La, Li, Lb, !Nat.eqb_refl, (small_i32 R 0%R n Sn). cbn [negb orb bind]. rewrite E.
  split; [apply after_err|]. intros ->. destruct SP as (_ & _ & SP). destruct (SP eq_refl) as (L1 & L2 & L3 & _ & SR). destruct (SR eq_refl eq_refl LV) as (Ly & HR).
  exists ar, ai, be, (with_data R v y), (rcell n y). unfold after. simpl. splits; auto using cell_mat. eapply readable_ext; [|apply gcompact_read; exact HR]. intros w al' be'. apply gright_ext; auto using rsame_mat.
Qed.
(** mat_gen_eigen_lr: the same for the left eigenvectors in u *)
Theorem C99_gen_eigen_lr alpha_r alpha_i beta u v a b n f g h k : is_matrix a n n f -> is_matrix b n n g -> is_matrix u n n k -> is_matrix v n n h -> length alpha_r = n -> length alpha_i = n -> length beta = n -> small n ->
  let '(info, _, _, _, _, _) := dggev true true n (d_data a) n (d_data b) n (d_data u) n (d_data v) n in
  (info <> 0%Z -> exists e, mat_gen_eigen_lr dggev alpha_r alpha_i beta u v a b = Err e) /\
  (info = 0%Z -> exists ar ai be u' v' x y, mat_gen_eigen_lr dggev alpha_r alpha_i beta u v a b = Ok (ar, ai, be, u', v') /\ length ar = n /\ length ai = n /\ length be = n /\ is_matrix u' n n x /\ is_matrix v' n n y /\
     readable n ar ai be x (gleft n (cmat f) (cmat g)) /\ readable n ar ai be y (gright n (cmat f) (cmat g))).
Proof using SPEC.
  intros M B U V La Li Lb Sn. assert (M' := M). assert (V' := V). assert (B' := B). destruct M' as (R1 & C1 & LA & _), V' as (R2 & C2 & LV & _), B' as (R3 & C3 & LB & _), U as (R4 & C4 & LU & _).
  pose proof (SPEC true true n (d_data a) (d_data b) (d_data u) n (d_data v) n LA LB) as SP.
  destruct (dggev true true n (d_data a) n (d_data b) n (d_data u) n (d_data v) n) as [[[[[info ar] ai] be] x] y] eqn:E. unfold mat_gen_eigen_lr. rewrite R1, C1, R2, C2, R3, C3, R4, C4, La, Li, Lb, !Nat.eqb_refl, (small_i32 R 0%R n Sn). cbn [negb orb bind]. rewrite E.
  split; [apply after_err|]. intros ->. destruct SP as (_ & _ & SP). destruct (SP eq_refl) as (L1 & L2 & L3 & SL & SR). destruct (SR eq_refl eq_refl LV) as (Ly & HR). destruct (SL eq_refl eq_refl LU) as (Lx & HL).
  exists ar, ai, be, (with_data R u x), (with_data R v y), (rcell n x), (rcell n y). unfold after. simpl. splits; auto using cell_mat;
    (eapply readable_ext; [|apply gcompact_read; eassumption]); intros w al' be'; [apply gleft_ext|apply gright_ext]; auto using rsame_mat.
Qed.

Lemma ctotal_real n (f : nat -> R) x : ctotal n (fun l => RtoC (f l) * RtoC (x l))%C = RtoC (sumn n (fun l => f l * x l)%R).
Proof using. induction n as [|n IH]; simpl; auto. rewrite IH. unfold RtoC, Cplus, Cmult; simpl. f_equal; ring. Qed.

(** mat_gen_eigen and mat_gen_eigen_lr document "a vj = lj b vj, where vj is the column j of v". When a pair of eigenvalues is
    complex this is false for both columns: the columns are the real and the imaginary part of one eigenvector, and no real
    vector belongs to a complex eigenvalue (here for every b that maps no nonzero vector to zero). mat_eigen unpacks the
    columns into v_real and v_imag; the generalised versions do not and their documentation does not say so. *)
Theorem C99_gen_pairs_refuted alpha_r alpha_i beta v a b n f g ar ai be v' x : is_matrix a n n f -> is_matrix b n n g ->
  mat_gen_eigen dggev alpha_r alpha_i beta v a b = Ok (ar, ai, be, v') -> is_matrix v' n n x ->
  (forall y : nat -> R, (forall i, i < n -> sumn n (fun l => g i l * y l)%R = 0%R) -> forall i, i < n -> y i = 0%R) ->
  forall j, j < n -> nth j ai 0%R <> 0%R -> ~ gright n (cmat f) (cmat g) (fun i => RtoC (x i j)) (nth j ar 0%R, nth j ai 0%R) (RtoC (nth j be 0%R)).
Proof using.
  intros _ _ _ _ INJ j Hj Hw [[_ (i & Hi & S)] E]. rewrite (INJ (fun i => x i j)) in S; auto.
  - simpl in S. rewrite Rabs_R0 in S. lra.
  - intros r Hr. specialize (E r Hr). unfold cmat in E. rewrite !ctotal_real in E. apply (f_equal snd) in E. unfold RtoC, Cmult in E. simpl in E. ring_simplify in E.
    set (q := sumn n (fun l => g r l * x l j)%R) in *. assert (Q : (nth j ai 0 * q = 0)%R) by lra. destruct (Rmult_integral _ _ Q); auto; contradiction.
Qed.

(** mat_eigenvalues: every value is an eigenvalue *)
Definition dgeev_values : Prop := forall n a, length a = n * n -> let '(info, wr, wi, _, _) := dgeev false false n a n 1 1 in
  info = 0%Z -> length wr = n /\ length wi = n /\ forall j, j < n -> exists v, right_eigen n (rcell n a) v (nth j wr 0%R, nth j wi 0%R).
Theorem C99_eigenvalues l_real l_imag a n f : dgeev_values -> is_matrix a n n f -> length l_real = n -> length l_imag = n -> small n ->
  let '(info, _, _, _, _) := dgeev false false n (d_data a) n 1 1 in
  (info <> 0%Z -> exists e, mat_eigenvalues dgeev l_real l_imag a = Err e) /\
  (info = 0%Z -> exists wr wi, mat_eigenvalues dgeev l_real l_imag a = Ok (wr, wi) /\ length wr = n /\ length wi = n /\
     forall j, j < n -> exists v, right_eigen n f v (nth j wr 0%R, nth j wi 0%R)).
Proof using.
  intros SP M L1 L2 Sn. assert (M' := M). destruct M' as (R1 & C1 & LA & _). specialize (SP n (d_data a) LA). destruct (dgeev false false n (d_data a) n 1 1) as [[[[info wr] wi] x] y] eqn:E.
  unfold mat_eigenvalues. rewrite R1, C1, L1, L2, !Nat.eqb_refl, (small_i32 R 0%R n Sn). cbn [negb orb bind]. rewrite E. split; [apply after_err|]. intros ->. destruct (SP eq_refl) as (Lr & Li & H).
  exists wr, wi. unfold after. simpl. splits; auto. intros j Hj. destruct (H j Hj) as (v & HV). exists v. eapply right_ext; [|exact HV]. intros p q Hp Hq. now apply (mat_cell R 0%R a n n f).
Qed.
Theorem C99_real_sizes :
  (forall l_real l_imag a, d_nrow a <> d_ncol a \/ length l_real <> d_nrow a \/ length l_imag <> d_nrow a -> exists e, mat_eigenvalues dgeev l_real l_imag a = Err e) /\
  (forall ar ai be v a b, d_nrow a <> d_ncol a \/ length ar <> d_nrow a \/ length ai <> d_nrow a \/ length be <> d_nrow a \/ (exists x, In x [v; b] /\ (d_nrow x <> d_nrow a \/ d_ncol x <> d_nrow a)) ->
     exists e, mat_gen_eigen dggev ar ai be v a b = Err e) /\
  (forall ar ai be u v a b, d_nrow a <> d_ncol a \/ length ar <> d_nrow a \/ length ai <> d_nrow a \/ length be <> d_nrow a \/ (exists x, In x [u; v; b] /\ (d_nrow x <> d_nrow a \/ d_ncol x <> d_nrow a)) ->
     exists e, mat_gen_eigen_lr dggev ar ai be u v a b = Err e).
Proof using.
  unfold mat_eigenvalues, mat_gen_eigen, mat_gen_eigen_lr. splits.
  - intros l u a H. repeat (match goal with |- context [Nat.eqb ?x ?y] => destruct (Nat.eqb_spec x y); cbn [negb orb]; [|eauto] end). lia.
  - intros ar ai be v a b H. repeat (match goal with |- context [Nat.eqb ?x ?y] => destruct (Nat.eqb_spec x y); cbn [negb orb]; [|eauto] end). destruct H as [H|[H|[H|[H|(x & I1 & H)]]]]; try lia. simpl in I1. destruct I1 as [<-|[<-|[]]]; lia.
  - intros ar ai be u v a b H. repeat (match goal with |- context [Nat.eqb ?x ?y] => destruct (Nat.eqb_spec x y); cbn [negb orb]; [|eauto] end). destruct H as [H|[H|[H|[H|(x & I1 & H)]]]]; try lia. simpl in I1. destruct I1 as [<-|[<-|[<-|[]]]]; lia.
Qed.
End Dggev.

(* ------------------------------------------------------------------ *)
(** * Complex singular value decomposition *)
(** a = u diag(s) vh with unitary u and vh *)
Definition is_csvd (m n : nat) (a : nat -> nat -> C) (s : nat -> R) (u vh : nat -> nat -> C) : Prop :=
  (forall k l, k < m -> l < m -> ctotal m (fun i => Cconj (u i k) * u i l)%C = if k =? l then RtoC 1 else RtoC 0) /\
  (forall k l, k < n -> l < n -> ctotal n (fun j => vh k j * Cconj (vh l j))%C = if k =? l then RtoC 1 else RtoC 0) /\
  (forall k, k < Nat.min m n -> (0 <= s k)%R) /\ (forall k, k + 1 < Nat.min m n -> (s (k + 1)%nat <= s k)%R) /\
  (forall i j, i < m -> j < n -> a i j = ctotal (Nat.min m n) (fun k => RtoC (s k) * (u i k * vh k j))%C).
Definition zgesvd_spec (zgesvd : nat -> nat -> list C -> nat -> nat -> nat -> Z * list R * list C * list C) : Prop :=
  forall m n a, length a = m * n -> let '(info, s, u, vh) := zgesvd m n a m m n in
  info = 0%Z -> length s = Nat.min m n /\ length u = m * m /\ length vh = n * n /\ is_csvd m n (ccell m a) (fun k => nth k s 0%R) (ccell m u) (ccell n vh).
Theorem C99_complex_svd zgesvd s u vh a m n f g h : zgesvd_spec zgesvd -> is_matrix a m n f -> is_matrix u m m g -> is_matrix vh n n h -> length s = Nat.min m n -> small m -> small n ->
  let '(info, _, _, _) := zgesvd m n (d_data a) m m n in
  (info <> 0%Z -> exists e, complex_mat_svd zgesvd s u vh a = Err e) /\
  (info = 0%Z -> exists s' u' vh' x y, complex_mat_svd zgesvd s u vh a = Ok (s', u', vh') /\ length s' = Nat.min m n /\ is_matrix u' m m x /\ is_matrix vh' n n y /\
     is_csvd m n f (fun k => nth k s' 0%R) x y).
Proof.
  intros SP M (R2 & C2 & _) (R3 & C3 & _) Ls Sm Sn. assert (M' := M). destruct M' as (R1 & C1 & LA & _). specialize (SP m n (d_data a) LA). destruct (zgesvd m n (d_data a) m m n) as [[[info s'] u'] vh'] eqn:E.
  unfold complex_mat_svd. rewrite R1, C1, R2, C2, R3, C3, Ls, !Nat.eqb_refl, (small_i32 C (RtoC 0) m Sm), (small_i32 C (RtoC 0) n Sn). cbn [negb orb bind]. rewrite E. split; [apply after_err|]. intros ->.
  destruct (SP eq_refl) as (L1 & L2 & L3 & (S1 & S2 & S3 & S4 & S5)). exists s', (with_data C u u'), (with_data C vh vh'), (ccell m u'), (ccell n vh'). unfold after. simpl. splits; auto using cell_mat.
  unfold is_csvd. splits; auto. intros i j Hi Hj. rewrite <- S5 by auto. symmetry. now apply (mat_cell C (RtoC 0) a m n f).
Qed.
Theorem C99_complex_svd_sizes zgesvd s u vh a : length s <> Nat.min (d_nrow a) (d_ncol a) \/ d_nrow u <> d_nrow a \/ d_ncol u <> d_nrow a \/ d_nrow vh <> d_ncol a \/ d_ncol vh <> d_ncol a ->
  exists e, complex_mat_svd zgesvd s u vh a = Err e.
Proof. intros H. unfold complex_mat_svd. repeat (match goal with |- context [Nat.eqb ?x ?y] => destruct (Nat.eqb_spec x y); cbn [negb orb]; [|eauto] end). lia. Qed.

(* ------------------------------------------------------------------ *)
(** * Complex inverse of small matrices *)
(** Laplace expansion along row 0 *)
Fixpoint cdeterminant (n : nat) (f : nat -> nat -> C) : C :=
  match n with
  | O => RtoC 1
  | S k => ctotal (S k) (fun j => RtoC ((-1) ^ j) * f 0 j * cdeterminant k (fun r c => f (S r) (if c <? j then c else S c)))%C
  end.
Definition is_cinverse (n : nat) (f g : nat -> nat -> C) : Prop :=
  forall i k, i < n -> k < n -> ctotal n (fun j => f i j * g j k)%C = (if i =? k then RtoC 1 else RtoC 0) /\ ctotal n (fun j => g i j * f j k)%C = (if i =? k then RtoC 1 else RtoC 0).
Lemma clist1 {A} (l : list A) : length l = 1 -> exists a, l = [a].
Proof. destruct l as [|a [|]]; cbn; try discriminate. eauto. Qed.
Lemma clist4 {A} (l : list A) : length l = 4 -> exists a b c d, l = [a; b; c; d].
Proof. do 5 (destruct l as [|? l]; cbn; try discriminate). eauto 10. Qed.
Lemma clist9 {A} (l : list A) : length l = 9 -> exists a b c d e f g h i, l = [a; b; c; d; e; f; g; h; i].
Proof. do 10 (destruct l as [|? l]; cbn; try discriminate). intros _. do 9 eexists. reflexivity. Qed.
Lemma cbig_nonzero x : (ZERO_DETERMINANT_NORM < Cmod x)%R -> x <> RtoC 0.
Proof.
  intros H ->. rewrite Cmod_0 in H. assert (0 < ZERO_DETERMINANT_NORM)%R; [|lra]. unfold ZERO_DETERMINANT_NORM. apply Rinv_0_lt_compat. apply pow_lt. lra.
Qed.
Lemma C_eq (x y : C) : fst x = fst y -> snd x = snd y -> x = y.
Proof. apply injective_projections. Qed.

Lemma csets9 (y0 y1 y2 y3 y4 y5 y6 y7 y8 v0 v1 v2 v3 v4 v5 v6 v7 v8 : C) :
  csets (mkD 3 3 [y0; y1; y2; y3; y4; y5; y6; y7; y8]) [(0, 0, v0); (0, 1, v1); (0, 2, v2); (1, 0, v3); (1, 1, v4); (1, 2, v5); (2, 0, v6); (2, 1, v7); (2, 2, v8)] =
  Ok (mkD 3 3 [v0; v3; v6; v1; v4; v7; v2; v5; v8]).
Proof. reflexivity. Qed.

Theorem C99_complex_inverse lapack (ai a : dmat C) m f g : 1 <= m <= 3 -> is_matrix a m m f -> is_matrix ai m m g ->
  ((Cmod (cdeterminant m f) <= / 10 ^ 15)%R -> exists e, complex_mat_inverse lapack ai a = Err e) /\
  ((/ 10 ^ 15 < Cmod (cdeterminant m f))%R -> exists ai' h, complex_mat_inverse lapack ai a = Ok (cdeterminant m f, ai') /\ is_matrix ai' m m h /\ is_cinverse m f h).
Proof.
  intros Hm (A1 & A2 & A3 & A4) (B1 & B2 & B3 & B4).
  change (/ 10 ^ 15)%R with ZERO_DETERMINANT_NORM. unfold complex_mat_inverse. rewrite A1, A2, B1, B2, Nat.eqb_refl. cbn [negb orb].
  destruct a as [am an ad], ai as [bm bn bd]. cbn [d_nrow d_ncol d_data] in *. subst am an bm bn.
  assert (D : m = 1 \/ m = 2 \/ m = 3) by lia. destruct D as [-> | [-> | ->]].
  - destruct (clist1 _ A3) as (x & ->), (clist1 _ B3) as (y & ->).
    assert (E : x = f 0 0). { specialize (A4 0 0 ltac:(lia) ltac:(lia)). cbn in A4. congruence. }
    cbn [d_get d_data d_nrow vget nth_error Nat.add Nat.mul bind].
    assert (ED : cdeterminant 1 f = x) by (subst; cbn; ring). rewrite ED.
    destruct (Rleb_spec (Cmod x) ZERO_DETERMINANT_NORM) as [L|L]; split; intros Q; try lra; [eauto|].
    assert (Z := cbig_nonzero _ L).
    cbn -[Cmult Cdiv Cminus Copp Cplus RtoC]. do 2 eexists. split; [reflexivity|]. split.
    + split; [reflexivity|]. split; [reflexivity|]. split; [reflexivity|].
      instantiate (1 := fun _ _ => (RtoC 1 / x)%C). intros [|i] [|j] Hi Hj; try lia. reflexivity.
    + intros i k Hi Hk. assert (i = 0) as -> by lia. assert (k = 0) as -> by lia. cbn. rewrite <- E. split; field; auto.
  - destruct (clist4 _ A3) as (x00 & x10 & x01 & x11 & ->), (clist4 _ B3) as (y0 & y1 & y2 & y3 & ->).
    assert (E : forall i j, i < 2 -> j < 2 -> f i j = nth (i + j * 2) [x00; x10; x01; x11] (RtoC 0)).
    { intros i j Hi Hj. specialize (A4 i j Hi Hj). unfold d_get in A4. cbn [d_data d_nrow] in A4. apply vget_ok_inv with (d := RtoC 0) in A4. symmetry. apply A4. }
    cbn [d_get d_data d_nrow vget nth_error Nat.add Nat.mul bind].
    set (det := (x00 * x11 - x01 * x10)%C).
    assert (ED : cdeterminant 2 f = det). { unfold det. cbn -[Cmult Cdiv Cminus Copp Cplus RtoC pow]. rewrite !E by lia. cbn -[Cmult Cdiv Cminus Copp Cplus RtoC pow]. apply C_eq; unfold Cmult, Cplus, Cminus, Copp, RtoC; simpl; ring. }
    rewrite ED.
    destruct (Rleb_spec (Cmod det) ZERO_DETERMINANT_NORM) as [L|L]; split; intros Q; try lra; [eauto|].
    assert (Z := cbig_nonzero _ L).
    cbn -[Cmult Cdiv Cminus Copp Cplus RtoC]. do 2 eexists. split; [reflexivity|]. split.
    + split; [reflexivity|]. split; [reflexivity|]. split; [reflexivity|].
      instantiate (1 := fun i j => nth (i + j * 2) [x11 / det; - x10 / det; - x01 / det; x00 / det]%C (RtoC 0)).
      intros [|[|i]] [|[|j]] Hi Hj; try lia; reflexivity.
    + intros i k Hi Hk. cbn [Blas_Thm.total]. rewrite !E by lia.
      destruct i as [|[|i]]; try lia; destruct k as [|[|k]]; try lia; cbn -[Cmult Cdiv Cminus Copp Cplus RtoC]; unfold det in *; split; field; auto.
  - destruct (clist9 _ A3) as (x00 & x10 & x20 & x01 & x11 & x21 & x02 & x12 & x22 & ->).
    destruct (clist9 _ B3) as (y0 & y1 & y2 & y3 & y4 & y5 & y6 & y7 & y8 & ->).
    assert (E : forall i j, i < 3 -> j < 3 -> f i j = nth (i + j * 3) [x00; x10; x20; x01; x11; x21; x02; x12; x22] (RtoC 0)).
    { intros i j Hi Hj. specialize (A4 i j Hi Hj). unfold d_get in A4. cbn [d_data d_nrow] in A4. apply vget_ok_inv with (d := RtoC 0) in A4. symmetry. apply A4. }
    cbn [d_get d_data d_nrow vget nth_error Nat.add Nat.mul bind].
    set (det := (x00 * (x11 * x22 - x12 * x21) - x01 * (x10 * x22 - x12 * x20) + x02 * (x10 * x21 - x11 * x20))%C).
    assert (ED : cdeterminant 3 f = det). { unfold det. cbn -[Cmult Cdiv Cminus Copp Cplus RtoC pow]. rewrite !E by lia. cbn -[Cmult Cdiv Cminus Copp Cplus RtoC pow]. apply C_eq; unfold Cmult, Cplus, Cminus, Copp, RtoC; simpl; ring. }
    rewrite ED.
    destruct (Rleb_spec (Cmod det) ZERO_DETERMINANT_NORM) as [L|L]; split; intros Q; try lra; [eauto|].
    assert (Z := cbig_nonzero _ L).
    assert (HD : det = (x00 * (x11 * x22 - x12 * x21) - x01 * (x10 * x22 - x12 * x20) + x02 * (x10 * x21 - x11 * x20))%C) by reflexivity. clearbody det.
    rewrite csets9. do 2 eexists. split; [reflexivity|]. split.
    + split; [reflexivity|]. split; [reflexivity|]. split; [reflexivity|].
      instantiate (1 := fun i j => nth (i + j * 3)
        [(x11 * x22 - x12 * x21) / det; (x12 * x20 - x10 * x22) / det; (x10 * x21 - x11 * x20) / det;
         (x02 * x21 - x01 * x22) / det; (x00 * x22 - x02 * x20) / det; (x01 * x20 - x00 * x21) / det;
         (x01 * x12 - x02 * x11) / det; (x02 * x10 - x00 * x12) / det; (x00 * x11 - x01 * x10) / det]%C (RtoC 0)).
      intros [|[|[|i]]] [|[|[|j]]] Hi Hj; try lia; reflexivity.
    + intros i k Hi Hk. cbn [Blas_Thm.total]. rewrite !E by lia.
      destruct i as [|[|[|i]]]; try lia; destruct k as [|[|[|k]]]; try lia; cbn -[Cmult Cdiv Cminus Copp Cplus RtoC]; rewrite HD in *; split; field; auto.
Qed.
Theorem C99_complex_inverse_sizes lapack ai a : d_nrow a <> d_ncol a \/ d_nrow ai <> d_nrow a \/ d_ncol ai <> d_ncol a -> exists e, complex_mat_inverse lapack ai a = Err e.
Proof. intros H. unfold complex_mat_inverse. repeat (match goal with |- context [Nat.eqb ?x ?y] => destruct (Nat.eqb_spec x y); cbn [negb orb]; [|eauto] end). lia. Qed.

(* ------------------------------------------------------------------ *)
(** * Non-vacuity *)
(** a Cholesky routine for 1 by 1 matrices; other sizes are refused *)
Definition ex_potrf (upper : bool) (n : nat) (a : list R) (lda : nat) : Z * list R :=
  match n, a with 1, [x] => if Rleb x 0 then (1%Z, a) else (0%Z, [sqrt x]) | _, _ => ((-1)%Z, a) end.
Example ex_potrf_ok : potrf_spec 0%R Rplus Rmult (fun x => x) ex_potrf.
Proof.
  intros upper [|[|n]] a La; simpl.
  - splits; auto; discriminate.
  - destruct a as [|x [|]]; try discriminate. destruct (Rleb_spec x 0); splits; auto; try discriminate.
    + intros [|i] [|j] Hi Hj N; try lia. destruct upper; simpl in N; lia.
    + intros _ [|i] [|j] Hi Hj N; try lia. unfold cell, gram, tri_part. destruct upper; simpl; rewrite sqrt_def by lra; ring.
  - splits; auto; discriminate.
Qed.
Example ex_cholesky : mat_cholesky R ex_potrf (mkD 1 1 [4%R]) true = Ok (mkD 1 1 [2%R]).
Proof.
  unfold mat_cholesky. simpl. destruct (Rleb_spec 4 0); [lra|]. unfold after, with_data. simpl. replace 4%R with (2 * 2)%R by ring. rewrite sqrt_square by lra. reflexivity.
Qed.
(** [[0, -9], [16, 0]] with the identity: the eigenvalues 12 i and -12 i, in the compact form *)
Definition ex_ga : list R := [0; 16; -9; 0]%R.
Definition ex_gb : list R := [1; 0; 0; 1]%R.
Definition ex_dggev (cl cr : bool) (n : nat) (a : list R) (lda : nat) (b : list R) (ldb : nat) (vl : list R) (ldl : nat) (vr : list R) (ldr : nat) : Z * list R * list R * list R * list R * list R :=
  if n =? 2 then if list_eq_dec Req_EM_T a ex_ga then if list_eq_dec Req_EM_T b ex_gb then
    (0%Z, [0; 0]%R, [12; -12]%R, [1; 1]%R, if cl then [1; 0; 0; - 3 / 4]%R else vl, if cr then [3 / 4; 0; 0; -1]%R else vr)
  else (1%Z, [], [], [], vl, vr) else (1%Z, [], [], [], vl, vr) else (1%Z, [], [], [], vl, vr).
Example ex_dggev_ok : dggev_spec ex_dggev.
Proof.
  intros cl cr n a b vl ldl vr ldr _ _. unfold ex_dggev. destruct (Nat.eqb_spec n 2) as [->|]; [|splits; auto; discriminate].
  destruct (list_eq_dec Req_EM_T a ex_ga) as [->|]; [|splits; auto; discriminate]. destruct (list_eq_dec Req_EM_T b ex_gb) as [->|]; [|splits; auto; discriminate].
  splits; try (intros ->; reflexivity). intros _. splits; auto; intros -> _ _; (split; [reflexivity|]);
    (apply gcompact_pair; [lia|simpl; lra|simpl; lra| | |apply gcompact_end]); unfold gleft, gright, scaled, cell, ex_ga, ex_gb;
    (split; [split; [intros [|[|i]] Hi; try lia; simpl; split_Rabs; lra|first [exists 0; split; [lia|simpl; split_Rabs; lra]|exists 1; split; [lia|simpl; split_Rabs; lra]]]|]);
    intros [|[|i]] Hi; try lia; simpl; unfold Cmult, Cplus, Cconj, RtoC; simpl; f_equal; field.
Qed.
(** for it mat_gen_eigen succeeds, and neither column of v is an eigenvector *)
Example ex_gen_pairs : exists v', mat_gen_eigen ex_dggev [0; 0]%R [0; 0]%R [0; 0]%R (mkD 2 2 [0; 0; 0; 0]%R) (mkD 2 2 ex_ga) (mkD 2 2 ex_gb) = Ok ([0; 0]%R, [12; -12]%R, [1; 1]%R, v') /\
  forall j, j < 2 -> ~ gright 2 (cmat (rcell 2 ex_ga)) (cmat (rcell 2 ex_gb)) (fun i => RtoC (rcell 2 (d_data v') i j)) (nth j [0; 0] 0, nth j [12; -12] 0)%R (RtoC (nth j [1; 1] 0)%R).
Proof.
  assert (E : mat_gen_eigen ex_dggev [0; 0]%R [0; 0]%R [0; 0]%R (mkD 2 2 [0; 0; 0; 0]%R) (mkD 2 2 ex_ga) (mkD 2 2 ex_gb) = Ok ([0; 0]%R, [12; -12]%R, [1; 1]%R, mkD 2 2 [3 / 4; 0; 0; -1]%R)).
  { unfold mat_gen_eigen, ex_dggev. cbn [d_nrow d_ncol d_data length Nat.eqb negb orb bind]. change (to_i32 2) with (@Ok nat 2). cbn [bind Nat.eqb].
    destruct (list_eq_dec Req_EM_T ex_ga ex_ga); [|congruence]. destruct (list_eq_dec Req_EM_T ex_gb ex_gb); [|congruence]. reflexivity. }
  eexists. split; [exact E|]. intros j Hj. apply (C99_gen_pairs_refuted ex_dggev _ _ _ _ (mkD 2 2 ex_ga) (mkD 2 2 ex_gb) 2 _ _ _ _ _ (mkD 2 2 [3 / 4; 0; 0; -1]%R) _) with (3 := E).
  1-3: apply is_matrix_dval with (zero := 0%R); auto.
  - intros y H i Hi. pose proof (H 0 ltac:(lia)) as H0. pose proof (H 1 ltac:(lia)) as H1. unfold cell, ex_gb in *. simpl in *. destruct i as [|[|i]]; try lia; lra.
  - exact Hj.
  - destruct j as [|[|j]]; simpl; try lia; lra.
Qed.
(** zggev for 1 by 1 matrices *)
Definition ex_zggev (cl cr : bool) (n : nat) (a : list C) (lda : nat) (b : list C) (ldb : nat) (vl : list C) (ldl : nat) (vr : list C) (ldr : nat) : Z * list C * list C * list C * list C :=
  if n =? 1 then (0%Z, a, b, if cl then [RtoC 1] else vl, if cr then [RtoC 1] else vr) else (1%Z, [], [], vl, vr).
Example ex_zggev_ok : zggev_spec ex_zggev.
Proof.
  intros cl cr n a b vl ldl vr ldr La Lb. unfold ex_zggev. destruct (Nat.eqb_spec n 1) as [->|]; [|splits; auto; discriminate].
  destruct a as [|a0 [|]]; try discriminate. destruct b as [|b0 [|]]; try discriminate.
  splits; try (intros ->; reflexivity). intros _. splits; auto; intros -> _ _; (split; [reflexivity|]); intros [|j] Hj; try lia; unfold gleft, gright, scaled, cell;
    (split; [split; [intros [|i] Hi; try lia|exists 0; split; [lia|]]; simpl; rewrite Rabs_R0, Rabs_R1; lra|]);
    intros [|i] Hi; try lia; cbn -[Cmult Cplus RtoC]; destruct a0, b0; unfold Cconj, Cmult, Cplus, RtoC; simpl; f_equal; ring.
Qed.
(** the left eigenvector of the 1 by 1 pair (2, 1) is a unit; complex_mat_gen_eigen_lr returns the 0 it was given *)
Example ex_left_missing : complex_mat_gen_eigen_lr ex_zggev [RtoC 0] [RtoC 0] (mkD 1 1 [RtoC 0]) (mkD 1 1 [RtoC 0]) (mkD 1 1 [RtoC 2]) (mkD 1 1 [RtoC 1]) =
  Ok ([RtoC 2], [RtoC 1], mkD 1 1 [RtoC 0], mkD 1 1 [RtoC 1]).
Proof. reflexivity. Qed.
(** dgesv and dsyev for 1 by 1 matrices; the complex numbers have the required conjugation *)
Definition ex_gesv (n nrhs : nat) (a : list R) (lda : nat) (b : list R) (ldb : nat) : Z * list R * list R :=
  match n, a, b with 1, [x], [y] => if Req_EM_T x 0 then (1%Z, a, b) else (0%Z, a, [y / x]%R) | _, _, _ => ((-1)%Z, a, b) end.
Example ex_gesv_ok : gesv_spec 0%R Rplus Rmult ex_gesv.
Proof.
  intros [|[|n]] a b La Lb; simpl; [splits; auto; discriminate| |splits; auto; discriminate].
  destruct a as [|x [|]]; try discriminate. destruct b as [|y [|]]; try discriminate. destruct (Req_EM_T x 0); splits; auto; try discriminate.
  intros _ [|i] Hi; try lia. unfold cell. simpl. field. auto.
Qed.
Definition ex_syev (calc_v upper : bool) (n : nat) (a : list R) (lda : nat) : Z * list R * list R := if n =? 1 then (0%Z, a, [1%R]) else (1%Z, [], a).
Example ex_syev_ok : syev_spec 0%R 1%R Rplus Rmult (fun x => x) (fun x => x) ex_syev.
Proof.
  intros upper n a La. unfold ex_syev. destruct (Nat.eqb_spec n 1) as [->|]; [|discriminate]. intros _. splits; auto; try (intros; lia).
  - intros [|j] [|k] Hj Hk; try lia. unfold cell. simpl. ring.
  - intros A HH HA [|i] [|j] Hi Hj; try lia. simpl. rewrite (HA 0 0) by (destruct upper; simpl; lia). unfold cell. simpl. ring.
Qed.
Example ex_C_conj : (forall x, Cconj (Cconj x) = x) /\ (forall x y, Cconj (x + y)%C = (Cconj x + Cconj y)%C) /\ (forall x y, Cconj (x * y)%C = (Cconj x * Cconj y)%C) /\ Cconj (RtoC 0) = RtoC 0.
Proof. splits; [apply Cconj_inv| |apply Cconj_mult|apply Cconj_R]. intros [a b] [c d]. unfold Cconj, Cplus; simpl. f_equal. ring. Qed.

Print Assumptions C99_solve_lin_sys.
Print Assumptions C99_solve_sizes.
Print Assumptions C99_cholesky.
Print Assumptions C99_cholesky_sizes.
Print Assumptions C99_eigen_sym.
Print Assumptions C99_eigen_sym_sizes.
Print Assumptions C99_complex_eigen.
Print Assumptions C99_complex_eigen_lr.
Print Assumptions C99_complex_gen_eigen.
Print Assumptions C99_complex_gen_eigen_lr.
Print Assumptions C99_complex_left_refuted.
Print Assumptions C99_complex_sizes.
Print Assumptions C99_gen_eigen.
Print Assumptions C99_gen_eigen_lr.
Print Assumptions C99_gen_pairs_refuted.
Print Assumptions C99_eigenvalues.
Print Assumptions C99_real_sizes.
Print Assumptions C99_complex_svd.
Print Assumptions C99_complex_svd_sizes.
Print Assumptions C99_complex_inverse.
Print Assumptions C99_complex_inverse_sizes.
