(** Specification vocabulary for the tensor theorems: tensors as functions of
    Cartesian indices 0, 1, 2, and the matrix algebra on them. Nothing here
    mentions a function of the model; only [tens2]/[tens4] mention its data. *)
From Coq Require Import Reals Lra List.
From Verif Require Import Base RBase Tensor_Model Tensor4_Model.
Open Scope R_scope.

Definition m3 := nat -> nat -> R.
Definition a4 := nat -> nat -> nat -> nat -> R.
Definition sum3 (f : nat -> R) : R := f 0%nat + f 1%nat + f 2%nat.
Fixpoint summ (n : nat) (f : nat -> R) : R :=
  match n with O => 0 | S n' => summ n' f + f n' end.
Definition kron (i j : nat) : R := if (i =? j)%nat then 1 else 0.

(** the nine Kelvin-Mandel basis tensors: the diagonal dyads e_i e_i, then the
    normalised symmetric and the normalised skew combinations of the pairs
    (0,1), (1,2), (0,2) *)
Definition pair_of (m : nat) : nat * nat :=
  match m with 0%nat => (0, 1)%nat | 1%nat => (1, 2)%nat | _ => (0, 2)%nat end.
Definition dyad_ij (p q i j : nat) : R := kron p i * kron q j.
Definition basis (m : nat) : m3 := fun i j =>
  if (m <? 3)%nat then dyad_ij m m i j
  else if (m <? 6)%nat then
    let '(p, q) := pair_of (m - 3) in (dyad_ij p q i j + dyad_ij q p i j) / sqrt 2
  else let '(p, q) := pair_of (m - 6) in (dyad_ij p q i j - dyad_ij q p i j) / sqrt 2.

(** the second- and fourth-order tensors whose Kelvin-Mandel components are stored *)
Definition tens2 (t : t2) : m3 := fun i j =>
  summ (t2_dim t) (fun m => t2_vec t m * basis m i j).
Definition tens4 (d : t4) : a4 := fun i j k l =>
  summ (t4_dim d) (fun m => summ (t4_dim d) (fun n => t4_mat d m n * basis m i j * basis n k l)).

(** equality on the indices 0, 1, 2 *)
Definition eq2 (a b : m3) : Prop := forall i j, (i < 3)%nat -> (j < 3)%nat -> a i j = b i j.
Definition eq4 (a b : a4) : Prop := forall i j k l,
  (i < 3)%nat -> (j < 3)%nat -> (k < 3)%nat -> (l < 3)%nat -> a i j k l = b i j k l.

(** matrix algebra *)
Definition mmul (a b : m3) : m3 := fun i j => sum3 (fun k => a i k * b k j).
Definition mtrans (a : m3) : m3 := fun i j => a j i.
Definition mscale (s : R) (a : m3) : m3 := fun i j => s * a i j.
Definition madd (a b : m3) : m3 := fun i j => a i j + b i j.
Definition msub (a b : m3) : m3 := fun i j => a i j - b i j.
Definition mtrace (a : m3) : R := sum3 (fun i => a i i).
Definition mident : m3 := kron.
Definition mdev (a : m3) : m3 := msub a (mscale (mtrace a / 3) mident).
Definition mddot (a b : m3) : R := sum3 (fun i => sum3 (fun j => a i j * b i j)).
Definition mfrob (a : m3) : R := sqrt (mddot a a).
(** the Levi-Civita symbol and the determinant *)
Definition lc (i j k : nat) : R :=
  match i, j, k with
  | 0%nat, 1%nat, 2%nat | 1%nat, 2%nat, 0%nat | 2%nat, 0%nat, 1%nat => 1
  | 0%nat, 2%nat, 1%nat | 2%nat, 1%nat, 0%nat | 1%nat, 0%nat, 2%nat => -1
  | _, _, _ => 0
  end.
Definition mdet (a : m3) : R :=
  sum3 (fun i => sum3 (fun j => sum3 (fun k => lc i j k * a 0%nat i * a 1%nat j * a 2%nat k))).
(** fourth-order contractions *)
Definition a4_ddot2 (d : a4) (a : m3) : m3 := fun i j => sum3 (fun k => sum3 (fun l => d i j k l * a k l)).
Definition a2_ddot4 (a : m3) (d : a4) : m3 := fun k l => sum3 (fun i => sum3 (fun j => a i j * d i j k l)).
Definition a4_ddot4 (c d : a4) : a4 := fun i j k l =>
  sum3 (fun p => sum3 (fun q => c i j p q * d p q k l)).
Definition a4_inner (c d : a4) : R :=
  sum3 (fun i => sum3 (fun j => sum3 (fun k => sum3 (fun l => c i j k l * d i j k l)))).

(** what a representation can hold *)
Definition admissible2 (r : rep) (a : m3) : Prop :=
  match r with
  | General => True
  | Symmetric => eq2 (mtrans a) a
  | Symmetric2D => eq2 (mtrans a) a /\ a 0%nat 2%nat = 0 /\ a 1%nat 2%nat = 0
  end.
Definition minor_sym (d : a4) : Prop := forall i j k l,
  (i < 3)%nat -> (j < 3)%nat -> (k < 3)%nat -> (l < 3)%nat ->
  d i j k l = d j i k l /\ d i j k l = d i j l k.
Definition in_plane (i j : nat) : Prop := (i <= 1 /\ j <= 1)%nat \/ (i = 2 /\ j = 2)%nat.
Definition admissible4 (r : rep) (d : a4) : Prop :=
  match r with
  | General => True
  | Symmetric => minor_sym d
  | Symmetric2D => minor_sym d /\ forall i j k l,
      (i < 3)%nat -> (j < 3)%nat -> (k < 3)%nat -> (l < 3)%nat ->
      ~ (in_plane i j /\ in_plane k l) -> d i j k l = 0
  end.
