(** Theorems about the verification of linear systems (C83) and complex COO matrices made of real ones (C84). *)
From Coq Require Import Reals Lra Lia List Psatz.
From Verif Require Import Base RBase Dense_Model Sparse_Model Sparse_Spec Sparse_Lib Sparse_CooProofs Sparse_Ops Sparse_Ring LinSol_Thm Verify_Model.
Import ListNotations.

(* ------------------------------------------------------------------ *)
(** * C84: complex matrices made of real ones *)
Section Assign.
Local Open Scope nat_scope.
Variable T : Type.
Variables zero one : T.
Variables add mul sub : T -> T -> T.
Variable opp : T -> T.

(** addition of complex numbers *)
Definition padd (a b : T * T) : T * T := (add (fst a) (fst b), add (snd a) (snd b)).
Definition pzero : T * T := (zero, zero).

Lemma cpx_list_ok (a : coo (T * T)) (o : coo T) alpha beta : coo_valid o -> c_nrow o <= c_nrow a -> c_ncol o <= c_ncol a -> c_sym o = c_sym a ->
  Forall (fun t => row_of t < c_nrow a /\ col_of t < c_ncol a /\ in_triangle (c_sym a) (row_of t) (col_of t) = true) (map (cpx_of T mul alpha beta) (coo_triplets o)).
Proof.
  intros Vo H1 H2 H3. rewrite Forall_map. apply Forall_forall. intros [[i j] x] Ht.
  destruct Vo as (_ & _ & _ & _ & _ & _ & _ & _ & H). apply H in Ht. unfold row_of, col_of in *. cbn [fst snd cpx_of] in *. rewrite H3 in Ht. intuition lia.
Qed.

(** what assign_real does in each case: on success the stored triplets are those of the real matrix,
    scaled; a wrong shape or kind is refused without changes; too many entries give an error *)
Theorem C84_assign_cases (a : coo (T * T)) (o : coo T) alpha beta : coo_valid a -> coo_valid o ->
  let '(a', r) := coo_assign_real T mul a alpha beta o in
  coo_valid a' /\ c_nrow a' = c_nrow a /\ c_ncol a' = c_ncol a /\ c_max a' = c_max a /\ c_sym a' = c_sym a /\
  ((r = Ok tt /\ c_nrow o = c_nrow a /\ c_ncol o = c_ncol a /\ c_sym o = c_sym a /\ c_nnz o <= c_max a /\
    coo_triplets a' = map (fun t => (row_of t, col_of t, (mul alpha (val_of t), mul beta (val_of t)))) (coo_triplets o)) \/
   (exists e, r = Err e /\
    ((c_nrow o <> c_nrow a \/ c_ncol o <> c_ncol a \/ c_sym o <> c_sym a) /\ a' = a \/ c_max a < c_nnz o))).
Proof.
  intros Va Vo. unfold coo_assign_real.
  destruct (Nat.eqb_spec (c_nrow o) (c_nrow a)) as [Hr|Hr]; cbn [negb].
  2:{ splits; auto. right. eexists. split; [reflexivity|]. auto. }
  destruct (Nat.eqb_spec (c_ncol o) (c_ncol a)) as [Hc|Hc]; cbn [negb].
  2:{ splits; auto. right. eexists. split; [reflexivity|]. auto. }
  destruct (sym_eqb_spec (c_sym o) (c_sym a)) as [Hs|Hs]; cbn [negb].
  2:{ splits; auto. right. eexists. split; [reflexivity|]. auto. }
  destruct (coo_reset_ok (T * T) a Va) as [Vr Hr0].
  assert (HL : length (map (cpx_of T mul alpha beta) (coo_triplets o)) = c_nnz o) by (rewrite map_length; now apply coo_triplets_length).
  destruct (Nat.le_gt_cases (c_nnz o) (c_max a)) as [Hcap|Hcap].
  - destruct (coo_puts_all _ (coo_reset a) (map (cpx_of T mul alpha beta) (coo_triplets o)) Vr) as (a' & E & V' & Ht & R1 & R2 & R3 & R4).
    + apply cpx_list_ok; cbn [coo_reset c_nrow c_ncol c_sym]; auto; lia.
    + rewrite HL. cbn [coo_reset c_nnz c_max]. lia.
    + rewrite E. rewrite Hr0 in Ht. cbn [app] in Ht. splits; auto. left. splits; auto. rewrite Ht. apply map_ext. intros [[i j] x]. reflexivity.
  - destruct (coo_puts_full _ (coo_reset a) (map (cpx_of T mul alpha beta) (coo_triplets o)) Vr) as (a' & e & E).
    + rewrite HL. cbn [coo_reset c_nnz c_max]. lia.
    + assert (H := coo_puts_ok _ (map (cpx_of T mul alpha beta) (coo_triplets o)) (coo_reset a) Vr). rewrite E in *.
      destruct H as (A & B1 & B2 & B3 & B4 & _). splits; auto. right. eexists. split; [reflexivity|]. auto.
Qed.

Theorem C84_add_cases (a : coo (T * T)) (o : coo T) alpha beta : coo_valid a -> coo_valid o ->
  let '(a', r) := coo_add_real T mul a alpha beta o in
  coo_valid a' /\ c_nrow a' = c_nrow a /\ c_ncol a' = c_ncol a /\ c_max a' = c_max a /\ c_sym a' = c_sym a /\
  ((r = Ok tt /\ c_nrow o <= c_nrow a /\ c_ncol o <= c_ncol a /\ c_sym o = c_sym a /\ c_nnz a + c_nnz o <= c_max a /\
    coo_triplets a' = coo_triplets a ++ map (fun t => (row_of t, col_of t, (mul alpha (val_of t), mul beta (val_of t)))) (coo_triplets o)) \/
   (exists e, r = Err e /\
    ((c_nrow a < c_nrow o \/ c_ncol a < c_ncol o \/ c_sym o <> c_sym a) /\ a' = a \/ c_max a < c_nnz a + c_nnz o))).
Proof.
  intros Va Vo. unfold coo_add_real.
  destruct (Nat.ltb_spec (c_nrow a) (c_nrow o)) as [Hr|Hr].
  { splits; auto. right. eexists. split; [reflexivity|]. auto. }
  destruct (Nat.ltb_spec (c_ncol a) (c_ncol o)) as [Hc|Hc].
  { splits; auto. right. eexists. split; [reflexivity|]. auto. }
  destruct (sym_eqb_spec (c_sym o) (c_sym a)) as [Hs|Hs]; cbn [negb].
  2:{ splits; auto. right. eexists. split; [reflexivity|]. auto. }
  assert (HL : length (map (cpx_of T mul alpha beta) (coo_triplets o)) = c_nnz o) by (rewrite map_length; now apply coo_triplets_length).
  destruct (Nat.le_gt_cases (c_nnz a + c_nnz o) (c_max a)) as [Hcap|Hcap].
  - destruct (coo_puts_all _ a (map (cpx_of T mul alpha beta) (coo_triplets o)) Va) as (a' & E & V' & Ht & R1 & R2 & R3 & R4).
    + apply cpx_list_ok; auto.
    + rewrite HL. lia.
    + rewrite E. splits; auto. left. splits; auto. rewrite Ht. f_equal. apply map_ext. intros [[i j] x]. reflexivity.
  - destruct (coo_puts_full _ a (map (cpx_of T mul alpha beta) (coo_triplets o)) Va) as (a' & e & E).
    + rewrite HL. lia.
    + assert (H := coo_puts_ok _ (map (cpx_of T mul alpha beta) (coo_triplets o)) a Va). rewrite E in *.
      destruct H as (A & B1 & B2 & B3 & B4 & _). splits; auto. right. eexists. split; [reflexivity|]. auto.
Qed.

(** the real or the imaginary part of a triplet *)
Definition part (p : T * T -> T) (t : nat * nat * (T * T)) : nat * nat * T := (row_of t, col_of t, p (val_of t)).
Lemma entry_part (p : T * T -> T) ts i j : p pzero = zero -> (forall x y, p (padd x y) = add (p x) (p y)) ->
  p (entry (T * T) pzero padd ts i j) = entry T zero add (map (part p) ts) i j.
Proof.
  intros H0 H1. unfold entry, vals_at. rewrite <- H0. generalize pzero as z.
  induction ts as [|t ts IH]; intros z; [reflexivity|]. cbn [map filter].
  change (at_pos i j (part p t)) with (at_pos i j t). destruct (at_pos i j t); cbn [map fold_left]; [|apply IH].
  rewrite IH, H1. reflexivity.
Qed.
Lemma expand_part p s ts : expand s (map (part p) ts) = map (part p) (expand s ts).
Proof.
  induction ts as [|[[i j] x] ts IH]; auto. unfold expand in *. cbn [map flat_map]. rewrite map_app, <- IH. f_equal.
  unfold part at 1, row_of, col_of, val_of; cbn [fst snd]. destruct (triangular s && negb (i =? j)); reflexivity.
Qed.

Hypothesis RT : ring_theory zero one add mul sub opp (@eq T).

(** assign_real: the matrix becomes (alpha + beta i) times the real matrix *)
Theorem C84_assign (a : coo (T * T)) (o : coo T) alpha beta : coo_valid a -> coo_valid o ->
  c_nrow o = c_nrow a -> c_ncol o = c_ncol a -> c_sym o = c_sym a -> c_nnz o <= c_max a ->
  exists a' da do, coo_assign_real T mul a alpha beta o = (a', Ok tt) /\ coo_valid a' /\
    coo_as_dense (T * T) pzero padd a' = Ok da /\ coo_as_dense T zero add o = Ok do /\
    c_nrow a' = c_nrow a /\ c_ncol a' = c_ncol a /\ c_sym a' = c_sym a /\
    forall i j, i < c_nrow a -> j < c_ncol a -> dnum (T * T) pzero da i j = (mul alpha (dnum T zero do i j), mul beta (dnum T zero do i j)).
Proof.
  intros Va Vo H1 H2 H3 H4. assert (H := C84_assign_cases a o alpha beta Va Vo).
  destruct (coo_assign_real T mul a alpha beta o) as [a' r].
  destruct H as (V' & B1 & B2 & B3 & B4 & [(-> & _ & _ & _ & _ & Ht)|(e & _ & [(N & _)|N])]).
  - destruct (coo_as_dense_is (T * T) pzero padd a' V') as (da & Ea & Ha). destruct (coo_as_dense_is T zero add o Vo) as (do & Eo & Ho).
    exists a', da, do. splits; auto. intros i j Hi Hj.
    rewrite (dnum_is _ _ _ da _ _ _ i j Ha), (dnum_is _ _ _ do _ _ _ i j Ho) by congruence.
    set (E := entry (T * T) pzero padd (expand (c_sym a') (coo_triplets a')) i j).
    assert (Q1 : fst E = mul alpha (entry T zero add (expand (c_sym o) (coo_triplets o)) i j)).
    { unfold E. rewrite (entry_part fst) by reflexivity. rewrite <- expand_part, Ht, map_map, B4, <- H3.
      rewrite <- (entry_scale T zero one add mul sub opp RT), <- expand_scale. f_equal. }
    assert (Q2 : snd E = mul beta (entry T zero add (expand (c_sym o) (coo_triplets o)) i j)).
    { unfold E. rewrite (entry_part snd) by reflexivity. rewrite <- expand_part, Ht, map_map, B4, <- H3.
      rewrite <- (entry_scale T zero one add mul sub opp RT), <- expand_scale. f_equal. }
    rewrite (surjective_pairing E), Q1, Q2. reflexivity.
  - destruct N as [|[|]]; congruence.
  - lia.
Qed.

(** add_real: (alpha + beta i) times the real matrix is added to the upper left part of the matrix *)
Theorem C84_add (a : coo (T * T)) (o : coo T) alpha beta : coo_valid a -> coo_valid o ->
  c_nrow o <= c_nrow a -> c_ncol o <= c_ncol a -> c_sym o = c_sym a -> c_nnz a + c_nnz o <= c_max a ->
  exists a' d0 d1 do, coo_add_real T mul a alpha beta o = (a', Ok tt) /\ coo_valid a' /\
    coo_as_dense (T * T) pzero padd a = Ok d0 /\ coo_as_dense (T * T) pzero padd a' = Ok d1 /\ coo_as_dense T zero add o = Ok do /\
    c_nrow a' = c_nrow a /\ c_ncol a' = c_ncol a /\ c_sym a' = c_sym a /\
    forall i j, i < c_nrow a -> j < c_ncol a ->
      dnum (T * T) pzero d1 i j = padd (dnum (T * T) pzero d0 i j) (mul alpha (dnum0 T zero do i j), mul beta (dnum0 T zero do i j)).
Proof.
  intros Va Vo H1 H2 H3 H4. assert (H := C84_add_cases a o alpha beta Va Vo).
  destruct (coo_add_real T mul a alpha beta o) as [a' r].
  destruct H as (V' & B1 & B2 & B3 & B4 & [(-> & _ & _ & _ & _ & Ht)|(e & _ & [(N & _)|N])]).
  - destruct (coo_as_dense_is (T * T) pzero padd a Va) as (d0 & E0 & Hd0).
    destruct (coo_as_dense_is (T * T) pzero padd a' V') as (d1 & E1 & Hd1). destruct (coo_as_dense_is T zero add o Vo) as (do & Eo & Ho).
    exists a', d0, d1, do. splits; auto. intros i j Hi Hj.
    rewrite (dnum_is _ _ _ d0 _ _ _ i j Hd0), (dnum_is _ _ _ d1 _ _ _ i j Hd1) by congruence.
    rewrite (dnum0_is _ _ _ do _ _ _ i j Ho) by (apply expand_range; [apply Vo | now apply coo_valid_in_range]).
    set (E := entry (T * T) pzero padd (expand (c_sym a') (coo_triplets a')) i j).
    set (F := entry (T * T) pzero padd (expand (c_sym a) (coo_triplets a)) i j).
    assert (Q1 : fst E = add (fst F) (mul alpha (entry T zero add (expand (c_sym o) (coo_triplets o)) i j))).
    { unfold E, F. rewrite !(entry_part fst) by reflexivity. rewrite <- !expand_part, Ht, map_app, map_map, B4, expand_app, (entry_app T zero one add mul sub opp RT). f_equal.
      rewrite <- H3. rewrite <- (entry_scale T zero one add mul sub opp RT), <- expand_scale. f_equal. }
    assert (Q2 : snd E = add (snd F) (mul beta (entry T zero add (expand (c_sym o) (coo_triplets o)) i j))).
    { unfold E, F. rewrite !(entry_part snd) by reflexivity. rewrite <- !expand_part, Ht, map_app, map_map, B4, expand_app, (entry_app T zero one add mul sub opp RT). f_equal.
      rewrite <- H3. rewrite <- (entry_scale T zero one add mul sub opp RT), <- expand_scale. f_equal. }
    rewrite (surjective_pairing E), Q1, Q2. reflexivity.
  - destruct N as [|[|]]; [lia|lia|congruence].
  - lia.
Qed.
End Assign.

(* ------------------------------------------------------------------ *)
(** * C83: the verification of linear systems *)
Open Scope R_scope.

(** the largest number of a list of non-negative numbers; zero when there is none *)
Definition largest (l : list R) (m : R) : Prop :=
  (forall x, In x l -> x <= m) /\ ((l = [] /\ m = 0) \/ In m l).

Lemma idamax_aux_spec l : forall pre best dmax, (best < length pre)%nat -> dmax = Rabs (nth best pre 0) ->
  (forall x, In x pre -> Rabs x <= dmax) ->
  (idamax_aux (length pre) best dmax l < length (pre ++ l))%nat /\
  forall x, In x (pre ++ l) -> Rabs x <= Rabs (nth (idamax_aux (length pre) best dmax l) (pre ++ l) 0).
Proof.
  induction l as [|y l IH]; intros pre best dmax Hb Hd Hm; cbn [idamax_aux].
  - rewrite app_nil_r. split; auto. intros x I. rewrite <- Hd. auto.
  - replace (pre ++ y :: l) with ((pre ++ [y]) ++ l) by (now rewrite <- app_assoc).
    replace (length pre + 1)%nat with (length (pre ++ [y])) by (rewrite app_length; reflexivity).
    destruct (Rltb_spec dmax (Rabs y)) as [K|K].
    + apply IH; [rewrite app_length; cbn; lia| |].
      * rewrite app_nth2, Nat.sub_diag by lia. reflexivity.
      * intros x I. apply in_app_or in I. destruct I as [I|[<-|[]]]; [|lra]. specialize (Hm x I). lra.
    + apply IH; [rewrite app_length; cbn; lia| |].
      * rewrite app_nth1 by lia. exact Hd.
      * intros x I. apply in_app_or in I. destruct I as [I|[<-|[]]]; [auto|lra].
Qed.
Lemma idamax_spec l : l <> [] -> (idamax l < length l)%nat /\ largest (map Rabs l) (Rabs (nth (idamax l) l 0)).
Proof.
  destruct l as [|x l]; [congruence|]. intros _. unfold idamax.
  destruct (idamax_aux_spec l [x] 0 (Rabs x)) as (A & B); [cbn; lia | reflexivity | intros y [<-|[]]; lra |].
  split; [exact A|]. split.
  - intros y I. apply in_map_iff in I. destruct I as (z & <- & I). apply B. exact I.
  - right. apply in_map. apply nth_In. exact A.
Qed.
Lemma vec_norm_max_ok v : exists m, vec_norm_max v = Ok m /\ largest (map Rabs v) m.
Proof.
  unfold vec_norm_max. destruct v as [|x v]; [exists 0; split; [reflexivity|]; split; [intros ? [] | auto]|].
  cbn [length Nat.eqb]. destruct (idamax_spec (x :: v)) as (A & B); [discriminate|].
  rewrite (vget_ok _ _ 0) by exact A. cbn [bind]. eauto.
Qed.

Lemma cx_norm_pos z : 0 <= cx_norm z.
Proof. apply sqrt_pos. Qed.
Lemma scan_spec l : largest (map cx_norm l) (cx_scan_max l).
Proof.
  unfold cx_scan_max.
  assert (G : forall l m, 0 <= m -> let r := fold_left (fun max z => if Rltb max (cx_norm z) then cx_norm z else max) l m in
    m <= r /\ (forall x, In x (map cx_norm l) -> x <= r) /\ (r = m \/ In r (map cx_norm l))).
  { clear. induction l as [|z l IH]; intros m Hm; cbn [fold_left map]; cbv zeta; [splits; auto; [lra | intros ? []]|].
    destruct (Rltb_spec m (cx_norm z)) as [K|K].
    - destruct (IH (cx_norm z) (cx_norm_pos z)) as (A & B & C). cbv zeta in *. splits; [lra| |].
      + intros x [<-|I]; auto.
      + right. destruct C as [C|C]; [left; congruence | now right].
    - destruct (IH m Hm) as (A & B & C). cbv zeta in *. splits; auto.
      + intros x [<-|I]; auto. lra.
      + destruct C as [C|C]; [now left | right; now right]. }
  destruct (G l 0 (Rle_refl 0)) as (A & B & C). split; auto.
  destruct C as [C|C]; [|auto]. destruct l as [|z l]; [auto|]. right. rewrite C. left.
  apply Rle_antisym; [|apply cx_norm_pos]. rewrite <- C. apply B. now left.
Qed.
Lemma complex_vec_norm_max_spec l : largest (map cx_norm l) (complex_vec_norm_max l).
Proof. unfold complex_vec_norm_max. destruct l as [|z l]; [|apply scan_spec]. cbn. split; [intros ? [] | auto]. Qed.

Lemma values_triplets {T} (c : coo T) : coo_valid c -> coo_values c = map val_of (coo_triplets c).
Proof.
  intros (_ & _ & _ & Hn & Hi & Hj & Hv & _). unfold coo_values, coo_triplets, val_of.
  rewrite <- firstn_map. f_equal.
  assert (G : forall (a : list (nat * nat)) (b : list T), length a = length b -> map snd (combine a b) = b).
  { clear. induction a; intros [|y b] L; cbn in *; try lia; auto. f_equal. apply IHa. lia. }
  rewrite G; auto. rewrite combine_length. lia.
Qed.

Lemma largest_ext n f g m : (forall i, (i < n)%nat -> f i = g i) -> largest (map f (seq 0 n)) m -> largest (map g (seq 0 n)) m.
Proof. intros H. replace (map g (seq 0 n)) with (map f (seq 0 n)); auto. apply map_ext_in. intros i I. apply in_seq in I. apply H. lia. Qed.
Lemma largest_list {T} (z : T) (h : T -> R) (v : list T) n m : length v = n -> largest (map h v) m -> largest (map (fun i => h (nth i v z)) (seq 0 n)) m.
Proof.
  intros <-. replace (map (fun i => h (nth i v z)) (seq 0 (length v))) with (map h v); auto.
  clear. induction v as [|x v IH]; [reflexivity|]. cbn [length seq map]. f_equal. rewrite <- seq_shift, map_map. exact IH.
Qed.
Lemma update_nth {T} (z : T) (add mul : T -> T -> T) v alpha u : length u = length v -> exists w, update add mul v alpha u = Ok w /\ length w = length v /\
  forall i, (i < length v)%nat -> nth i w z = add (nth i v z) (mul alpha (nth i u z)).
Proof.
  intros L. unfold update. rewrite L, Nat.eqb_refl. cbn [negb]. eexists. split; [reflexivity|]. split; [rewrite map_length, combine_length; lia|].
  revert u L. induction v as [|x v IH]; intros [|y u] L i Hi; cbn in L, Hi; try lia. destruct i; cbn; [reflexivity|]. apply IH; lia.
Qed.

(** the product of a matrix and a vector, and the report it deserves: the largest stored value, the largest
    entry of A x, the largest entry of A x - b, all in absolute value, and the error relative to the first *)
Definition times (n : nat) (a : nat -> nat -> R) (x : list R) (i : nat) : R := rsum R 0 Rplus n (fun j => a i j * nth j x 0).
Definition ctimes (n : nat) (a : nat -> nat -> Cx) (x : list Cx) (i : nat) : Cx := rsum Cx cx0 cx_add n (fun j => cx_mul (a i j) (nth j x cx0)).

(** the report on a real system *)
Theorem C83_real c x b : coo_valid c ->
  (length x = c_ncol c -> length b = c_nrow c -> (0 < c_nnz c)%nat ->
   exists v a, verify_from c x b = Ok v /\ coo_as_dense R 0 Rplus c = Ok a /\
     let ax := times (c_ncol c) (dnum R 0 a) x in
     largest (map (fun t => Rabs (val_of t)) (coo_triplets c)) (max_abs_a v) /\
     largest (map (fun i => Rabs (ax i)) (seq 0 (c_nrow c))) (max_abs_ax v) /\
     largest (map (fun i => Rabs (ax i - nth i b 0)) (seq 0 (c_nrow c))) (max_abs_diff v) /\
     relative_error v = max_abs_diff v / (max_abs_a v + 1)) /\
  ((length x <> c_ncol c \/ length b <> c_nrow c \/ c_nnz c = 0%nat) -> exists e, verify_from c x b = Err e).
Proof.
  intros V. assert (LV : length (coo_values c) = c_nnz c) by (rewrite values_triplets, map_length by auto; now apply coo_triplets_length).
  unfold verify_from. rewrite LV. split.
  - intros Lx Lb Hn. rewrite Lx, Lb, !Nat.eqb_refl. cbn [negb]. rewrite (proj2 (Nat.ltb_ge _ _)) by lia.
    destruct (idamax_spec (coo_values c)) as (A1 & A2); [intros Q; rewrite Q in LV; cbn in LV; lia|].
    rewrite (vget_ok _ _ 0) by exact A1. cbn [bind].
    destruct (coo_mat_vec_mul_dense R 0 1 Rplus Rmult Rminus Ropp RTheory c (repeat 0 (c_nrow c)) 1 x V) as (a & ax & Ea & Em & Lax & Hax); [lia|rewrite repeat_length; lia|].
    rewrite Em. cbn [unwrap bind]. rewrite repeat_length in Lax.
    destruct (vec_norm_max_ok ax) as (m1 & E1 & M1). rewrite E1. cbn [bind].
    destruct (update_nth 0 Rplus Rmult ax (-1) b) as (w & Ew & Lw & Hw); [lia|]. rewrite Ew. cbn [unwrap bind].
    destruct (vec_norm_max_ok w) as (m2 & E2 & M2). rewrite E2. cbn [bind].
    eexists _, a. split; [reflexivity|]. split; [exact Ea|]. cbv zeta. cbn [max_abs_a max_abs_ax max_abs_diff relative_error]. splits.
    + rewrite values_triplets in A2 by auto. rewrite map_map in A2. rewrite values_triplets by auto. exact A2.
    + apply (largest_list 0 Rabs ax (c_nrow c)) in M1; [|exact Lax]. revert M1. apply largest_ext. intros i Hi. rewrite Hax by auto. unfold times. f_equal. ring.
    + apply (largest_list 0 Rabs w (c_nrow c)) in M2; [|lia]. revert M2. apply largest_ext. intros i Hi. rewrite Hw by lia. rewrite Hax by auto. unfold times. f_equal. ring.
    + reflexivity.
  - intros [H|[H|H]].
    + destruct (Nat.eqb_spec (length x) (c_ncol c)); [lia|]. cbn. eauto.
    + destruct (Nat.eqb_spec (length x) (c_ncol c)); cbn [negb]; [|eauto]. destruct (Nat.eqb_spec (length b) (c_nrow c)); [lia|]. cbn. eauto.
    + destruct (negb _); [eauto|]. destruct (negb _); [eauto|]. rewrite H. cbn. eauto.
Qed.

Lemma cx_ring : ring_theory cx0 (1, 0) cx_add cx_mul (fun a b => cx_add a (- fst b, - snd b)) (fun a => (- fst a, - snd a)) (@eq Cx).
Proof.
  split; intros; try (destruct x as [a b]); try (destruct y as [c d]); try (destruct z as [e f]); unfold cx_add, cx_mul, cx0; cbn [fst snd]; f_equal; ring.
Qed.

(** the report on a complex system *)
Theorem C83_complex c x b : coo_valid c ->
  (length x = c_ncol c -> length b = c_nrow c -> (0 < c_nnz c)%nat ->
   exists v a, verify_from_complex c x b = Ok v /\ coo_as_dense Cx cx0 cx_add c = Ok a /\
     let ax := ctimes (c_ncol c) (dnum Cx cx0 a) x in
     largest (map (fun t => cx_norm (val_of t)) (coo_triplets c)) (max_abs_a v) /\
     largest (map (fun i => cx_norm (ax i)) (seq 0 (c_nrow c))) (max_abs_ax v) /\
     largest (map (fun i => cx_norm (fst (ax i) - fst (nth i b cx0), snd (ax i) - snd (nth i b cx0))) (seq 0 (c_nrow c))) (max_abs_diff v) /\
     relative_error v = max_abs_diff v / (max_abs_a v + 1)) /\
  ((length x <> c_ncol c \/ length b <> c_nrow c \/ c_nnz c = 0%nat) -> exists e, verify_from_complex c x b = Err e).
Proof.
  intros V. assert (LV : length (coo_values c) = c_nnz c) by (rewrite values_triplets, map_length by auto; now apply coo_triplets_length).
  unfold verify_from_complex. rewrite LV. split.
  - intros Lx Lb Hn. rewrite Lx, Lb, !Nat.eqb_refl. cbn [negb]. rewrite (proj2 (Nat.ltb_ge _ _)) by lia.
    destruct (coo_mat_vec_mul_dense Cx cx0 (1, 0) cx_add cx_mul _ _ cx_ring c (repeat cx0 (c_nrow c)) (1, 0) x V) as (a & ax & Ea & Em & Lax & Hax); [lia|rewrite repeat_length; lia|].
    rewrite Em. cbn [unwrap bind]. rewrite repeat_length in Lax.
    destruct (update_nth cx0 cx_add cx_mul ax (-1, 0) b) as (w & Ew & Lw & Hw); [lia|]. rewrite Ew. cbn [unwrap bind].
    pose proof (complex_vec_norm_max_spec ax) as M1. pose proof (complex_vec_norm_max_spec w) as M2.
    eexists _, a. split; [reflexivity|]. split; [exact Ea|]. cbv zeta. cbn [max_abs_a max_abs_ax max_abs_diff relative_error]. splits.
    + rewrite values_triplets by auto. pose proof (scan_spec (map val_of (coo_triplets c))) as Q. rewrite map_map in Q. exact Q.
    + apply (largest_list cx0 cx_norm ax (c_nrow c)) in M1; [|exact Lax]. revert M1. apply largest_ext. intros i Hi. rewrite Hax by auto. unfold ctimes. f_equal.
      destruct (rsum Cx cx0 cx_add (c_ncol c) _) as [p q]. unfold cx_mul. cbn [fst snd]. f_equal; ring.
    + apply (largest_list cx0 cx_norm w (c_nrow c)) in M2; [|lia]. revert M2. apply largest_ext. intros i Hi. rewrite Hw by lia. rewrite Hax by auto. unfold ctimes. f_equal.
      destruct (rsum Cx cx0 cx_add (c_ncol c) _) as [p q]. unfold cx_add, cx_mul. cbn [fst snd]. f_equal; ring.
    + reflexivity.
  - intros [H|[H|H]].
    + destruct (Nat.eqb_spec (length x) (c_ncol c)); [lia|]. cbn. eauto.
    + destruct (Nat.eqb_spec (length x) (c_ncol c)); cbn [negb]; [|eauto]. destruct (Nat.eqb_spec (length b) (c_nrow c)); [lia|]. cbn. eauto.
    + destruct (negb _); [eauto|]. destruct (negb _); [eauto|]. rewrite H. cbn. eauto.
Qed.

(** a relative error of zero means that x solves the system, and only then *)
Theorem C83_exact c x b v a : coo_valid c -> verify_from c x b = Ok v -> coo_as_dense R 0 Rplus c = Ok a ->
  (relative_error v = 0 <-> forall i, (i < c_nrow c)%nat -> times (c_ncol c) (dnum R 0 a) x i = nth i b 0) /\
  forall tol, relative_error v <= tol -> forall i, (i < c_nrow c)%nat -> Rabs (times (c_ncol c) (dnum R 0 a) x i - nth i b 0) <= tol * (max_abs_a v + 1).
Proof.
  intros V E Ea. destruct (C83_real c x b V) as (H1 & H2).
  destruct (Nat.eq_dec (length x) (c_ncol c)) as [Lx|Lx]; [|destruct H2 as (e & Q); [auto|congruence]].
  destruct (Nat.eq_dec (length b) (c_nrow c)) as [Lb|Lb]; [|destruct H2 as (e & Q); [auto|congruence]].
  destruct (Nat.eq_dec (c_nnz c) 0) as [Ln|Ln]; [destruct H2 as (e & Q); [auto|congruence]|].
  destruct (H1 Lx Lb ltac:(lia)) as (v' & a' & E' & Ea' & (A1 & A2) & _ & (D1 & D2) & HR). clear H1 H2.
  rewrite E in E'. injection E' as <-. rewrite Ea in Ea'. injection Ea' as <-.
  assert (PA : 0 <= max_abs_a v).
  { destruct A2 as [(_ & ->)|I]; [lra|]. apply in_map_iff in I. destruct I as (t & <- & _). apply Rabs_pos. }
  set (d := fun i => times (c_ncol c) (dnum R 0 a) x i - nth i b 0) in *.
  assert (B : forall i, (i < c_nrow c)%nat -> Rabs (d i) <= max_abs_diff v).
  { intros i Hi. apply D1. apply in_map_iff. exists i. split; [reflexivity|]. apply in_seq. lia. }
  split.
  - rewrite HR. split.
    + intros Z i Hi. assert (M : max_abs_diff v = 0).
      { apply (f_equal (fun q => q * (max_abs_a v + 1))) in Z. unfold Rdiv in Z. rewrite Rmult_assoc, Rinv_l, Rmult_0_l in Z by lra. lra. }
      specialize (B i Hi). rewrite M in B. unfold d in B. pose proof (Rabs_pos (times (c_ncol c) (dnum R 0 a) x i - nth i b 0)).
      destruct (Req_dec (times (c_ncol c) (dnum R 0 a) x i - nth i b 0) 0) as [Q|Q]; [lra|]. apply Rabs_pos_lt in Q. lra.
    + intros H. assert (M : max_abs_diff v = 0).
      { destruct D2 as [(_ & Q)|I]; [exact Q|]. apply in_map_iff in I. destruct I as (i & <- & I). apply in_seq in I. unfold d. rewrite H by lia. rewrite Rminus_diag_eq by reflexivity. apply Rabs_R0. }
      rewrite M. unfold Rdiv. ring.
  - intros tol HT i Hi. specialize (B i Hi). fold (d i). rewrite HR in HT.
    apply (Rmult_le_compat_r (max_abs_a v + 1)) in HT; [|lra]. unfold Rdiv in HT. rewrite Rmult_assoc, Rinv_l in HT by lra. lra.
Qed.

(** the worse of two reports is kept *)
Theorem C83_worse v w : (max_relative_error v w = v \/ max_relative_error v w = w) /\
  relative_error v <= relative_error (max_relative_error v w) /\ relative_error w <= relative_error (max_relative_error v w).
Proof. unfold max_relative_error. destruct (Rltb_spec (relative_error v) (relative_error w)); splits; auto; lra. Qed.

Definition two_halves : coo R := mkCoo SymNo 1 1 2 2 [0%nat; 0%nat] [0%nat; 0%nat] [1; 1].
(** the stored values are not the entries of the matrix: with two values at the same position, the
    reported largest entry is not that of the matrix *)
Theorem C83_duplicates_refuted : coo_valid two_halves /\ exists v a, verify_from two_halves [1] [2] = Ok v /\ coo_as_dense R 0 Rplus two_halves = Ok a /\
  dnum R 0 a 0 0 = 2 /\ max_abs_a v = 1.
Proof.
  assert (V : coo_valid two_halves) by (unfold two_halves; coo_check).
  split; [exact V|]. destruct (C83_real two_halves [1] [2] V) as (H & _).
  destruct H as (v & a & E & Ea & A & _); try reflexivity; [cbn; lia|].
  exists v, a. split; [exact E|]. split; [exact Ea|]. split.
  - destruct (coo_as_dense_is R 0 Rplus two_halves V) as (a' & E' & D). rewrite Ea in E'. injection E' as <-.
    rewrite (dnum_is _ _ _ a _ _ _ 0 0 D) by (cbn; lia). unfold entry, vals_at. cbn. ring.
  - cbn [two_halves coo_triplets c_nnz c_ii c_jj c_vv combine firstn map val_of snd] in A. destruct A as (A1 & [(A2 & _)|A2]); [discriminate|].
    cbn in A2. rewrite Rabs_R1 in A2. intuition.
Qed.

(** a diagonal system and an inexact solution *)
Definition diag2 : coo R := mkCoo SymNo 2 2 2 2 [0%nat; 1%nat] [0%nat; 1%nat] [4; -2].
Example C83_example : coo_valid diag2 /\ (forall x b, length x = 2%nat -> length b = 2%nat -> exists v, verify_from diag2 x b = Ok v).
Proof.
  assert (V : coo_valid diag2) by (unfold diag2; coo_check). split; [exact V|].
  intros x b Lx Lb. destruct (C83_real diag2 x b V) as (H & _). destruct H as (v & _ & E & _); auto; [cbn; lia | eauto].
Qed.
(** a real matrix turned into a complex one and added once more *)
Example C84_example :
  let o := mkCoo SymNo 2 2 2 2 [0%nat; 1%nat] [0%nat; 1%nat] [4; 5]%Z in
  let a := mkCoo SymNo 2 2 0 4 (repeat 0%nat 4) (repeat 0%nat 4) (repeat (0, 0)%Z 4) in
  coo_valid o /\ coo_valid a /\
  coo_triplets (fst (coo_add_real Z Z.mul (fst (coo_assign_real Z Z.mul a 2%Z 3%Z o)) 1%Z (-1)%Z o)) =
    [(0%nat, 0%nat, (8, 12)%Z); (1%nat, 1%nat, (10, 15)%Z); (0%nat, 0%nat, (4, -4)%Z); (1%nat, 1%nat, (5, -5)%Z)].
Proof. cbv zeta. splits; [coo_check | coo_check | reflexivity]. Qed.

(** a refused call is not without effect: when the values do not fit, assign_real has already erased
    the matrix and stored the first of them *)
Theorem C84_overflow_refuted :
  let o := mkCoo SymNo 2 2 2 2 [0%nat; 1%nat] [0%nat; 1%nat] [4; 5]%Z in
  let a := mkCoo SymNo 2 2 1 1 [0%nat] [1%nat] [(7, 7)%Z] in
  coo_valid o /\ coo_valid a /\ exists a' e, coo_assign_real Z Z.mul a 2%Z 3%Z o = (a', Err e) /\
    coo_triplets a = [(0%nat, 1%nat, (7, 7)%Z)] /\ coo_triplets a' = [(0%nat, 0%nat, (8, 12)%Z)].
Proof. cbv zeta. splits; [coo_check | coo_check |]. eexists _, _. split; [reflexivity|]. split; reflexivity. Qed.

Print Assumptions C84_overflow_refuted.
Print Assumptions C83_real.
Print Assumptions C83_complex.
Print Assumptions C83_exact.
Print Assumptions C83_worse.
Print Assumptions C83_duplicates_refuted.
Print Assumptions C84_assign_cases.
Print Assumptions C84_add_cases.
Print Assumptions C84_assign.
Print Assumptions C84_add.
