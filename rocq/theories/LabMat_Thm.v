(** C18 (small inverses) and C19 (joint sorting). *)
From Coq Require Import Sorting.Permutation Sorting.Sorted.
From Verif Require Import Base RBase Dense_Model Dense_Proofs LabMat_Model Dense_Thm Inverse_Model LabVec_Thm.

(** ** specification: determinant (Laplace expansion along row 0) and matrix product *)
Open Scope R_scope.

Fixpoint rsum (n : nat) (f : nat -> R) : R :=
  match n with O => 0 | S k => rsum k f + f k end.

(** delete row 0 and column j *)
Definition minor (j : nat) (f : nat -> nat -> R) : nat -> nat -> R :=
  fun r c => f (S r) (if (c <? j)%nat then c else S c).

Fixpoint determinant (n : nat) (f : nat -> nat -> R) : R :=
  match n with
  | O => 1
  | S k => rsum (S k) (fun j => (-1) ^ j * f 0%nat j * determinant k (minor j f))
  end.

Definition mprod (n : nat) (f g : nat -> nat -> R) : nat -> nat -> R :=
  fun i k => rsum n (fun j => f i j * g j k).

Definition delta (i j : nat) : R := if (i =? j)%nat then 1 else 0.

Definition is_inverse (n : nat) (f g : nat -> nat -> R) : Prop :=
  forall i k, (i < n)%nat -> (k < n)%nat -> mprod n f g i k = delta i k /\ mprod n g f i k = delta i k.

Lemma list1 {A} (l : list A) : length l = 1%nat -> exists a, l = [a].
Proof. destruct l as [|a [|]]; cbn; try discriminate. eauto. Qed.
Lemma list4 {A} (l : list A) : length l = 4%nat -> exists a b c d, l = [a; b; c; d].
Proof. do 5 (destruct l as [|? l]; cbn; try discriminate). eauto 10. Qed.
Lemma list9 {A} (l : list A) : length l = 9%nat ->
  exists a b c d e f g h i, l = [a; b; c; d; e; f; g; h; i].
Proof. do 10 (destruct l as [|? l]; cbn; try discriminate). intros _. do 9 eexists. reflexivity. Qed.

Lemma zero_det_pos : 0 < ZERO_DETERMINANT.
Proof. unfold ZERO_DETERMINANT. apply Rinv_0_lt_compat. apply pow_lt. lra. Qed.

Lemma big_nonzero x : ZERO_DETERMINANT < Rabs x -> x <> 0.
Proof. intros H ->. rewrite Rabs_R0 in H. assert (P := zero_det_pos). lra. Qed.

Section C18.
Variable lapack : dmat R -> res (R * dmat R).

(** for sizes 1, 2 and 3: an error exactly when |det| <= 1e-15, otherwise the determinant
    and a two-sided inverse *)
Theorem C18_small_inverse : forall (ai a : dmat R) m f g,
  (1 <= m <= 3)%nat -> is_matrix a m m f -> is_matrix ai m m g ->
  (Rabs (determinant m f) <= / 10 ^ 15 -> exists e, mat_inverse lapack ai a = Err e) /\
  (/ 10 ^ 15 < Rabs (determinant m f) ->
     exists ai' h, mat_inverse lapack ai a = Ok (determinant m f, ai') /\ is_matrix ai' m m h /\ is_inverse m f h).
Proof.
  intros ai a m f g Hm (A1 & A2 & A3 & A4) (B1 & B2 & B3 & B4).
  fold ZERO_DETERMINANT. unfold mat_inverse. rewrite A1, A2, B1, B2, Nat.eqb_refl. cbn [negb orb].
  destruct a as [am an ad], ai as [bm bn bd]. cbn [d_nrow d_ncol d_data] in *. subst am an bm bn.
  assert (D : m = 1%nat \/ m = 2%nat \/ m = 3%nat) by lia. destruct D as [-> | [-> | ->]].
  - destruct (list1 _ A3) as (x & ->), (list1 _ B3) as (y & ->).
    assert (E : x = f 0%nat 0%nat). { specialize (A4 0%nat 0%nat ltac:(lia) ltac:(lia)). cbn in A4. congruence. }
    cbn [d_get d_data d_nrow vget nth_error Nat.add Nat.mul bind].
    assert (ED : determinant 1 f = x) by (subst; cbn; ring). rewrite ED.
    destruct (Rleb_spec (Rabs x) ZERO_DETERMINANT) as [L|L]; split; intros Q; try lra; [eauto|].
    assert (Z := big_nonzero _ L).
    cbn. do 2 eexists. split; [reflexivity|]. split.
    + split; [reflexivity|]. split; [reflexivity|]. split; [reflexivity|].
      instantiate (1 := fun _ _ => 1 / x). intros [|i] [|j] Hi Hj; try lia. reflexivity.
    + intros i k Hi Hk. assert (i = 0%nat) as -> by lia. assert (k = 0%nat) as -> by lia.
      unfold mprod, delta. cbn. rewrite <- E. split; field; auto.
  - destruct (list4 _ A3) as (x00 & x10 & x01 & x11 & ->), (list4 _ B3) as (y0 & y1 & y2 & y3 & ->).
    assert (E : forall i j, (i < 2)%nat -> (j < 2)%nat -> f i j = nth (i + j * 2) [x00; x10; x01; x11] 0).
    { intros i j Hi Hj. specialize (A4 i j Hi Hj). unfold d_get in A4. cbn [d_data d_nrow] in A4.
      apply vget_ok_inv with (d := 0) in A4. symmetry. apply A4. }
    cbn [d_get d_data d_nrow vget nth_error Nat.add Nat.mul bind].
    set (det := x00 * x11 - x01 * x10).
    assert (ED : determinant 2 f = det).
    { unfold det. cbn. unfold minor. cbn. rewrite !E by lia. cbn. ring. }
    rewrite ED.
    destruct (Rleb_spec (Rabs det) ZERO_DETERMINANT) as [L|L]; split; intros Q; try lra; [eauto|].
    assert (Z := big_nonzero _ L).
    cbn. do 2 eexists. split; [reflexivity|]. split.
    + split; [reflexivity|]. split; [reflexivity|]. split; [reflexivity|].
      instantiate (1 := fun i j => nth (i + j * 2) [x11 / det; - x10 / det; - x01 / det; x00 / det] 0).
      intros [|[|i]] [|[|j]] Hi Hj; try lia; reflexivity.
    + intros i k Hi Hk. unfold mprod, delta. cbn [rsum]. rewrite !E by lia.
      destruct i as [|[|i]]; try lia; destruct k as [|[|k]]; try lia; cbn; unfold det in *; split; field; auto.
  - destruct (list9 _ A3) as (x00 & x10 & x20 & x01 & x11 & x21 & x02 & x12 & x22 & ->).
    destruct (list9 _ B3) as (y0 & y1 & y2 & y3 & y4 & y5 & y6 & y7 & y8 & ->).
    assert (E : forall i j, (i < 3)%nat -> (j < 3)%nat ->
      f i j = nth (i + j * 3) [x00; x10; x20; x01; x11; x21; x02; x12; x22] 0).
    { intros i j Hi Hj. specialize (A4 i j Hi Hj). unfold d_get in A4. cbn [d_data d_nrow] in A4.
      apply vget_ok_inv with (d := 0) in A4. symmetry. apply A4. }
    cbn [d_get d_data d_nrow vget nth_error Nat.add Nat.mul bind].
    set (det := x00 * (x11 * x22 - x12 * x21) - x01 * (x10 * x22 - x12 * x20) + x02 * (x10 * x21 - x11 * x20)).
    assert (ED : determinant 3 f = det).
    { unfold det. cbn. unfold minor. cbn. rewrite !E by lia. cbn. ring. }
    rewrite ED.
    destruct (Rleb_spec (Rabs det) ZERO_DETERMINANT) as [L|L]; split; intros Q; try lra; [eauto|].
    assert (Z := big_nonzero _ L).
    cbn. do 2 eexists. split; [reflexivity|]. split.
    + split; [reflexivity|]. split; [reflexivity|]. split; [reflexivity|].
      instantiate (1 := fun i j => nth (i + j * 3)
        [(x11 * x22 - x12 * x21) / det; (x12 * x20 - x10 * x22) / det; (x10 * x21 - x11 * x20) / det;
         (x02 * x21 - x01 * x22) / det; (x00 * x22 - x02 * x20) / det; (x01 * x20 - x00 * x21) / det;
         (x01 * x12 - x02 * x11) / det; (x02 * x10 - x00 * x12) / det; (x00 * x11 - x01 * x10) / det] 0).
      intros [|[|[|i]]] [|[|[|j]]] Hi Hj; try lia; reflexivity.
    + intros i k Hi Hk. unfold mprod, delta. cbn [rsum]. rewrite !E by lia.
      destruct i as [|[|[|i]]]; try lia; destruct k as [|[|[|k]]]; try lia; cbn; unfold det in *; split; field; auto.
Qed.

(** incompatible shapes are refused *)
Theorem C18_shape_errors : forall ai a : dmat R,
  d_nrow a <> d_ncol a \/ d_nrow ai <> d_nrow a \/ d_ncol ai <> d_ncol a ->
  exists e, mat_inverse lapack ai a = Err e.
Proof.
  intros ai a H. unfold mat_inverse.
  destruct (Nat.eqb_spec (d_nrow a) (d_ncol a)); destruct (Nat.eqb_spec (d_nrow ai) (d_nrow a));
    destruct (Nat.eqb_spec (d_ncol ai) (d_ncol a)); cbn [negb orb]; eauto.
  destruct H as [H|[H|H]]; contradiction.
Qed.
End C18.

(** the hypotheses are met by a 2×2 matrix with determinant -2 *)
Example C18_ex : is_matrix (mkD 2 2 [1; 3; 2; 4]) 2 2 (fun i j => nth (i + j * 2) [1; 3; 2; 4] 0) /\
  / 10 ^ 15 < Rabs (determinant 2 (fun i j => nth (i + j * 2) [1; 3; 2; 4] 0)).
Proof.
  split.
  - split; [reflexivity|]. split; [reflexivity|]. split; [reflexivity|].
    intros [|[|i]] [|[|j]] Hi Hj; try lia; reflexivity.
  - replace (determinant 2 _) with (-2) by (cbn; unfold minor; cbn; ring).
    rewrite Rabs_left by lra. apply Rlt_trans with (/ 1).
    + apply Rinv_lt_contravar; [assert (0 < 10 ^ 15) by (apply pow_lt; lra); lra|].
      rewrite <- (pow1 15) at 1. apply Rlt_le_trans with (10 ^ 1); [|apply Rle_pow; [lra|lia]]. rewrite pow1. lra.
    + lra.
Qed.

Close Scope R_scope.

(** ** C19 *)
Section C19.
Variable T : Type.
Variable zero : T.
Variable ge : T -> T -> bool.

(** pair j = (value j, column j) *)
Definition pairs (l : list T) (v : dmat T) : list (T * list T) :=
  map (fun j => (nth j l zero, map (fun i => dval zero v i j) (seq 0 (d_nrow v)))) (seq 0 (length l)).

Lemma svm_find_ok l i n : i < n -> n = length l ->
  exists k, svm_find T ge l i n = Ok (nth k l zero, k) /\ i <= k < n /\
   ((forall a b, ge a b = false -> ge b a = true) -> (forall a b c, ge a b = true -> ge b c = true -> ge a c = true) ->
    forall j, i <= j < n -> ge (nth k l zero) (nth j l zero) = true).
Proof.
  intros Hi Hn. unfold svm_find. rewrite (vget_ok _ _ zero) by lia. cbn [bind].
  destruct (for_range_inv (fun m '(p, k) => p = nth k l zero /\ i <= k < n /\
   ((forall a b, ge a b = false -> ge b a = true) -> (forall a b c, ge a b = true -> ge b c = true -> ge a c = true) ->
    forall j, i <= j < m -> ge p (nth j l zero) = true))
   (fun j '(p, k) => x <- vget l j ;; Ok (if ge x p then (x, j) else (p, k))) i n (nth i l zero, i))
   as ([p k] & E & H1 & H2 & H3).
  - lia.
  - splits; auto. intros. lia.
  - intros j [p k] Hj (H1 & H2 & H3). rewrite (vget_ok _ _ zero) by lia. cbn [bind].
    destruct (ge (nth j l zero) p) eqn:G; eexists; (split; [reflexivity|]); cbn beta iota; splits; auto; try lia.
    + intros T1 T2 j' Hj'. destruct (Nat.eq_dec j' j) as [->|N].
      * destruct (ge (nth j l zero) (nth j l zero)) eqn:R; auto. specialize (T1 _ _ R). congruence.
      * apply (T2 _ p); auto. apply H3; auto. lia.
    + intros T1 T2 j' Hj'. destruct (Nat.eq_dec j' j) as [->|N]; [auto|]. apply H3; auto. lia.
  - subst p. exists k. auto.
Qed.

Lemma svm_swap_ok v i k n : d_wf v -> d_nrow v = n -> d_ncol v = n -> i < n -> k < n -> i <> k ->
  exists v', svm_swap T v i k n = Ok v' /\ d_wf v' /\ d_nrow v' = n /\ d_ncol v' = n /\
   forall r c, r < n -> c < n -> dval zero v' r c = dval zero v r (if c =? i then k else if c =? k then i else c).
Proof.
  intros W Hr Hc Hi Hk Hne. unfold svm_swap.
  destruct (for_range_inv (fun m v' => d_wf v' /\ d_nrow v' = n /\ d_ncol v' = n /\
    forall r c, r < n -> c < n -> dval zero v' r c =
       if r <? m then dval zero v r (if c =? i then k else if c =? k then i else c) else dval zero v r c)
   (fun j v => p <- d_get v j i ;; x <- d_get v j k ;; v <- d_set v j i x ;; d_set v j k p) 0 n v)
   as (v' & E & W' & R' & C' & H').
  - lia.
  - splits; auto.
  - intros j w Hj (Ww & Rw & Cw & Hw).
    rewrite (d_get_val _ zero), (d_get_val _ zero) by (auto; lia). cbn [bind].
    destruct (d_set_spec T zero w j i (dval zero w j k) Ww ltac:(lia) ltac:(lia)) as (w1 & E1 & W1 & R1 & C1 & V1).
    rewrite E1. cbn [bind].
    destruct (d_set_spec T zero w1 j k (dval zero w j i) W1 ltac:(lia) ltac:(lia)) as (w2 & E2 & W2 & R2 & C2 & V2).
    exists w2. splits; auto; try lia. intros r c Hr' Hc'. rewrite V2 by lia. rewrite V1 by lia.
    rewrite !Hw by lia.
    destruct (Nat.ltb_spec j j); [lia|].
    destruct (Nat.eqb_spec r j) as [->|Nr]; cbn [andb].
    + destruct (Nat.ltb_spec j (S j)); [|lia].
      destruct (Nat.eqb_spec c k) as [->|Nk].
      * destruct (Nat.eqb_spec k i); [lia|]. destruct (Nat.ltb_spec j j); [lia|]. reflexivity.
      * destruct (Nat.eqb_spec c i); auto. destruct (Nat.ltb_spec j j); [lia|]. reflexivity.
    + destruct (Nat.ltb_spec r j); destruct (Nat.ltb_spec r (S j)); try lia; reflexivity.
  - exists v'. splits; auto. intros r c Hr' Hc'. rewrite H' by lia.
    destruct (Nat.ltb_spec r n); [reflexivity|lia].
Qed.

(** swapping two positions of a list of pairs is a permutation *)
Lemma swap_perm {A} (f : nat -> A) n i k : i < n -> k < n -> i <> k ->
  Permutation (map (fun c => f (if c =? i then k else if c =? k then i else c)) (seq 0 n)) (map f (seq 0 n)).
Proof.
  intros Hi Hk Hne.
  set (s := fun c => if c =? i then k else if c =? k then i else c).
  rewrite <- (map_map s f). apply Permutation_map.
  apply NoDup_Permutation_bis.
  - apply FinFun.Injective_map_NoDup; [|apply seq_NoDup].
    intros a b. unfold s.
    destruct (Nat.eqb_spec a i); destruct (Nat.eqb_spec b i); destruct (Nat.eqb_spec a k); destruct (Nat.eqb_spec b k); lia.
  - now rewrite map_length.
  - intros x Hx. apply in_map_iff in Hx. destruct Hx as (c & <- & Hc). apply in_seq in Hc. apply in_seq. unfold s.
    destruct (Nat.eqb_spec c i); destruct (Nat.eqb_spec c k); lia.
Qed.

Definition total_preorder : Prop :=
  (forall a b, ge a b = false -> ge b a = true) /\ (forall a b c, ge a b = true -> ge b c = true -> ge a c = true).

(** the pairs are permuted (whatever `>=` does, NaN included); for a total preorder the
    values come out in descending order *)
Theorem C19_sort_vec_mat : forall (l : list T) (v : dmat T) n f,
  1 <= n -> length l = n -> is_matrix v n n f ->
  exists l' v' f', sort_vec_mat T ge l v = Ok (l', v') /\ length l' = n /\ is_matrix v' n n f' /\
    Permutation (map (fun j => (nth j l' zero, map (fun i => f' i j) (seq 0 n))) (seq 0 n))
                (map (fun j => (nth j l zero, map (fun i => f i j) (seq 0 n))) (seq 0 n)) /\
    (total_preorder -> StronglySorted (fun a b => ge a b = true) l').
Proof.
  intros l v n f Hn HL HM. apply (is_matrix_inv T zero) in HM. destruct HM as (W & R & C & HV).
  unfold sort_vec_mat. rewrite R, C, HL, Nat.eqb_refl. cbn [negb]. rewrite usub_ok by lia. cbn [bind].
  set (P0 := map (fun j => (nth j l zero, map (fun i => dval zero v i j) (seq 0 n))) (seq 0 n)).
  destruct (for_range_inv (fun m '(l', v') => length l' = n /\ d_wf v' /\ d_nrow v' = n /\ d_ncol v' = n /\
     Permutation (map (fun j => (nth j l' zero, map (fun i => dval zero v' i j) (seq 0 n))) (seq 0 n)) P0 /\
     (total_preorder -> forall i j, i < j < n -> i < m -> ge (nth i l' zero) (nth j l' zero) = true))
   (fun i '(l, v) =>
      '(p, k) <- svm_find T ge l i n ;;
      if negb (k =? i) then
        li <- vget l i ;; l <- vset l k li ;; l <- vset l i p ;;
        v <- svm_swap T v i k n ;; Ok (l, v)
      else Ok (l, v)) 0 (n - 1) (l, v)) as ([l' v'] & E & L' & W' & R' & C' & P' & S').
  - lia.
  - splits; auto. intros; lia.
  - intros i [l1 v1] Hi (L1 & W1 & R1 & C1 & P1 & S1).
    destruct (svm_find_ok l1 i n ltac:(lia) ltac:(lia)) as (k & E & Hk & HG). rewrite E. cbn [bind].
    destruct (Nat.eqb_spec k i) as [->|Nk]; cbn [negb].
    + eexists. split; [reflexivity|]. cbn beta iota. splits; auto.
      intros TP i' j' Hij Hi'. destruct (Nat.eq_dec i' i) as [->|]; [|apply S1; auto; lia].
      destruct TP as [T1 T2]. apply HG; auto. lia.
    + rewrite (vget_ok _ _ zero) by lia. cbn [bind]. rewrite vset_ok by lia. cbn [bind].
      rewrite vset_ok by (rewrite upd_length; lia). cbn [bind].
      destruct (svm_swap_ok v1 i k n W1 R1 C1 ltac:(lia) ltac:(lia) ltac:(lia)) as (v2 & E2 & W2 & R2 & C2 & V2).
      rewrite E2. cbn [bind]. eexists. split; [reflexivity|]. cbn beta iota.
      set (l2 := upd (upd l1 k (nth i l1 zero)) i (nth k l1 zero)).
      assert (HN : forall c, c < n -> nth c l2 zero = nth (if c =? i then k else if c =? k then i else c) l1 zero).
      { intros c Hc. unfold l2. rewrite nth_upd by (rewrite upd_length; lia). rewrite nth_upd by lia.
        destruct (Nat.eqb_spec c i); auto. destruct (Nat.eqb_spec c k); auto. }
      splits; auto.
      * unfold l2. now rewrite !upd_length.
      * eapply perm_trans; [|exact P1].
        eapply perm_trans; [|apply (swap_perm (fun j => (nth j l1 zero, map (fun i0 => dval zero v1 i0 j) (seq 0 n))) n i k); lia].
        match goal with |- Permutation ?a ?b => replace a with b; [apply Permutation_refl|] end.
        apply map_ext_in. intros c Hc. apply in_seq in Hc. rewrite HN by lia. f_equal.
        apply map_ext_in. intros r Hr. apply in_seq in Hr. now rewrite V2 by lia.
      * intros TP i' j' Hij Hi'. rewrite !HN by lia.
        destruct (Nat.eq_dec i' i) as [->|N].
        -- rewrite Nat.eqb_refl. destruct TP as [T1 T2]. apply HG; auto.
           destruct (Nat.eqb_spec j' i); destruct (Nat.eqb_spec j' k); lia.
        -- destruct (Nat.eqb_spec i' i); [lia|]. destruct (Nat.eqb_spec i' k); [lia|].
           apply S1; auto; [|lia].
           destruct (Nat.eqb_spec j' i); destruct (Nat.eqb_spec j' k); lia.
  - exists l', v', (fun i j => dval zero v' i j). splits; auto.
    + apply (is_matrix_intro T zero); auto.
    + eapply perm_trans; [exact P'|]. unfold P0.
      match goal with |- Permutation ?a ?b => replace a with b; [apply Permutation_refl|] end.
      apply map_ext_in. intros c Hc. apply in_seq in Hc. f_equal.
      apply map_ext_in. intros r Hr. apply in_seq in Hr. now rewrite HV by lia.
    + intros TP. specialize (S' TP).
      assert (Q : forall l s, (forall i j, i < j < length l -> ge (nth i l s) (nth j l s) = true) ->
                StronglySorted (fun a b => ge a b = true) l).
      { clear. induction l as [|a l IH]; intros s H; constructor.
        - apply (IH s). intros i j Hij. apply (H (S i) (S j)). cbn [length]. lia.
        - apply Forall_forall. intros x Hx. destruct (In_nth l x s Hx) as (j & Hj & <-).
          apply (H 0 (S j)). cbn [length]. lia. }
      apply (Q l' zero). intros i j Hij. apply S'; lia.
Qed.

(** finding: an empty input panics (n - 1 underflows) *)
Theorem C19_empty_refuted : sort_vec_mat T ge [] (d_new T zero 0 0) = Panic.
Proof. reflexivity. Qed.

Theorem C19_shape_errors : forall (l : list T) (v : dmat T),
  d_nrow v <> d_ncol v \/ length l <> d_ncol v -> exists e, sort_vec_mat T ge l v = Err e.
Proof.
  intros l v H. unfold sort_vec_mat.
  destruct (Nat.eqb_spec (d_nrow v) (d_ncol v)); destruct (Nat.eqb_spec (length l) (d_ncol v)); cbn; eauto.
  destruct H; contradiction.
Qed.
End C19.

Example C19_ex : total_preorder Z Z.geb /\
  sort_vec_mat Z Z.geb [1; 3; 2]%Z (mkD 3 3 [11; 21; 31; 12; 22; 32; 13; 23; 33]%Z)
  = Ok ([3; 2; 1]%Z, mkD 3 3 [12; 22; 32; 13; 23; 33; 11; 21; 31]%Z).
Proof.
  split; [|vm_compute; reflexivity].
  split; intros; rewrite ?Z.geb_leb, ?Z.leb_le, ?Z.leb_gt in *; lia.
Qed.

Print Assumptions C18_small_inverse.
Print Assumptions C18_shape_errors.
Print Assumptions C19_sort_vec_mat.
Print Assumptions C19_empty_refuted.
Print Assumptions C19_shape_errors.
