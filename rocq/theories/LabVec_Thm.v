(** C16 (vector utilities), C17 (unrolled kernels). *)
From Verif Require Import Base RBase LabVec_Model Dense_Thm.

Lemma nth_map_seq {A} (f : nat -> A) n i d : i < n -> nth i (map f (seq 0 n)) d = f i.
Proof.
  intros H. rewrite nth_indep with (d' := f 0) by (rewrite map_length, seq_length; auto).
  rewrite (map_nth f), seq_nth by auto. reflexivity.
Qed.

Lemma list_is_map {A} (l : list A) (f : nat -> A) n d :
  length l = n -> (forall i, i < n -> nth i l d = f i) -> l = map f (seq 0 n).
Proof.
  intros HL H. apply (nth_ext_d _ _ d); [now rewrite map_length, seq_length|].
  intros i Hi. rewrite nth_map_seq by lia. apply H. lia.
Qed.

(** ** C16 *)
Section C16.
Variable T : Type.
Variables zero : T.
Variables add sub mul div : T -> T -> T.

(** split2 for every split point: the two parts concatenate to the vector; join2 restores it *)
Theorem C16_split_join : forall (x u v : list T),
  length u + length v = length x ->
  exists u' v', v_split2 T x u v = Ok (u', v') /\ x = u' ++ v' /\ length u' = length u /\ length v' = length v /\
    forall y, length y = length x -> v_join2 T y u' v' = Ok x.
Proof.
  intros x u v H. unfold v_split2. rewrite H, Nat.eqb_refl. cbn [assert_ bind].
  unfold copy_from_slice. rewrite firstn_length, skipn_length.
  replace (length u =? Nat.min (length u) (length x)) with true by (symmetry; apply Nat.eqb_eq; lia).
  replace (length v =? length x - length u) with true by (symmetry; apply Nat.eqb_eq; lia). cbn [bind].
  do 2 eexists. split; [reflexivity|]. split; [now rewrite firstn_skipn|].
  rewrite firstn_length, skipn_length. split; [lia|]. split; [lia|].
  intros y Hy. unfold v_join2. rewrite firstn_length, skipn_length.
  replace (Nat.min (length u) (length x)) with (length u) by lia.
  replace (length u + (length x - length u) =? length y) with true by (symmetry; apply Nat.eqb_eq; lia).
  cbn [assert_ bind]. unfold copy_from_slice. rewrite !firstn_length.
  replace (Nat.min (length u) (length y) =? Nat.min (length u) (length x)) with true by (symmetry; apply Nat.eqb_eq; lia).
  cbn [bind].
  assert (L : length (firstn (length u) x) = length u) by (rewrite firstn_length; lia).
  rewrite skipn_app, L, Nat.sub_diag. rewrite (skipn_all2 (firstn (length u) x)) by lia. cbn [app skipn].
  rewrite !skipn_length.
  replace (length y - length u =? length x - length u) with true by (symmetry; apply Nat.eqb_eq; lia). cbn [bind].
  rewrite firstn_app, L, Nat.sub_diag. cbn [firstn]. rewrite app_nil_r.
  rewrite firstn_firstn, Nat.min_id. now rewrite firstn_skipn.
Qed.

Theorem C16_join_split : forall (x u v : list T),
  length u + length v = length x ->
  v_join2 T x u v = Ok (u ++ v) /\
  forall u0 v0, length u0 = length u -> length v0 = length v -> v_split2 T (u ++ v) u0 v0 = Ok (u, v).
Proof.
  intros x u v H. split.
  - destruct (C16_split_join (u ++ v) u v) as (u' & v' & _ & E & HL & _ & HJ); [now rewrite app_length|].
    assert (u' = u /\ v' = v) as [-> ->].
    { apply app_eq_app in E. destruct E as (l & [[E1 E2]|[E1 E2]]); subst; rewrite app_length in HL;
        (assert (length l = 0) by lia); destruct l; try discriminate; rewrite ?app_nil_r in *; cbn in *; auto. }
    apply HJ. rewrite app_length. lia.
  - intros u0 v0 Hu Hv. unfold v_split2. rewrite Hu, Hv, app_length, Nat.eqb_refl. cbn [assert_ bind].
    unfold copy_from_slice. rewrite firstn_app, skipn_app, Nat.sub_diag, firstn_all, skipn_all.
    cbn [firstn skipn app]. rewrite app_nil_r, Hu, Hv, !Nat.eqb_refl. reflexivity.
Qed.

Theorem C16_split_join_mismatch : forall (x u v : list T),
  length u + length v <> length x -> v_split2 T x u v = Panic /\ v_join2 T x u v = Panic.
Proof.
  intros x u v H. unfold v_split2, v_join2.
  destruct (Nat.eqb_spec (length u + length v) (length x)); [lia|]. auto.
Qed.

(** differences undo cumulative sums and conversely (in any group) *)
Theorem C16_differences_of_cumulative : forall (x : list T) (s : T),
  (forall a b, sub (add a b) a = b) ->
  v_differences T sub (v_cumulative_sum T zero add x (Some s)) = x.
Proof.
  intros x s L. cbn [v_cumulative_sum]. revert s. induction x as [|d x IH]; intros s; cbn; auto.
  rewrite L. f_equal. apply IH.
Qed.

Theorem C16_cumulative_of_differences : forall (x : list T) (s : T),
  (forall a b, add a (sub b a) = b) -> x <> [] -> nth 0 x zero = s ->
  v_cumulative_sum T zero add (v_differences T sub x) (Some s) = x.
Proof.
  intros x s L. cbn [v_cumulative_sum]. revert s. induction x as [|a x IH]; intros s HN HS; [congruence|].
  cbn in HS. subst s. destruct x as [|b x]; cbn [v_differences v_scan]; auto.
  rewrite L. f_equal. apply (IH b); [discriminate|reflexivity].
Qed.

(** the k-th cumulative sum is the left-to-right sum of the first k+1 values *)
Theorem C16_cumulative_value : forall (x : list T) k, k < length x ->
  nth k (v_cumulative_sum T zero add x None) zero = fold_left add (firstn (S k) x) zero.
Proof.
  intros x k. cbn [v_cumulative_sum].
  enough (H : forall (x : list T) k s, k < length x ->
            nth k (v_scan T add s x) zero = fold_left add (firstn (S k) x) s) by apply H.
  clear x k. induction x as [|d x IH]; intros k s Hk; cbn [length] in Hk; [lia|].
  destruct k as [|k]; [reflexivity|]. cbn [v_scan nth]. rewrite IH by lia. reflexivity.
Qed.

Theorem C16_lengths : forall (x : list T) s,
  length (v_differences T sub x) = length x - 1 /\
  length (v_cumulative_sum T zero add x (Some s)) = length x + 1 /\
  length (v_cumulative_sum T zero add x None) = length x.
Proof.
  assert (H : forall (x : list T) s, length (v_scan T add s x) = length x).
  { induction x; intros; cbn; auto. }
  intros x s. splits; cbn [v_cumulative_sum length]; rewrite ?H; try lia.
  clear H. induction x as [|a x IH]; auto. destruct x as [|b x]; auto. cbn [v_differences length] in *. lia.
Qed.

(** elementwise operations *)
Theorem C16_elementwise : forall (x : list T) alpha n f,
  v_scale T mul x alpha = Ok (map (fun a => mul a alpha) x) /\
  length (v_initialized T n f) = n /\ (forall i, i < n -> nth i (v_initialized T n f) zero = f i) /\
  (forall i v, i < n -> nth i (v_filled T n v) zero = v).
Proof.
  intros x alpha n f. splits.
  - unfold v_scale.
    destruct (for_range_inv (fun k y => length y = length x /\
       (forall i, i < k -> nth i y zero = mul (nth i x zero) alpha) /\
       (forall i, k <= i -> nth i y zero = nth i x zero))
      (fun i y => a <- vget y i ;; vset y i (mul a alpha)) 0 (length x) x) as (y & E & HL & H1 & _).
    + lia.
    + splits; auto. intros; lia.
    + intros i y Hi (HL & H1 & H2). rewrite (vget_ok _ _ zero) by lia. cbn [bind].
      rewrite vset_ok by lia. eexists. split; [reflexivity|]. rewrite upd_length. splits; auto.
      * intros j Hj. rewrite nth_upd by lia. destruct (Nat.eqb_spec j i).
        -- subst. now rewrite H2 by lia.
        -- apply H1. lia.
      * intros j Hj. rewrite nth_upd by lia. destruct (Nat.eqb_spec j i); [lia|]. apply H2. lia.
    + rewrite E. f_equal. apply (nth_ext_d _ _ (mul zero alpha)).
      * now rewrite map_length.
      * intros i Hi. rewrite (map_nth (fun a => mul a alpha)).
        rewrite nth_indep with (d' := zero) by lia. apply H1. lia.
  - unfold v_initialized. now rewrite map_length, seq_length.
  - intros i Hi. now apply nth_map_seq.
  - intros i v Hi. now apply nth_repeat_lt.
Qed.

(** linspace and mapped_linspace, element by element (no law on numbers) *)
Theorem C16_mapped_linspace_values : forall (cast : nat -> res T) (c : nat -> T),
  (forall i, cast i = Ok (c i)) ->
  forall start stop count f,
  v_mapped_linspace T zero add sub mul div cast start stop count f =
  Ok (map (fun i => f (if i =? 0 then start else if count =? 2 then stop
                       else add start (mul (c i) (div (sub stop start) (c (count - 1)))))) (seq 0 count)).
Proof.
  intros cast c HC start stop count f. unfold v_mapped_linspace.
  destruct (Nat.eqb_spec count 0); [subst; reflexivity|].
  unfold v_new. rewrite vset_ok by (rewrite repeat_length; lia). cbn [bind].
  destruct (Nat.eqb_spec count 1); [subst; reflexivity|].
  rewrite vset_ok by (rewrite upd_length, repeat_length; lia). cbn [bind].
  destruct (Nat.eqb_spec count 2); [subst; reflexivity|].
  rewrite HC. cbn [bind]. set (step := div (sub stop start) (c (count - 1))).
  set (r0 := upd (upd (repeat zero count) 0 (f start)) (count - 1) (f stop)).
  assert (L0 : length r0 = count) by (unfold r0; now rewrite !upd_length, repeat_length).
  destruct (fill1 zero 1 count (fun i => i) (fun i => f (add start (mul (c i) step)))
     (fun i r => p <- cast i ;; vset r i (f (add start (mul p step)))) r0) as (r & E & HL & H1 & H2).
  - lia.
  - intros. lia.
  - auto.
  - intros j d Hj _. rewrite HC. reflexivity.
  - rewrite E. f_equal. apply (list_is_map _ _ _ zero); [lia|].
    intros i Hi. destruct (Nat.eqb_spec i 0) as [->|].
    + rewrite H2 by (intros; lia). unfold r0. rewrite nth_upd_ne by lia.
      rewrite nth_upd_eq by (rewrite repeat_length; lia). reflexivity.
    + apply H1. lia.
Qed.
End C16.

(** exact arithmetic: requested count, both ends, constant step *)
Theorem C16_linspace_R : forall start stop count,
  exists r, v_linspace R 0%R Rplus Rminus Rmult Rdiv (fun n => Ok (INR n)) start stop count = Ok r /\
  length r = count /\
  (1 <= count -> nth 0 r 0%R = start) /\
  (2 <= count -> nth (count - 1) r 0%R = stop) /\
  (forall i, i + 1 < count -> (nth (i + 1) r 0 - nth i r 0 = (stop - start) / INR (count - 1))%R).
Proof.
  intros start stop count. unfold v_linspace.
  rewrite (C16_mapped_linspace_values _ _ _ _ _ _ _ INR) by reflexivity.
  eexists. split; [reflexivity|]. split; [now rewrite map_length, seq_length|].
  assert (V : forall i, i < count -> 2 <= count ->
    nth i (map (fun i => if i =? 0 then start else if count =? 2 then stop
                       else (start + INR i * ((stop - start) / INR (count - 1)))%R) (seq 0 count)) 0%R
    = (start + INR i * ((stop - start) / INR (count - 1)))%R).
  { intros i Hi Hc. rewrite nth_map_seq by auto.
    destruct (Nat.eqb_spec i 0) as [->|]; [cbn [INR]; lra|].
    destruct (Nat.eqb_spec count 2) as [->|]; [|reflexivity].
    assert (i = 1) as -> by lia. cbn. lra. }
  splits.
  - intros H. rewrite nth_map_seq by lia. reflexivity.
  - intros H. rewrite V by lia. assert (INR (count - 1) <> 0)%R by (apply not_0_INR; lia). field. auto.
  - intros i Hi. rewrite !V by lia. rewrite plus_INR. cbn [INR]. lra.
Qed.

(** finding: for integer vectors the last element is not `stop` when the step is rounded *)
Theorem C16_linspace_integer_refuted :
  ~ (forall start stop count r, 2 <= count ->
      v_linspace Z 0%Z Z.add Z.sub Z.mul Z.quot (fun n => Ok (Z.of_nat n)) start stop count = Ok r ->
      nth (count - 1) r 0%Z = stop).
Proof.
  intros H. specialize (H 0%Z 10%Z 4 [0; 3; 6; 9]%Z ltac:(lia) eq_refl). cbn in H. discriminate.
Qed.

Example C16_ex_diff :
  v_differences Z Z.sub (v_cumulative_sum Z 0%Z Z.add [3; -1; 4]%Z (Some 10%Z)) = [3; -1; 4]%Z /\
  v_cumulative_sum Z 0%Z Z.add [3; -1; 4]%Z (Some 10%Z) = [10; 13; 12; 16]%Z /\
  (forall a b, a + b - a = b)%Z /\ (forall a b, a + (b - a) = b)%Z.
Proof. splits; try reflexivity; intros; lia. Qed.

Example C16_ex_split : v_split2 Z [1; 2; 3]%Z [0]%Z [0; 0]%Z = Ok ([1]%Z, [2; 3]%Z).
Proof. reflexivity. Qed.

(** ** C17 *)
Section C17.
Variable T : Type.
Variables zero : T.
Variables add mul : T -> T -> T.

Lemma for_step_blocks (g : nat -> T) (body : nat -> list T -> res (list T)) m n w0 :
  m <= n -> (n - m) mod 4 = 0 -> length w0 = n ->
  (forall i, i < m -> nth i w0 zero = g i) ->
  (forall i w, m <= i -> i + 3 < n -> length w = n ->
     body i w = Ok (upd (upd (upd (upd w i (g i)) (i + 1) (g (i + 1))) (i + 2) (g (i + 2))) (i + 3) (g (i + 3)))) ->
  exists w, for_step m n 4 body w0 = Ok w /\ length w = n /\ forall i, i < n -> nth i w zero = g i.
Proof.
  intros Hm Hmod HL H0 HB. unfold for_step.
  set (q := (n - m) / 4). assert (Q : n = m + q * 4).
  { assert (D := Nat.div_mod (n - m) 4 ltac:(lia)). fold q in D. lia. }
  replace ((n - m + (4 - 1)) / 4) with q.
  2:{ replace (n - m + (4 - 1)) with (3 + q * 4) by lia. rewrite Nat.div_add by lia. reflexivity. }
  destruct (for_range_inv (fun k w => length w = n /\ forall i, i < m + k * 4 -> nth i w zero = g i)
     (fun k => body (m + k * 4)) 0 q w0) as (w & E & W1 & W2).
  - lia.
  - split; auto. intros i Hi. apply H0. lia.
  - intros k w Hk (W1 & W2). rewrite HB by lia. eexists. split; [reflexivity|].
    rewrite !upd_length. split; auto. intros i Hi.
    repeat (rewrite nth_upd by (rewrite ?upd_length; lia)).
    repeat match goal with |- context [Nat.eqb ?a ?b] => destruct (Nat.eqb_spec a b); [f_equal; lia|] end.
    apply W2. lia.
  - exists w. splits; auto. intros i Hi. apply W2. lia.
Qed.

Lemma mod4_rest n : (n - n mod 4) mod 4 = 0 /\ n mod 4 <= n.
Proof.
  assert (D := Nat.div_mod n 4 ltac:(lia)).
  split; [|apply Nat.mod_le; lia].
  replace (n - n mod 4) with (0 + (n / 4) * 4) by lia. now rewrite Nat.mod_add by lia.
Qed.

Definition vec2 (f : T -> T -> T) (u v : list T) : list T := map (fun p => f (fst p) (snd p)) (combine u v).

Lemma vec2_nth f u v i : length u = length v -> i < length u ->
  nth i (vec2 f u v) zero = f (nth i u zero) (nth i v zero).
Proof.
  intros HL Hi. unfold vec2.
  rewrite nth_indep with (d' := f (fst (zero, zero)) (snd (zero, zero))) by (rewrite map_length, combine_length; lia).
  rewrite (map_nth (fun p => f (fst p) (snd p)) (combine u v) (zero, zero)). rewrite combine_nth by auto. reflexivity.
Qed.
Lemma vec2_length f u v : length u = length v -> length (vec2 f u v) = length u.
Proof. intros H. unfold vec2. rewrite map_length, combine_length. lia. Qed.

Lemma put2_ok f u v i w : i < length u -> i < length v -> i < length w ->
  put2 T f u v i w = Ok (upd w i (f (nth i u zero) (nth i v zero))).
Proof.
  intros H1 H2 H3. unfold put2. rewrite (vget_ok _ _ zero), (vget_ok _ _ zero) by auto. cbn [bind].
  now rewrite vset_ok.
Qed.

Lemma blocks4_ok f w u v : length u = length w -> length v = length w ->
  blocks4 T f w u v = Ok (vec2 f u v).
Proof.
  intros Hu Hv. unfold blocks4. set (n := length w). set (m := n mod 4).
  destruct (mod4_rest n) as [M1 M2]. fold m in M1, M2.
  set (g := fun i => f (nth i u zero) (nth i v zero)).
  destruct (fill1 zero 0 m (fun i => i) g (fun i w => put2 T f u v i w) w) as (w1 & E1 & L1 & V1 & _).
  - lia.
  - intros; unfold n in *; lia.
  - auto.
  - intros j d Hj HL. rewrite put2_ok by (unfold n in *; lia). rewrite vset_ok by (unfold n in *; lia). reflexivity.
  - rewrite E1. cbn [bind].
    destruct (for_step_blocks g (fun i w =>
       w <- put2 T f u v (i + 0) w ;; w <- put2 T f u v (i + 1) w ;;
       w <- put2 T f u v (i + 2) w ;; put2 T f u v (i + 3) w) m n w1) as (w2 & E2 & L2 & V2).
    + auto.
    + auto.
    + fold n in L1. auto.
    + intros i Hi. apply V1. lia.
    + intros i w' Hi Hi' HL. rewrite Nat.add_0_r.
      repeat (rewrite put2_ok by (rewrite ?upd_length; unfold n in *; lia); cbn [bind]). reflexivity.
    + rewrite E2. f_equal. apply (nth_ext_d _ _ zero).
      * rewrite vec2_length by lia. unfold n in *. lia.
      * intros i Hi. rewrite vec2_nth by (unfold n in *; lia). apply V2. lia.
Qed.

Ltac dlist l := repeat (destruct l as [|? l]; cbn [length] in *; try lia; try discriminate).

Lemma unrolled_ok f w u v : length u = length w -> length v = length w -> length w <> 0 ->
  unrolled T f w u v = Ok (vec2 f u v).
Proof.
  intros Hu Hv H0. unfold unrolled.
  destruct (length w) as [|[|[|[|[|[|[|[|[|n]]]]]]]]] eqn:E; [lia|..|apply blocks4_ok; lia];
    (repeat (destruct w as [|? w]; cbn [length] in *; try discriminate);
     repeat (destruct u as [|? u]; cbn [length] in *; try discriminate);
     repeat (destruct v as [|? v]; cbn [length] in *; try discriminate)); reflexivity.
Qed.

(** vec_plus / vec_minus / mat_plus / mat_minus, real and complex: every element, every length *)
Theorem C17_array_op : forall (f : T -> T -> T) (w u v : list T),
  (length u = length w -> length v = length w ->
    exists r, array_op T f w u v = Ok r /\ length r = length w /\
      forall i, i < length w -> nth i r zero = f (nth i u zero) (nth i v zero)) /\
  (length u <> length w \/ length v <> length w -> exists e, array_op T f w u v = Err e).
Proof.
  intros f w u v. unfold array_op. split.
  - intros Hu Hv. rewrite Hu, Hv, Nat.eqb_refl. cbn [negb orb].
    destruct (Nat.eqb_spec (length w) 0) as [E|E].
    + exists w. splits; auto. intros; lia.
    + rewrite unrolled_ok by auto. exists (vec2 f u v). splits; auto.
      * rewrite vec2_length; lia.
      * intros i Hi. apply vec2_nth; lia.
  - intros H. destruct (Nat.eqb_spec (length u) (length w)); destruct (Nat.eqb_spec (length v) (length w)); cbn; eauto.
    destruct H; contradiction.
Qed.

(** vec_add / mat_add: w = alpha*u + beta*v on both sides of the BLAS threshold *)
Theorem C17_array_plus_opx : forall (w u v : list T) alpha beta,
  length u = length w -> length v = length w ->
  exists r, array_plus_opx T add mul w alpha u beta v = Ok r /\ length r = length w /\
    forall i, i < length w -> nth i r zero = add (mul alpha (nth i u zero)) (mul beta (nth i v zero)).
Proof.
  intros w u v alpha beta Hu Hv. unfold array_plus_opx. rewrite Hu, Hv, Nat.eqb_refl. cbn [negb orb].
  destruct (Nat.eqb_spec (length w) 0) as [E|E]; [exists w; splits; auto; intros; lia|].
  destruct (Nat.ltb_spec 16 (length w)) as [H16|H16].
  - unfold copy_from_slice. rewrite Hv, Nat.eqb_refl. cbn [bind].
    eexists. split; [reflexivity|]. unfold blas_axpy, blas_scal.
    assert (L : length (combine u (map (fun a => mul beta a) v)) = length w) by (rewrite combine_length, map_length; lia).
    split; [now rewrite map_length|]. intros i Hi.
    rewrite nth_indep with (d' := add (mul alpha (fst (zero, mul beta zero))) (snd (zero, mul beta zero))) by (rewrite map_length; lia).
    rewrite (map_nth (fun p => add (mul alpha (fst p)) (snd p)) _ (zero, mul beta zero)). rewrite combine_nth by (rewrite map_length; lia). cbn [fst snd].
    now rewrite (map_nth (fun a => mul beta a)).
  - rewrite unrolled_ok by auto. eexists. split; [reflexivity|]. split; [rewrite vec2_length; lia|].
    intros i Hi. now rewrite vec2_nth by lia.
Qed.

Theorem C17_copy_scaled : forall (v u : list T) alpha,
  (length u = length v ->
     vec_copy_scaled T mul v alpha u = Ok (map (fun a => mul alpha a) u)) /\
  (length u <> length v -> exists e, vec_copy_scaled T mul v alpha u = Err e).
Proof.
  intros v u alpha. unfold vec_copy_scaled. split; intros H.
  2:{ destruct (Nat.eqb_spec (length u) (length v)); [lia|]. cbn. eauto. }
  rewrite H, Nat.eqb_refl. cbn [negb]. set (n := length v). set (m := n mod 4).
  destruct (mod4_rest n) as [M1 M2]. fold m in M1, M2.
  set (g := fun i => mul alpha (nth i u zero)).
  assert (P : forall i w, i < n -> length w = n -> (a <- vget u i ;; vset w i (mul alpha a)) = Ok (upd w i (g i))).
  { intros i w Hi HL. rewrite (vget_ok _ _ zero) by (unfold n in *; lia). cbn [bind]. now rewrite vset_ok by lia. }
  destruct (fill1 zero 0 m (fun i => i) g (fun i w => a <- vget u i ;; vset w i (mul alpha a)) v) as (w1 & E1 & L1 & V1 & _).
  - lia.
  - intros; unfold n in *; lia.
  - auto.
  - intros j d Hj HL. rewrite P by (unfold n in *; lia). rewrite vset_ok by (unfold n in *; lia). reflexivity.
  - rewrite E1. cbn [bind].
    destruct (for_step_blocks g (fun i v =>
      v <- (a <- vget u i ;; vset v i (mul alpha a)) ;;
      v <- (a <- vget u (i + 1) ;; vset v (i + 1) (mul alpha a)) ;;
      v <- (a <- vget u (i + 2) ;; vset v (i + 2) (mul alpha a)) ;;
      a <- vget u (i + 3) ;; vset v (i + 3) (mul alpha a)) m n w1) as (w2 & E2 & L2 & V2).
    + auto.
    + auto.
    + fold n in L1. auto.
    + intros i Hi. apply V1. lia.
    + intros i w' Hi Hi' HL.
      repeat (rewrite P by (rewrite ?upd_length; unfold n in *; lia); cbn [bind]). reflexivity.
    + rewrite E2. f_equal. apply (nth_ext_d _ _ (mul alpha zero)).
      * rewrite map_length. unfold n in *. lia.
      * intros i Hi. rewrite (map_nth (fun a => mul alpha a)).
        rewrite nth_indep with (d' := zero) by lia. apply V2. lia.
Qed.

Lemma sum_at_ok (u v : list T) k m s : k + m <= length u -> k + m <= length v ->
  sum_at T add mul u v s (seq k m)
  = Ok (fold_left (fun s p => add s (mul (fst p) (snd p))) (combine (firstn m (skipn k u)) (firstn m (skipn k v))) s).
Proof.
  revert k s. induction m as [|m IH]; intros k s Hu Hv; cbn [seq sum_at]; [reflexivity|].
  rewrite (vget_ok _ _ zero), (vget_ok _ _ zero) by lia. cbn [bind]. rewrite IH by lia.
  assert (D : forall l : list T, k < length l -> skipn k l = nth k l zero :: skipn (S k) l).
  { clear. induction k as [|k IH]; intros [|a l] H; cbn [length] in H; try lia; auto. cbn [skipn nth]. now rewrite IH by lia. }
  rewrite (D u), (D v) by lia. reflexivity.
Qed.

(** vec_inner: the sum of products over the common length; the first product is not
    added to zero when fewer than ten terms are summed, hence the law *)
Theorem C17_inner : forall (u v : list T), (forall a, add zero a = a) ->
  vec_inner T zero add mul u v
  = Ok (fold_left (fun s p => add s (mul (fst p) (snd p))) (combine u v) zero).
Proof.
  intros u v L. unfold vec_inner.
  set (n := if length u <? length v then length u else length v).
  assert (Hn : n = Nat.min (length u) (length v)) by (unfold n; destruct (Nat.ltb_spec (length u) (length v)); lia).
  replace (combine u v) with (combine (firstn n u) (firstn n v)).
  2:{ clearbody n. rename Hn into Hm. rename n into m.
      revert u v Hm. induction m as [|m IH]; intros u v Hm.
      - destruct u, v; cbn in *; auto; lia.
      - destruct u, v; cbn in *; try lia. f_equal. apply IH. lia. }
  unfold blas_dot. clearbody n.
  assert (S1 : forall m, n = S m -> sum_products T add mul u v (seq 1 m)
     = Ok (fold_left (fun s p => add s (mul (fst p) (snd p))) (combine (firstn n u) (firstn n v)) zero)).
  { intros m ->. destruct u as [|a u], v as [|b v]; cbn [length] in Hn; try lia.
    unfold sum_products. cbn [vget nth_error bind firstn combine fold_left fst snd].
    rewrite L. apply (sum_at_ok (a :: u) (b :: v) 1 m); cbn [length]; lia. }
  destruct n as [|[|[|[|[|[|[|[|[|[|n]]]]]]]]]]; [reflexivity|..|reflexivity]; apply (S1 _ eq_refl).
Qed.
End C17.

Open Scope R_scope.
(** the maximum absolute difference, with the first index attaining it (0 when all are equal) *)
Theorem C17_max_abs_diff : forall u v : list R,
  let f := vec_max_abs_diff R 0 (fun a b => Rabs (a - b)) (fun a b => Rltb b a) in
  (length u <> length v -> exists e, f u v = Err e) /\
  (length u = length v -> exists k d, f u v = Ok (k, d) /\
     (forall i, (i < length u)%nat -> Rabs (nth i u 0 - nth i v 0) <= d) /\
     ((k < length u)%nat /\ d = Rabs (nth k u 0 - nth k v 0) /\
        (0 < d -> forall i, (i < k)%nat -> Rabs (nth i u 0 - nth i v 0) < d)
      \/ k = 0%nat /\ d = 0 /\ length u = 0%nat) /\
     (d = 0 -> k = 0%nat)).
Proof.
  intros u v f. unfold f, vec_max_abs_diff. split; intros H.
  { destruct (Nat.eqb_spec (length v) (length u)); [congruence|]. cbn. eauto. }
  rewrite H, Nat.eqb_refl. cbn [negb].
  destruct (for_range_inv (fun n '(k, d) =>
     (forall i, (i < n)%nat -> Rabs (nth i u 0 - nth i v 0) <= d) /\
     ((k < n)%nat /\ d = Rabs (nth k u 0 - nth k v 0) /\
        (0 < d -> forall i, (i < k)%nat -> Rabs (nth i u 0 - nth i v 0) < d)
      \/ k = 0%nat /\ d = 0) /\ (d = 0 -> k = 0%nat))
    (fun i '(i_found, best) =>
      a <- vget u i ;; b <- vget v i ;;
      let d := Rabs (a - b) in
      Ok (if Rltb best d then (i, d) else (i_found, best))) 0%nat (length v) (0%nat, 0)) as ([k d] & E & H1 & H2 & H3).
  - lia.
  - splits; auto. intros; lia.
  - intros i [k d] Hi (H1 & H2 & H3).
    rewrite (vget_ok _ _ 0), (vget_ok _ _ 0) by lia. cbn [bind].
    set (x := Rabs (nth i u 0 - nth i v 0)). assert (0 <= x) by apply Rabs_pos.
    destruct (Rltb_spec d x) as [L|L]; eexists; (split; [reflexivity|]); cbn beta iota.
    + splits.
      * intros j Hj. destruct (Nat.eq_dec j i) as [->|]; [apply Rle_refl|].
        apply Rlt_le, Rle_lt_trans with d; auto. apply H1. lia.
      * left. splits; auto. intros _ j Hj. apply Rle_lt_trans with d; auto.
      * intros Q. assert (0 <= d); [|lra].
        destruct H2 as [(_ & -> & _)|(_ & ->)]; [apply Rabs_pos|lra].
    + splits.
      * intros j Hj. destruct (Nat.eq_dec j i) as [->|]; [exact L|]. apply H1. lia.
      * destruct H2 as [(K1 & K2 & K3)|K]; [left|right]; auto.
      * auto.
  - exists k, d. split; [exact E|]. split; [intros; apply H1; lia|]. split; [|exact H3].
    destruct H2 as [(K1 & K2 & K3)|(K1 & K2)].
    + left. splits; auto.
    + destruct (length u) as [|n] eqn:En; [right; auto|]. left. subst. splits; [lia| |intros; lia].
      apply Rle_antisym; [apply Rabs_pos|]. apply H1. lia.
Qed.

Example C17_ex_inner : vec_inner Z 0%Z Z.add Z.mul [1; 2; 3]%Z [4; 5; 6; 7]%Z = Ok 32%Z /\ (forall a, 0 + a = a)%Z.
Proof. split; [reflexivity|intros; lia]. Qed.

Example C17_ex_copy :
  vec_copy_scaled Z Z.mul (repeat 0%Z 7) 2%Z [1; 2; 3; 4; 5; 6; 7]%Z = Ok [2; 4; 6; 8; 10; 12; 14]%Z.
Proof. vm_compute. reflexivity. Qed.

Print Assumptions C16_split_join.
Print Assumptions C16_join_split.
Print Assumptions C16_split_join_mismatch.
Print Assumptions C16_differences_of_cumulative.
Print Assumptions C16_cumulative_of_differences.
Print Assumptions C16_cumulative_value.
Print Assumptions C16_lengths.
Print Assumptions C16_elementwise.
Print Assumptions C16_mapped_linspace_values.
Print Assumptions C16_linspace_R.
Print Assumptions C16_linspace_integer_refuted.
Print Assumptions C17_array_op.
Print Assumptions C17_array_plus_opx.
Print Assumptions C17_copy_scaled.
Print Assumptions C17_inner.
Print Assumptions C17_max_abs_diff.
