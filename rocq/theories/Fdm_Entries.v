(** Entries of the assembled FDM matrices over the reals, and the equivalence of the
    reduced and the Lagrange systems. *)
From Coq Require Import Sorting.Permutation Sorting.Sorted.
From Verif Require Import Base RBase Dense_Model Sparse_Model Sparse_Spec Sparse_Ring Eqs_Model Eqs_Thm Fdm_Model Fdm_Asm.
Local Open Scope nat_scope.

(** ** finite sums *)
Fixpoint lsum {A} (f : A -> R) (l : list A) : R :=
  match l with [] => 0%R | x :: t => (f x + lsum f t)%R end.
(** f 0 + ... + f (n-1) *)
Definition nsum (n : nat) (f : nat -> R) : R := lsum f (seq 0 n).

Section Sums.
Context {A B : Type}.
Implicit Types (f g : A -> R) (l : list A).
Lemma lsum_app f l l' : lsum f (l ++ l') = (lsum f l + lsum f l')%R.
Proof. induction l as [|x l IH]; cbn [app lsum]; [lra|]. rewrite IH. lra. Qed.
Lemma lsum_ext f g l : (forall x, In x l -> f x = g x) -> lsum f l = lsum g l.
Proof. induction l as [|x l IH]; intros H; cbn [lsum]; auto. rewrite H, IH; auto with datatypes. Qed.
Lemma lsum_zero f l : (forall x, In x l -> f x = 0%R) -> lsum f l = 0%R.
Proof. induction l as [|x l IH]; intros H; cbn [lsum]; auto. rewrite H, IH; auto with datatypes. lra. Qed.
Lemma lsum_add f g l : lsum (fun x => f x + g x)%R l = (lsum f l + lsum g l)%R.
Proof. induction l as [|x l IH]; cbn [lsum]; [lra|]. rewrite IH. lra. Qed.
Lemma lsum_scale a f l : lsum (fun x => a * f x)%R l = (a * lsum f l)%R.
Proof. induction l as [|x l IH]; cbn [lsum]; [lra|]. rewrite IH. lra. Qed.
Lemma lsum_single f l a : NoDup l -> In a l -> (forall x, In x l -> x <> a -> f x = 0%R) -> lsum f l = f a.
Proof.
  induction l as [|x l IH]; intros ND Ha H; [contradiction|]. cbn [lsum]. inversion ND; subst. destruct Ha as [->|Ha].
  - rewrite lsum_zero; [lra|]. intros y Hy. apply H; auto with datatypes. intros ->. contradiction.
  - rewrite IH, H; auto with datatypes; [lra|]. intros ->. contradiction.
Qed.
Lemma lsum_perm f l l' : Permutation l l' -> lsum f l = lsum f l'.
Proof. induction 1; cbn [lsum]; lra. Qed.
End Sums.
Lemma lsum_flat_map {A B} (f : B -> R) (g : A -> list B) l : lsum f (flat_map g l) = lsum (fun a => lsum f (g a)) l.
Proof. induction l as [|x l IH]; cbn [flat_map lsum]; auto. now rewrite lsum_app, IH. Qed.
Lemma lsum_map {A B} (f : B -> R) (g : A -> B) l : lsum f (map g l) = lsum (fun a => f (g a)) l.
Proof. induction l as [|x l IH]; cbn [map lsum]; auto. now rewrite IH. Qed.
Lemma nsum_nth (l : list nat) (f : nat -> R) : lsum f l = nsum (length l) (fun i => f (nth i l 0)).
Proof.
  unfold nsum. rewrite <- (lsum_map f (fun i => nth i l 0)). f_equal.
  apply nth_ext with (d := 0) (d' := 0).
  - now rewrite map_length, seq_length.
  - intros n Hn. rewrite (nth_indep (map _ _) 0 (nth (length l) l 0)) by (rewrite map_length, seq_length; auto).
    rewrite (map_nth (fun i => nth i l 0)). now rewrite seq_nth.
Qed.
Lemma nsum_ext n f g : (forall k, k < n -> f k = g k) -> nsum n f = nsum n g.
Proof. intros H. apply lsum_ext. intros x Hx. apply in_seq in Hx. apply H. lia. Qed.
Lemma nsum_app n k f : nsum (n + k) f = (nsum n f + nsum k (fun i => f (n + i)%nat))%R.
Proof.
  unfold nsum. rewrite seq_app, lsum_app. f_equal. cbn [plus].
  rewrite <- (lsum_map f (fun i => n + i)). f_equal.
  clear. assert (H : forall a, map (fun i => n + i) (seq a k) = seq (n + a) k).
  { induction k as [|k IH]; intros a; cbn; auto. rewrite IH. f_equal. f_equal. lia. }
  rewrite H. f_equal. lia.
Qed.
Lemma rsum_nsum n f : rsum R 0%R Rplus n f = nsum n f.
Proof.
  induction n as [|n IH]; auto. cbn [rsum]. rewrite IH. unfold nsum. rewrite seq_S, lsum_app. cbn. lra.
Qed.

Notation entryR := (entry R 0%R Rplus).

Lemma entry_lsum ts i j : entryR ts i j = lsum (fun t => if at_pos i j t then val_of t else 0%R) ts.
Proof.
  induction ts as [|t ts IH]; [reflexivity|]. cbn [lsum].
  rewrite (entry_cons R 0%R 1%R Rplus Rmult Rminus Ropp RTheory). now rewrite IH.
Qed.

Lemma entry_expand s ts i j :
  entryR (expand s ts) i j = (entryR ts i j + (if triangular s && negb (i =? j) then entryR ts j i else 0))%R.
Proof.
  rewrite !entry_lsum. unfold expand. rewrite lsum_flat_map.
  induction ts as [|[[a b] x] ts IH]; cbn [lsum].
  - destruct (triangular s && negb (i =? j)); lra.
  - rewrite IH. clear IH.
    assert (E : lsum (fun t => if at_pos i j t then val_of t else 0%R)
        (if triangular s && negb (a =? b) then [(a, b, x); (b, a, x)] else [(a, b, x)]) =
      ((if at_pos i j (a, b, x) then x else 0) + (if triangular s && negb (i =? j) then if at_pos j i (a, b, x) then x else 0 else 0))%R).
    { unfold at_pos, val_of, row_of, col_of. destruct (triangular s); cbn [andb lsum fst snd]; [|lra].
      destruct (Nat.eqb_spec a b), (Nat.eqb_spec i j), (Nat.eqb_spec a i), (Nat.eqb_spec b j), (Nat.eqb_spec a j), (Nat.eqb_spec b i);
        cbn [negb andb lsum fst snd];
        rewrite ?(proj2 (Nat.eqb_eq a i)), ?(proj2 (Nat.eqb_eq b j)), ?(proj2 (Nat.eqb_eq a j)), ?(proj2 (Nat.eqb_eq b i)),
          ?(proj2 (Nat.eqb_neq a i)), ?(proj2 (Nat.eqb_neq b j)), ?(proj2 (Nat.eqb_neq a j)), ?(proj2 (Nat.eqb_neq b i)) by auto;
        cbn [andb]; try lra; exfalso; congruence. }
    rewrite E. unfold val_of. cbn [fst snd]. destruct (triangular s && negb (i =? j)); lra.
Qed.

Section Entries.
Variable nb : nat -> list nat.
Variable vv : nat -> nat -> nat -> R.
Variables (h : eqs) (neq : nat) (p : list nat).
Hypothesis D : describes h neq p.
Hypothesis NB : forall m b n, m < neq -> nth_error (nb m) b = Some n -> n < neq.

Notation U i := (nth i (eq_u_sorted h) 0).
Notation P k := (nth k (eq_p_sorted h) 0).

(** total coefficient of node [n] in the row of node [m] *)
Definition coef (m n : nat) : R := lsum (fun '(b, q) => if q =? n then vv m b q else 0%R) (indexed (nb m)).

Lemma entry_items (g : nat * nat * nat -> list (nat * nat * R)) rows i j :
  entryR (flat_map g (items nb rows)) i j =
  lsum (fun m => lsum (fun '(b, n) => entryR (g (m, b, n)) i j) (indexed (nb m))) rows.
Proof.
  rewrite entry_lsum, lsum_flat_map. unfold items. rewrite lsum_flat_map. apply lsum_ext. intros m _.
  rewrite lsum_map. apply lsum_ext. intros [b n] _. now rewrite entry_lsum.
Qed.

Lemma indexed_in l b n : In (b, n) (indexed l) -> nth_error l b = Some n.
Proof.
  intros H. assert (Q : In (0, b, n) (items (fun _ => l) [0])).
  { unfold items. cbn [flat_map]. rewrite app_nil_r. apply in_map_iff. exists (b, n). auto. }
  apply in_items in Q. tauto.
Qed.

Lemma U_nodup : NoDup (eq_u_sorted h). Proof. apply sorted_NoDup. apply D. Qed.
Lemma P_nodup : NoDup (eq_p_sorted h). Proof. apply sorted_NoDup. apply D. Qed.
Lemma U_in i : i < eqs_nu h -> In (U i) (eq_u_sorted h). Proof. intros. now apply nth_In. Qed.
Lemma P_in i : i < eqs_np h -> In (P i) (eq_p_sorted h). Proof. intros. now apply nth_In. Qed.
Lemma U_spec m : In m (eq_u_sorted h) <-> m < neq /\ ~ In m p. Proof. apply D. Qed.
Lemma P_spec m : In m (eq_p_sorted h) <-> m < neq /\ In m p. Proof. apply D. Qed.

Lemma rank_u_eq m i : m < neq -> ~ In m p -> i < eqs_nu h -> (rank_u h m =? i) = (m =? U i).
Proof.
  intros Hm Hp Hi. apply Bool.eq_iff_eq_true. rewrite !Nat.eqb_eq. split.
  - intros <-. destruct (iu_ok h neq p D m Hm Hp) as (_ & _ & N). symmetry. now apply nth_error_nth.
  - intros ->. now apply (rank_u_nth h neq p D).
Qed.
Lemma rank_p_eq m i : m < neq -> In m p -> i < eqs_np h -> (rank_p h m =? i) = (m =? P i).
Proof.
  intros Hm Hp Hi. apply Bool.eq_iff_eq_true. rewrite !Nat.eqb_eq. split.
  - intros <-. destruct (ip_ok h neq p D m Hm Hp) as (_ & _ & N). symmetry. now apply nth_error_nth.
  - intros ->. now apply (rank_p_nth h neq p D).
Qed.

Lemma entry_one t i j : entryR [t] i j = if at_pos i j t then val_of t else 0%R.
Proof. rewrite entry_lsum. cbn [lsum]. lra. Qed.
Lemma entry_nil i j : entryR [] i j = 0%R. Proof. reflexivity. Qed.

Lemma in_triangle_ranks s i j : i < eqs_nu h -> j < eqs_nu h -> in_triangle s (U i) (U j) = in_triangle s i j.
Proof.
  intros Hi Hj. destruct (u_nth h neq p D i Hi) as [A B]. destruct (u_nth h neq p D j Hj) as [A' B'].
  rewrite <- (triangle_rank h neq p D s (U i) (U j)) by auto. now rewrite !(rank_u_nth h neq p D) by auto.
Qed.

Lemma entry_bar s i j : i < eqs_nu h -> j < eqs_nu h ->
  entryR (flat_map (bar_of R vv h p s) (items nb (eq_u_sorted h))) i j =
  if in_triangle s i j then coef (U i) (U j) else 0%R.
Proof.
  intros Hi Hj. rewrite entry_items. destruct (u_nth h neq p D j Hj) as [Aj Bj].
  rewrite (lsum_single _ _ (U i)); auto using U_nodup, U_in.
  - rewrite <- in_triangle_ranks by auto. destruct (u_nth h neq p D i Hi) as [Ai Bi]. unfold coef.
    destruct (in_triangle s (U i) (U j)) eqn:TR.
    + apply lsum_ext. intros [b n] Hb. apply indexed_in in Hb. assert (Hn := NB _ _ _ Ai Hb).
      unfold bar_of, bar_keep. destruct (Nat.eqb_spec n (U j)) as [->|N].
      * replace (contains p (U j)) with false by (symmetry; apply not_true_is_false; rewrite contains_spec; auto).
        rewrite skip_triangle, TR. cbn [negb andb]. rewrite entry_one. unfold at_pos, row_of, col_of, val_of. cbn [fst snd].
        now rewrite !(rank_u_nth h neq p D), !Nat.eqb_refl by auto.
      * destruct (contains p n) eqn:C; cbn [negb andb]; auto. destruct (negb (skip s (U i) n)); auto.
        rewrite entry_one. unfold at_pos, row_of, col_of. cbn [fst snd].
        assert (~ In n p) by (rewrite <- contains_spec; congruence).
        rewrite (rank_u_eq n j) by auto. rewrite (proj2 (Nat.eqb_neq n (U j))) by auto. now rewrite andb_false_r.
    + apply lsum_zero. intros [b n] Hb. apply indexed_in in Hb. assert (Hn := NB _ _ _ Ai Hb).
      unfold bar_of, bar_keep. destruct (contains p n) eqn:C; cbn [negb andb]; auto.
      destruct (skip s (U i) n) eqn:SK; cbn [negb]; auto.
      rewrite entry_one. unfold at_pos, row_of, col_of. cbn [fst snd].
      assert (~ In n p) by (rewrite <- contains_spec; congruence).
      rewrite (rank_u_eq n j) by auto. destruct (Nat.eqb_spec n (U j)) as [->|N]; [|now rewrite andb_false_r].
      rewrite skip_triangle, TR in SK. discriminate.
  - intros m Hm N. apply U_spec in Hm. destruct Hm as [Hm Pm]. apply lsum_zero. intros [b n] Hb.
    unfold bar_of. destruct (bar_keep p s (m, b, n)); auto. rewrite entry_one. unfold at_pos, row_of. cbn [fst snd].
    rewrite (rank_u_eq m i) by auto. now rewrite (proj2 (Nat.eqb_neq m (U i))) by auto.
Qed.

Lemma entry_chk i j : i < eqs_nu h -> j < eqs_np h ->
  entryR (flat_map (chk_of R vv h p) (items nb (eq_u_sorted h))) i j = coef (U i) (P j).
Proof.
  intros Hi Hj. rewrite entry_items. destruct (p_nth h neq p D j Hj) as [Aj Bj].
  rewrite (lsum_single _ _ (U i)); auto using U_nodup, U_in.
  - destruct (u_nth h neq p D i Hi) as [Ai Bi]. unfold coef.
    apply lsum_ext. intros [b n] Hb. apply indexed_in in Hb. assert (Hn := NB _ _ _ Ai Hb).
    unfold chk_of, chk_keep. destruct (Nat.eqb_spec n (P j)) as [->|N].
    + replace (contains p (P j)) with true by (symmetry; rewrite contains_spec; auto).
      rewrite entry_one. unfold at_pos, row_of, col_of, val_of. cbn [fst snd].
      now rewrite (rank_u_nth h neq p D), (rank_p_nth h neq p D), !Nat.eqb_refl by auto.
    + destruct (contains p n) eqn:C; auto. rewrite entry_one. unfold at_pos, row_of, col_of. cbn [fst snd].
      assert (In n p) by (rewrite <- contains_spec; congruence).
      rewrite (rank_p_eq n j) by auto. rewrite (proj2 (Nat.eqb_neq n (P j))) by auto. now rewrite andb_false_r.
  - intros m Hm N. apply U_spec in Hm. destruct Hm as [Hm Pm]. apply lsum_zero. intros [b n] Hb.
    unfold chk_of. destruct (chk_keep p (m, b, n)); auto. rewrite entry_one. unfold at_pos, row_of. cbn [fst snd].
    rewrite (rank_u_eq m i) by auto. now rewrite (proj2 (Nat.eqb_neq m (U i))) by auto.
Qed.

Lemma entry_mm s i j : i < neq -> j < neq ->
  entryR (flat_map (mm_of R vv s) (items nb (seq 0 neq))) i j = if in_triangle s i j then coef i j else 0%R.
Proof.
  intros Hi Hj. rewrite entry_items.
  rewrite (lsum_single _ _ i); [| apply seq_NoDup | apply in_seq; lia |].
  - unfold coef. destruct (in_triangle s i j) eqn:TR.
    + apply lsum_ext. intros [b n] Hb. unfold mm_of, mm_keep. destruct (Nat.eqb_spec n j) as [->|N].
      * rewrite skip_triangle, TR. cbn [negb]. rewrite entry_one. unfold at_pos, row_of, col_of, val_of. cbn [fst snd].
        now rewrite !Nat.eqb_refl.
      * destruct (negb (skip s i n)); auto. rewrite entry_one. unfold at_pos, row_of, col_of. cbn [fst snd].
        rewrite (proj2 (Nat.eqb_neq n j)) by auto. now rewrite andb_false_r.
    + apply lsum_zero. intros [b n] Hb. unfold mm_of, mm_keep. destruct (skip s i n) eqn:SK; cbn [negb]; auto.
      rewrite entry_one. unfold at_pos, row_of, col_of. cbn [fst snd].
      destruct (Nat.eqb_spec n j) as [->|N]; [|now rewrite andb_false_r]. rewrite skip_triangle, TR in SK. discriminate.
  - intros m Hm N. apply lsum_zero. intros [b n] Hb.
    unfold mm_of. destruct (mm_keep s (m, b, n)); auto. rewrite entry_one. unfold at_pos, row_of. cbn [fst snd].
    now rewrite (proj2 (Nat.eqb_neq m i)) by auto.
Qed.

(** outside the first [neq] rows and columns the stencil part contributes nothing *)
Lemma entry_mm_out s i j : neq <= i \/ neq <= j ->
  entryR (flat_map (mm_of R vv s) (items nb (seq 0 neq))) i j = 0%R.
Proof.
  intros O. rewrite entry_items. apply lsum_zero. intros m Hm. apply in_seq in Hm. apply lsum_zero. intros [b n] Hb.
  apply indexed_in in Hb. assert (n < neq) by (apply (NB m b n); auto; lia).
  unfold mm_of. destruct (mm_keep s (m, b, n)); auto. rewrite entry_one. unfold at_pos, row_of, col_of. cbn [fst snd].
  destruct (Nat.eqb_spec m i), (Nat.eqb_spec n j); cbn [andb]; auto; lia.
Qed.

Definition d (a b : nat) : R := if a =? b then 1%R else 0%R.
Lemma d_same a : d a a = 1%R. Proof. unfold d. now rewrite Nat.eqb_refl. Qed.
Lemma d_ne a b : a <> b -> d a b = 0%R. Proof. unfold d. intros. now rewrite (proj2 (Nat.eqb_neq a b)). Qed.

(** the Lagrange part: C below the stencil block, its transpose to the right *)
Definition lag (i j : nat) : R :=
  if (i <? neq) && (neq <=? j) then d i (P (j - neq))
  else if (neq <=? i) && (j <? neq) then d j (P (i - neq)) else 0%R.

Lemma entry_lag_one s m i j : In m (eq_p_sorted h) -> i < neq + eqs_np h -> j < neq + eqs_np h ->
  entryR (lag_of R 1%R h neq s m) i j =
  if in_triangle s i j then
    (if (i <? neq) && (neq <=? j) then d i m * d m (P (j - neq))
     else if (neq <=? i) && (j <? neq) then d j m * d m (P (i - neq)) else 0)%R
  else 0%R.
Proof.
  intros Hm Hi Hj. apply P_spec in Hm. destruct Hm as [Hm Pm].
  assert (E1 : (neq + rank_p h m =? i) && (m =? j) = (neq <=? i) && (j <? neq) && (j =? m) && (m =? P (i - neq))).
  { destruct (Nat.leb_spec neq i); cbn [andb].
    - rewrite <- (rank_p_eq m (i - neq)) by (auto; lia).
      destruct (Nat.eqb_spec (neq + rank_p h m) i), (Nat.eqb_spec (rank_p h m) (i - neq)), (Nat.eqb_spec m j), (Nat.eqb_spec j m), (Nat.ltb_spec j neq);
        cbn [andb]; auto; lia.
    - destruct (Nat.eqb_spec (neq + rank_p h m) i); auto; lia. }
  assert (E2 : (m =? i) && (neq + rank_p h m =? j) = (neq <=? j) && (i <? neq) && (i =? m) && (m =? P (j - neq))).
  { destruct (Nat.leb_spec neq j); cbn [andb].
    - rewrite <- (rank_p_eq m (j - neq)) by (auto; lia).
      destruct (Nat.eqb_spec (neq + rank_p h m) j), (Nat.eqb_spec (rank_p h m) (j - neq)), (Nat.eqb_spec m i), (Nat.eqb_spec i m), (Nat.ltb_spec i neq);
        cbn [andb]; auto; lia.
    - destruct (Nat.eqb_spec (neq + rank_p h m) j); rewrite ?andb_false_r; auto; lia. }
  assert (F1 : (if (neq + rank_p h m =? i) && (m =? j) then 1 else 0)%R =
     (if (neq <=? i) && (j <? neq) then d j m * d m (P (i - neq)) else 0)%R).
  { rewrite E1. unfold d. destruct ((neq <=? i) && (j <? neq)), (j =? m), (m =? P (i - neq)); cbn [andb]; lra. }
  assert (F2 : (if (m =? i) && (neq + rank_p h m =? j) then 1 else 0)%R =
     (if (i <? neq) && (neq <=? j) then d i m * d m (P (j - neq)) else 0)%R).
  { rewrite E2, (andb_comm (neq <=? j)). unfold d. destruct ((i <? neq) && (neq <=? j)), (i =? m), (m =? P (j - neq)); cbn [andb]; lra. }
  unfold lag_of, in_triangle. destruct s; rewrite entry_lsum; cbn [lsum]; unfold at_pos, row_of, col_of, val_of; cbn [fst snd];
    rewrite ?F1, ?F2; clear E1 E2 F1 F2;
    destruct (Nat.ltb_spec i neq), (Nat.leb_spec neq j), (Nat.leb_spec neq i), (Nat.ltb_spec j neq); cbn [andb]; try lra; try (exfalso; lia);
    try (destruct (Nat.leb_spec j i); try lra; exfalso; lia); try (destruct (Nat.leb_spec i j); try lra; exfalso; lia).
Qed.

Lemma entry_lag s i j : i < neq + eqs_np h -> j < neq + eqs_np h ->
  entryR (flat_map (lag_of R 1%R h neq s) (eq_p_sorted h)) i j = if in_triangle s i j then lag i j else 0%R.
Proof.
  intros Hi Hj. rewrite entry_lsum, lsum_flat_map.
  rewrite (lsum_ext _ (fun m => if in_triangle s i j then
    (if (i <? neq) && (neq <=? j) then d i m * d m (P (j - neq))
     else if (neq <=? i) && (j <? neq) then d j m * d m (P (i - neq)) else 0)%R else 0%R)).
  2:{ intros m Hm. rewrite <- entry_lsum. now apply entry_lag_one. }
  destruct (in_triangle s i j); [|now apply lsum_zero]. unfold lag.
  destruct (Nat.ltb_spec i neq), (Nat.leb_spec neq j); cbn [andb];
    [| |destruct (Nat.leb_spec neq i); cbn [andb]; [destruct (Nat.ltb_spec j neq)|]; try (exfalso; lia) |
     destruct (Nat.leb_spec neq i); cbn [andb]; [destruct (Nat.ltb_spec j neq)|]; try (exfalso; lia)]; try (now apply lsum_zero).
  - rewrite (lsum_single _ _ (P (j - neq))); [rewrite d_same; lra | apply P_nodup | apply P_in; lia |].
    intros x _ N. rewrite (d_ne x) by auto. lra.
  - destruct (Nat.leb_spec neq i); [exfalso; lia|]. now apply lsum_zero.
  - rewrite (lsum_single _ _ (P (i - neq))); [rewrite d_same; lra | apply P_nodup | apply P_in; lia |].
    intros x _ N. rewrite (d_ne x) by auto. lra.
Qed.

Lemma lag_sym i j : lag i j = lag j i.
Proof.
  unfold lag. destruct (Nat.ltb_spec i neq), (Nat.leb_spec neq j), (Nat.leb_spec neq i), (Nat.ltb_spec j neq); cbn [andb]; auto; exfalso; lia.
Qed.

Hypothesis SY : forall m n, m < neq -> n < neq -> coef m n = coef n m.

Lemma tri_other s i j : triangular s = true -> i <> j -> in_triangle s j i = negb (in_triangle s i j).
Proof.
  intros T N. destruct s; try discriminate; unfold in_triangle;
    destruct (Nat.leb_spec i j), (Nat.leb_spec j i); auto; lia.
Qed.
Lemma tri_diag s i : in_triangle s i i = true.
Proof. destruct s; cbn; auto; apply Nat.leb_refl. Qed.
Lemma tri_full s i j : triangular s = false -> in_triangle s i j = true.
Proof. destruct s; cbn; auto; discriminate. Qed.

(** a triplet list holding the triangle of a symmetric function stands for the function *)
Lemma expand_sym s ts (F : nat -> nat -> R) i j :
  F i j = F j i ->
  entryR ts i j = (if in_triangle s i j then F i j else 0%R) -> entryR ts j i = (if in_triangle s j i then F j i else 0%R) ->
  entryR (expand s ts) i j = F i j.
Proof.
  intros S E1 E2. rewrite entry_expand, E1. destruct (triangular s) eqn:T; cbn [andb].
  - destruct (Nat.eqb_spec i j) as [->|N]; cbn [negb].
    + rewrite tri_diag. lra.
    + rewrite E2, (tri_other s i j) by auto. rewrite <- S. destruct (in_triangle s i j); cbn [negb]; lra.
  - rewrite tri_full by auto. lra.
Qed.

Lemma entry_bar_full s i j : i < eqs_nu h -> j < eqs_nu h ->
  entryR (expand s (flat_map (bar_of R vv h p s) (items nb (eq_u_sorted h)))) i j = coef (U i) (U j).
Proof.
  intros Hi Hj. apply (expand_sym s _ (fun i j => coef (U i) (U j))); [|now apply entry_bar|now apply entry_bar].
  apply SY; now apply (u_nth h neq p D).
Qed.

(** [[A, C^T], [C, 0]] *)
Definition mmat (i j : nat) : R := if (i <? neq) && (j <? neq) then coef i j else lag i j.

Lemma entry_mm_full s i j : i < neq + eqs_np h -> j < neq + eqs_np h ->
  entryR (expand s (flat_map (mm_of R vv s) (items nb (seq 0 neq)) ++ flat_map (lag_of R 1%R h neq s) (eq_p_sorted h))) i j = mmat i j.
Proof.
  assert (E : forall i j, i < neq + eqs_np h -> j < neq + eqs_np h ->
    entryR (flat_map (mm_of R vv s) (items nb (seq 0 neq)) ++ flat_map (lag_of R 1%R h neq s) (eq_p_sorted h)) i j =
    if in_triangle s i j then mmat i j else 0%R).
  { intros a b Ha Hb. rewrite (entry_app R 0%R 1%R Rplus Rmult Rminus Ropp RTheory), entry_lag by auto.
    unfold mmat. destruct (Nat.ltb_spec a neq); [destruct (Nat.ltb_spec b neq)|]; cbn [andb].
    - rewrite entry_mm by auto. destruct (in_triangle s a b); [|lra]. unfold lag.
      destruct (Nat.leb_spec neq b); [exfalso; lia|]. destruct (Nat.leb_spec neq a); [exfalso; lia|]. rewrite andb_false_r. cbn [andb]. lra.
    - rewrite entry_mm_out by auto. destruct (in_triangle s a b); lra.
    - rewrite entry_mm_out by auto. destruct (in_triangle s a b); lra. }
  intros Hi Hj. apply (expand_sym s _ mmat); [|now apply E|now apply E].
  unfold mmat. rewrite lag_sym. rewrite (andb_comm (j <? neq)).
  destruct (Nat.ltb_spec i neq), (Nat.ltb_spec j neq); cbn [andb]; auto.
Qed.

(** ** equivalence of the two systems *)
Lemma partition_sum (F : nat -> R) : nsum neq F = (nsum (eqs_nu h) (fun i => F (U i)) + nsum (eqs_np h) (fun k => F (P k)))%R.
Proof.
  unfold eqs_nu, eqs_np. rewrite <- !nsum_nth, <- lsum_app. unfold nsum. apply lsum_perm.
  apply NoDup_Permutation.
  - apply seq_NoDup.
  - apply NoDup_app; auto using U_nodup, P_nodup. intros x Hx Hy. apply U_spec in Hx. apply P_spec in Hy. tauto.
  - intros x. rewrite in_app_iff, in_seq, U_spec, P_spec. destruct (in_dec Nat.eq_dec x p); intuition lia.
Qed.

Lemma mm_row_top x r : r < neq ->
  nsum (neq + eqs_np h) (fun c => mmat r c * nth c x 0)%R =
  (nsum neq (fun c => coef r c * nth c x 0) + nsum (eqs_np h) (fun k => d r (P k) * nth (neq + k)%nat x 0))%R.
Proof.
  intros Hr. rewrite nsum_app. f_equal; apply nsum_ext; intros k Hk; unfold mmat.
  - rewrite (proj2 (Nat.ltb_lt r neq)), (proj2 (Nat.ltb_lt k neq)) by auto. reflexivity.
  - rewrite (proj2 (Nat.ltb_lt r neq)), (proj2 (Nat.ltb_ge (neq + k) neq)) by lia. cbn [andb]. unfold lag.
    rewrite (proj2 (Nat.ltb_lt r neq)), (proj2 (Nat.leb_le neq (neq + k))) by lia. cbn [andb].
    replace (neq + k - neq) with k by lia. reflexivity.
Qed.
Lemma mm_row_bottom x k : k < eqs_np h ->
  nsum (neq + eqs_np h) (fun c => mmat (neq + k)%nat c * nth c x 0)%R = nth (P k) x 0%R.
Proof.
  intros Hk. destruct (p_nth h neq p D k Hk) as [Hp _]. rewrite nsum_app.
  replace (nsum (eqs_np h) _) with 0%R.
  2:{ symmetry. apply lsum_zero. intros i _. unfold mmat, lag.
      rewrite (proj2 (Nat.ltb_ge (neq + k) neq)) by lia. cbn [andb].
      rewrite (proj2 (Nat.ltb_ge (neq + i) neq)) by lia. rewrite andb_false_r. lra. }
  rewrite Rplus_0_r. unfold nsum. rewrite (lsum_single _ _ (P k)); [| apply seq_NoDup | apply in_seq; lia |].
  - unfold mmat, lag. rewrite (proj2 (Nat.ltb_ge (neq + k) neq)) by lia. cbn [andb].
    rewrite (proj2 (Nat.leb_le neq (neq + k))), (proj2 (Nat.ltb_lt (P k) neq)) by lia. cbn [andb].
    replace (neq + k - neq) with k by lia. rewrite d_same. lra.
  - intros c Hc N. apply in_seq in Hc. unfold mmat, lag. rewrite (proj2 (Nat.ltb_ge (neq + k) neq)) by lia. cbn [andb].
    rewrite (proj2 (Nat.leb_le neq (neq + k))), (proj2 (Nat.ltb_lt c neq)) by lia. cbn [andb].
    replace (neq + k - neq) with k by lia. rewrite d_ne by auto. lra.
Qed.
End Entries.
