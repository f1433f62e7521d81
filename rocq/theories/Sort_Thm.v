(** C13: fixed-size sorts and arg-sorts. *)
From Coq Require Import Floats.SpecFloat Sorting.Permutation Sorting.Sorted.
From Verif Require Import Base Sort_Model.

(** ** fixed-size sorts *)

Definition list2 {T} (x : T * T) : list T := [fst x; snd x].
Definition list3 {T} (x : T * T * T) : list T := let '(a, b, c) := x in [a; b; c].
Definition list4 {T} (x : T * T * T * T) : list T := let '(a, b, c, d) := x in [a; b; c; d].

(** the comparison is a strict total preorder: "not b < a" is transitive and a < b excludes b < a *)
Definition strict_order {T} (lt : T -> T -> bool) : Prop :=
  (forall a b, lt a b = true -> lt b a = false) /\
  (forall a b c, lt b a = false -> lt c b = false -> lt c a = false).

Ltac find_split x r k :=
  match r with
  | x :: ?t => let T := type of x in k (@nil T) t
  | ?y :: ?t => find_split x t ltac:(fun l1 l2 => k (y :: l1) l2)
  end.
(** permutations of explicit lists *)
Ltac perm :=
  lazymatch goal with
  | |- Permutation [] [] => constructor
  | |- Permutation (?x :: _) ?r =>
    find_split x r ltac:(fun l1 l2 => apply (Permutation_cons_app l1 l2 x); cbn [app]; perm)
  end.

(** always a permutation, whatever `<` does (NaN included) *)
Theorem C13_sorts_permute :
  forall (T : Type) (lt : T -> T -> bool),
  (forall x, Permutation (list2 (sort2 T lt x)) (list2 x)) /\
  (forall x, Permutation (list3 (sort3 T lt x)) (list3 x)) /\
  (forall x, Permutation (list4 (sort4 T lt x)) (list4 x)).
Proof.
  intros T lt. split; [|split].
  - intros [a b]. unfold sort2, list2. destruct (lt b a); cbn; perm.
  - intros [[a b] c]. unfold sort3, list3.
    repeat match goal with |- context [lt ?x ?y] => destruct (lt x y) end; perm.
  - intros [[[a b] c] d]. unfold sort4, list4.
    repeat match goal with |- context [lt ?x ?y] => destruct (lt x y) end; perm.
Qed.

(** ascending order for every strict total preorder *)
Theorem C13_sorts_sorted :
  forall (T : Type) (lt : T -> T -> bool),
  strict_order lt ->
  let le a b := lt b a = false in
  (forall x, StronglySorted le (list2 (sort2 T lt x))) /\
  (forall x, StronglySorted le (list3 (sort3 T lt x))) /\
  (forall x, StronglySorted le (list4 (sort4 T lt x))).
Proof.
  intros T lt [H1 H2] le. split; [|split].
  - intros [a b]. unfold sort2, list2. destruct (lt b a) eqn:E; cbn; repeat constructor; auto; apply H1; exact E.
  - intros [[a b] c]. unfold sort3, list3.
    repeat match goal with |- context [lt ?x ?y] => let E := fresh "E" in destruct (lt x y) eqn:E end;
      repeat constructor; unfold le; eauto 6.
  - intros [[[a b] c] d]. unfold sort4, list4.
    repeat match goal with |- context [lt ?x ?y] => let E := fresh "E" in destruct (lt x y) eqn:E end;
      repeat constructor; unfold le; eauto 6.
Qed.

Example C13_ex_order : strict_order Z.ltb /\ sort4 Z Z.ltb (4, 2, 3, 1)%Z = (1, 2, 3, 4)%Z.
Proof.
  split; [|reflexivity]. split; intros; rewrite ?Z.ltb_lt, ?Z.ltb_ge in *; lia.
Qed.

(** ** the total order used for arg-sorting f64 values *)

(** numeric rank of a float: (class, exponent, mantissa), lexicographic *)
Definition fkey (a : spec_float) : Z * Z * Z :=
  match a with
  | S754_infinity true => (-2, 0, 0)
  | S754_finite true m e => (-1, - e, - Zpos m)
  | S754_zero _ => (0, 0, 0)
  | S754_finite false m e => (1, e, Zpos m)
  | S754_infinity false => (2, 0, 0)
  | S754_nan => (3, 0, 0)
  end%Z.

Definition lex3 (a b : Z * Z * Z) : comparison :=
  let '(a1, a2, a3) := a in let '(b1, b2, b3) := b in
  then_with (then_with (a1 ?= b1)%Z (a2 ?= b2)%Z) (a3 ?= b3)%Z.

Lemma compare_f64_key a b : compare_f64 a b = lex3 (fkey a) (fkey b).
Proof.
  assert (N : forall x y, (- x ?= - y)%Z = CompOpp (x ?= y)%Z).
  { intros. destruct (Z.compare_spec (- x) (- y)), (Z.compare_spec x y); auto; lia. }
  destruct a as [[]|[]| |[] m e], b as [[]|[]| |[] m' e']; try reflexivity;
    unfold compare_f64, lex3, fkey; cbn -[Z.compare Z.opp];
    rewrite ?Z.compare_refl; cbn -[Z.compare Z.opp]; rewrite ?N;
    change (Z.pos m ?= Z.pos m')%Z with (Pos.compare_cont Eq m m');
    destruct (e ?= e')%Z; try reflexivity.
Qed.

Lemma lex3_antisym a b : lex3 b a = CompOpp (lex3 a b).
Proof.
  destruct a as [[a1 a2] a3], b as [[b1 b2] b3]. unfold lex3, then_with.
  rewrite (Z.compare_antisym a1 b1), (Z.compare_antisym a2 b2), (Z.compare_antisym a3 b3).
  destruct (a1 ?= b1)%Z, (a2 ?= b2)%Z, (a3 ?= b3)%Z; reflexivity.
Qed.

Lemma lex3_spec a b :
  let '(a1, a2, a3) := a in let '(b1, b2, b3) := b in
  match lex3 a b with
  | Lt => (a1 < b1 \/ a1 = b1 /\ (a2 < b2 \/ a2 = b2 /\ a3 < b3))%Z
  | Eq => a1 = b1 /\ a2 = b2 /\ a3 = b3
  | Gt => (b1 < a1 \/ a1 = b1 /\ (b2 < a2 \/ a2 = b2 /\ b3 < a3))%Z
  end.
Proof.
  destruct a as [[a1 a2] a3], b as [[b1 b2] b3]. unfold lex3, then_with.
  destruct (Z.compare_spec a1 b1), (Z.compare_spec a2 b2), (Z.compare_spec a3 b3); lia.
Qed.

(** a comparison function that is a total preorder *)
Definition good_cmp {A} (cmp : A -> A -> comparison) : Prop :=
  (forall a b, cmp b a = CompOpp (cmp a b)) /\
  (forall a b c, cmp a b <> Gt -> cmp b c <> Gt -> cmp a c <> Gt) /\
  (forall a b c, cmp a b = Lt -> cmp b c <> Gt -> cmp a c = Lt) /\
  (forall a b c, cmp a b <> Gt -> cmp b c = Lt -> cmp a c = Lt) /\
  (forall a b c, cmp a b = Eq -> cmp b c = Eq -> cmp a c = Eq).

Lemma lex3_good : good_cmp lex3.
Proof.
  split; [intros; apply lex3_antisym|].
  splits; intros a b c H1 H2;
    assert (S1 := lex3_spec a b); assert (S2 := lex3_spec b c); assert (S3 := lex3_spec a c);
    destruct a as [[a1 a2] a3], b as [[b1 b2] b3], c as [[c1 c2] c3];
    destruct (lex3 (a1, a2, a3) (b1, b2, b3)); try congruence;
    destruct (lex3 (b1, b2, b3) (c1, c2, c3)); try congruence;
    destruct (lex3 (a1, a2, a3) (c1, c2, c3)); try congruence; exfalso; lia.
Qed.

Lemma good_map {A B} (f : A -> B) cmp : good_cmp cmp -> good_cmp (fun a b => cmp (f a) (f b)).
Proof.
  intros (H1 & H2 & H3 & H4 & H5).
  split; [|split; [|split; [|split]]]; intros a b; [apply H1|..]; intros c; [apply H2|apply H3|apply H4|apply H5].
Qed.

Lemma good_ext {A} (c1 c2 : A -> A -> comparison) : (forall a b, c2 a b = c1 a b) -> good_cmp c1 -> good_cmp c2.
Proof.
  intros E (H1 & H2 & H3 & H4 & H5).
  split; [|split; [|split; [|split]]]; intros a b; rewrite ?E; [apply H1|..]; intros c; rewrite !E;
    [apply H2|apply H3|apply H4|apply H5].
Qed.

Lemma good_then {A} (c1 c2 : A -> A -> comparison) :
  good_cmp c1 -> good_cmp c2 -> good_cmp (fun a b => then_with (c1 a b) (c2 a b)).
Proof.
  intros (H1 & H2 & H3 & H4 & H5) (K1 & K2 & K3 & K4 & K5). unfold then_with.
  split; [intros a b; rewrite H1, K1; destruct (c1 a b); reflexivity|].
  splits; intros a b c.
  1: specialize (K2 a b c). 2: specialize (K3 a b c). 3: specialize (K4 a b c). 4: specialize (K5 a b c).
  all: specialize (H2 a b c); specialize (H3 a b c); specialize (H4 a b c); specialize (H5 a b c);
    destruct (c1 a b), (c1 b c), (c1 a c); intros; try congruence;
    try (exfalso; first [ apply H2; congruence | discriminate (H3 eq_refl ltac:(congruence))
      | discriminate (H4 ltac:(congruence) eq_refl) | discriminate (H5 eq_refl eq_refl) ]); auto.
Qed.

Lemma compare_f64_good : good_cmp compare_f64.
Proof.
  apply (good_ext (fun a b => lex3 (fkey a) (fkey b))); [apply compare_f64_key|].
  apply good_map, lex3_good.
Qed.

(** ** the order is the numeric one on IEEE doubles *)

(** f64 format: 53-bit significand, emax = 1024; every finite double is an integer multiple of 2^-1074 *)
Definition f64_valid (a : spec_float) : Prop := valid_binary 53 1024 a = true.

(** rank of a value: -infinity, then finite values by their exact value (times 2^1074), then +infinity, then NaN *)
Definition frank (a : spec_float) : Z * Z :=
  match a with
  | S754_infinity true => (-1, 0)
  | S754_zero _ => (0, 0)
  | S754_finite s m e => (0, (if s then Zneg m else Zpos m) * 2 ^ (e + 1074))
  | S754_infinity false => (1, 0)
  | S754_nan => (2, 0)
  end%Z.

Definition rank_compare (a b : spec_float) : comparison :=
  match (fst (frank a) ?= fst (frank b))%Z with Eq => (snd (frank a) ?= snd (frank b))%Z | c => c end.

Lemma digits_bound m : (2 ^ (Zpos (digits2_pos m) - 1) <= Zpos m < 2 ^ Zpos (digits2_pos m))%Z.
Proof.
  induction m as [m IH|m IH|]; cbn [digits2_pos]; [| |cbn; lia].
  - rewrite Pos2Z.inj_succ. replace (Z.succ (Zpos (digits2_pos m)) - 1)%Z with (Zpos (digits2_pos m)) by lia.
    rewrite Z.pow_succ_r by lia.
    assert (E : (2 ^ Zpos (digits2_pos m) = 2 * 2 ^ (Zpos (digits2_pos m) - 1))%Z).
    { rewrite <- Z.pow_succ_r by lia. f_equal. lia. }
    lia.
  - rewrite Pos2Z.inj_succ. replace (Z.succ (Zpos (digits2_pos m)) - 1)%Z with (Zpos (digits2_pos m)) by lia.
    rewrite Z.pow_succ_r by lia.
    assert (E : (2 ^ Zpos (digits2_pos m) = 2 * 2 ^ (Zpos (digits2_pos m) - 1))%Z).
    { rewrite <- Z.pow_succ_r by lia. f_equal. lia. }
    lia.
Qed.

Lemma valid_finite s m e : f64_valid (S754_finite s m e) ->
  (-1074 <= e)%Z /\ (Zpos m < 2 ^ 53)%Z /\ (-1074 < e -> 2 ^ 52 <= Zpos m)%Z.
Proof.
  unfold f64_valid, valid_binary, bounded, canonical_mantissa, fexp, emin. intros H.
  apply andb_prop in H. destruct H as [H _]. apply Zeq_bool_eq in H.
  assert (D := digits_bound m). set (d := Zpos (digits2_pos m)) in *.
  clearbody d. assert (H1 := Z.le_max_l (d + e - 53) (3 - 1024 - 53)). assert (H2 := Z.le_max_r (d + e - 53) (3 - 1024 - 53)).
  rewrite H in H1, H2. assert (d <= 53)%Z by (clear - H1; lia). split; [clear - H2; lia|]. split.
  - apply Z.lt_le_trans with (2 ^ d)%Z; [lia|]. apply Z.pow_le_mono_r; lia.
  - intros He. assert (d = 53)%Z by (clear - H He; lia). replace (d - 1)%Z with 52%Z in D by lia. lia.
Qed.

Lemma scaled_lt m e m' e' :
  (-1074 <= e)%Z -> (Zpos m < 2 ^ 53)%Z -> (2 ^ 52 <= Zpos m')%Z -> (e < e')%Z ->
  (Zpos m * 2 ^ (e + 1074) < Zpos m' * 2 ^ (e' + 1074))%Z.
Proof.
  intros H1 H2 H3 H4.
  replace (e' + 1074)%Z with ((e' - e - 1) + (1 + (e + 1074)))%Z by lia.
  rewrite (Z.pow_add_r 2 (e' - e - 1)), (Z.pow_add_r 2 1) by lia. set (k := (2 ^ (e + 1074))%Z).
  assert (0 < k)%Z by (apply Z.pow_pos_nonneg; lia).
  assert (1 <= 2 ^ (e' - e - 1))%Z.
  { assert (0 < 2 ^ (e' - e - 1))%Z by (apply Z.pow_pos_nonneg; lia). lia. }
  apply Z.lt_le_trans with (2 ^ 53 * k)%Z; [apply Z.mul_lt_mono_pos_r; lia|].
  change (2 ^ 53)%Z with (2 ^ 52 * 2)%Z. change (2 ^ 1)%Z with 2%Z.
  replace (Zpos m' * (2 ^ (e' - e - 1) * (2 * k)))%Z with ((Zpos m' * 2 ^ (e' - e - 1)) * (2 * k))%Z by ring.
  replace (2 ^ 52 * 2 * k)%Z with (2 ^ 52 * (2 * k))%Z by ring.
  apply Z.mul_le_mono_nonneg_r; [lia|].
  apply Z.le_trans with (Zpos m' * 1)%Z; [lia|]. apply Z.mul_le_mono_nonneg_l; lia.
Qed.

Lemma scaled_compare s m e s' m' e' :
  f64_valid (S754_finite s m e) -> f64_valid (S754_finite s' m' e') ->
  (Zpos m * 2 ^ (e + 1074) ?= Zpos m' * 2 ^ (e' + 1074))%Z
  = match (e ?= e')%Z with Eq => Pos.compare m m' | c => c end.
Proof.
  intros V V'. apply valid_finite in V. apply valid_finite in V'.
  destruct V as (A & B & C), V' as (A' & B' & C').
  destruct (Z.compare_spec e e') as [E|E|E].
  - subst e'. change (Pos.compare m m') with (Zpos m ?= Zpos m')%Z.
    assert (0 < 2 ^ (e + 1074))%Z by (apply Z.pow_pos_nonneg; lia).
    symmetry. apply Zmult_compare_compat_r. lia.
  - apply Z.compare_lt_iff. apply scaled_lt; auto. apply C'. lia.
  - apply Z.compare_gt_iff. apply scaled_lt; auto. apply C. lia.
Qed.

(** `compare_f64` is the order of exact numeric values, with -0 = 0 and NaN after everything *)
Theorem C13_compare_numeric :
  forall a b, f64_valid a -> f64_valid b -> compare_f64 a b = rank_compare a b.
Proof.
  intros a b Va Vb. rewrite compare_f64_key. unfold rank_compare, lex3, fkey, frank.
  destruct a as [sa|sa| |sa m e], b as [sb|sb| |sb m' e'];
    try (destruct sa); try (destruct sb); cbn [fst snd then_with]; try reflexivity.
  all: try (assert (P : (0 < 2 ^ (e' + 1074))%Z)
         by (apply valid_finite in Vb; apply Z.pow_pos_nonneg; lia)).
  all: try (assert (P' : (0 < 2 ^ (e + 1074))%Z)
         by (apply valid_finite in Va; apply Z.pow_pos_nonneg; lia)).
  all: try (rewrite Z.compare_refl; cbn [then_with]).
  all: try (set (k' := (2 ^ (e' + 1074))%Z) in *).
  all: try (set (k := (2 ^ (e + 1074))%Z) in *).
  all: try (match goal with |- _ = ?r => change (Lt = r) end; symmetry; apply Z.compare_lt_iff; clear - P; nia).
  all: try (match goal with |- _ = ?r => change (Gt = r) end; symmetry; apply Z.compare_gt_iff; clear - P; nia).
  all: try (match goal with |- _ = ?r => change (Lt = r) end; symmetry; apply Z.compare_lt_iff; clear - P'; nia).
  all: try (match goal with |- _ = ?r => change (Gt = r) end; symmetry; apply Z.compare_gt_iff; clear - P'; nia).
  all: try (match goal with |- _ = ?r => change (Lt = r) end; symmetry; apply Z.compare_lt_iff; clear - P P'; nia).
  all: try (match goal with |- _ = ?r => change (Gt = r) end; symmetry; apply Z.compare_gt_iff; clear - P P'; nia).
  all: try subst k; try subst k'.
  - change (Zneg m) with (- Zpos m)%Z. change (Zneg m') with (- Zpos m')%Z.
    change (0 ?= 0)%Z with Eq. cbv iota.
    rewrite !Z.mul_opp_l.
    assert (N : forall x y, (- x ?= - y)%Z = CompOpp (x ?= y)%Z).
    { intros. destruct (Z.compare_spec (- x) (- y)), (Z.compare_spec x y); auto; lia. }
    rewrite !N. rewrite (scaled_compare _ _ _ _ _ _ Va Vb).
    change (Zpos m ?= Zpos m')%Z with (Pos.compare m m').
    destruct (e ?= e')%Z; reflexivity.
  - change (0 ?= 0)%Z with Eq. cbv iota. rewrite (scaled_compare _ _ _ _ _ _ Va Vb).
    change (Zpos m ?= Zpos m')%Z with (Pos.compare m m').
    destruct (e ?= e')%Z; reflexivity.
Qed.

(** 1.5 < 2.0 as doubles *)
Example C13_ex_valid :
  f64_valid (S754_finite false 6755399441055744 (-52)) /\ f64_valid (S754_finite false 4503599627370496 (-51)) /\
  compare_f64 (S754_finite false 6755399441055744 (-52)) (S754_finite false 4503599627370496 (-51)) = Lt.
Proof. splits; reflexivity. Qed.

(** ** stable sort *)

(** strictly before: smaller, or equal with a smaller original index *)
Definition before (cmp : nat -> nat -> comparison) (i j : nat) : Prop :=
  cmp i j = Lt \/ (cmp i j = Eq /\ i < j).

Section Stable.
Variable cmp : nat -> nat -> comparison.
Hypothesis G : good_cmp cmp.

Lemma insert_perm a l : Permutation (insert_by cmp a l) (a :: l).
Proof.
  induction l as [|b l IH]; cbn [insert_by]; auto.
  destruct (cmp a b); auto. eapply perm_trans; [apply perm_skip, IH|]. apply perm_swap.
Qed.

Lemma sort_by_perm l : Permutation (sort_by cmp l) l.
Proof.
  induction l as [|a l IH]; cbn [sort_by]; auto.
  eapply perm_trans; [apply insert_perm|]. now constructor.
Qed.

Lemma before_trans i j k : before cmp i j -> before cmp j k -> before cmp i k.
Proof using G.
  destruct G as (G1 & G2 & G3 & G4 & G5). unfold before. intros [H|[H H']] [K|[K K']].
  - left. apply (G3 i j k); auto. congruence.
  - left. apply (G3 i j k); auto. congruence.
  - left. apply (G4 i j k); auto. congruence.
  - right. split; [eapply G5; eassumption|lia].
Qed.

Lemma insert_sorted a l :
  Forall (fun j => a < j) l -> StronglySorted (before cmp) l -> StronglySorted (before cmp) (insert_by cmp a l).
Proof using G.
  intros HF HS. induction HS as [|b l HS IH HB]; cbn [insert_by]; [repeat constructor|].
  inversion HF as [|? ? Hab HF']; subst.
  destruct (cmp a b) eqn:E.
  - constructor; [constructor; auto|]. constructor; [right; auto|].
    eapply Forall_impl; [|exact HB]. intros k Hk. eapply before_trans; [|exact Hk]. right; auto.
  - constructor; [constructor; auto|]. constructor; [left; auto|].
    eapply Forall_impl; [|exact HB]. intros k Hk. eapply before_trans; [|exact Hk]. left; auto.
  - constructor; [now apply IH|]. apply (Permutation_Forall (Permutation_sym (insert_perm a l))).
    constructor; auto. left. destruct G as (G1 & _). rewrite G1, E. reflexivity.
Qed.

Lemma sort_by_sorted l : StronglySorted lt l -> StronglySorted (before cmp) (sort_by cmp l).
Proof using G.
  induction 1 as [|a l HS IH HF]; cbn [sort_by]; [constructor|].
  apply insert_sorted; auto. apply (Permutation_Forall (Permutation_sym (sort_by_perm l))). exact HF.
Qed.

Lemma seq_sorted s n : StronglySorted lt (seq s n).
Proof.
  revert s; induction n as [|n IH]; intros s; cbn [seq]; constructor; auto.
  apply Forall_forall. intros x Hx. apply in_seq in Hx. lia.
Qed.

(** two stably sorted permutations of the same indices are equal *)
Lemma sorted_unique l : forall l', StronglySorted (before cmp) l -> StronglySorted (before cmp) l' ->
  Permutation l l' -> l = l'.
Proof using G.
  assert (Asym : forall i j, before cmp i j -> before cmp j i -> False).
  { destruct G as (G1 & _). intros i j H K. unfold before in *. rewrite (G1 i j) in K.
    destruct (cmp i j); cbn in K; destruct H as [H|[H ?]], K as [K|[K ?]]; try discriminate. lia. }
  induction l as [|a l IH]; intros l' H H' P.
  - apply Permutation_nil in P. auto.
  - destruct l' as [|b l']; [apply Permutation_sym, Permutation_nil in P; discriminate|].
    inversion H as [|? ? S HF]; inversion H' as [|? ? S' HF']; subst.
    assert (a = b).
    { assert (Ha : In a (b :: l')) by (eapply Permutation_in; [exact P|now left]).
      assert (Hb : In b (a :: l)) by (eapply Permutation_in; [apply Permutation_sym; exact P|now left]).
      destruct Ha as [|Ha]; auto. destruct Hb as [|Hb]; auto.
      rewrite Forall_forall in HF, HF'. exfalso. exact (Asym _ _ (HF _ Hb) (HF' _ Ha)). }
    subst b. f_equal. apply IH; auto. eapply Permutation_cons_inv. exact P.
Qed.
End Stable.

Definition key1 (x : list spec_float) (i j : nat) := compare_f64 (at_ x i) (at_ x j).
Definition key2 (y x : list spec_float) (i j : nat) := then_with (key1 y i j) (key1 x i j).
Definition key3 (z y x : list spec_float) (i j : nat) := then_with (then_with (key1 z i j) (key1 y i j)) (key1 x i j).

Lemma key1_good x : good_cmp (key1 x).
Proof. apply (good_map (at_ x)). apply compare_f64_good. Qed.
Lemma key2_good y x : good_cmp (key2 y x).
Proof. apply good_then; apply key1_good. Qed.
Lemma key3_good z y x : good_cmp (key3 z y x).
Proof. apply good_then; [apply good_then|]; apply key1_good. Qed.

(** `argsort_f64` returns the indices 0..n-1, each once, in ascending order of value with
    NaN last and ties in their original order; and that list is the only such list. *)
Theorem C13_argsort :
  forall x, Permutation (argsort x) (seq 0 (length x)) /\
    StronglySorted (before (key1 x)) (argsort x) /\
    forall l, Permutation l (seq 0 (length x)) -> StronglySorted (before (key1 x)) l -> l = argsort x.
Proof.
  intros x. assert (G := key1_good x). unfold argsort.
  assert (P : Permutation (sort_by (key1 x) (seq 0 (length x))) (seq 0 (length x))) by apply sort_by_perm.
  assert (S : StronglySorted (before (key1 x)) (sort_by (key1 x) (seq 0 (length x)))).
  { apply sort_by_sorted; auto. apply seq_sorted. }
  splits; auto. intros l Pl Sl. apply (sorted_unique _ G); auto.
  eapply perm_trans; [exact Pl|]. apply Permutation_sym. exact P.
Qed.

Theorem C13_argsort2 :
  forall y x, length y = length x ->
    exists l, argsort2 y x = Ok l /\ Permutation l (seq 0 (length y)) /\
    StronglySorted (before (key2 y x)) l.
Proof.
  intros y x HL. unfold argsort2. rewrite HL, Nat.eqb_refl. cbn [assert_ bind].
  eexists. split; [reflexivity|]. rewrite <- HL. split; [apply sort_by_perm|].
  apply (sort_by_sorted (key2 y x)); [apply key2_good|apply seq_sorted].
Qed.

Theorem C13_argsort3 :
  forall z y x, length z = length y -> length z = length x ->
    exists l, argsort3 z y x = Ok l /\ Permutation l (seq 0 (length z)) /\
    StronglySorted (before (key3 z y x)) l.
Proof.
  intros z y x H1 H2. unfold argsort3. rewrite <- H1, <- H2, !Nat.eqb_refl. cbn [assert_ bind].
  eexists. split; [reflexivity|]. split; [apply sort_by_perm|].
  apply (sort_by_sorted (key3 z y x)); [apply key3_good|apply seq_sorted].
Qed.

(** 3.0, NaN, -inf, 3.0, -0.0 *)
Example C13_ex_argsort :
  argsort [S754_finite false 3 0; S754_nan; S754_infinity true; S754_finite false 3 0; S754_zero true]
  = [2; 4; 0; 3; 1].
Proof. reflexivity. Qed.

Print Assumptions C13_sorts_permute.
Print Assumptions C13_sorts_sorted.
Print Assumptions C13_argsort.
Print Assumptions C13_argsort2.
Print Assumptions C13_argsort3.
Print Assumptions C13_compare_numeric.
