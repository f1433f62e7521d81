(** C33 extrema, C34 grids, C35 durations. *)
From Coq Require Import ZArith QArith Qabs Sorting.Sorted Lqa Floats.SpecFloat.
From Verif Require Import RBase Dense_Model Dense_Proofs Dense_Thm Util_Model.
Close Scope Z_scope. Close Scope Q_scope. Open Scope nat_scope.

Lemma for_n_snoc {S} (f : nat -> S -> res S) n : forall lo s, for_n (Datatypes.S n) lo f s = bind (for_n n lo f s) (f (lo + n)).
Proof.
  induction n as [|n IH]; intros lo s; cbn [for_n].
  - rewrite Nat.add_0_r. cbn [bind]. destruct (f lo s); reflexivity.
  - destruct (f lo s); cbn [bind]; auto. change (for_n (Datatypes.S n) (Datatypes.S lo) f a = bind (for_n n (Datatypes.S lo) f a) (f (lo + Datatypes.S n))).
    rewrite IH. do 2 f_equal. lia.
Qed.
Lemma for_range_S {S} lo k (f : nat -> S -> res S) s : lo <= k ->
  for_range lo (Datatypes.S k) f s = bind (for_range lo k f s) (f k).
Proof.
  intros H. unfold for_range. replace (Datatypes.S k - lo) with (Datatypes.S (k - lo)) by lia.
  rewrite for_n_snoc. do 2 f_equal. lia.
Qed.

(* ------------------------------------------------------------------ *)
(** * Extrema *)
Section Extrema.
Variable T : Type.
Variable ltb : T -> T -> bool.
(** the operator `<` of the numbers: it is that of their real values (integers
    of any width, floats other than NaN) *)
Variable val : T -> R.
Hypothesis ltb_val : forall a b, ltb a b = true <-> (val a < val b)%R.
Variable d0 : T.

(** the k-th number *)
Definition at_ (x : list T) (k : nat) : R := val (nth k x d0).

(** specification: the first position of the smallest and of the largest number *)
Definition first_min (x : list T) (i : nat) : Prop :=
  i < length x /\ (forall k, k < length x -> (at_ x i <= at_ x k)%R) /\ (forall k, k < i -> (at_ x i < at_ x k)%R).
Definition first_max (x : list T) (i : nat) : Prop :=
  i < length x /\ (forall k, k < length x -> (at_ x k <= at_ x i)%R) /\ (forall k, k < i -> (at_ x k < at_ x i)%R).

(** specification: the last point of a (possibly one-point) plateau that is
    entered by going down and left by going up, and conversely *)
Definition valley (x : list T) (i : nat) : Prop :=
  i + 1 < length x /\ (at_ x i < at_ x (i + 1))%R /\
  exists j, 1 <= j <= i /\ (at_ x j < at_ x (j - 1))%R /\ (forall k, j <= k <= i -> at_ x k = at_ x i).
Definition peak (x : list T) (i : nat) : Prop :=
  i + 1 < length x /\ (at_ x (i + 1) < at_ x i)%R /\
  exists j, 1 <= j <= i /\ (at_ x (j - 1) < at_ x j)%R /\ (forall k, j <= k <= i -> at_ x k = at_ x i).

Lemma ltb_false a b : ltb a b = false <-> (val b <= val a)%R.
Proof.
  destruct (ltb a b) eqn:E; split; intros H; try discriminate; try reflexivity.
  - apply ltb_val in E. lra.
  - destruct (Rle_lt_dec (val b) (val a)) as [|L]; auto. apply ltb_val in L. congruence.
Qed.

(** prefix version of the extrema: only the first k numbers are considered *)
Definition mm_upto (x : list T) (k : nat) (s : nat * nat) : Prop :=
  let '(a, b) := s in
  a < k /\ b < k /\ (forall l, l < k -> (at_ x a <= at_ x l <= at_ x b)%R) /\
  (forall l, l < a -> (at_ x a < at_ x l)%R) /\ (forall l, l < b -> (at_ x l < at_ x b)%R).

Lemma min_max_step_ok x i s : i < length x -> 1 <= i -> mm_upto x i s ->
  exists s', min_max_step T ltb x i s = Ok s' /\ mm_upto x (S i) s'.
Proof.
  intros Hi H1. destruct s as [a b]. intros (Ha & Hb & Hab & Fa & Fb).
  unfold min_max_step. rewrite !(vget_ok _ _ d0) by lia. cbn [bind].
  pose proof (Hab a Ha) as Haa. pose proof (Hab b Hb) as Hbb.
  destruct (ltb (nth i x d0) (nth a x d0)) eqn:E1.
  { apply ltb_val in E1. fold (at_ x i) in E1. fold (at_ x a) in E1. eexists. split; [reflexivity|].
    cbn. splits; try lia; auto.
    - intros l Hl. destruct (Nat.eq_dec l i) as [->|]; [lra|]. pose proof (Hab l ltac:(lia)). lra.
    - intros l Hl. pose proof (Hab l ltac:(lia)). lra. }
  apply ltb_false in E1. fold (at_ x i) in E1. fold (at_ x a) in E1.
  cbn [bind].
  destruct (ltb (nth b x d0) (nth i x d0)) eqn:E2.
  - apply ltb_val in E2. fold (at_ x i) in E2. fold (at_ x b) in E2. eexists. split; [reflexivity|].
    cbn. split; [lia|]. split; [lia|]. split; [|split; auto].
    + intros l Hl. destruct (Nat.eq_dec l i) as [->|]; [lra|]. pose proof (Hab l ltac:(lia)). lra.
    + intros l Hl. pose proof (Hab l Hl). lra.
  - apply ltb_false in E2. fold (at_ x i) in E2. fold (at_ x b) in E2. eexists. split; [reflexivity|].
    cbn. split; [lia|]. split; [lia|]. split; [|split; auto].
    intros l Hl. destruct (Nat.eq_dec l i) as [->|]; [lra|]. pose proof (Hab l ltac:(lia)). lra.
Qed.

Lemma mm_full x a b : mm_upto x (length x) (a, b) -> first_min x a /\ first_max x b.
Proof.
  intros (Ha & Hb & Hab & Fa & Fb). unfold first_min, first_max. splits; auto; intros k Hk; apply (Hab k Hk).
Qed.

Lemma mm_start x : mm_upto x 1 (0, 0).
Proof. cbn. splits; try lia; intros l Hl; try lia. replace l with 0 by lia. lra. Qed.

(** C33: the minimum and the maximum, with the first index *)
Theorem C33_min_max x :
  (x = [] -> find_min_max T ltb x = Ok None) /\
  (x <> [] -> exists i j, find_min_max T ltb x = Ok (Some (i, j)) /\ first_min x i /\ first_max x j).
Proof using ltb_val.
  split; [intros ->; reflexivity|]. intros Hx. unfold find_min_max.
  destruct (length x) as [|[|n]] eqn:L.
  - destruct x; [contradiction|discriminate].
  - exists 0, 0. split; auto. apply mm_full. rewrite L. apply mm_start.
  - destruct (for_range_inv (mm_upto x) (min_max_step T ltb x) 1 (S (S n)) (0, 0)) as (s & E & Hs).
    + lia.
    + apply mm_start.
    + intros i t Hi Ht. apply min_max_step_ok; auto; lia.
    + rewrite E. destruct s as [a b]. exists a, b. split; auto. apply mm_full. now rewrite L.
Qed.

(** invariant of the scan after the first k numbers *)
Definition trend (x : list T) (k : nat) (down up : bool) : Prop :=
  match down, up with
  | true, false => exists j, 1 <= j < k /\ (at_ x j < at_ x (j - 1))%R /\ (forall l, j <= l < k -> at_ x l = at_ x (k - 1))
  | false, true => exists j, 1 <= j < k /\ (at_ x (j - 1) < at_ x j)%R /\ (forall l, j <= l < k -> at_ x l = at_ x (k - 1))
  | false, false => forall l, l < k -> at_ x l = at_ x 0
  | true, true => False
  end.

Definition vp_inv (x : list T) (k : nat) (s : vp) : Prop :=
  trend x k (vp_down s) (vp_up s) /\ mm_upto x k (vp_mm s) /\
  (forall i, In i (vp_valleys s) <-> valley x i /\ i + 1 < k) /\
  (forall i, In i (vp_peaks s) <-> peak x i /\ i + 1 < k) /\
  Sorted lt (vp_valleys s) /\ Sorted lt (vp_peaks s).

Lemma sorted_snoc l a : Sorted lt l -> (forall b, In b l -> b < a) -> Sorted lt (l ++ [a]).
Proof.
  induction l as [|b l IH]; intros H Hb; cbn; [repeat constructor|].
  inversion H; subst. constructor; [apply IH; auto; intros; apply Hb; now right|].
  destruct l as [|c l]; cbn; constructor; [apply Hb; now left|]. now inversion H3.
Qed.

(** two plateaus ending at the same point have the same left neighbour value *)
Lemma same_entry x i j j' :
  (forall k, j <= k <= i -> at_ x k = at_ x i) -> (forall k, j' <= k <= i -> at_ x k = at_ x i) ->
  1 <= j <= i -> 1 <= j' <= i -> at_ x (j - 1) <> at_ x j -> at_ x (j' - 1) <> at_ x j' -> j = j'.
Proof.
  intros H H' B B' N N'. destruct (Nat.lt_trichotomy j j') as [L|[L|L]]; auto; exfalso.
  - apply N'. rewrite (H (j' - 1)), (H j') by lia. auto.
  - apply N. rewrite (H' (j - 1)), (H' j) by lia. auto.
Qed.

Lemma mk_inv x i s down up vs ps mm :
  trend x (S i) down up -> mm_upto x (S i) mm ->
  (forall k, In k vs <-> valley x k /\ k + 1 < S i) -> (forall k, In k ps <-> peak x k /\ k + 1 < S i) ->
  Sorted lt vs -> Sorted lt ps -> s = mkVP vs ps down up mm -> vp_inv x (S i) s.
Proof. intros. subst s. unfold vp_inv. cbn [vp_down vp_up vp_mm vp_valleys vp_peaks]. repeat (split; [assumption|]). assumption. Qed.

Lemma vp_step_ok x i s : 1 <= i < length x -> vp_inv x i s ->
  exists s', vp_step T ltb x i s = Ok s' /\ vp_inv x (S i) s'.
Proof.
  intros Hi (Ht & Hm & Hv & Hp & Sv & Sp).
  destruct (min_max_step_ok x i (vp_mm s)) as (mm & Em & Hmm); auto; try lia.
  unfold vp_step. rewrite !(vget_ok _ _ d0) by lia. cbn [bind].
  (* what the new point decides about position i-1 *)
  assert (Q : forall k, k + 1 < S i <-> k + 1 < i \/ k = i - 1) by (intros; lia).
  assert (Old : forall (P : nat -> Prop) vs, (forall k, In k vs <-> P k /\ k + 1 < i) -> ~ P (i - 1) -> forall k, In k vs <-> P k /\ k + 1 < S i).
  { intros P vs H N k. rewrite H, Q. split; [tauto|]. intros [Pk [Lk|Ek]]; [auto|subst k; contradiction]. }
  assert (New : forall (P : nat -> Prop) vs, (forall k, In k vs <-> P k /\ k + 1 < i) -> P (i - 1) -> forall k, In k (vs ++ [i - 1]) <-> P k /\ k + 1 < S i).
  { intros P vs H N k. rewrite in_app_iff, H, Q. cbn. split; [intros [[? ?]|[<-|[]]]; auto|].
    intros [Pk [Lk|Ek]]; try subst k; auto. }
  assert (New' : forall (P : nat -> Prop) vs, (forall k, In k vs <-> P k /\ k + 1 < i) -> forall b, In b vs -> b < i - 1).
  { intros P vs H b Hb. apply H in Hb. lia. }
  assert (IS : i - 1 + 1 = i) by lia.
  assert (Up : forall A, (at_ x i <= at_ x (i - 1))%R -> ~ (valley x (i - 1) /\ A)).
  { intros A L [(_ & V & _) _]. rewrite IS in V. lra. }
  destruct s as [vs ps down up mm0]. cbn [vp_valleys vp_peaks vp_down vp_up vp_mm] in *.
  destruct down, up; cbn [trend] in Ht; try contradiction.
  - (* going down *)
    destruct Ht as (j & Hj & Dj & Pl).
    assert (NP : ~ peak x (i - 1)).
    { intros (_ & _ & j' & Hj' & Uj & Pl').
      assert (j = j') by (apply (same_entry x (i - 1)); try lia; try lra; auto; intros; apply Pl; lia).
      subst. lra. }
    destruct (ltb (nth (i - 1) x d0) (nth i x d0)) eqn:E; cbn [bind vp_mm]; rewrite Em; cbn [bind vp_valleys vp_peaks vp_down vp_up];
      eexists; (split; [reflexivity|]); eapply mk_inv; try reflexivity; try assumption; cbn [trend].
    + apply ltb_val in E. fold (at_ x i) in E. fold (at_ x (i - 1)) in E.
      exists i. splits; try lia; try lra. intros l Hl. f_equal. lia.
    + apply ltb_val in E. fold (at_ x i) in E. fold (at_ x (i - 1)) in E. apply (New (valley x)); auto.
      unfold valley. rewrite IS. splits; try lia; auto. exists j. splits; auto; try lia. intros; apply Pl; lia.
    + apply (Old (peak x)); auto.
    + apply sorted_snoc; auto. eauto.
    + apply ltb_false in E. fold (at_ x i) in E. fold (at_ x (i - 1)) in E.
      destruct (Rle_lt_or_eq_dec _ _ E) as [L|L].
      * exists i. splits; try lia; try lra. intros l Hl. f_equal. lia.
      * exists j. splits; try lia; try lra. intros l Hl. replace (S i - 1) with i by lia.
        destruct (Nat.eq_dec l i) as [->|]; auto. rewrite Pl by lia. lra.
    + apply ltb_false in E. fold (at_ x i) in E. fold (at_ x (i - 1)) in E. apply (Old (valley x)); auto.
      intros V. destruct (Up True); auto.
    + apply (Old (peak x)); auto.
  - (* going up *)
    destruct Ht as (j & Hj & Dj & Pl).
    assert (NP : ~ valley x (i - 1)).
    { intros (_ & _ & j' & Hj' & Uj & Pl').
      assert (j = j') by (apply (same_entry x (i - 1)); try lia; try lra; auto; intros; apply Pl; lia).
      subst. lra. }
    destruct (ltb (nth i x d0) (nth (i - 1) x d0)) eqn:E; cbn [bind vp_mm]; rewrite Em; cbn [bind vp_valleys vp_peaks vp_down vp_up];
      eexists; (split; [reflexivity|]); eapply mk_inv; try reflexivity; try assumption; cbn [trend].
    + apply ltb_val in E. fold (at_ x i) in E. fold (at_ x (i - 1)) in E.
      exists i. splits; try lia; try lra. intros l Hl. f_equal. lia.
    + apply (Old (valley x)); auto.
    + apply ltb_val in E. fold (at_ x i) in E. fold (at_ x (i - 1)) in E. apply (New (peak x)); auto.
      unfold peak. rewrite IS. splits; try lia; auto. exists j. splits; auto; try lia. intros; apply Pl; lia.
    + apply sorted_snoc; auto. eauto.
    + apply ltb_false in E. fold (at_ x i) in E. fold (at_ x (i - 1)) in E.
      destruct (Rle_lt_or_eq_dec _ _ E) as [L|L].
      * exists i. splits; try lia; try lra. intros l Hl. f_equal. lia.
      * exists j. splits; try lia; try lra. intros l Hl. replace (S i - 1) with i by lia.
        destruct (Nat.eq_dec l i) as [->|]; auto. rewrite Pl by lia. lra.
    + apply (Old (valley x)); auto.
    + apply ltb_false in E. fold (at_ x i) in E. fold (at_ x (i - 1)) in E. apply (Old (peak x)); auto.
      intros (_ & V & _). rewrite IS in V. lra.
  - (* no trend yet *)
    assert (NV : ~ valley x (i - 1)).
    { intros (_ & _ & j & Hj & Uj & _). rewrite (Ht j), (Ht (j - 1)) in Uj by lia. lra. }
    assert (NP : ~ peak x (i - 1)).
    { intros (_ & _ & j & Hj & Uj & _). rewrite (Ht j), (Ht (j - 1)) in Uj by lia. lra. }
    destruct (ltb (nth i x d0) (nth (i - 1) x d0)) eqn:E; [|destruct (ltb (nth (i - 1) x d0) (nth i x d0)) eqn:E'];
      cbn [bind vp_mm]; rewrite Em; cbn [bind vp_valleys vp_peaks vp_down vp_up];
      eexists; (split; [reflexivity|]); eapply mk_inv; try reflexivity; try assumption; cbn [trend].
    + apply ltb_val in E. exists i. splits; try lia; auto. intros l Hl. f_equal. lia.
    + apply (Old (valley x)); auto.
    + apply (Old (peak x)); auto.
    + apply ltb_val in E'. exists i. splits; try lia; auto. intros l Hl. f_equal. lia.
    + apply (Old (valley x)); auto.
    + apply (Old (peak x)); auto.
    + apply ltb_false in E. apply ltb_false in E'. fold (at_ x i) in E, E'. fold (at_ x (i - 1)) in E, E'.
      intros l Hl. destruct (Nat.eq_dec l i) as [->|]; [|apply Ht; lia]. rewrite <- (Ht (i - 1)) by lia. lra.
    + apply (Old (valley x)); auto.
    + apply (Old (peak x)); auto.
Qed.

(** C33: exactly the valleys and the peaks, in increasing order *)
Theorem C33_valleys_and_peaks x :
  exists vs ps mm, find_valleys_and_peaks T ltb x = Ok (vs, ps, mm) /\
    (forall i, In i vs <-> valley x i) /\ (forall i, In i ps <-> peak x i) /\
    Sorted lt vs /\ Sorted lt ps /\
    match mm with None => x = [] | Some (i, j) => first_min x i /\ first_max x j end.
Proof using ltb_val.
  assert (MM : exists mm, find_min_max T ltb x = Ok mm /\ match mm with None => x = [] | Some (i, j) => first_min x i /\ first_max x j end).
  { destruct (C33_min_max x) as [H0 H1]. destruct x as [|a t]; [exists None; split; auto|].
    destruct H1 as (i & j & E & H); [discriminate|]. exists (Some (i, j)). auto. }
  destruct MM as (mm & Emm & Hmm).
  assert (Short : length x <= 2 -> exists vs ps mm, Ok ([], [], mm) = Ok (vs, ps, mm) /\
    (forall i, In i vs <-> valley x i) /\ (forall i, In i ps <-> peak x i) /\ Sorted lt vs /\ Sorted lt ps /\
    match mm with None => x = [] | Some (i, j) => first_min x i /\ first_max x j end).
  { intros L. exists [], [], mm. split; [reflexivity|]. split; [|split; [|split; [constructor|split; [constructor|exact Hmm]]]];
    (intros i; split; [intros []|intros (? & _ & j & ? & _); lia]). }
  unfold find_valleys_and_peaks. destruct (length x) as [|[|[|[|n]]]] eqn:L.
  - rewrite Emm. destruct Short as (vs & ps & m1 & E & R); [lia|]. inversion E; subst. exists [], [], mm. cbn [bind]. split; auto.
    destruct R as (R1 & R2 & _). splits; auto.
  - rewrite Emm. destruct Short as (vs & ps & m1 & E & R); [lia|]. inversion E; subst. exists [], [], mm. cbn [bind]. split; auto.
    destruct R as (R1 & R2 & _). splits; auto.
  - rewrite Emm. destruct Short as (vs & ps & m1 & E & R); [lia|]. inversion E; subst. exists [], [], mm. cbn [bind]. split; auto.
    destruct R as (R1 & R2 & _). splits; auto.
  - rewrite Emm, !(vget_ok _ _ d0) by lia. cbn [bind].
    assert (V : forall i, valley x i <-> i = 1 /\ (at_ x 1 < at_ x 0)%R /\ (at_ x 1 < at_ x 2)%R).
    { intros i. split.
      - intros (H1 & H2 & j & Hj & H3 & _). assert (i = 1) as -> by lia. assert (j = 1) as -> by lia. auto.
      - intros (-> & A & B). unfold valley. rewrite L. splits; auto. exists 1. splits; auto. intros k Hk. f_equal. lia. }
    assert (P : forall i, peak x i <-> i = 1 /\ (at_ x 0 < at_ x 1)%R /\ (at_ x 2 < at_ x 1)%R).
    { intros i. split.
      - intros (H1 & H2 & j & Hj & H3 & _). assert (i = 1) as -> by lia. assert (j = 1) as -> by lia. auto.
      - intros (-> & A & B). unfold peak. rewrite L. splits; auto. exists 1. splits; auto. intros k Hk. f_equal. lia. }
    assert (B : forall a b, ltb (nth a x d0) (nth b x d0) = Rltb (at_ x a) (at_ x b)).
    { intros. destruct (Rltb_spec (at_ x a) (at_ x b)); [now apply ltb_val|now apply ltb_false]. }
    rewrite !B. assert (S0 : Sorted lt []) by constructor. assert (S1 : Sorted lt [1]) by (repeat constructor).
    destruct (Rltb_spec (at_ x 1) (at_ x 0)), (Rltb_spec (at_ x 1) (at_ x 2)), (Rltb_spec (at_ x 0) (at_ x 1)), (Rltb_spec (at_ x 2) (at_ x 1)); cbn [andb]; try lra;
      (do 3 eexists; split; [reflexivity|]; split; [|split; [|split; [first [exact S0|exact S1]|split; [first [exact S0|exact S1]|exact Hmm]]]];
       intros i; (rewrite V || rewrite P); cbn [In]; (split;
       [intros HH; first [destruct HH as [<-|[]]; auto; lra|destruct HH] | intros (-> & ? & ?); first [now left|exfalso; lra]])).
  - destruct (for_range_inv (vp_inv x) (vp_step T ltb x) 1 (S (S (S (S n)))) (mkVP [] [] false false (0, 0))) as (s & E & Ht & Hm & Hv & Hp & Sv & Sp).
    + lia.
    + unfold vp_inv. cbn [vp_down vp_up vp_valleys vp_peaks vp_mm trend]. split; [intros l Hl; f_equal; lia|].
      split; [apply mm_start|]. splits; try constructor; cbn [In]; try tauto; intros [(? & ? & ?) ?]; try lia;
      destruct H1 as (j & Hj & _); lia.
    + intros i t Hi Ht. apply vp_step_ok; auto. lia.
    + rewrite E. cbn [bind]. exists (vp_valleys s), (vp_peaks s), (Some (vp_mm s)). split; auto.
      destruct (vp_mm s) as [a b]. split; [|split; [|split; [auto|split; auto]]].
      * intros i. rewrite Hv. split; [tauto|]. intros W. split; auto. destruct W. lia.
      * intros i. rewrite Hp. split; [tauto|]. intros W. split; auto. destruct W. lia.
      * apply mm_full. now rewrite L.
Qed.
End Extrema.
Print Assumptions C33_min_max.
Print Assumptions C33_valleys_and_peaks.

(** the example of the documentation *)
Example C33_ex : find_valleys_and_peaks Z Z.ltb [100; 100; 300; 300; 300; 200; 200; 400; 300; 500; 400]%Z = Ok ([6; 8], [4; 7; 9], Some (0, 9)).
Proof. reflexivity. Qed.

(** C33, a limit: with a NaN in front (all comparisons false) position 0 is
    reported as the minimum and as the maximum *)
Definition nan_ltb (a b : option R) : bool :=
  match a, b with Some x, Some y => Rltb x y | _, _ => false end.
Theorem C33_nan_refuted : find_min_max (option R) nan_ltb [None; Some 1; Some 2]%R = Ok (Some (0, 0)).
Proof. reflexivity. Qed.
Print Assumptions C33_nan_refuted.

(* ------------------------------------------------------------------ *)
(** * Grids *)

(** specification: entry (i, j) of the coordinates; n points divide [lo, hi]
    evenly, a single point is [lo] *)
Definition station (lo hi : R) (n k : nat) : R :=
  if n =? 1 then lo else (lo + INR k * ((hi - lo) / INR (n - 1)))%R.

Lemma station_gen lo hi n k : k < n -> (lo + INR k * gen_step lo hi n)%R = station lo hi n k.
Proof.
  intros H. unfold gen_step, station. destruct (Nat.eqb_spec n 1) as [->|]; auto.
  replace k with 0 by lia. cbn. lra.
Qed.

(** an m×n matrix whose entries are known on [P] *)
Definition cells (a : dmat R) (m n : nat) (P : nat -> nat -> Prop) (f : nat -> nat -> R) : Prop :=
  d_wf a /\ d_nrow a = m /\ d_ncol a = n /\ forall i j, i < m -> j < n -> P i j -> dval 0%R a i j = f i j.

Lemma cells_new m n f : cells (d_new R 0%R m n) m n (fun _ _ => False) f.
Proof. unfold cells, d_wf, d_new. cbn. rewrite repeat_length. splits; auto. intros; contradiction. Qed.

Lemma cells_set a m n P f i j : i < m -> j < n -> cells a m n P f ->
  exists a', d_set a i j (f i j) = Ok a' /\ cells a' m n (fun i' j' => P i' j' \/ (i' = i /\ j' = j)) f.
Proof.
  intros Hi Hj (W & Hm & Hn & HV).
  destruct (d_set_spec R 0%R a i j (f i j) W ltac:(lia) ltac:(lia)) as (b & E & W' & E1 & E2 & HV').
  exists b. split; auto. unfold cells. splits; auto; try lia.
  intros i' j' Hi' Hj' HP. rewrite HV' by lia.
  destruct (Nat.eqb_spec i' i), (Nat.eqb_spec j' j); cbn [andb]; subst; auto; apply HV; auto; tauto.
Qed.

Lemma cells_weaken a m n (P Q : nat -> nat -> Prop) f :
  (forall i j, Q i j -> P i j) -> cells a m n P f -> cells a m n Q f.
Proof. intros H (W & Hm & Hn & HV). unfold cells. splits; auto. Qed.

Lemma cells_full a m n f : cells a m n (fun i _ => i < m) f -> is_matrix a m n f.
Proof. intros (W & Hm & Hn & HV). apply (is_matrix_intro R 0%R); eauto. Qed.

(** C34: the grids of generate3d (and of generate2d) *)
Theorem C34_generate3d xmin xmax ymin ymax nx ny g :
  exists x y z, generate3d xmin xmax ymin ymax nx ny g = Ok (x, y, z) /\
    generate2d xmin xmax ymin ymax nx ny = Ok (x, y) /\
    is_matrix x ny nx (fun _ j => station xmin xmax nx j) /\
    is_matrix y ny nx (fun i _ => station ymin ymax ny i) /\
    is_matrix z ny nx (fun i j => g (station xmin xmax nx j) (station ymin ymax ny i)).
Proof.
  set (fx := fun (_ j : nat) => station xmin xmax nx j). set (fy := fun (i _ : nat) => station ymin ymax ny i).
  set (fz := fun i j => g (station xmin xmax nx j) (station ymin ymax ny i)).
  unfold generate3d, generate2d. destruct (Nat.eqb_spec nx 0) as [Hx|Hx]; [|destruct (Nat.eqb_spec ny 0) as [Hy|Hy]]; cbn [orb].
  1, 2: do 3 eexists; (split; [reflexivity|]); (split; [reflexivity|]); splits;
    (apply (is_matrix_intro R 0%R); try reflexivity; [unfold d_wf, d_new; cbn; apply repeat_length|intros; lia]).
  set (done := fun k (i' j' : nat) => i' < k). set (donej := fun i k (i' j' : nat) => i' < i \/ (i' = i /\ j' < k)).
  set (INV := fun (P : nat -> nat -> Prop) (s : dmat R * dmat R * dmat R) =>
     let '(x, y, z) := s in cells x ny nx P fx /\ cells y ny nx P fy /\ cells z ny nx P fz).
  (* both programs at once: a state of the second is a projection of the first *)
  match goal with |- context [for_range 0 ny ?B3 (?X0, ?Y0, ?Z0)] => set (b3 := B3) end.
  match goal with |- context [@for_range (dmat R * dmat R) 0 ny ?B2 _] => set (b2 := B2) end.
  assert (Row : forall i s, i < ny -> INV (done i) s -> exists s', b3 i s = Ok s' /\ b2 i (fst s) = Ok (fst s') /\ INV (done (S i)) s').
  { intros i s Hi Hs. unfold b3, b2.
    assert (G : forall k, k <= nx -> exists s', 
      for_range 0 k (fun j '(x, y, z) =>
        x' <- d_set x i j (xmin + INR j * gen_step xmin xmax nx)%R ;; y' <- d_set y i j (ymin + INR i * gen_step ymin ymax ny)%R ;;
        z' <- d_set z i j (g (xmin + INR j * gen_step xmin xmax nx)%R (ymin + INR i * gen_step ymin ymax ny)%R) ;; Ok (x', y', z')) s = Ok s' /\
      for_range 0 k (fun j '(x, y) => x' <- d_set x i j (xmin + INR j * gen_step xmin xmax nx)%R ;; y' <- d_set y i j (ymin + INR i * gen_step ymin ymax ny)%R ;; Ok (x', y')) (fst s) = Ok (fst s') /\
      INV (donej i k) s').
    { induction k as [|k IH]; intros Hk.
      - exists s. split; [reflexivity|]. split; [reflexivity|]. destruct s as [[x y] z]. destruct Hs as (A & B & C).
        cbn. splits; (eapply cells_weaken; [|eassumption]); unfold donej, done; intros; lia.
      - destruct IH as ([[x y] z] & E3 & E2 & A & B & C); [lia|].
        destruct (cells_set x ny nx _ fx i k Hi ltac:(lia) A) as (x' & Ex & A').
        destruct (cells_set y ny nx _ fy i k Hi ltac:(lia) B) as (y' & Ey & B').
        destruct (cells_set z ny nx _ fz i k Hi ltac:(lia) C) as (z' & Ez & C').
        exists (x', y', z'). rewrite !(for_range_S 0 k) by lia. rewrite E3, E2. cbn [bind fst].
        rewrite !station_gen by lia. fold (fx i k) (fy i k). rewrite Ex. cbn [bind]. rewrite Ey. cbn [bind].
        change (g (fx i k) (fy i k)) with (fz i k). rewrite Ez. split; [reflexivity|]. split; [reflexivity|].
        cbn. splits; (eapply cells_weaken; [|eassumption]); unfold donej; intros; cbv beta; lia. }
    destruct (G nx (Nat.le_refl _)) as (s' & E3 & E2 & HI). exists s'. split; [exact E3|]. split; [destruct s as [[x y] z]; exact E2|].
    destruct s' as [[x y] z]. destruct HI as (A & B & C). unfold INV.
    assert (Wk : forall a f, cells a ny nx (donej i nx) f -> cells a ny nx (done (S i)) f).
    { intros a f (W & M1 & M2 & V). unfold cells. splits; auto. intros i' j' Hi' Hj' Hd. apply V; auto. unfold done, donej in *. lia. }
    splits; auto. }
  assert (G : forall k, k <= ny -> exists s', for_range 0 k b3 (d_new R 0%R ny nx, d_new R 0%R ny nx, d_new R 0%R ny nx) = Ok s' /\
     for_range 0 k b2 (d_new R 0%R ny nx, d_new R 0%R ny nx) = Ok (fst s') /\ INV (done k) s').
  { induction k as [|k IH]; intros Hk.
    - eexists. split; [reflexivity|]. split; [reflexivity|]. cbn.
      splits; (eapply cells_weaken; [|apply cells_new]); unfold done; intros; lia.
    - destruct IH as (s & E3 & E2 & HI); [lia|]. destruct (Row k s ltac:(lia) HI) as (s' & R3 & R2 & HI').
      exists s'. rewrite !(for_range_S 0 k) by lia. rewrite E3, E2. cbn [bind]. auto. }
  destruct (G ny (Nat.le_refl _)) as ([[x y] z] & E3 & E2 & A & B & C).
  exists x, y, z. split; [exact E3|]. split; [exact E2|].
  splits; apply cells_full; assumption.
Qed.
Print Assumptions C34_generate3d.

(** C34: the first and the last station (exact arithmetic) *)
Theorem C34_ends lo hi n : 0 < n ->
  station lo hi n 0 = lo /\ (1 < n -> station lo hi n (n - 1) = hi) /\
  forall k, S k < n -> (station lo hi n (S k) - station lo hi n k = (hi - lo) / INR (n - 1))%R.
Proof.
  intros H. unfold station. splits.
  - destruct (Nat.eqb_spec n 1); auto. cbn. lra.
  - intros H1. destruct (Nat.eqb_spec n 1); [lia|]. field. apply not_0_INR. lia.
  - intros k Hk. destruct (Nat.eqb_spec n 1); [lia|]. rewrite S_INR. lra.
Qed.
Print Assumptions C34_ends.

Example C34_ex : station 0 6 4 0 = 0%R /\ station 0 6 4 1 = 2%R /\ station 0 6 4 3 = 6%R /\ station 5 9 1 0 = 5%R.
Proof. unfold station. cbn. lra. Qed.

(** C34, refuted part: in floating point the last station need not be the
    upper limit.  With IEEE binary64 operations (the standard library's
    executable specification), 50 stations on [0, 1] end at 1 - 2^-53. *)
Definition fone := S754_finite false (2 ^ 52) (-52).
Definition f49 := S754_finite false (49 * 2 ^ 47) (-47).
Theorem C34_last_station_refuted :
  let dx := SFdiv 53 1024 (SFsub 53 1024 fone (S754_zero false)) f49 in
  let last := SFadd 53 1024 (S754_zero false) (SFmul 53 1024 f49 dx) in
  last = S754_finite false (2 ^ 53 - 1) (-53) /\ SFcompare last fone = Some Lt.
Proof. split; vm_compute; reflexivity. Qed.
Print Assumptions C34_last_station_refuted.

(* ------------------------------------------------------------------ *)
(** * Durations *)
Open Scope Z_scope.

(** specification: nanoseconds in one unit, and the duration that is written *)
Definition unit_ns (u : tunit) : Z :=
  match u with
  | Hour => 3600000000000 | Minute => 60000000000 | Second => 1000000000
  | Milli => 1000000 | Micro => 1000 | Nano => 1
  end.
Definition amount (p : piece) : Q := (inject_Z (p_num p) / inject_Z (p_den p))%Q.
Definition written (l : list piece) : Q := fold_right (fun p acc => amount p * inject_Z (unit_ns (p_unit p)) + acc)%Q 0%Q l.

(** each amount is in the range of its unit; hours, minutes and nanoseconds are whole *)
Definition in_range (p : piece) : Prop :=
  match p_unit p with
  | Hour => 1 <= p_num p /\ p_den p = 1
  | Minute => 1 <= p_num p < 60 /\ p_den p = 1
  | Second => (1 <= amount p /\ amount p < 60)%Q
  | Milli | Micro => (1 <= amount p /\ amount p < 1000)%Q
  | Nano => 1 <= p_num p < 1000 /\ p_den p = 1
  end.
(** units in decreasing order, each used once *)
Definition ordered (l : list piece) : Prop := Sorted (fun p q => unit_ns (p_unit q) < unit_ns (p_unit p)) l.

Lemma frac_bounds v D k : 0 < D -> D <= v < k * D ->
  (1 <= inject_Z v / inject_Z D /\ inject_Z v / inject_Z D < inject_Z k)%Q.
Proof.
  intros HD [H1 H2]. assert (P : (0 < inject_Z D)%Q) by (change 0%Q with (inject_Z 0); rewrite <- Zlt_Qlt; lia). split.
  - apply Qle_shift_div_l; auto. rewrite Qmult_1_l, <- Zle_Qle. lia.
  - apply Qlt_shift_div_r; auto. rewrite <- inject_Z_mult, <- Zlt_Qlt. lia.
Qed.

Lemma in_seconds_ok v : 0 < v < 1000000000 ->
  exists p, format_in_seconds None v = [p] /\ in_range p /\ (written [p] == inject_Z v)%Q /\ unit_ns (p_unit p) < 1000000000.
Proof.
  intros H. unfold format_in_seconds. change NS_PER_MICROSECOND with 1000. change NS_PER_MILLISECOND with 1000000.
  destruct (Z.ltb_spec v 1000); [|destruct (Z.ltb_spec v 1000000)]; eexists; (split; [reflexivity|]); cbn [show].
  - splits; [cbn; lia| |cbn; lia]. unfold written, amount. cbn. field.
  - splits; [unfold in_range, amount; cbn [p_unit p_num p_den]; apply (frac_bounds v 1000 1000); lia| |cbn; lia].
    unfold written, amount. cbn. field.
  - splits; [unfold in_range, amount; cbn [p_unit p_num p_den]; apply (frac_bounds v 1000000 1000); lia| |cbn; lia].
    unfold written, amount. cbn. field.
Qed.

Lemma written_app l l' : (written (l ++ l') == written l + written l')%Q.
Proof.
  unfold written. induction l as [|p l IH]; cbn [app fold_right]; [rewrite Qplus_0_l; reflexivity|]. rewrite IH, Qplus_assoc. reflexivity.
Qed.

Lemma sorted_app1 l p : ordered l -> (forall q, In q l -> unit_ns (p_unit p) < unit_ns (p_unit q)) -> ordered (l ++ [p]).
Proof.
  unfold ordered. induction l as [|q l IH]; intros H Hq; cbn; [repeat constructor|].
  inversion H; subst. constructor; [apply IH; auto; intros; apply Hq; now right|].
  destruct l as [|c l]; cbn; constructor; [apply Hq; now left|]. now inversion H3.
Qed.

(** the part of the text before the seconds *)
Lemma prefix_ok n : 1000000000 <= n ->
  let '(value, b1) :=
      if NS_PER_HOUR <=? n then (n - n / NS_PER_HOUR * NS_PER_HOUR, [mkP (n / NS_PER_HOUR) 1 Hour]) else (n, []) in
  let '(value, b2) :=
      if NS_PER_MINUTE <=? value then (value - value / NS_PER_MINUTE * NS_PER_MINUTE, b1 ++ [mkP (value / NS_PER_MINUTE) 1 Minute]) else (value, b1) in
  0 <= value < 60000000000 /\ Forall in_range b2 /\ ordered b2 /\ (written b2 == inject_Z (n - value))%Q /\
  (forall q, In q b2 -> 1000000000 < unit_ns (p_unit q)) /\ (value = 0 -> b2 <> []).
Proof.
  intros H. change NS_PER_HOUR with 3600000000000. change NS_PER_MINUTE with 60000000000.
  destruct (Z.leb_spec 3600000000000 n) as [Hh|Hh].
  - pose proof (Z.div_mod n 3600000000000 ltac:(lia)) as Dh. pose proof (Z.mod_pos_bound n 3600000000000 ltac:(lia)) as Mh.
    set (hh := n / 3600000000000) in *. set (v := n - hh * 3600000000000).
    assert (Hv : 0 <= v < 3600000000000) by (unfold v; lia).
    assert (1 <= hh) by lia.
    destruct (Z.leb_spec 60000000000 v) as [Hm|Hm].
    + pose proof (Z.div_mod v 60000000000 ltac:(lia)) as Dm. pose proof (Z.mod_pos_bound v 60000000000 ltac:(lia)) as Mm.
      set (mm := v / 60000000000) in *. splits; try lia.
      * repeat constructor; cbn; lia.
      * repeat constructor; cbn; lia.
      * unfold written, amount. cbn [app fold_right p_num p_den p_unit unit_ns].
        replace (n - (v - mm * 60000000000)) with (hh * 3600000000000 + mm * 60000000000) by (unfold v; lia).
        rewrite inject_Z_plus, !inject_Z_mult. change (inject_Z 1) with 1%Q. field.
      * intros q [<-|[<-|[]]]; cbn; lia.
      * intros _; discriminate.
    + splits; try lia.
      * repeat constructor; cbn; lia.
      * repeat constructor.
      * unfold written, amount. cbn [app fold_right p_num p_den p_unit unit_ns].
        replace (n - v) with (hh * 3600000000000) by (unfold v; lia).
        rewrite !inject_Z_mult. change (inject_Z 1) with 1%Q. field.
      * intros q [<-|[]]; cbn; lia.
      * intros _; discriminate.
  - destruct (Z.leb_spec 60000000000 n) as [Hm|Hm].
    + pose proof (Z.div_mod n 60000000000 ltac:(lia)) as Dm. pose proof (Z.mod_pos_bound n 60000000000 ltac:(lia)) as Mm.
      set (mm := n / 60000000000) in *. splits; try lia.
      * repeat constructor; cbn; lia.
      * repeat constructor.
      * unfold written, amount. cbn [app fold_right p_num p_den p_unit unit_ns].
        replace (n - (n - mm * 60000000000)) with (mm * 60000000000) by lia.
        rewrite !inject_Z_mult. change (inject_Z 1) with 1%Q. field.
      * intros q [<-|[]]; cbn; lia.
      * intros _; discriminate.
    + splits; try lia; try constructor.
      * unfold written. cbn [fold_right]. replace (n - n) with 0 by lia. reflexivity.
      * intros q [].
Qed.

(** C35: what is written is the duration, each amount is in the range of its
    unit and the units decrease *)
Theorem C35_format n : 0 <= n ->
  let l := format_ns None n in
  l <> [] /\ (written l == inject_Z n)%Q /\ ordered l /\
  (n = 0 -> l = [mkP 0 1 Nano]) /\ (0 < n -> Forall in_range l).
Proof.
  intros Hn. cbv zeta. unfold format_ns. destruct (Z.eqb_spec n 0) as [->|H0].
  { splits; try discriminate; auto; try lia; repeat constructor. }
  change NS_PER_SECOND with 1000000000. destruct (Z.ltb_spec n 1000000000) as [H1|H1].
  { destruct (in_seconds_ok n ltac:(lia)) as (p & -> & R1 & W1 & _). splits; try discriminate; auto; try lia. repeat constructor. }
  pose proof (prefix_ok n H1) as P.
  destruct (if NS_PER_HOUR <=? n then _ else _) as [v b1]. destruct (if NS_PER_MINUTE <=? v then _ else _) as [w b2].
  destruct P as (Hw & R2 & O2 & W2 & U2 & N2).
  destruct (Z.ltb_spec 0 w) as [L|L]; [destruct (Z.ltb_spec w 1000000000) as [L'|L']|].
  - destruct (in_seconds_ok w ltac:(lia)) as (p & -> & R1 & W1 & U1). splits; try lia.
    + intros E. apply app_eq_nil in E. destruct E. discriminate.
    + rewrite written_app, W1, W2, <- inject_Z_plus. replace (n - w + w) with n by lia. reflexivity.
    + apply sorted_app1; auto. intros q Hq. apply U2 in Hq. lia.
    + intros _. apply Forall_app. auto.
  - splits; try lia.
    + intros E. apply app_eq_nil in E. destruct E. discriminate.
    + rewrite written_app, W2. unfold written, amount. cbn [show fold_right p_num p_den p_unit unit_ns].
      unfold Z.sub. rewrite inject_Z_plus, inject_Z_opp. field.
    + apply sorted_app1; auto.
    + intros _. apply Forall_app. split; auto. constructor; auto. unfold in_range, amount. cbn [show p_unit p_num p_den].
      apply (frac_bounds w 1000000000 60); lia.
  - assert (w = 0) by lia. subst w. splits; auto; try lia. rewrite W2. replace (n - 0) with n by lia. reflexivity.
Qed.
Print Assumptions C35_format.

Example C35_ex : format_ns None 3723004005006 = [mkP 1 1 Hour; mkP 2 1 Minute; mkP 3004005006 1000000000 Second].
Proof. reflexivity. Qed.

(** C35 with digits: what is written is within half a unit of the last digit *)
Lemma show_close k v D u : 0 < D -> 0 <= v -> unit_ns u = D ->
  (Qabs (written [show (Some k) v D u] - inject_Z v) <= inject_Z D / (2 * inject_Z (10 ^ Z.of_nat k)))%Q.
Proof.
  intros HD Hv Hu. unfold written, amount, show. cbn [fold_right p_num p_den p_unit]. rewrite Hu.
  assert (Hq : 0 < 10 ^ Z.of_nat k) by (apply Z.pow_pos_nonneg; lia). set (q := 10 ^ Z.of_nat k) in *.
  pose proof (Z.div_mod (2 * v * q + D) (2 * D) ltac:(lia)) as Dm. pose proof (Z.mod_pos_bound (2 * v * q + D) (2 * D) ltac:(lia)) as Mb.
  set (r := (2 * v * q + D) / (2 * D)) in *. set (m := (2 * v * q + D) mod (2 * D)) in *.
  assert (B : - D <= 2 * (r * D - v * q) <= D) by lia. clearbody r m q. clear Dm Mb.
  assert (Pq : (0 < inject_Z q)%Q) by (change 0%Q with (inject_Z 0); rewrite <- Zlt_Qlt; lia).
  assert (E : (inject_Z r / inject_Z q * inject_Z D + 0 - inject_Z v == inject_Z (2 * (r * D - v * q)) / (2 * inject_Z q))%Q).
  { unfold Z.sub. rewrite inject_Z_mult, inject_Z_plus, inject_Z_opp, !inject_Z_mult. change (inject_Z 2) with 2%Q. field. Lqa.lra. }
  rewrite E. clear E. apply Qabs_Qle_condition. set (N := 2 * (r * D - v * q)) in *. clearbody N.
  assert (P2 : (0 < 2 * inject_Z q)%Q) by Lqa.lra.
  assert (Z1 : (inject_Z N <= inject_Z D)%Q) by (rewrite <- ?inject_Z_opp, <- Zle_Qle; lia).
  assert (Z2 : (- inject_Z D <= inject_Z N)%Q) by (rewrite <- ?inject_Z_opp, <- Zle_Qle; lia).
  split.
  - apply Qle_shift_div_l; auto. setoid_replace (- (inject_Z D / (2 * inject_Z q)) * (2 * inject_Z q))%Q with (- inject_Z D)%Q by (field; Lqa.lra). auto.
  - apply Qle_shift_div_l; auto. setoid_replace (inject_Z N / (2 * inject_Z q) * (2 * inject_Z q))%Q with (inject_Z N)%Q by (field; Lqa.lra). auto.
Qed.

Theorem C35_digits n k : 0 <= n ->
  exists u, In u [Second; Milli; Micro; Nano] /\
  (Qabs (written (format_ns (Some k) n) - inject_Z n) <= inject_Z (unit_ns u) / (2 * inject_Z (10 ^ Z.of_nat k)))%Q /\
  (unit_ns u <= n \/ n < 1000).
Proof.
  intros Hn.
  assert (Hq : 0 < 10 ^ Z.of_nat k) by (apply Z.pow_pos_nonneg; lia).
  assert (Pq : (0 < 2 * inject_Z (10 ^ Z.of_nat k))%Q).
  { assert (0 < inject_Z (10 ^ Z.of_nat k))%Q by (change 0%Q with (inject_Z 0); rewrite <- Zlt_Qlt; lia). Lqa.lra. }
  assert (Ex : forall u (a b : Q), (a == b)%Q -> (Qabs (a - b) <= inject_Z (unit_ns u) / (2 * inject_Z (10 ^ Z.of_nat k)))%Q).
  { intros u a b E. assert (Z0 : (a - b == 0)%Q) by (rewrite E; ring). rewrite Z0. cbn [Qabs Z.abs].
    apply Qle_shift_div_l; auto. setoid_replace (Qabs 0 * (2 * inject_Z (10 ^ Z.of_nat k)))%Q with 0%Q by (cbn; ring). destruct u; unfold Qle; cbn; lia. }
  assert (Sec : forall v, 0 < v < 1000000000 -> exists u, In u [Second; Milli; Micro; Nano] /\
     (Qabs (written (format_in_seconds (Some k) v) - inject_Z v) <= inject_Z (unit_ns u) / (2 * inject_Z (10 ^ Z.of_nat k)))%Q /\ (unit_ns u <= v)).
  { intros v Hv. unfold format_in_seconds. change NS_PER_MICROSECOND with 1000. change NS_PER_MILLISECOND with 1000000.
    destruct (Z.ltb_spec v 1000); [|destruct (Z.ltb_spec v 1000000)].
    - exists Nano. splits; [cbn; tauto| |cbn; lia]. apply Ex. unfold written, amount. cbn [fold_right p_num p_den p_unit unit_ns]. change (inject_Z 1) with 1%Q. field.
    - exists Micro. splits; [cbn; tauto| |cbn; lia]. apply show_close; [cbn; lia|lia|reflexivity].
    - exists Milli. splits; [cbn; tauto| |cbn; lia]. apply show_close; [cbn; lia|lia|reflexivity]. }
  unfold format_ns. destruct (Z.eqb_spec n 0) as [->|H0].
  { exists Nano. splits; [cbn; tauto| |lia]. apply Ex. reflexivity. }
  change NS_PER_SECOND with 1000000000. destruct (Z.ltb_spec n 1000000000) as [H1|H1].
  { destruct (Sec n ltac:(lia)) as (u & A & B & C). exists u. auto. }
  pose proof (prefix_ok n H1) as P.
  destruct (if NS_PER_HOUR <=? n then _ else _) as [v b1]. destruct (if NS_PER_MINUTE <=? v then _ else _) as [w b2].
  destruct P as (Hw & R2 & O2 & W2 & U2 & N2).
  assert (Sp : forall l, (written (b2 ++ l) - inject_Z n == written l - inject_Z w)%Q).
  { intros l. rewrite written_app, W2. unfold Z.sub. rewrite inject_Z_plus, inject_Z_opp. ring. }
  destruct (Z.ltb_spec 0 w) as [L|L]; [destruct (Z.ltb_spec w 1000000000) as [L'|L']|].
  - destruct (Sec w ltac:(lia)) as (u & A & B & C). exists u. rewrite Sp. splits; auto. left. destruct u; cbn in *; lia.
  - exists Second. rewrite Sp. splits; [cbn; tauto| |cbn; lia]. apply show_close; [cbn; lia|lia|reflexivity].
  - assert (w = 0) by lia. subst w. exists Second. splits; [cbn; tauto| |cbn; lia]. apply Ex. rewrite W2. replace (n - 0) with n by lia. reflexivity.
Qed.
Print Assumptions C35_digits.

(** C35, refuted part: with digits the seconds may leave their range: 59.999 s
    with two digits is written as 60.00s, and one minute less 1 ns likewise *)
Theorem C35_digits_range_refuted :
  format_ns (Some 2%nat) 59999000000 = [mkP 6000 100 Second] /\ ~ in_range (mkP 6000 100 Second).
Proof.
  split; [reflexivity|]. unfold in_range, amount. cbn. intros [_ H]. unfold Qlt in H. cbn in H. lia.
Qed.
Print Assumptions C35_digits_range_refuted.
