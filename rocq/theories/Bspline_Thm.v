(** C28: B-spline basis functions *)
From Coq Require Import Reals Lra Lia ZArith List Psatz.
From Verif Require Import RSum Bspline_Model.
Import ListNotations.
Open Scope R_scope.

(* ------------------------------------------------------------------ *)
(** * Specification *)

(** the knots as a function of the index *)
Definition knot (uu : list R) (i : nat) : R := nth i uu 0.

(** a / b, where 0 / 0 counts as 0 *)
Definition frac (a b : R) : R := if Req_EM_T b 0 then 0 else a / b.

(** Cox-de Boor: the basis function i of degree p at u; the last non-empty span is
    closed on the right *)
Definition in_span (U : nat -> R) (last u : R) (i : nat) : Prop :=
  U i <= u < U (S i) \/ (u = last /\ U i < u /\ U (S i) = u).
Lemma in_span_dec U last u i : {in_span U last u i} + {~ in_span U last u i}.
Proof.
  unfold in_span. destruct (Rle_dec (U i) u), (Rlt_dec u (U (S i))), (Req_EM_T u last), (Rlt_dec (U i) u), (Req_EM_T (U (S i)) u); auto;
    right; intros [[? ?]|(? & ? & ?)]; auto.
Defined.

Fixpoint cox (U : nat -> R) (last u : R) (p i : nat) : R :=
  match p with
  | O => if in_span_dec U last u i then 1 else 0
  | S p' => frac (u - U i) (U (i + p)%nat - U i) * cox U last u p' i +
            frac (U (i + p + 1)%nat - u) (U (i + p + 1)%nat - U (i + 1)%nat) * cox U last u p' (i + 1)
  end.

(** knots in order *)
Definition sorted (uu : list R) : Prop := forall i j, (i <= j < length uu)%nat -> knot uu i <= knot uu j.

(** clamped: the first p + 1 knots are equal and less than the next one, the last
    p + 1 knots are equal and more than the one before *)
Definition clamped (p : nat) (uu : list R) : Prop :=
  let n := (length uu - p - 2)%nat in
  (2 * (p + 1) <= length uu)%nat /\
  knot uu 0 = knot uu p /\ knot uu p < knot uu (p + 1) /\
  knot uu n < knot uu (n + 1) /\ knot uu (n + 1) = knot uu (length uu - 1).

(* ------------------------------------------------------------------ *)
(** * The span search *)

Lemma vgetk uu i : (i < length uu)%nat -> vget uu i = Ok (knot uu i).
Proof. intros. now apply vget_ok. Qed.

Lemma span_loop_ok uu u : forall fuel low high, (high < length uu)%nat -> (low < high)%nat -> knot uu low <= u < knot uu high -> (high - low <= fuel)%nat ->
  exists s, span_loop uu u fuel low high = Ok (Some s) /\ (low <= s < high)%nat /\ knot uu s <= u < knot uu (s + 1).
Proof.
  induction fuel as [|fuel IH]; intros low high Hh Hlh Hu Hf; [lia|].
  cbn [span_loop]. cbv zeta. set (mid := ((low + high) / 2)%nat).
  assert (Hm : (low <= mid < high)%nat).
  { unfold mid. split; [apply Nat.div_le_lower_bound; lia|apply Nat.div_lt_upper_bound; lia]. }
  rewrite vgetk by lia. cbn [bind]. destruct (Rltb_spec u (knot uu mid)) as [C|C].
  - assert (low <> mid) by (intros E; rewrite <- E in C; lra).
    destruct (IH low mid) as (s & E & H1 & H2); try lia; try lra. exists s. splits; auto; lra || lia.
  - rewrite vgetk by lia. cbn [bind]. destruct (Rleb_spec (knot uu (mid + 1)) u) as [C2|C2].
    + assert (mid + 1 <> high)%nat by (intros E; rewrite E in C2; lra).
      assert (low < mid)%nat.
      { unfold mid in *. assert (2 <= high - low)%nat by lia. apply Nat.div_le_lower_bound; lia. }
      destruct (IH mid high) as (s & E & H1 & H2); try lia; try lra. exists s. splits; auto; lra || lia.
    + exists mid. splits; auto; lra || lia.
Qed.

(** C28: the search ends for every knot vector (sorted or not) and every u, after
    at most as many iterations as there are knots. *)
Theorem C28_span_terminates p uu u fuel : (2 * (p + 1) <= length uu)%nat -> (length uu <= fuel)%nat ->
  exists s, find_span p uu u fuel = Ok (Some s) /\ (p <= s <= length uu - p - 2)%nat.
Proof.
  intros Hl Hf. unfold find_span, usub.
  destruct (Nat.leb_spec 1 (length uu)); [|lia]. cbn [bind].
  destruct (Nat.leb_spec p (length uu - 1)); [|lia]. cbn [bind].
  destruct (Nat.leb_spec 1 (length uu - 1 - p)); [|lia]. cbn [bind].
  set (n := (length uu - 1 - p - 1)%nat).
  rewrite vgetk by lia. cbn [bind]. destruct (Rleb_spec (knot uu (n + 1)) u) as [C|C].
  - exists n. split; auto; lia.
  - rewrite vgetk by lia. cbn [bind]. destruct (Rleb_spec u (knot uu p)) as [C2|C2].
    + exists p. split; auto; lia.
    + destruct (span_loop_ok uu u fuel p (n + 1)) as (s & E & H2 & H3); try lia; try lra. exists s. splits; auto; lia.
Qed.

(** C28: within a clamped sorted knot vector the result is the unique span that
    contains u. *)
Theorem C28_span p uu u fuel : sorted uu -> clamped p uu -> (length uu <= fuel)%nat ->
  knot uu 0 <= u <= knot uu (length uu - 1) ->
  exists s, find_span p uu u fuel = Ok (Some s) /\ (p <= s <= length uu - p - 2)%nat /\
    in_span (knot uu) (knot uu (length uu - 1)) u s /\
    (forall s', (S s' < length uu)%nat -> in_span (knot uu) (knot uu (length uu - 1)) u s' -> s' = s).
Proof.
  intros Hs (Hl & K1 & K2 & K3 & K4) Hf Hu.
  set (L := length uu) in *. set (n := (L - p - 2)%nat) in *. set (last := knot uu (L - 1)) in *.
  assert (Q : exists s, find_span p uu u fuel = Ok (Some s) /\ (p <= s <= n)%nat /\ in_span (knot uu) last u s).
  { unfold find_span, usub. fold L.
    destruct (Nat.leb_spec 1 L); [|lia]. cbn [bind].
    destruct (Nat.leb_spec p (L - 1)); [|lia]. cbn [bind].
    destruct (Nat.leb_spec 1 (L - 1 - p)); [|lia]. cbn [bind].
    replace (L - 1 - p - 1)%nat with n by lia.
    rewrite vgetk by (fold L; lia). cbn [bind]. destruct (Rleb_spec (knot uu (n + 1)) u) as [C|C].
    - exists n. splits; auto; try lia. right. replace (S n) with (n + 1)%nat by lia. splits; lra.
    - rewrite vgetk by (fold L; lia). cbn [bind]. destruct (Rleb_spec u (knot uu p)) as [C2|C2].
      + exists p. splits; auto; try lia. left. replace (S p) with (p + 1)%nat by lia. split; lra.
      + destruct (span_loop_ok uu u fuel p (n + 1)) as (s & E & H2 & H3); try (fold L; lia); try lra.
        exists s. splits; auto; try lia. left. now replace (S s) with (s + 1)%nat by lia. }
  destruct Q as (s & E & Q1 & Q2). exists s. splits; auto; try lia.
  intros s' Hs' H'.
  assert (Mo : forall i j, (i < j)%nat -> (S j < L)%nat -> in_span (knot uu) last u i -> in_span (knot uu) last u j -> False).
  { intros i j Hij Hj Hi Hjj. pose proof (Hs (S i) j ltac:(fold L; lia)). pose proof (Hs (S j) (L - 1)%nat ltac:(fold L; lia)) as HH. fold last in HH.
    destruct Hi as [Hi|Hi], Hjj as [Hjj|Hjj]; lra. }
  destruct (Nat.lt_trichotomy s s') as [C|[C|C]]; auto; exfalso; [apply (Mo s s')|apply (Mo s' s)]; auto; lia.
Qed.

(* ------------------------------------------------------------------ *)
(** * The triangle of basis functions *)

Definition mat (m n : nat) (M : list (list R)) : Prop := length M = m /\ forall i, (i < m)%nat -> length (nth i M []) = n.
Definition g2 (M : list (list R)) (i j : nat) : R := nth j (nth i M []) 0.

Lemma get2_ok m n M i j : mat m n M -> (i < m)%nat -> (j < n)%nat -> get2 M i j = Ok (g2 M i j).
Proof. intros [H1 H2] Hi Hj. unfold get2. rewrite (vget_ok _ _ []) by lia. cbn [bind]. apply vget_ok. rewrite H2; auto. Qed.
Lemma set2_ok m n M i j x : mat m n M -> (i < m)%nat -> (j < n)%nat ->
  exists M', set2 M i j x = Ok M' /\ mat m n M' /\ g2 M' i j = x /\ (forall a b, (a <> i \/ b <> j) -> g2 M' a b = g2 M a b).
Proof.
  intros [H1 H2] Hi Hj. unfold set2. rewrite (vget_ok _ _ []) by lia. cbn [bind]. rewrite vset_ok by (rewrite H2; auto). cbn [bind].
  rewrite vset_ok by lia. eexists. split; [reflexivity|]. splits.
  - split; [now rewrite upd_length|]. intros k Hk. rewrite nth_upd by lia. destruct (Nat.eqb_spec k i) as [->|]; [rewrite upd_length|]; auto.
  - unfold g2. rewrite nth_upd_eq by lia. apply nth_upd_eq. rewrite H2; auto.
  - intros a b H. unfold g2. rewrite nth_upd by lia. destruct (Nat.eqb_spec a i) as [->|]; auto. rewrite nth_upd_ne; auto. destruct H; auto; congruence.
Qed.

Section Triangle.
Variables (U : nat -> R) (u : R) (span : nat).
Definition lft (k : nat) : R := u - U (span + 1 - k)%nat.
Definition rgt (k : nat) : R := U (span + k)%nat - u.
Definition diff (j r : nat) : R := rgt (r + 1) + lft (j - r).

(** the column j of the triangle *)
Fixpoint tri (j r : nat) : R :=
  match j with
  | O => 1
  | S j' => (match r with O => 0 | S r' => lft (j - r') * (tri j' r' / diff j r') end) +
            (if (r <? j)%nat then rgt (r + 1) * (tri j' r / diff j r) else 0)
  end.

Lemma tri_S j r : tri (S j) r = (match r with O => 0 | S r' => lft (S j - r') * (tri j r' / diff (S j) r') end) +
            (if (r <? S j)%nat then rgt (r + 1) * (tri j r / diff (S j) r) else 0).
Proof. reflexivity. Qed.
End Triangle.

Lemma basis_funs_ok p uu u span ndu lf rg : (p <= span)%nat -> (span + p < length uu)%nat ->
  mat (p + 1) (p + 1) ndu -> length lf = (p + 1)%nat -> length rg = (p + 1)%nat ->
  exists ndu' lf' rg', basis_funs p uu u span (ndu, lf, rg) = Ok (ndu', lf', rg') /\
    mat (p + 1) (p + 1) ndu' /\ length lf' = (p + 1)%nat /\ length rg' = (p + 1)%nat /\
    (forall j r, (r <= j <= p)%nat -> g2 ndu' r j = tri (knot uu) u span j r) /\
    (forall j r, (r < j <= p)%nat -> g2 ndu' j r = diff (knot uu) u span j r).
Proof.
  intros Hp Hsp Hm Hlf Hrg. unfold basis_funs.
  destruct (set2_ok (p + 1) (p + 1) ndu 0 0 1 Hm ltac:(lia) ltac:(lia)) as (n0 & E0 & M0 & V0 & _). rewrite E0. cbn [bind].
  set (U := knot uu).
  set (Inv := fun (j : nat) (st : list (list R) * list R * list R) => let '(nd, lf, rg) := st in
    mat (p + 1) (p + 1) nd /\ length lf = (p + 1)%nat /\ length rg = (p + 1)%nat /\
    (forall k, (1 <= k < j)%nat -> nth k lf 0 = lft U u span k /\ nth k rg 0 = rgt U u span k) /\
    (forall k r, (r <= k < j)%nat -> g2 nd r k = tri U u span k r) /\
    (forall k r, (r < k < j)%nat -> g2 nd k r = diff U u span k r)).
  match goal with |- context [for_range 1 (p + 1) ?F ?S0] => destruct (for_range_inv Inv F 1 (p + 1) S0) as ([[n1 l1] r1] & E1 & I1) end.
  - lia.
  - unfold Inv. splits; auto; try (intros; lia).
    intros k r Hk. replace k with 0%nat by lia. replace r with 0%nat by lia. rewrite V0. reflexivity.
  - intros j [[nd lf1] rg1] Hj (I1 & I2 & I3 & I4 & I5 & I6).
    unfold usub. destruct (Nat.leb_spec j (span + 1)); [|lia]. cbn [bind]. rewrite vgetk by lia. cbn [bind].
    rewrite vset_ok by lia. cbn [bind]. rewrite vgetk by lia. cbn [bind]. rewrite vset_ok by lia. cbn [bind]. fold U.
    set (lf2 := upd lf1 j (u - U (span + 1 - j)%nat)). set (rg2 := upd rg1 j (U (span + j)%nat - u)).
    assert (Hl2 : length lf2 = (p + 1)%nat) by (unfold lf2; now rewrite upd_length).
    assert (Hr2 : length rg2 = (p + 1)%nat) by (unfold rg2; now rewrite upd_length).
    assert (V2 : forall k, (1 <= k < S j)%nat -> nth k lf2 0 = lft U u span k /\ nth k rg2 0 = rgt U u span k).
    { intros k Hk. unfold lf2, rg2. rewrite !nth_upd by lia. destruct (Nat.eqb_spec k j) as [->|N]; [split; reflexivity|]. apply I4. lia. }
    set (Jn := fun (r : nat) (st : list (list R) * R) => let '(nd', saved) := st in
      mat (p + 1) (p + 1) nd' /\
      saved = (match r with O => 0 | S r' => lft U u span (j - r') * (tri U u span (j - 1) r' / diff U u span j r') end) /\
      (forall k r', (r' <= k < j)%nat -> g2 nd' r' k = tri U u span k r') /\
      (forall r', (r' < r)%nat -> g2 nd' r' j = tri U u span j r') /\
      (forall k r', (r' < k < j)%nat -> g2 nd' k r' = diff U u span k r') /\
      (forall r', (r' < r)%nat -> g2 nd' j r' = diff U u span j r')).
    destruct (for_range_inv Jn (fun r st => basis_row lf2 rg2 j st r) 0 j (nd, 0)) as ([n2 sv] & E2 & J1).
    + lia.
    + unfold Jn. splits; auto; intros; lia.
    + intros r [nd' saved] Hr (J1 & J2 & J3 & J4 & J5 & J6). unfold basis_row.
      destruct (V2 (r + 1)%nat ltac:(lia)) as [_ Vr]. destruct (V2 (j - r)%nat ltac:(lia)) as [Vl _].
      rewrite (vget_ok rg2 _ 0) by lia. cbn [bind]. rewrite Vr. unfold usub. destruct (Nat.leb_spec r j); [|lia]. cbn [bind].
      rewrite (vget_ok lf2 _ 0) by lia. cbn [bind]. rewrite Vl.
      destruct (set2_ok (p + 1) (p + 1) nd' j r (rgt U u span (r + 1) + lft U u span (j - r)) J1 ltac:(lia) ltac:(lia)) as (n3 & E3 & M3 & W1 & W2).
      rewrite E3. cbn [bind]. destruct (Nat.leb_spec 1 j); [|lia]. cbn [bind].
      rewrite (get2_ok (p + 1) (p + 1)) by (auto; lia). cbn [bind]. rewrite (get2_ok (p + 1) (p + 1)) by (auto; lia). cbn [bind]. cbv zeta.
      rewrite W1, (W2 r (j - 1)%nat) by lia. rewrite J3 by lia. fold (diff U u span j r).
      destruct (set2_ok (p + 1) (p + 1) n3 r j (saved + rgt U u span (r + 1) * (tri U u span (j - 1) r / diff U u span j r)) M3 ltac:(lia) ltac:(lia)) as (n4 & E4 & M4 & X1 & X2).
      rewrite E4. cbn [bind]. eexists. split; [reflexivity|]. unfold Jn. splits; auto.
      * intros k r' Hk. rewrite X2 by lia. rewrite W2 by lia. auto.
      * intros r' Hr'. destruct (Nat.eq_dec r' r) as [->|N].
        -- rewrite X1. replace j with (S (j - 1)) at 3 by lia. rewrite tri_S. replace (S (j - 1)) with j by lia.
           destruct (Nat.ltb_spec r j); [|lia]. rewrite J2. reflexivity.
        -- rewrite X2 by lia. rewrite W2 by lia. apply J4. lia.
      * intros k r' Hk. rewrite X2 by lia. rewrite W2 by lia. auto.
      * intros r' Hr'. rewrite X2 by lia. destruct (Nat.eq_dec r' r) as [->|N]; [exact W1|]. rewrite W2 by lia. apply J6. lia.
    + destruct J1 as (J1 & J2 & J3 & J4 & J5 & J6). rewrite E2. cbn [bind].
      destruct (set2_ok (p + 1) (p + 1) n2 j j sv J1 ltac:(lia) ltac:(lia)) as (n3 & E3 & M3 & W1 & W2).
      rewrite E3. cbn [bind]. eexists. split; [reflexivity|]. unfold Inv. splits; auto.
      * intros k r Hk. destruct (Nat.eq_dec k j) as [->|N].
        -- destruct (Nat.eq_dec r j) as [->|N2].
           ++ rewrite W1, J2. replace (tri U u span j j) with (tri U u span (S (j - 1)) j) by (f_equal; lia). rewrite tri_S. replace (S (j - 1)) with j by lia.
              destruct (Nat.ltb_spec j j); [lia|]. ring.
           ++ rewrite W2 by lia. apply J4. lia.
        -- rewrite W2 by lia. apply J3. lia.
      * intros k r Hk. rewrite W2 by lia. destruct (Nat.eq_dec k j) as [->|N]; [apply J6; lia|apply J5; lia].
  - destruct I1 as (I1 & I2 & I3 & I4 & I5 & I6). exists n1, l1, r1. splits; auto; intros; [apply I5|apply I6]; lia.
Qed.

(* ------------------------------------------------------------------ *)
(** * The triangle is that of Cox-de Boor *)

Section Cox.
Variables (uu : list R) (p : nat) (u : R) (s : nat).
Notation U := (knot uu).
Notation last := (knot uu (length uu - 1)).
Hypothesis Hs : sorted uu.
Hypothesis Hps : (p <= s)%nat.
Hypothesis Hsp : (s + p + 1 < length uu)%nat.
Hypothesis Hin : in_span U last u s.
Hypothesis Huniq : forall s', (S s' < length uu)%nat -> in_span U last u s' -> s' = s.

Lemma span_lt : U s < U (S s) /\ U s <= u <= U (S s).
Proof. destruct Hin as [H|(H1 & H2 & H3)]; lra. Qed.

Lemma diff_pos j r : (r < j <= p)%nat -> 0 < diff U u s j r.
Proof.
  intros H. unfold diff, lft, rgt. destruct span_lt as [H1 _].
  pose proof (Hs (S s) (s + (r + 1))%nat ltac:(lia)). pose proof (Hs (s + 1 - (j - r))%nat s ltac:(lia)). lra.
Qed.

(** the basis functions of degree j vanish outside s - j .. s *)
Lemma cox_zero j : forall i, (i + j + 1 < length uu)%nat -> (i + j < s \/ s < i)%nat -> cox U last u j i = 0.
Proof.
  induction j as [|j IH]; intros i Hi H; cbn [cox].
  - destruct (in_span_dec U last u i) as [C|C]; auto. apply Huniq in C; lia.
  - rewrite !IH by lia. ring.
Qed.

Lemma frac_pos a b : 0 < b -> frac a b = a / b.
Proof. intros H. unfold frac. destruct (Req_EM_T b 0); [lra|reflexivity]. Qed.

Lemma cox_tri j : (j <= p)%nat -> forall r, (r <= j)%nat -> cox U last u j (s - j + r) = tri U u s j r.
Proof.
  induction j as [|j IH]; intros Hj r Hr.
  - cbn [cox tri]. replace (s - 0 + r)%nat with s by lia. destruct (in_span_dec U last u s); [reflexivity|contradiction].
  - rewrite tri_S. cbn [cox]. set (i := (s - S j + r)%nat). f_equal.
    + destruct r as [|r'].
      * rewrite (cox_zero j i) by lia. ring.
      * rewrite <- IH by lia. replace (s - j + r')%nat with i by lia.
        pose proof (diff_pos (S j) r' ltac:(lia)) as D. unfold diff, lft, rgt in *. unfold lft.
        replace (s + (r' + 1))%nat with (i + S j)%nat in * by lia. replace (s + 1 - (S j - r'))%nat with i in * by lia.
        rewrite frac_pos by lra. replace (U (i + S j)%nat - u + (u - U i)) with (U (i + S j)%nat - U i) in * by ring. field. lra.
    + destruct (Nat.ltb_spec r (S j)) as [C|C].
      * rewrite <- IH by lia. replace (s - j + r)%nat with (i + 1)%nat by lia.
        pose proof (diff_pos (S j) r ltac:(lia)) as D. unfold diff, lft, rgt in *. unfold lft, rgt.
        replace (s + (r + 1))%nat with (i + S j + 1)%nat in * by lia. replace (s + 1 - (S j - r))%nat with (i + 1)%nat in * by lia.
        rewrite frac_pos by lra. 
        replace (U (i + S j + 1)%nat - u + (u - U (i + 1)%nat)) with (U (i + S j + 1)%nat - U (i + 1)%nat) in * by ring. field. lra.
      * rewrite (cox_zero j (i + 1)) by lia. ring.
Qed.

Lemma lft_nonneg k : (1 <= k <= p)%nat -> 0 <= lft U u s k.
Proof. intros H. unfold lft. destruct span_lt. pose proof (Hs (s + 1 - k)%nat s ltac:(lia)). lra. Qed.
Lemma rgt_nonneg k : (1 <= k <= p)%nat -> 0 <= rgt U u s k.
Proof. intros H. unfold rgt. destruct span_lt. pose proof (Hs (S s) (s + k)%nat ltac:(lia)). lra. Qed.

Lemma tri_nonneg j : (j <= p)%nat -> forall r, (r <= j)%nat -> 0 <= tri U u s j r.
Proof.
  induction j as [|j IH]; intros Hj r Hr; [cbn; lra|]. rewrite tri_S. apply Rplus_le_le_0_compat.
  - destruct r as [|r']; [lra|]. apply Rmult_le_pos; [apply lft_nonneg; lia|]. apply Rmult_le_pos; [apply IH; lia|].
    left. apply Rinv_0_lt_compat, diff_pos. lia.
  - destruct (Nat.ltb_spec r (S j)); [|lra]. apply Rmult_le_pos; [apply rgt_nonneg; lia|]. apply Rmult_le_pos; [apply IH; lia|].
    left. apply Rinv_0_lt_compat, diff_pos. lia.
Qed.

Lemma tri_sum j : (j <= p)%nat -> sumn (S j) (tri U u s j) = 1.
Proof.
  induction j as [|j IH]; intros Hj; [cbn; lra|].
  rewrite <- (IH ltac:(lia)). 
  set (L := fun r => lft U u s (S j - r) * (tri U u s j r / diff U u s (S j) r)).
  set (Q := fun r => rgt U u s (r + 1) * (tri U u s j r / diff U u s (S j) r)).
  rewrite (sumn_ext (S (S j)) _ (fun r => (match r with O => 0 | S r' => L r' end) + (if (r <? S j)%nat then Q r else 0))).
  2: { intros r Hr. rewrite tri_S. reflexivity. }
  rewrite sumn_plus. rewrite (sumn_S_l (S j) (fun r => match r with O => 0 | S r' => L r' end)). rewrite Rplus_0_l.
  change (sumn (S (S j)) (fun r => if (r <? S j)%nat then Q r else 0)) with (sumn (S j) (fun r => if (r <? S j)%nat then Q r else 0) + (if (S j <? S j)%nat then Q (S j) else 0)).
  rewrite Nat.ltb_irrefl, Rplus_0_r. rewrite (sumn_ext (S j) (fun r => if (r <? S j)%nat then Q r else 0) Q).
  2: { intros r Hr. destruct (Nat.ltb_spec r (S j)); [reflexivity|lia]. }
  rewrite <- sumn_plus. apply sumn_ext. intros r Hr. unfold L, Q. pose proof (diff_pos (S j) r ltac:(lia)) as D.
  replace (lft U u s (S j - r) * (tri U u s j r / diff U u s (S j) r) + rgt U u s (r + 1) * (tri U u s j r / diff U u s (S j) r))
    with (diff U u s (S j) r * (tri U u s j r / diff U u s (S j) r)) by (unfold diff; ring). field. lra.
Qed.
End Cox.

(* ------------------------------------------------------------------ *)
(** * The instance *)

(** what holds of a spline of degree p on the knots uu from its creation on *)
Definition spline_ok (p : nat) (uu : list R) (b : bspline) : Prop :=
  b_p b = p /\ b_uu b = uu /\ mat (p + 1) (p + 1) (b_ndu b) /\ length (b_left b) = (p + 1)%nat /\ length (b_right b) = (p + 1)%nat /\
  (1 <= p)%nat /\ (2 * (p + 1) <= length uu)%nat /\
  (forall i, (i < length uu)%nat -> b_umin b <= knot uu i <= b_umax b) /\
  (exists i, (i < length uu)%nat /\ b_umin b = knot uu i) /\ (exists i, (i < length uu)%nat /\ b_umax b = knot uu i).

Lemma fold_min (l : list R) : forall acc, let m := fold_left (fun acc u => if Rltb u acc then u else acc) l acc in
  m <= acc /\ (forall x, In x l -> m <= x) /\ (m = acc \/ In m l).
Proof.
  induction l as [|x l IH]; intros acc; cbn [fold_left]; cbv zeta.
  - splits; [lra|intros y []|now left].
  - destruct (IH (if Rltb x acc then x else acc)) as (H1 & H2 & H3). cbv zeta in *. destruct (Rltb_spec x acc) as [C|C].
    + splits; [lra|intros y [<-|Hy]; [lra|auto]|]. right. destruct H3 as [->|]; [now left|now right].
    + splits; [lra|intros y [<-|Hy]; [lra|auto]|]. destruct H3 as [->|]; [now left|right; now right].
Qed.
Lemma fold_max (l : list R) : forall acc, let m := fold_left (fun acc u => if Rltb acc u then u else acc) l acc in
  acc <= m /\ (forall x, In x l -> x <= m) /\ (m = acc \/ In m l).
Proof.
  induction l as [|x l IH]; intros acc; cbn [fold_left]; cbv zeta.
  - splits; [lra|intros y []|now left].
  - destruct (IH (if Rltb acc x then x else acc)) as (H1 & H2 & H3). cbv zeta in *. destruct (Rltb_spec acc x) as [C|C].
    + splits; [lra|intros y [<-|Hy]; [lra|auto]|]. right. destruct H3 as [->|]; [now left|now right].
    + splits; [lra|intros y [<-|Hy]; [lra|auto]|]. destruct H3 as [->|]; [now left|right; now right].
Qed.

Lemma mat_repeat m n : mat m n (repeat (repeat 0 n) m).
Proof. split; [apply repeat_length|]. intros i Hi. rewrite nth_repeat_lt by auto. apply repeat_length. Qed.

(** C28: creation establishes the invariant, and fails on a wrong degree or too
    few knots only. *)
Theorem C28_new p uu : match bspline_new p uu with
  | Ok b => spline_ok p uu b
  | Err _ => p = 0%nat \/ (length uu < 2 * (p + 1))%nat
  | Panic => False
  end.
Proof.
  unfold bspline_new. destruct (Nat.ltb_spec p 1); [left; lia|]. destruct (Nat.ltb_spec (length uu) (2 * (p + 1))); [now right|].
  cbv zeta. set (mn := fold_left _ uu _). set (mx := fold_left _ uu (hd 0 uu)).
  destruct (fold_min uu (hd 0 uu)) as (A1 & A2 & A3). destruct (fold_max uu (hd 0 uu)) as (B1 & B2 & B3). cbv zeta in *. fold mn in A1, A2, A3. fold mx in B1, B2, B3.
  assert (Hd : In (hd 0 uu) uu) by (destruct uu; cbn in *; [lia|now left]).
  assert (Im : forall x, In x uu -> exists i, (i < length uu)%nat /\ x = knot uu i).
  { intros x Hx. apply (In_nth uu x 0) in Hx. destruct Hx as (i & Hi & E). exists i. split; auto. }
  unfold spline_ok. cbn [b_p b_uu b_ndu b_left b_right b_umin b_umax]. splits; auto; try lia.
  - apply mat_repeat.
  - apply repeat_length.
  - apply repeat_length.
  - intros i Hi. split; [apply A2|apply B2]; now apply nth_In.
  - apply Im. destruct A3 as [->|]; auto.
  - apply Im. destruct B3 as [->|]; auto.
Qed.

Lemma sorted_range p uu b : sorted uu -> spline_ok p uu b -> b_umin b = knot uu 0 /\ b_umax b = knot uu (length uu - 1).
Proof.
  intros Hs (_ & _ & _ & _ & _ & H1 & H2 & H3 & (i & Hi & Ei) & (k & Hk & Ek)). split; apply Rle_antisym.
  - apply H3. lia.
  - rewrite Ei. apply Hs. lia.
  - rewrite Ek. apply Hs. lia.
  - apply H3. lia.
Qed.

(** C28: on a sorted clamped knot vector and within its range, calc_basis answers;
    get_basis then gives the Cox-de Boor functions; they are not negative, they sum
    to one, and no division was by zero. *)
Theorem C28_basis p uu b u fuel : sorted uu -> clamped p uu -> spline_ok p uu b -> (length uu <= fuel)%nat ->
  knot uu 0 <= u <= knot uu (length uu - 1) ->
  let N := cox (knot uu) (knot uu (length uu - 1)) u p in
  exists b', calc_basis fuel b u = Ok b' /\ spline_ok p uu b' /\
    num_basis b' = Ok (length uu - 1 - p)%nat /\
    (forall i, (i < length uu - 1 - p)%nat -> get_basis b' i = Ok (N i) /\ 0 <= N i) /\
    sumn (length uu - 1 - p) N = 1 /\
    (forall j r, (r < j <= p)%nat -> 0 < g2 (b_ndu b') j r).
Proof.
  intros Hs Hc Hb Hf Hu N. destruct (sorted_range p uu b Hs Hb) as [Emin Emax].
  pose proof Hb as (B1 & B2 & B3 & B4 & B5 & B6 & B7 & B8 & B9 & B10).
  destruct (C28_span p uu u fuel Hs Hc Hf Hu) as (s & Es & S1 & S2 & S3).
  destruct (basis_funs_ok p uu u s (b_ndu b) (b_left b) (b_right b) ltac:(lia) ltac:(lia) B3 B4 B5) as (n' & l' & r' & Eb & M' & L' & R' & T1 & T2).
  exists (with_span b s (n', l', r')). splits.
  - unfold calc_basis. rewrite B1, B2, Emin, Emax. destruct (Rltb_spec u (knot uu 0)); [lra|]. destruct (Rltb_spec (knot uu (length uu - 1)) u); [lra|].
    cbn [orb]. rewrite Es. cbn [bind ended]. rewrite Eb. reflexivity.
  - unfold spline_ok, with_span. cbn [b_p b_uu b_ndu b_left b_right b_umin b_umax]. splits; auto.
  - unfold num_basis, with_span, usub. cbn [b_uu b_p]. rewrite B1, B2. destruct (Nat.leb_spec 1 (length uu)); [|lia]. cbn [bind].
    destruct (Nat.leb_spec p (length uu - 1)); [reflexivity|lia].
  - intros i Hi.
    assert (G : get_basis (with_span b s (n', l', r')) i = Ok (N i)).
    { unfold get_basis, with_span. cbn [b_span b_p b_ndu]. rewrite B1.
      destruct (Nat.leb_spec s (i + p)); destruct (Nat.leb_spec i s); cbn [andb].
      - unfold usub. destruct (Nat.leb_spec s (i + p)); [|lia]. cbn [bind]. rewrite (get2_ok (p + 1) (p + 1)) by (auto; lia). f_equal.
        rewrite T1 by lia. rewrite <- (cox_tri uu p u s Hs ltac:(lia) ltac:(lia) S2 S3 p) by lia. unfold N. f_equal. lia.
      - unfold N. rewrite (cox_zero uu p u s ltac:(lia) ltac:(lia) S3); auto; lia.
      - unfold N. rewrite (cox_zero uu p u s ltac:(lia) ltac:(lia) S3); auto; lia.
      - unfold N. rewrite (cox_zero uu p u s ltac:(lia) ltac:(lia) S3); auto; lia. }
    split; auto. destruct (Nat.le_gt_cases s (i + p)); [destruct (Nat.le_gt_cases i s)|]; unfold N.
    + replace i with (s - p + (i + p - s))%nat by lia. rewrite (cox_tri uu p u s Hs ltac:(lia) ltac:(lia) S2 S3 p) by lia.
      apply (tri_nonneg uu p u s Hs ltac:(lia) ltac:(lia) S2); lia.
    + rewrite (cox_zero uu p u s ltac:(lia) ltac:(lia) S3); auto; lia || lra.
    + rewrite (cox_zero uu p u s ltac:(lia) ltac:(lia) S3); auto; lia || lra.
  - replace (length uu - 1 - p)%nat with ((s - p) + (S p + (length uu - 2 - p - s)))%nat by lia. rewrite !sumn_app.
    rewrite (sumn_zero (s - p)). 2: { intros i Hi. unfold N. apply (cox_zero uu p u s ltac:(lia) ltac:(lia) S3); lia. }
    rewrite (sumn_zero (length uu - 2 - p - s)). 2: { intros i Hi. unfold N. apply (cox_zero uu p u s ltac:(lia) ltac:(lia) S3); lia. }
    rewrite (sumn_ext (S p) _ (tri (knot uu) u s p)).
    + rewrite (tri_sum uu p u s Hs ltac:(lia) ltac:(lia) S2 p) by lia. lra.
    + intros r Hr. unfold N. apply (cox_tri uu p u s Hs ltac:(lia) ltac:(lia) S2 S3 p); lia.
  - intros j r Hj. unfold with_span. cbn [b_ndu]. rewrite T2 by auto. apply (diff_pos uu p u s Hs ltac:(lia) ltac:(lia) S2); lia.
Qed.

(** C28: outside the range calc_basis fails and nothing changes. *)
Theorem C28_out_of_range p uu b u fuel : sorted uu -> spline_ok p uu b -> u < knot uu 0 \/ knot uu (length uu - 1) < u ->
  calc_basis fuel b u = Err "u is out of range".
Proof.
  intros Hs Hb Hu. destruct (sorted_range p uu b Hs Hb) as [E1 E2]. unfold calc_basis. rewrite E1, E2.
  destruct (Rltb_spec u (knot uu 0)); [reflexivity|]. destruct (Rltb_spec (knot uu (length uu - 1)) u); [reflexivity|]. lra.
Qed.

(** the recursive evaluation: equal knots aside, knots are at least 1e-14 apart *)
Definition separated (uu : list R) : Prop :=
  forall i j, (i < length uu)%nat -> (j < length uu)%nat -> knot uu i = knot uu j \/ 1e-14 <= Rabs (knot uu i - knot uu j).

Lemma recursive_nn_cox uu u : sorted uu -> separated uu -> let last := knot uu (length uu - 1) in 1e-14 <= Rabs (u - last) ->
  forall p i, (i + p + 1 < length uu)%nat -> recursive_nn uu last u i p = Ok (cox (knot uu) last u p i).
Proof.
  intros Hs Hsep last Hu. induction p as [|p IH]; intros i Hi; cbn [recursive_nn cox]; cbv zeta.
  - destruct (Rltb_spec (Rabs (u - last)) 1e-14); [lra|]. rewrite !vgetk by lia. cbn [bind].
    replace (i + 1)%nat with (S i) by lia.
    destruct (in_span_dec (knot uu) last u i) as [[C|(C1 & C2 & C3)]|C].
    + destruct (Rleb_spec (knot uu i) u); [|lra]. destruct (Rltb_spec u (knot uu (S i))); [|lra]. reflexivity.
    + rewrite C1, Rminus_eq_0, Rabs_R0 in Hu. lra.
    + destruct (Rleb_spec (knot uu i) u); destruct (Rltb_spec u (knot uu (S i))); cbn [andb]; auto. exfalso. apply C. left. lra.
  - destruct (Rltb_spec (Rabs (u - last)) 1e-14); [lra|]. rewrite !vgetk by lia. cbn [bind].
    set (d1 := knot uu (i + S p) - knot uu i). set (d2 := knot uu (i + S p + 1) - knot uu (i + 1)).
    assert (T : forall (num d n : R), (d = 0 \/ 1e-14 <= Rabs d) -> 
      (if Rltb (Rabs d) 1e-14 then Ok (0, 1) else x <- Ok n ;; Ok (x, d)) = Ok (if Req_EM_T d 0 then (0, 1) else (n, d)) /\
      num * fst (if Req_EM_T d 0 then (0, 1) else (n, d)) / snd (if Req_EM_T d 0 then (0, 1) else (n, d)) = frac num d * n).
    { intros num d n Hd. unfold frac. destruct (Req_EM_T d 0) as [E|E]; destruct (Rltb_spec (Rabs d) 1e-14) as [C|C]; cbn [fst snd bind].
      - split; [reflexivity|field].
      - rewrite E, Rabs_R0 in C. lra.
      - destruct Hd; lra.
      - split; [reflexivity|field; auto]. }
    rewrite (IH i) by lia. rewrite (IH (i + 1)%nat) by lia.
    assert (D1 : d1 = 0 \/ 1e-14 <= Rabs d1) by (unfold d1; destruct (Hsep (i + S p)%nat i) as [->|]; auto; try lia; left; lra).
    assert (D2 : d2 = 0 \/ 1e-14 <= Rabs d2) by (unfold d2; destruct (Hsep (i + S p + 1)%nat (i + 1)%nat) as [->|]; auto; try lia; left; lra).
    destruct (T (u - knot uu i) d1 (cox (knot uu) last u p i) D1) as [-> Q1].
    destruct (T (knot uu (i + S p + 1) - u) d2 (cox (knot uu) last u p (i + 1)) D2) as [-> Q2]. cbn [bind].
    destruct (if Req_EM_T d1 0 then _ else _) as [x1 y1]. cbn [bind]. destruct (if Req_EM_T d2 0 then _ else _) as [x2 y2]. cbn [bind fst snd] in *.
    rewrite Q1, Q2. reflexivity.
Qed.

(** C28: away from the right end, recursive_basis gives the Cox-de Boor functions
    too. *)
Theorem C28_recursive p uu b u i : sorted uu -> separated uu -> spline_ok p uu b -> knot uu 0 <= u <= knot uu (length uu - 1) - 1e-14 ->
  (i < length uu - 1 - p)%nat -> recursive_basis b u i = Ok (cox (knot uu) (knot uu (length uu - 1)) u p i).
Proof.
  intros Hs Hsep Hb Hu Hi. destruct (sorted_range p uu b Hs Hb) as [E1 E2]. unfold recursive_basis. rewrite E1, E2.
  destruct (Rltb_spec u (knot uu 0)); [lra|]. destruct (Rltb_spec (knot uu (length uu - 1)) u); [lra|]. cbn [orb].
  destruct Hb as (-> & -> & _ & _ & _ & _ & HL & _). apply recursive_nn_cox; auto; try lia. rewrite Rabs_left; lra.
Qed.

(* ------------------------------------------------------------------ *)
(** * Points *)

Definition points (pp : list (list R)) (nb ndim : nat) : Prop := mat nb ndim pp.

Lemma add_point_ok nb ndim pp x idx cc : mat nb ndim pp -> (idx < nb)%nat -> length cc = ndim ->
  exists cc', add_point pp ndim x idx cc = Ok cc' /\ length cc' = ndim /\ (forall j, (j < ndim)%nat -> nth j cc' 0 = nth j cc 0 + x * g2 pp idx j).
Proof.
  intros Hm Hi Hc. unfold add_point.
  destruct (for_range_inv (fun k c => length c = ndim /\ forall j, (j < ndim)%nat -> nth j c 0 = nth j cc 0 + (if (j <? k)%nat then x * g2 pp idx j else 0))
    (fun j cc => y <- get2 pp idx j ;; c <- vget cc j ;; vset cc j (c + x * y)) 0 ndim cc) as (cc' & E & L & V).
  - lia.
  - split; auto. intros j Hj. cbn. lra.
  - intros k c Hk [L V]. rewrite (get2_ok nb ndim) by (auto; lia). cbn [bind]. rewrite (vget_ok _ _ 0) by lia. cbn [bind]. rewrite vset_ok by lia.
    eexists. split; [reflexivity|]. split; [now rewrite upd_length|]. intros j Hj. rewrite nth_upd by lia. destruct (Nat.eqb_spec j k) as [->|N].
    + rewrite V by lia. destruct (Nat.ltb_spec k k); [lia|]. destruct (Nat.ltb_spec k (S k)); [|lia]. lra.
    + rewrite V by lia. destruct (Nat.ltb_spec j k); destruct (Nat.ltb_spec j (S k)); try lia; reflexivity.
  - exists cc'. splits; auto. intros j Hj. rewrite V by auto. destruct (Nat.ltb_spec j ndim); [reflexivity|lia].
Qed.

Lemma sum_points nb ndim pp (w : nat -> R) off n cc : mat nb ndim pp -> (off + n <= nb)%nat -> length cc = ndim ->
  forall F, (forall i c, (i < n)%nat -> F i c = add_point pp ndim (w i) (off + i) c) ->
  exists cc', for_range 0 n F cc = Ok cc' /\ length cc' = ndim /\
    (forall j, (j < ndim)%nat -> nth j cc' 0 = nth j cc 0 + sumn n (fun i => w i * g2 pp (off + i) j)).
Proof.
  intros Hm Hn Hc F HF.
  destruct (for_range_inv (fun k c => length c = ndim /\ forall j, (j < ndim)%nat -> nth j c 0 = nth j cc 0 + sumn k (fun i => w i * g2 pp (off + i) j)) F 0 n cc) as (cc' & E & L & V).
  - lia.
  - split; auto. intros j Hj. cbn. lra.
  - intros i c Hi [L V]. rewrite HF by lia. destruct (add_point_ok nb ndim pp (w i) (off + i) c Hm ltac:(lia) L) as (c' & E & L' & V').
    rewrite E. eexists. split; [reflexivity|]. split; auto. intros j Hj. rewrite V', V by auto. cbn [sumn]. lra.
  - exists cc'. auto.
Qed.

(** C28: calc_point gives, without recursion and wherever the recursive evaluation
    is within its reach, the combination of the control points with the Cox-de Boor
    functions. *)
Theorem C28_point p uu b u fuel ndim cc (rec : bool) : sorted uu -> clamped p uu -> spline_ok p uu b -> (length uu <= fuel)%nat ->
  mat (length uu - 1 - p) ndim (b_pp b) -> length cc = ndim ->
  (if rec then separated uu /\ knot uu 0 <= u <= knot uu (length uu - 1) - 1e-14 else knot uu 0 <= u <= knot uu (length uu - 1)) ->
  let N := cox (knot uu) (knot uu (length uu - 1)) u p in
  exists b' cc', calc_point fuel b cc u rec = Ok (b', cc') /\ spline_ok p uu b' /\ b_pp b' = b_pp b /\ length cc' = ndim /\
    (forall j, (j < ndim)%nat -> nth j cc' 0 = sumn (length uu - 1 - p) (fun i => N i * g2 (b_pp b) i j)).
Proof.
  intros Hs Hc Hb Hf Hm Hcc Hu N.
  assert (Hu' : knot uu 0 <= u <= knot uu (length uu - 1)) by (destruct rec; lra).
  pose proof Hb as (B1 & B2 & B3 & B4 & B5 & B6 & B7 & B8 & B9 & B10).
  unfold calc_point, num_basis, usub. rewrite B1, B2.
  destruct (Nat.leb_spec 1 (length uu)); [|lia]. cbn [bind]. destruct (Nat.leb_spec p (length uu - 1)); [|lia]. cbn [bind].
  set (nb := (length uu - 1 - p)%nat) in *. pose proof Hm as [Hm1 Hm2]. rewrite Hm1, Nat.eqb_refl. cbn [negb].
  rewrite (vget_ok _ _ []) by lia. cbn [bind]. cbv zeta. rewrite Hm2 by lia. rewrite Hcc, Nat.eqb_refl. cbn [negb].
  assert (Z0 : length (map (fun _ : R => 0) cc) = ndim) by now rewrite map_length.
  assert (Z1 : forall j, nth j (map (fun _ : R => 0) cc) 0 = 0).
  { intros j. clear. revert j. induction cc as [|c cc IH]; intros [|j]; cbn; auto. }
  destruct rec.
  - destruct Hu as [Hsep Hu].
    match goal with |- context [for_range 0 nb ?F ?C] => destruct (sum_points nb ndim (b_pp b) N 0 nb C Hm ltac:(lia) Z0 F) as (cc' & E & L & V) end.
    + intros i c Hi. rewrite (C28_recursive p uu b u i) by (auto; lia). reflexivity.
    + rewrite E. cbn [bind]. exists b, cc'. splits; auto. intros j Hj. rewrite V, Z1 by auto. cbn [Nat.add]. lra.
  - destruct (C28_span p uu u fuel Hs Hc Hf Hu') as (s & Es & S1 & S2 & S3). rewrite Es. cbn [bind ended].
    destruct (basis_funs_ok p uu u s (b_ndu b) (b_left b) (b_right b) ltac:(lia) ltac:(lia) B3 B4 B5) as (n' & l' & r' & Eb & M' & L' & R' & T1 & T2).
    rewrite Eb. cbn [bind]. unfold with_span at 1. cbn [b_p]. unfold with_span at 1. cbn [b_p]. rewrite B1.
    set (b' := with_span b (b_span b) (n', l', r')).
    match goal with |- context [for_range 0 (p + 1) ?F ?C] => destruct (sum_points nb ndim (b_pp b) (fun r => N (s - p + r)%nat) (s - p) (p + 1) C Hm ltac:(lia) Z0 F) as (cc' & E & L & V) end.
    + intros i c Hi. unfold b', with_span. cbn [b_p b_ndu b_pp]. rewrite B1. destruct (Nat.leb_spec p s); [|lia]. cbn [bind].
      rewrite (get2_ok (p + 1) (p + 1)) by (auto; lia). cbn [bind]. rewrite T1 by lia.
      rewrite <- (cox_tri uu p u s Hs ltac:(lia) ltac:(lia) S2 S3 p) by lia. reflexivity.
    + rewrite E. cbn [bind]. exists b', cc'. splits; auto.
      * unfold spline_ok, b', with_span. cbn [b_p b_uu b_ndu b_left b_right b_umin b_umax]. splits; auto.
      * intros j Hj. rewrite V, Z1 by auto. replace (p + 1)%nat with (S p) by lia. replace nb with ((s - p) + (S p + (length uu - 2 - p - s)))%nat by lia. rewrite !sumn_app.
        rewrite (sumn_zero (s - p)). 2: { intros i Hi. unfold N. rewrite (cox_zero uu p u s ltac:(lia) ltac:(lia) S3) by lia. ring. }
        rewrite (sumn_zero (length uu - 2 - p - s)). 2: { intros i Hi. unfold N. rewrite (cox_zero uu p u s ltac:(lia) ltac:(lia) S3) by lia. ring. }
        lra.
Qed.

(** C28: the coordinates of a point stay within the bounds of those of the control
    points. *)
Theorem C28_hull p uu b u fuel ndim cc b' cc' j lo hi : sorted uu -> clamped p uu -> spline_ok p uu b -> (length uu <= fuel)%nat ->
  mat (length uu - 1 - p) ndim (b_pp b) -> length cc = ndim -> knot uu 0 <= u <= knot uu (length uu - 1) ->
  calc_point fuel b cc u false = Ok (b', cc') -> (j < ndim)%nat ->
  (forall i, (i < length uu - 1 - p)%nat -> lo <= g2 (b_pp b) i j <= hi) -> lo <= nth j cc' 0 <= hi.
Proof.
  intros Hs Hc Hb Hf Hm Hcc Hu E Hj HP.
  destruct (C28_point p uu b u fuel ndim cc false Hs Hc Hb Hf Hm Hcc Hu) as (b1 & c1 & E1 & _ & _ & _ & V).
  rewrite E1 in E. inversion E; subst b1 c1. rewrite V by auto.
  destruct (C28_basis p uu b u fuel Hs Hc Hb Hf Hu) as (b2 & _ & _ & _ & HN & HS & _).
  set (N := cox (knot uu) (knot uu (length uu - 1)) u p) in *. set (nb := (length uu - 1 - p)%nat) in *. split.
  - replace lo with (lo * sumn nb N) by (rewrite HS; ring). rewrite <- sumn_scal. apply sumn_le. intros i Hi.
    rewrite Rmult_comm. destruct (HN i Hi). apply Rmult_le_compat_l; auto. apply HP; auto.
  - replace hi with (hi * sumn nb N) by (rewrite HS; ring). rewrite <- sumn_scal. apply sumn_le. intros i Hi.
    rewrite (Rmult_comm hi). destruct (HN i Hi). apply Rmult_le_compat_l; auto. apply HP; auto.
Qed.

Lemma tri_left U u s p : (forall k, (1 <= k <= p)%nat -> lft U u s k = 0) -> forall j r, (j <= p)%nat -> (1 <= r <= j)%nat -> tri U u s j r = 0.
Proof.
  intros H. induction j as [|j IH]; intros r Hj Hr; [lia|]. rewrite tri_S. destruct r as [|r]; [lia|]. rewrite H by lia.
  destruct (Nat.ltb_spec (S r) (S j)); [rewrite (IH (S r)) by lia; unfold Rdiv|]; ring.
Qed.
Lemma tri_right U u s p : (forall k, (1 <= k <= p)%nat -> rgt U u s k = 0) -> forall j r, (j <= p)%nat -> (r < j)%nat -> tri U u s j r = 0.
Proof.
  intros H. induction j as [|j IH]; intros r Hj Hr; [lia|]. rewrite tri_S. destruct (Nat.ltb_spec r (S j)); [|lia]. rewrite H by lia.
  destruct r as [|r]; [ring|]. rewrite (IH r) by lia. unfold Rdiv. ring.
Qed.

(** C28: the curve starts at the first control point and ends at the last one. *)
Theorem C28_ends p uu b fuel ndim cc : sorted uu -> clamped p uu -> spline_ok p uu b -> (length uu <= fuel)%nat ->
  mat (length uu - 1 - p) ndim (b_pp b) -> length cc = ndim ->
  (exists b' cc', calc_point fuel b cc (knot uu 0) false = Ok (b', cc') /\ forall j, (j < ndim)%nat -> nth j cc' 0 = g2 (b_pp b) 0 j) /\
  (exists b' cc', calc_point fuel b cc (knot uu (length uu - 1)) false = Ok (b', cc') /\ forall j, (j < ndim)%nat -> nth j cc' 0 = g2 (b_pp b) (length uu - 2 - p) j).
Proof.
  intros Hs Hc Hb Hf Hm Hcc. pose proof Hc as (L1 & K1 & K2 & K3 & K4). pose proof (Hs 0%nat (length uu - 1)%nat ltac:(lia)) as H01.
  pose proof Hb as (_ & _ & _ & _ & _ & P1 & _).
  set (last := knot uu (length uu - 1)) in *. set (nb := (length uu - 1 - p)%nat) in *.
  assert (G : forall u s i, (p <= s)%nat -> (s + p + 1 < length uu)%nat -> in_span (knot uu) last u s ->
     (forall s', (S s' < length uu)%nat -> in_span (knot uu) last u s' -> s' = s) -> (i <= p)%nat ->
     (forall r, (r <= p)%nat -> r <> i -> tri (knot uu) u s p r = 0) -> 
     forall k, (k < nb)%nat -> cox (knot uu) last u p k = if (k =? s - p + i)%nat then 1 else 0).
  { intros u s i H1 H2 H3 H4 Hi H5 k Hk.
    assert (T1 : tri (knot uu) u s p i = 1).
    { pose proof (tri_sum uu p u s Hs H1 H2 H3 p ltac:(lia)) as HS. rewrite (sumn_single (S p) _ i) in HS; auto; try lia. intros r Hr Hri. apply H5; lia. }
    destruct (Nat.le_gt_cases s (k + p)); [destruct (Nat.le_gt_cases k s)|].
    - pose proof (cox_tri uu p u s Hs H1 H2 H3 H4 p ltac:(lia) (k + p - s)%nat ltac:(lia)) as HC. fold last in HC.
      replace (s - p + (k + p - s))%nat with k in HC by lia. rewrite HC. destruct (Nat.eqb_spec k (s - p + i)) as [E|E].
      + replace (k + p - s)%nat with i by lia. auto.
      + apply H5; lia.
    - destruct (Nat.eqb_spec k (s - p + i)); [lia|]. unfold last. apply (cox_zero uu p u s H1 H2 H4); lia.
    - destruct (Nat.eqb_spec k (s - p + i)); [lia|]. unfold last. apply (cox_zero uu p u s H1 H2 H4); lia. }
  split.
  - destruct (C28_point p uu b (knot uu 0) fuel ndim cc false Hs Hc Hb Hf Hm Hcc ltac:(fold last; lra)) as (b' & cc' & E & _ & _ & _ & V).
    exists b', cc'. split; auto. intros j Hj. rewrite V by auto. fold nb last.
    destruct (C28_span p uu (knot uu 0) fuel Hs Hc Hf ltac:(fold last; lra)) as (s & Es & S1 & S2 & S3). fold last in S2, S3.
    assert (s = p) as ->.
    { symmetry. apply S3; [lia|]. left. replace (S p) with (p + 1)%nat by lia. lra. }
    rewrite (sumn_single nb _ 0%nat); [| lia |].
    + rewrite (G (knot uu 0) p 0%nat); auto; try lia.
      * destruct (Nat.eqb_spec 0 (p - p + 0)); [ring|lia].
      * intros r Hr Hr0. apply (tri_left (knot uu) (knot uu 0) p p); try lia. intros k Hk. unfold lft.
        pose proof (Hs 0%nat (p + 1 - k)%nat ltac:(lia)). pose proof (Hs (p + 1 - k)%nat p ltac:(lia)). lra.
    + intros i Hi Hi0. rewrite (G (knot uu 0) p 0%nat); auto; try lia.
      * destruct (Nat.eqb_spec i (p - p + 0)); [lia|ring].
      * intros r Hr Hr0. apply (tri_left (knot uu) (knot uu 0) p p); try lia. intros k Hk. unfold lft.
        pose proof (Hs 0%nat (p + 1 - k)%nat ltac:(lia)). pose proof (Hs (p + 1 - k)%nat p ltac:(lia)). lra.
  - destruct (C28_point p uu b last fuel ndim cc false Hs Hc Hb Hf Hm Hcc ltac:(fold last; lra)) as (b' & cc' & E & _ & _ & _ & V).
    exists b', cc'. split; auto. intros j Hj. rewrite V by auto. fold nb last.
    destruct (C28_span p uu last fuel Hs Hc Hf ltac:(fold last; lra)) as (s & Es & S1 & S2 & S3). fold last in S2, S3.
    set (n := (length uu - p - 2)%nat) in *.
    assert (s = n) as ->.
    { symmetry. apply S3; [lia|]. right. replace (S n) with (n + 1)%nat by lia. splits; lra. }
    assert (Z : forall r, (r <= p)%nat -> r <> p -> tri (knot uu) last n p r = 0).
    { intros r Hr Hrp. apply (tri_right (knot uu) last n p); try lia. intros k Hk. unfold rgt.
      pose proof (Hs (n + 1)%nat (n + k)%nat ltac:(lia)). pose proof (Hs (n + k)%nat (length uu - 1)%nat ltac:(lia)). fold last in H0. lra. }
    replace (length uu - 2 - p)%nat with n by lia. rewrite (sumn_single nb _ n); [| lia |].
    + rewrite (G last n p); auto; try lia. destruct (Nat.eqb_spec n (n - p + p)); [ring|lia].
    + intros i Hi Hin. rewrite (G last n p); auto; try lia. destruct (Nat.eqb_spec i (n - p + p)); [lia|ring].
Qed.

(* ------------------------------------------------------------------ *)
(** * Findings *)

Ltac knots := repeat match goal with
  | |- context [Rltb ?a ?b] => tryif (match constr:(a + b) with context [Rltb _ _] => idtac end) then fail else (destruct (Rltb_spec a b); try lra)
  | |- context [Rleb ?a ?b] => destruct (Rleb_spec a b); try lra end.

(** C28 (refuted without clamping): the range check is against the extreme knots,
    so for unclamped knots calc_basis answers Ok with a negative value. *)
Theorem C28_unclamped_refuted fuel : exists b b',
  bspline_new 1 [0; 1; 2; 3] = Ok b /\ sorted [0; 1; 2; 3] /\ calc_basis fuel b 0.5 = Ok b' /\ get_basis b' 1 = Ok (- / 2).
Proof.
  eexists _, _. split; [reflexivity|]. split.
  { intros i j H. cbn [length] in H. unfold knot. do 4 (destruct i as [|i]; [do 4 (destruct j as [|j]; [cbn; first [lra | lia]|]); lia|]). lia. }
  cbn [hd fold_left b_umin b_umax b_p b_uu b_ndu b_left b_right].
  unfold calc_basis. cbn [hd fold_left b_umin b_umax b_p b_uu b_ndu b_left b_right]. knots. cbn [orb].
  unfold find_span. cbn [usub length Nat.leb bind Nat.sub vget nth_error Nat.add]. knots. cbn [bind vget nth_error]. knots. cbn [bind ended].
  split; [cbn; reflexivity|]. cbn. f_equal. lra.
Qed.

(** C28 (refuted for an end knot repeated p + 2 times): calc_basis at the right end
    selects an empty span and divides by zero. *)
Theorem C28_overclamped_refuted fuel : exists b b',
  bspline_new 1 [0; 0; 1; 1; 1] = Ok b /\ calc_basis fuel b 1 = Ok b' /\ get2 (b_ndu b') 1 0 = Ok 0.
Proof.
  eexists _, _. split; [reflexivity|].
  unfold calc_basis. cbn [hd fold_left b_umin b_umax b_p b_uu b_ndu b_left b_right]. knots. cbn [orb].
  unfold find_span. cbn [usub length Nat.leb bind Nat.sub vget nth_error Nat.add]. knots. cbn [bind ended].
  split; [cbn; reflexivity|]. cbn. f_equal. lra.
Qed.

Lemma sorted_adjacent uu : (forall i, (S i < length uu)%nat -> knot uu i <= knot uu (S i)) -> sorted uu.
Proof.
  intros H i j Hij. replace j with (i + (j - i))%nat in * by lia. induction (j - i)%nat as [|k IH]; [rewrite Nat.add_0_r; lra|].
  eapply Rle_trans; [apply IH; lia|]. replace (i + S k)%nat with (S (i + k)) by lia. apply H. lia.
Qed.
Lemma separated_int zs : separated (map IZR zs).
Proof.
  intros i j _ _. unfold knot. change 0 with (IZR 0). rewrite !map_nth. destruct (Z.eq_dec (nth i zs 0%Z) (nth j zs 0%Z)) as [->|N]; [now left|]. right.
  rewrite <- minus_IZR, <- abs_IZR. apply Rle_trans with 1; [lra|]. apply IZR_le. lia.
Qed.

(** C28: the hypotheses are met by a quadratic spline with an interior knot. *)
Example C28_example : let uu := [0; 0; 0; 1; 2; 2; 2] in sorted uu /\ clamped 2 uu /\ separated uu /\
  (exists b, bspline_new 2 uu = Ok b) /\ knot uu 0 <= 0.5 <= knot uu (length uu - 1) - 1e-14.
Proof.
  intros uu. splits.
  - apply sorted_adjacent. intros i H. cbn [uu length] in H. unfold knot. do 6 (destruct i as [|i]; [cbn; lra|]). lia.
  - unfold clamped, knot. cbn. splits; try lra; lia.
  - apply (separated_int [0; 0; 0; 1; 2; 2; 2]%Z).
  - eexists. reflexivity.
  - unfold knot. cbn. lra.
  - unfold knot. cbn. lra.
Qed.

Print Assumptions C28_basis.
Print Assumptions C28_point.
Print Assumptions C28_ends.
Print Assumptions C28_unclamped_refuted.
