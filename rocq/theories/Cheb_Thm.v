(** C29: Chebyshev polynomials and point sets. *)
From Verif Require Import RBase Cheb_Model.
Open Scope R_scope.
Open Scope res_scope.

Lemma cgl_trig n i : (1 <= n)%nat -> sin (PI * (INR n - 2 * INR i) / (2 * INR n)) = cos (PI * INR i / INR n).
Proof.
  intros H. assert (0 < INR n) by (apply (lt_INR 0); lia).
  rewrite <- sin_shift. f_equal. field. lra.
Qed.

Lemma cgl_refl n i : (1 <= n)%nat -> (i <= n)%nat -> - cos (PI * INR (n - i) / INR n) = cos (PI * INR i / INR n).
Proof.
  intros H Hi. assert (0 < INR n) by (apply (lt_INR 0); lia).
  rewrite minus_INR by lia.
  replace (PI * (INR n - INR i) / INR n) with (PI - PI * INR i / INR n) by (field; lra).
  rewrite Rtrigo_facts.cos_pi_minus. ring.
Qed.

(** chebyshev_lobatto_points(nn) holds nn+1 points and point i is -cos(i pi / nn) *)
Theorem C29_lobatto_points : forall nn, (1 <= nn)%nat ->
  exists xx, chebyshev_lobatto_points nn = Ok xx /\ length xx = (nn + 1)%nat /\
    forall i, (i <= nn)%nat -> nth i xx 0 = - cos (PI * INR i / INR nn).
Proof.
  intros n Hn. assert (Hp : 0 < INR n) by (apply (lt_INR 0); lia).
  assert (E0 : - cos (PI * INR 0 / INR n) = -1).
  { replace (PI * INR 0 / INR n) with 0 by (simpl; field; lra). rewrite cos_0. ring. }
  assert (En : - cos (PI * INR n / INR n) = 1).
  { replace (PI * INR n / INR n) with PI by (field; lra). rewrite cos_PI. ring. }
  unfold chebyshev_lobatto_points.
  rewrite vset_ok by (rewrite repeat_length; lia). cbn [bind].
  rewrite vset_ok by (rewrite upd_length, repeat_length; lia). cbn [bind].
  set (x0 := upd (upd (repeat 0 (n + 1)) 0 (-1)) n 1).
  assert (L0 : length x0 = (n + 1)%nat) by (unfold x0; now rewrite !upd_length, repeat_length).
  assert (V0 : forall i, (i <= n)%nat -> nth i x0 0 = if Nat.eqb i n then 1 else if Nat.eqb i 0 then -1 else 0).
  { intros i Hi. unfold x0. rewrite nth_upd by (rewrite upd_length, repeat_length; lia).
    destruct (Nat.eqb i n); auto. rewrite nth_upd by (rewrite repeat_length; lia).
    destruct (Nat.eqb i 0); auto. apply nth_repeat_d. }
  clearbody x0.
  assert (MID : forall m, n = (2 * m)%nat -> - cos (PI * INR m / INR n) = 0).
  { intros m Em. replace (PI * INR m / INR n) with (PI / 2).
    - rewrite cos_PI2. ring.
    - rewrite Em, mult_INR. change (INR 2) with 2. field.
      intros Z. rewrite Em, mult_INR, Z in Hp. lra. }
  assert (FIN : forall xx l, length xx = (n + 1)%nat ->
      (forall i, (i <= n)%nat -> (i < l \/ n - i < l)%nat -> nth i xx 0 = - cos (PI * INR i / INR n)) ->
      (forall i, (i <= n)%nat -> ~ (i < l \/ n - i < l)%nat -> nth i xx 0 = nth i x0 0) ->
      (l = if Nat.even n then n / 2 else (n + 3) / 2 - 1)%nat ->
      forall i, (i <= n)%nat -> nth i xx 0 = - cos (PI * INR i / INR n)).
  { intros xx l Lx A B El i Hi.
    destruct (Nat.ltb_spec i l); [apply A; lia|]. destruct (Nat.ltb_spec (n - i) l); [apply A; lia|].
    assert (n = (2 * i)%nat /\ n <> 0%nat) as [E2 _].
    { destruct (Nat.even n) eqn:Ev.
      - apply Nat.even_spec in Ev. destruct Ev as (k & Ek).
        assert (n / 2 = k)%nat by (rewrite Ek, (Nat.mul_comm 2 k); apply Nat.div_mul; lia). lia.
      - assert (Od : Nat.odd n = true) by (now rewrite <- Nat.negb_even, Ev).
        apply Nat.odd_spec in Od. destruct Od as (k & Ek).
        assert ((n + 3) / 2 = k + 2)%nat.
        { rewrite Ek. replace (2 * k + 1 + 3)%nat with ((k + 2) * 2)%nat by lia. apply Nat.div_mul. lia. }
        lia. }
    rewrite B by lia. rewrite V0 by lia.
    destruct (Nat.eqb_spec i n); [lia|]. destruct (Nat.eqb_spec i 0); [lia|]. symmetry. now apply MID. }
  destruct (Nat.ltb_spec n 3).
  - exists x0. splits; auto. intros i Hi. rewrite V0 by lia.
    destruct (Nat.eqb_spec i n) as [->|]; [auto|]. destruct (Nat.eqb_spec i 0) as [->|]; [auto|].
    symmetry. apply MID. lia.
  - cbv zeta. set (l := (if Nat.even n then n / 2 else (n + 3) / 2 - 1)%nat).
    assert (Hl : (1 <= l /\ 2 * l <= n + 1)%nat).
    { unfold l. destruct (Nat.even n) eqn:Ev.
      - pose proof (Nat.div_mod n 2 ltac:(lia)). pose proof (Nat.mod_upper_bound n 2 ltac:(lia)). lia.
      - assert (Od : Nat.odd n = true) by (now rewrite <- Nat.negb_even, Ev).
        apply Nat.odd_spec in Od. destruct Od as (k & Ek).
        assert ((n + 3) / 2 = k + 2)%nat.
        { rewrite Ek. replace (2 * k + 1 + 3)%nat with ((k + 2) * 2)%nat by lia. apply Nat.div_mul. lia. }
        lia. }
    match goal with |- context [for_range 1 l ?f x0] =>
      destruct (for_range_inv (fun k xx => length xx = (n + 1)%nat /\
        (forall i, (i <= n)%nat -> (i < k \/ n - i < k)%nat -> nth i xx 0 = - cos (PI * INR i / INR n)) /\
        (forall i, (i <= n)%nat -> ~ (i < k \/ n - i < k)%nat -> nth i xx 0 = nth i x0 0)) f 1 l x0)
      as (xx & E & Lx & A & B) end.
    + lia.
    + splits; auto. intros i Hi Hc. rewrite V0 by lia.
      assert (i = 0 \/ i = n)%nat as [->| ->] by lia.
      * destruct (Nat.eqb_spec 0 n); [lia|]. rewrite E0. reflexivity.
      * destruct (Nat.eqb_spec n n); [|lia]. now rewrite En.
    + intros k xx Hk (Lx & A & B).
      rewrite usub_ok by lia. cbn [bind]. rewrite vset_ok by lia. cbn [bind].
      rewrite (vget_ok _ _ 0) by (rewrite upd_length; lia). cbn [bind].
      rewrite nth_upd_eq by lia. rewrite cgl_trig by lia.
      rewrite vset_ok by (rewrite upd_length; lia). eexists. split; [reflexivity|].
      splits.
      * now rewrite !upd_length.
      * intros i Hi Hc. rewrite nth_upd by (rewrite upd_length; lia).
        destruct (Nat.eqb_spec i k) as [->|]; auto.
        rewrite nth_upd by lia. destruct (Nat.eqb_spec i (n - k)) as [->|].
        -- symmetry. apply cgl_refl; lia.
        -- apply A; lia.
      * intros i Hi Hc. rewrite nth_upd_ne by lia. rewrite nth_upd_ne by lia. apply B; lia.
    + rewrite E. exists xx. splits; auto. eapply FIN; eauto.
Qed.

(** the points run from -1 to 1, strictly increasing, symmetric about the origin *)
Theorem C29_lobatto_sorted : forall nn xx, (1 <= nn)%nat -> chebyshev_lobatto_points nn = Ok xx ->
  nth 0 xx 0 = -1 /\ nth nn xx 0 = 1 /\
  (forall i, (i < nn)%nat -> nth i xx 0 < nth (S i) xx 0) /\
  (forall i, (i <= nn)%nat -> nth (nn - i) xx 0 = - nth i xx 0).
Proof.
  intros n xx Hn E. destruct (C29_lobatto_points n Hn) as (yy & E' & L & V).
  rewrite E in E'. injection E' as <-.
  assert (Hp : 0 < INR n) by (apply (lt_INR 0); lia). pose proof PI_RGT_0.
  splits.
  - rewrite V by lia. replace (PI * INR 0 / INR n) with 0 by (simpl; field; lra). rewrite cos_0. ring.
  - rewrite V by lia. replace (PI * INR n / INR n) with PI by (field; lra). rewrite cos_PI. ring.
  - intros i Hi. rewrite !V by lia. apply Ropp_lt_contravar.
    assert (G : forall j, (j <= n)%nat -> 0 <= PI * INR j / INR n <= PI).
    { intros j Hj. pose proof (pos_INR j). apply le_INR in Hj. split.
      - apply Rmult_le_pos; [apply Rmult_le_pos; lra|]. left. now apply Rinv_0_lt_compat.
      - apply (Rmult_le_reg_r (INR n)); auto. unfold Rdiv. rewrite Rmult_assoc, Rinv_l by lra.
        rewrite Rmult_1_r. apply Rmult_le_compat_l; lra. }
    apply cos_decreasing_1; try apply G; try lia.
    rewrite S_INR. apply Rmult_lt_compat_r; [now apply Rinv_0_lt_compat|]. apply Rmult_lt_compat_l; lra.
  - intros i Hi. rewrite !V by lia. rewrite cgl_refl by lia. ring.
Qed.

Print Assumptions C29_lobatto_points.
Print Assumptions C29_lobatto_sorted.
