(** Contracts of the one-dimensional searches: C21, C22, C23, C24. *)
From Coq Require Import Ranalysis5.
From Verif Require Import Search_Model.
Open Scope R_scope.

(** the callback that computes a plain function *)
Definition pure (g : R -> R) : callback := fun _ x => Ok (g x).

(** call number [k] was made at [x] and answered [y] *)
Definition answered (l : calls) (x y : R) : Prop := In (x, Ok y) l.

(** every call was made inside [lo, hi] *)
Definition calls_within (l : calls) (lo hi : R) : Prop :=
  forall x y, In (x, y) l -> lo <= x <= hi.

Lemma FEPS_pos : 0 < FEPS.
Proof. unfold FEPS. apply Rinv_0_lt_compat, pow_lt. lra. Qed.
Lemma SQRT_EPS_pos : 0 < SQRT_EPS.
Proof. unfold SQRT_EPS. apply Rinv_0_lt_compat, pow_lt. lra. Qed.

Ltac rb := repeat match goal with
  | H : Rltb _ _ = true |- _ => apply Rltb_true in H
  | H : Rltb _ _ = false |- _ => apply Rltb_false in H
  | H : Rleb _ _ = true |- _ => apply Rleb_true in H
  | H : Rleb _ _ = false |- _ => apply Rleb_false in H
  | H : Reqb _ _ = true |- _ => apply Reqb_true in H
  | H : Reqb _ _ = false |- _ => apply Reqb_false in H
  | H : _ && _ = true |- _ => apply andb_true_iff in H; destruct H
  | H : _ || _ = false |- _ => apply orb_false_iff in H; destruct H
  end.

Lemma sign_cases a b : a * b < 0 -> (a < 0 /\ 0 < b) \/ (0 < a /\ b < 0).
Proof. intros H. destruct (Rtotal_order a 0) as [K|[K|K]]; [left|subst; lra|right]; split; nra. Qed.

(** a / b as a number q with q * b = a *)
Lemma div_mul a b : b <> 0 -> a / b * b = a.
Proof. intros. field. auto. Qed.

Definition between (x y z : R) : Prop := (x < y < z) \/ (z < y < x).

(* ------------------------------------------------------------------ *)
(** * Brent's root finder *)

Lemma brent_pq_nonzero a b c fa fb fc :
  b <> c -> fb * fc < 0 -> Rabs fb < Rabs fa ->
  (a = c \/ (fa * fc < 0 /\ between a b c)) ->
  fst (brent_pq a b c fa fb fc) <> 0.
Proof.
  intros Hbc Hs Habs Ha. unfold brent_pq.
  assert (fb <> 0) by (intros ->; lra). assert (fc <> 0) by (intros ->; lra).
  assert (fa <> 0). { intros ->. rewrite Rabs_R0 in Habs. pose proof (Rabs_pos fb). lra. }
  destruct (Reqb a c) eqn:E; rb; cbn [fst].
  - intros K. apply Rmult_integral in K. destruct K as [K|K]; [lra|].
    pose proof (div_mul fb fa ltac:(auto)). rewrite K in H2. lra.
  - destruct Ha as [->|[Hac Hb]]; [congruence|].
    intros K. apply Rmult_integral in K. destruct K as [K|K].
    { pose proof (div_mul fb fa ltac:(auto)). rewrite K in H2. lra. }
    pose proof (div_mul fa fc ltac:(auto)) as E0. pose proof (div_mul fb fc ltac:(auto)) as E1.
    set (t0 := fa / fc) in *. set (t1 := fb / fc) in *.
    assert (t0 < 0) by (destruct (Rlt_or_le t0 0); auto; exfalso; destruct (sign_cases _ _ Hac); nra).
    assert (t1 < 0) by (destruct (Rlt_or_le t1 0); auto; exfalso; destruct (sign_cases _ _ Hs); nra).
    assert (t0 < t1).
    { apply Rnot_le_lt. intros Hle. apply (Rlt_irrefl (Rabs fa)).
      apply Rle_lt_trans with (Rabs fb); auto.
      rewrite <- E0, <- E1, !Rabs_mult. apply Rmult_le_compat_r; [apply Rabs_pos|].
      rewrite !Rabs_left by lra. lra. }
    assert (0 < t0 * (t0 - t1)) by nra.
    destruct Hb; nra.
Qed.

(** the step goes from b towards c and stops short of it *)
Lemma brent_step_inside step_old tol a b c fa fb fc :
  0 <= tol -> tol < Rabs ((c - b) / 2) -> fb * fc < 0 ->
  (a = c \/ (fa * fc < 0 /\ between a b c)) ->
  between b (b + brent_step step_old tol a b c fa fb fc) c /\
  tol <= Rabs (brent_step step_old tol a b c fa fb fc).
Proof.
  intros Ht Hd Hs Ha.
  assert (Hbc : b <> c).
  { intros ->. replace ((c - c) / 2) with 0 in Hd by lra. rewrite Rabs_R0 in Hd. lra. }
  assert (X : exists s, brent_step step_old tol a b c fa fb fc =
     (if Rltb (Rabs s) tol then (if Rltb 0 s then tol else - tol) else s) /\ between b (b + s) c).
  { unfold brent_step. cbv zeta.
    assert (Hmid : between b (b + (c - b) / 2) c) by (unfold between; destruct (Rtotal_order b c) as [|[|]]; lra).
    destruct (Rleb tol (Rabs step_old) && Rltb (Rabs fb) (Rabs fa)) eqn:E;
      [|eexists; split; [reflexivity|exact Hmid]].
    rb. pose proof (brent_pq_nonzero a b c fa fb fc Hbc Hs ltac:(auto) Ha) as Hp.
    destruct (brent_pq a b c fa fb fc) as [p q]. cbn [fst] in Hp.
    assert (Q : exists p' q', (if Rltb 0 p then (p, - q) else (- p, q)) = (p', q') /\ 0 < p').
    { destruct (Rltb 0 p) eqn:E1; rb; eexists _, _; split; try reflexivity; lra. }
    destruct Q as (p' & q' & -> & Hp').
    destruct (Rltb p' _ && Rltb p' _) eqn:E2; [|eexists; split; [reflexivity|exact Hmid]].
    rb. eexists; split; [reflexivity|].
    pose proof (Rabs_pos (tol * q')).
    assert (q' <> 0) by (intros ->; lra).
    pose proof (div_mul p' q' ltac:(auto)) as E3. set (s := p' / q') in *. unfold between.
    destruct (Rtotal_order b c) as [L|[L|L]]; [left|lra|right].
    - assert (0 < q') by nra. assert (0 < s) by nra. assert (s < 0.75 * (c - b)) by nra. lra.
    - assert (q' < 0) by nra. assert (s < 0) by nra. assert (0.75 * (c - b) < s) by nra. lra. }
  destruct X as (s & -> & Hs').
  destruct (Rltb (Rabs s) tol) eqn:E; rb; [|split; auto].
  pose proof (Rabs_pos s). unfold between in *. unfold Rabs in Hd. destruct (Rcase_abs ((c - b) / 2)).
  - destruct (Rltb 0 s) eqn:E2; rb; [lra|]. split; [right; lra|]. rewrite Rabs_Ropp, Rabs_right; lra.
  - destruct (Rltb 0 s) eqn:E2; rb; [|lra]. split; [left; lra|]. rewrite Rabs_right; lra.
Qed.

Record brent_inv (lo hi : R) (l : calls) (s : bstate) : Prop := {
  bi_b : answered l (b_b s) (b_fb s);
  bi_c : answered l (b_c s) (b_fc s);
  bi_in : calls_within l lo hi;
  bi_fc : b_fc s <> 0;
  bi_sign : b_fb s = 0 \/ b_fb s * b_fc s < 0;
  bi_a : b_a s = b_c s \/ (b_fa s * b_fc s < 0 /\ between (b_a s) (b_b s) (b_c s));
  bi_nf : n_function (b_st s) = length l }.

(** what the caller may rely on when the answer is [x] *)
Definition root_answer (tolerance : R) (l : calls) (x : R) : Prop :=
  exists fx, answered l x fx /\
    (fx = 0 \/ exists c fc, answered l c fc /\ fx * fc < 0 /\ Rabs fx <= Rabs fc /\
                            Rabs (c - x) <= 4 * FEPS * Rabs x + tolerance).

Lemma brent_loop_ok f tolerance n : forall s l l' r lo hi,
  0 <= tolerance -> brent_inv lo hi l s ->
  brent_loop f tolerance n s l = (l', r) ->
  calls_within l' lo hi /\ (exists l2, l' = l ++ l2) /\
  match r with
  | Ok (x, st) => root_answer tolerance l' x /\ n_function st = length l' /\
                  n_iterations st = (n_iterations (b_st s) + 1 + (length l' - length l))%nat /\
                  (length l' < length l + n)%nat
  | Err e => (exists l1 x, l' = l1 ++ [(x, Err e)]) \/ length l' = (length l + n)%nat
  | Panic => exists l1 x, l' = l1 ++ [(x, Panic)]
  end.
Proof.
  induction n as [|n IH]; intros s l l' r lo hi Ht I E; cbn [brent_loop] in E.
  - inversion E; subst. splits; [apply I|exists []; now rewrite app_nil_r|right; lia].
  - destruct I as [Ib Ic Iin Ifc Isg Ia Inf].
    set (st := mkSS _ _) in E.
    assert (X : exists a b c fa fb fc,
      (if Rltb (Rabs (b_fc s)) (Rabs (b_fb s))
       then (b_b s, b_c s, b_b s, b_fb s, b_fc s, b_fb s)
       else (b_a s, b_b s, b_c s, b_fa s, b_fb s, b_fc s)) = (a, b, c, fa, fb, fc) /\
      answered l b fb /\ answered l c fc /\ fc <> 0 /\ (fb = 0 \/ fb * fc < 0) /\ Rabs fb <= Rabs fc /\
      (a = c \/ (fa * fc < 0 /\ between a b c))).
    { destruct (Rltb (Rabs (b_fc s)) (Rabs (b_fb s))) eqn:E0; rb; do 6 eexists; (split; [reflexivity|]).
      - assert (b_fb s <> 0). { intros K. rewrite K, Rabs_R0 in E0. pose proof (Rabs_pos (b_fc s)). lra. }
        splits; auto; lra.
      - splits; auto. }
    destruct X as (a & b & c & fa & fb & fc & E0 & Jb & Jc & Jfc & Jsg & Jabs & Ja).
    cbv zeta in E. rewrite E0 in E. clear E0 Ib Ic Ifc Isg Ia.
    pose proof FEPS_pos as Heps.
    set (tol := 2 * FEPS * Rabs b + tolerance / 2) in *.
    assert (Htol : 0 <= tol). { unfold tol. pose proof (Rabs_pos b). nra. }
    destruct (Rleb (Rabs ((c - b) / 2)) tol || Reqb fb 0) eqn:E1.
    + inversion E; subst l' r. splits; auto. { exists []. now rewrite app_nil_r. }
      2,3: unfold st; cbn [n_function n_iterations]; lia.
      exists fb. split; auto. apply orb_true_iff in E1. destruct E1 as [E1|E1]; rb; auto.
      destruct (Req_dec fb 0) as [K|K]; auto. right. exists c, fc.
      destruct Jsg as [Jsg|Jsg]; [contradiction|]. splits; auto.
      replace (c - b) with (2 * ((c - b) / 2)) by lra. rewrite Rabs_mult, (Rabs_right 2) by lra.
      unfold tol in E1. lra.
    + rb. destruct Jsg as [Jsg|Jsg]; [contradiction|].
      destruct (brent_step_inside (b_b s - b_a s) tol a b c fa fb fc Htol ltac:(auto) Jsg Ja) as [Hin _].
      set (b' := b + brent_step _ _ _ _ _ _ _ _) in *.
      pose proof (Iin _ _ Jb) as Rb. pose proof (Iin _ _ Jc) as Rc.
      assert (Rb' : lo <= b' <= hi) by (destruct Hin; lra).
      assert (Iin' : calls_within (l ++ [(b', f l b')]) lo hi).
      { intros x y K. apply in_app_or in K. destruct K as [K|[K|[]]]; [eauto|]. now inversion K; subst. }
      unfold mbind, ask in E. destruct (f l b') as [fb'|e|] eqn:Ef.
      * set (l1 := l ++ [(b', Ok fb')]) in *.
        assert (Hl1 : length l1 = S (length l)) by (unfold l1; rewrite app_length; cbn; lia).
        assert (Hsub : forall x y, answered l x y -> answered l1 x y) by (intros; apply in_or_app; now left).
        assert (Hb' : answered l1 b' fb') by (apply in_or_app; right; now left).
        match type of E with context [if ?t then (b, fb) else (c, fc)] => destruct t eqn:E3 end.
        -- assert (Hs : fb' * fc > 0) by (apply orb_true_iff in E3; destruct E3 as [E3|E3]; rb; nra).
           eapply (IH _ _ _ _ lo hi) in E; auto.
           ++ cbn [b_st n_iterations n_function] in E. destruct E as (A & (l2 & ->) & B).
              splits; auto. { exists ((b', Ok fb') :: l2). unfold l1. now rewrite <- app_assoc. }
              destruct r as [[x st']|e|].
              ** destruct B as (B1 & B2 & B3 & B4). cbn in B3. rewrite app_length in *. rewrite Hl1 in *. splits; auto; lia.
              ** destruct B as [B|B]; auto. right. rewrite Hl1 in B. etransitivity; [exact B|lia].
              ** auto.
           ++ constructor; cbn [b_a b_b b_c b_fa b_fb b_fc b_st n_function n_iterations]; auto; try lia.
              ** right. destruct (sign_cases _ _ Jsg); nra.
              ** unfold st; cbn [n_function]. unfold calls in *; lia.
        -- assert (Hs : fb' = 0 \/ fb' * fc < 0).
           { rb. apply andb_false_iff in H1, H2. 
             destruct (Rtotal_order fb' 0) as [K|[K|K]]; auto; right;
             destruct (Rtotal_order fc 0) as [K'|[K'|K']]; try contradiction; try nra;
             destruct H1, H2; rb; nra. }
           eapply (IH _ _ _ _ lo hi) in E; auto.
           ++ cbn [b_st n_iterations n_function] in E. destruct E as (A & (l2 & ->) & B).
              splits; auto. { exists ((b', Ok fb') :: l2). unfold l1. now rewrite <- app_assoc. }
              destruct r as [[x st']|e|].
              ** destruct B as (B1 & B2 & B3 & B4). cbn in B3. rewrite app_length in *. rewrite Hl1 in *. splits; auto; lia.
              ** destruct B as [B|B]; auto. right. rewrite Hl1 in B. etransitivity; [exact B|lia].
              ** auto.
           ++ constructor; cbn [b_a b_b b_c b_fa b_fb b_fc b_st n_function n_iterations]; auto; try lia.
              unfold st; cbn [n_function]. unfold calls in *; lia.
      * inversion E; subst. splits; auto. { now exists [(b', Err e)]. } left. now exists l, b'.
      * inversion E; subst. splits; auto. { now exists [(b', Panic)]. } now exists l, b'.
Qed.

(** C23: whatever the callback does, all calls stay inside the initial
    interval; an answer was evaluated and is a zero, or sits, with the smaller
    value, next to an evaluated point of the other sign; a failure has one of
    the four documented causes; the statistics count the calls. *)
Theorem C23_brent max_iterations tolerance f xa xb l r :
  0 <= tolerance ->
  brent_root max_iterations tolerance f xa xb [] = (l, r) ->
  calls_within l (Rmin xa xb) (Rmax xa xb) /\
  match r with
  | Ok (x, st) =>
      root_answer tolerance l x /\ Rmin xa xb <= x <= Rmax xa xb /\
      n_function st = length l /\ n_function st = (n_iterations st + 1)%nat /\
      (n_iterations st <= max_iterations)%nat
  | Err e =>
      (exists l1 x, l = l1 ++ [(x, Err e)]) \/
      (l = [] /\ Rabs (xa - xb) < 10 * FEPS) \/
      (exists ya yb, l = [(xa, Ok ya); (xb, Ok yb)] /\ - FEPS <= ya * yb) \/
      length l = (2 + max_iterations)%nat
  | Panic => exists l1 x, l = l1 ++ [(x, Panic)]
  end.
Proof.
  intros Ht E. unfold brent_root in E.
  pose proof FEPS_pos as Heps.
  pose proof (Rmin_l xa xb). pose proof (Rmin_r xa xb). pose proof (Rmax_l xa xb). pose proof (Rmax_r xa xb).
  destruct (Rltb _ _) eqn:E0; rb.
  { inversion E; subst. split; [intros ? ? []|]. right; left. auto. }
  unfold mbind at 1, ask at 1 in E.
  assert (Ra : Rmin xa xb <= xa <= Rmax xa xb) by lra. assert (Rb : Rmin xa xb <= xb <= Rmax xa xb) by lra.
  destruct (f [] xa) as [fa|e|] eqn:Ea.
  2,3: inversion E; subst; split; [intros ? ? [K|[]]; now inversion K; subst|]; try left; now exists [], xa.
  unfold mbind at 1, ask at 1 in E. cbn [app] in E.
  destruct (f [(xa, Ok fa)] xb) as [fb|e|] eqn:Eb.
  2,3: inversion E; subst; split; [intros ? ? [K|[K|[]]]; now inversion K; subst|]; try left; now exists [(xa, Ok fa)], xb.
  destruct (Rleb _ _) eqn:E1; rb.
  { inversion E; subst. split; [intros ? ? [K|[K|[]]]; now inversion K; subst|].
    right; right; left. now exists fa, fb. }
  eapply (brent_loop_ok _ _ _ _ _ _ _ (Rmin xa xb) (Rmax xa xb)) in E; auto.
  - destruct E as (A & (l2 & El) & B). split; auto.
    destruct r as [[x st]|e|]; auto.
    + destruct B as (B1 & B2 & B3 & B4). cbn in B3, B4. splits; auto.
      * destruct B1 as (fx & K & _). apply A in K. lra.
      * destruct B1 as (fx & K & _). apply A in K. lra.
      * rewrite B2, B3. rewrite El. cbn. lia.
      * rewrite El in B4, B3. cbn in B3, B4. lia.
    + destruct B as [B|B]; [left; auto|right; right; right; cbn in B; lia].
  - constructor; cbn [b_a b_b b_c b_fa b_fb b_fc b_st n_function length].
    + right; left; auto.
    + left; auto.
    + intros ? ? [K|[K|[]]]; now inversion K; subst.
    + intros ->. lra.
    + right. lra.
    + now left.
    + reflexivity.
Qed.
Print Assumptions C23_brent.

(** C23, for a function continuous on the interval: there is a true root
    within the tolerance of the answer. *)
Theorem C23_true_root max_iterations tolerance g xa xb l x st :
  0 <= tolerance ->
  (forall z, Rmin xa xb <= z <= Rmax xa xb -> continuity_pt g z) ->
  brent_root max_iterations tolerance (pure g) xa xb [] = (l, Ok (x, st)) ->
  exists z, Rmin xa xb <= z <= Rmax xa xb /\ g z = 0 /\
            Rabs (z - x) <= 4 * FEPS * Rabs x + tolerance.
Proof.
  intros Ht Hc E.
  assert (Hans : forall l' y w, answered l' y w -> (forall u v, In (u, v) l' -> v = Ok (g u)) -> w = g y).
  { intros l' y w K H. apply H in K. now inversion K. }
  assert (Hl : forall u v, In (u, v) l -> v = Ok (g u)).
  { assert (G : forall n s l0 l1 r, (forall u v, In (u, v) l0 -> v = Ok (g u)) ->
                brent_loop (pure g) tolerance n s l0 = (l1, r) -> forall u v, In (u, v) l1 -> v = Ok (g u)).
    { induction n as [|n IH]; intros s l0 l1 r H0 E1; cbn [brent_loop] in E1.
      - inversion E1; subst; auto.
      - cbv zeta in E1.
        destruct (Rltb (Rabs (b_fc s)) (Rabs (b_fb s)));
        (match type of E1 with context [if ?t then ret _ else _] => destruct t end; [inversion E1; subst; auto|]);
        unfold mbind, ask, pure in E1;
        match type of E1 with context [if ?t then (_, _) else _] => destruct t end;
        (eapply IH; [|exact E1]; intros u v K; apply in_app_or in K; destruct K as [K|[K|[]]]; auto; now inversion K; subst). }
    unfold brent_root in E. destruct (Rltb _ _); [inversion E|].
    unfold mbind, ask, pure in E. cbn [app] in E. destruct (Rleb _ _); [inversion E|].
    eapply G; [|exact E]. intros u v [K|[K|[]]]; now inversion K. }
  destruct (C23_brent _ _ _ _ _ _ _ Ht E) as (A & (fx & Hx & B) & Rx & _).
  pose proof (Hans _ _ _ Hx Hl) as Ex. pose proof FEPS_pos. pose proof (Rabs_pos x).
  assert (0 <= 4 * FEPS * Rabs x) by nra.
  destruct B as [B|(c & fc & Hcc & Hs & _ & Hd)].
  { exists x. splits; try lra. replace (x - x) with 0 by lra. rewrite Rabs_R0. lra. }
  pose proof (Hans _ _ _ Hcc Hl) as Ec. subst fx fc. pose proof (A _ _ Hcc) as Rc.
  assert (G : forall u v, u < v -> Rmin xa xb <= u -> v <= Rmax xa xb -> g u * g v < 0 ->
              exists z, u <= z <= v /\ g z = 0).
  { intros u v Huv Hu Hv Hsg. destruct (sign_cases _ _ Hsg) as [[]|[]].
    - destruct (IVT_interv g u v) as (z & Hz & Ez); auto. { intros; apply Hc; lra. } exists z; auto.
    - destruct (IVT_interv (fun y => - g y) u v) as (z & Hz & Ez); try lra.
      { intros a Ha. apply (continuity_pt_opp g). apply Hc. lra. } exists z; split; auto; lra. }
  destruct (Rtotal_order x c) as [L|[L|L]].
  - destruct (G x c) as (z & Hz & Ez); try lra. exists z. splits; try lra.
    rewrite Rabs_right by lra. rewrite Rabs_right in Hd by lra. lra.
  - subst. nra.
  - destruct (G c x) as (z & Hz & Ez); try lra. exists z. splits; try lra.
    rewrite Rabs_left1 by lra. rewrite Rabs_left in Hd by lra. lra.
Qed.
Print Assumptions C23_true_root.

(** the hypotheses can be met: -1 + x on [0, 2] *)
Lemma fa_1 : Rabs (0 - 2) < 10 * FEPS -> False.
Proof. rewrite Rabs_left by lra. unfold FEPS. lra. Qed.

Example C23_ex n : exists l st, brent_root (S (S n)) 1e-13 (pure (fun x => x - 1)) 0 2 [] = (l, Ok (1, st)).
Proof.
  unfold brent_root, pure, mbind at 1 2, ask at 1 2. cbn [app].
  pose proof FEPS_pos.
  destruct (Rltb_spec (Rabs (0 - 2)) (10 * FEPS)) as [K|_]; [now destruct (fa_1 K)|].
  assert (K : (0 - 1) * (2 - 1) = -1) by lra. rewrite K.
  destruct (Rleb_spec (- FEPS) (-1)) as [K1|_]; [unfold FEPS in K1; lra|].
  assert (A1 : Rabs (0 - 1) = 1) by (rewrite Rabs_left; lra).
  assert (A2 : Rabs (2 - 1) = 1) by (rewrite Rabs_right; lra).
  cbn [brent_loop b_fc b_fb b_a b_b b_c b_fa b_st]. rewrite A1, A2.
  destruct (Rltb_spec 1 1) as [?|_]; [lra|]. cbv zeta.
  assert (A3 : Rabs 2 = 2) by (rewrite Rabs_right; lra). rewrite A3.
  replace ((0 - 2) / 2) with (-1) by lra.
  destruct (Rleb_spec (Rabs (-1)) (2 * FEPS * 2 + 1e-13 / 2)) as [K1|_].
  { rewrite Rabs_left in K1 by lra. unfold FEPS in K1. lra. }
  destruct (Reqb_spec (2 - 1) 0) as [?|_]; [lra|]. cbn [orb].
  (* the step: |fa| > |fb| is false, hence bisection *)
  unfold brent_step. rewrite A1, A2. destruct (Rltb_spec 1 1) as [?|_]; [lra|]. rewrite andb_false_r.
  replace ((0 - 2) / 2) with (-1) by lra.
  destruct (Rltb_spec (Rabs (-1)) (2 * FEPS * 2 + 1e-13 / 2)) as [K1|_].
  { rewrite Rabs_left in K1 by lra. unfold FEPS in K1. lra. }
  unfold mbind, ask. replace (2 + -1 - 1) with 0 by lra.
  destruct (Rltb_spec 0 0) as [?|_]; [lra|]. cbn [andb orb app].
  cbn [brent_loop b_fc b_fb b_a b_b b_c b_fa b_st]. rewrite A1, Rabs_R0.
  destruct (Rltb_spec 1 0) as [?|_]; [lra|]. cbv zeta.
  destruct (Reqb_spec 0 0) as [_|?]; [|lra]. rewrite orb_true_r. unfold ret.
  replace (2 + -1) with 1 by lra. eauto.
Qed.

(** C23, refuted part: a sign change is documented to be enough, but small
    values are turned down (root_finder_brent.rs:88 compares the product with
    -EPSILON instead of 0). *)
Theorem C23_small_values_refuted :
  exists g xa xb, g xa * g xb < 0 /\ xa < xb /\ continuity g /\
    forall max_iterations tolerance, exists l,
      brent_root max_iterations tolerance (pure g) xa xb [] =
        (l, Err "xa and xb must bracket the root and f(xa) × f(xb) < 0").
Proof.
  exists (fun x => 1e-9 * (x - 1)), 0, 2. splits; try lra.
  { apply derivable_continuous. reg. }
  intros. eexists. unfold brent_root, pure, mbind, ask, ret. cbn [app].
  destruct (Rltb_spec (Rabs (0 - 2)) (10 * FEPS)) as [K|_]; [now destruct (fa_1 K)|].
  destruct (Rleb_spec (- FEPS) (1e-9 * (0 - 1) * (1e-9 * (2 - 1)))) as [K1|K1]; [reflexivity|].
  exfalso. revert K1. unfold FEPS. lra.
Qed.
Print Assumptions C23_small_values_refuted.

(* ------------------------------------------------------------------ *)
(** * Minimum bracketing *)

(** the last entry of the log is a failed call *)
Definition call_failed {X} (l : calls) (r : res X) : Prop :=
  match r with
  | Ok _ => False
  | Err e => exists l1 x, l = l1 ++ [(x, Err e)]
  | Panic => exists l1 x, l = l1 ++ [(x, Panic)]
  end.

(** a bracket as documented in bracket.rs, with the weak inequality on the side
    the search came from *)
Definition bracket_valid (l : calls) (k : bracket) : Prop :=
  br_a k < br_xo k < br_b k /\
  answered l (br_a k) (br_fa k) /\ answered l (br_b k) (br_fb k) /\ answered l (br_xo k) (br_fxo k) /\
  ((br_fxo k < br_fa k /\ br_fxo k <= br_fb k) \/ (br_fxo k <= br_fa k /\ br_fxo k < br_fb k)) /\
  (forall x y, answered l x y -> br_fxo k <= y).

Lemma bracket_loop_ok f expansion n : forall a fa xo fxo step st l l' r,
  0 < expansion -> step <> 0 -> (a < xo /\ 0 < step \/ xo < a /\ step < 0) ->
  answered l a fa -> answered l xo fxo -> (forall x y, answered l x y -> fxo <= y) ->
  n_function st = length l ->
  bracket_loop f expansion n a fa xo fxo step st l = (l', r) ->
  (exists l2, l' = l ++ l2) /\
  match r with
  | Ok (k, st') => bracket_valid l' k /\ n_function st' = length l' /\
                   (n_iterations st' - n_iterations st = length l' - length l)%nat /\
                   (n_iterations st <= n_iterations st')%nat /\
                   (length l' <= length l + n)%nat
  | _ => call_failed l' r \/ (r = Err "try_bracket_min failed to converge" /\ length l' = (length l + n)%nat)
  end.
Proof.
  induction n as [|n IH]; intros a fa xo fxo step st l l' r He Hs Hord Ha Hx Hmin Hnf E; cbn [bracket_loop] in E.
  { inversion E; subst. split; [exists []; now rewrite app_nil_r|right; split; auto; lia]. }
  cbv zeta in E. set (st1 := mkSS _ _) in E. unfold mbind, ask in E. set (b := xo + step) in *.
  destruct (f l b) as [fb|e|].
  2,3: inversion E; subst; (split; [eexists; reflexivity|left; cbn; eauto]).
  set (l1 := l ++ [(b, Ok fb)]) in *.
  assert (Hl1 : length l1 = S (length l)) by (unfold l1; rewrite app_length; cbn; lia).
  assert (Hsub : forall x y, answered l x y -> answered l1 x y) by (intros; apply in_or_app; now left).
  assert (Hb : answered l1 b fb) by (apply in_or_app; right; now left).
  assert (Hinv : forall x y, answered l1 x y -> answered l x y \/ (x = b /\ y = fb)).
  { intros x y K. apply in_app_or in K. destruct K as [K|[K|[]]]; auto. inversion K; auto. }
  destruct (Rltb fxo fb) eqn:E1; rb.
  - assert (Hm1 : forall x y, answered l1 x y -> fxo <= y).
    { intros x y K. apply Hinv in K. destruct K as [K|[_ ->]]; [eauto|lra]. }
    pose proof (Hmin _ _ Ha) as Hfa.
    unfold ret in E. inversion E; subst l' r; clear E. split; [eexists; reflexivity|]. split.
    + unfold bracket_valid.
      destruct (Rltb b a) eqn:E2; rb; cbn [br_a br_b br_fa br_fb br_xo br_fxo];
        (split; [unfold b in *; destruct Hord; lra|]); splits; auto.
    + unfold calls in *. unfold st1. cbn [n_function n_iterations]. rewrite Hl1. splits; lia.
  - eapply IH in E; auto.
    + destruct E as [(l2 & ->) B]. split; [exists ((b, Ok fb) :: l2); unfold l1; now rewrite <- app_assoc|].
      destruct r as [[k st']|e|].
      * destruct B as (B1 & B2 & B3 & B4 & B5). unfold st1 in B3, B4. cbn [n_iterations] in B3, B4.
        unfold calls in *. rewrite app_length in *. rewrite Hl1 in *. splits; auto; lia.
      * destruct B as [B|[B1 B2]]; [now left|right; split; auto]. unfold calls in *. rewrite Hl1 in B2. rewrite B2. lia.
      * destruct B as [B|[B1 B2]]; [now left|discriminate].
    + intros K. apply Rmult_integral in K. lra.
    + unfold b. destruct Hord; [left|right]; split; try lra; nra.
    + intros x y K. apply Hinv in K. destruct K as [K|[_ ->]]; [apply Hmin in K|]; lra.
    + unfold st1, calls in *. cbn [n_function]. lia.
Qed.

(** C22: with a step and an expansion factor that make sense, an answer is a
    valid bracket made of evaluated points, whose middle value is the smallest
    value ever seen; a failed call is passed on; the statistics count the
    calls. *)
Theorem C22_bracket n_iteration_max initial_step expansion f x_guess l r :
  initial_step <> 0 -> 0 < expansion ->
  bracket_basic n_iteration_max initial_step expansion f x_guess [] = (l, r) ->
  match r with
  | Ok (k, st) => bracket_valid l k /\ n_function st = length l /\
                  n_function st = (n_iterations st + 2)%nat /\ (n_iterations st <= n_iteration_max)%nat
  | _ => call_failed l r \/
         (r = Err "n_iteration_max must be ≥ 2" /\ (n_iteration_max < 2)%nat /\ l = []) \/
         (r = Err "try_bracket_min failed to converge" /\ length l = (2 + n_iteration_max)%nat)
  end.
Proof.
  intros Hs He E. unfold bracket_basic in E. destruct (Nat.ltb_spec n_iteration_max 2) as [L|L].
  { inversion E; subst. right; left; auto. }
  cbv zeta in E. unfold mbind at 1, ask at 1 in E.
  destruct (f [] x_guess) as [fa|e|].
  2,3: inversion E; subst; left; cbn; now exists [], x_guess.
  unfold mbind, ask in E. cbn [app] in E. set (xo := x_guess + initial_step) in *.
  destruct (f [(x_guess, Ok fa)] xo) as [fxo|e|].
  2,3: inversion E; subst; left; cbn; now exists [(x_guess, Ok fa)], xo.
  set (l0 := [(x_guess, Ok fa); (xo, Ok fxo)]) in *.
  assert (A0 : answered l0 x_guess fa) by now left. assert (A1 : answered l0 xo fxo) by (right; now left).
  assert (Hinv : forall x y, answered l0 x y -> y = fa \/ y = fxo).
  { intros x y [K|[K|[]]]; inversion K; auto. }
  assert (X : exists a fa' x' fx' s',
    bracket_loop f expansion n_iteration_max a fa' x' fx' s' (mkSS 2 0) l0 = (l, r) /\ s' <> 0 /\
    (a < x' /\ 0 < s' \/ x' < a /\ s' < 0) /\ answered l0 a fa' /\ answered l0 x' fx' /\
    (forall x y, answered l0 x y -> fx' <= y)).
  { assert (Hd : 0 < initial_step \/ initial_step < 0) by (destruct (Rtotal_order initial_step 0) as [|[|]]; lra).
    destruct (Rltb fa fxo) eqn:E1; rb; eexists _, _, _, _, _; (split; [exact E|]); splits; auto; try lra; unfold xo; try lra.
    - intros x y K. apply Hinv in K. destruct K; subst; lra.
    - intros x y K. apply Hinv in K. destruct K; subst; lra. }
  destruct X as (a & fa' & x' & fx' & s' & E' & X1 & X2 & X3 & X4 & X5).
  eapply bracket_loop_ok in E'; auto. destruct E' as [(l2 & El) B].
  destruct r as [[k st]|e|].
  - destruct B as (B1 & B2 & B3 & B4 & B5). cbn [n_iterations length] in *. subst l.
    unfold calls in *. rewrite app_length in *. change (length l0) with 2%nat in *. splits; auto; lia.
  - destruct B as [B|[B1 B2]]; auto.
  - destruct B as [B|[B1 B2]]; auto.
Qed.
Print Assumptions C22_bracket.

(** a concrete case: (x - 1/2)^2 from 0 with step 1 *)
Example C22_ex n : exists l k st,
  bracket_basic (S (S n)) 1 2 (pure (fun x => (x - 0.6) * (x - 0.6))) 0 [] = (l, Ok (k, st)) /\
  br_a k = 0 /\ br_xo k = 1 /\ br_b k = 2.
Proof.
  unfold bracket_basic, pure, mbind at 1 2, ask at 1 2. cbn [Nat.ltb Nat.leb app].
  destruct (Rltb_spec ((0 - 0.6) * (0 - 0.6)) ((0 + 1 - 0.6) * (0 + 1 - 0.6))) as [?|_]; [lra|].
  cbn [bracket_loop]. unfold mbind, ask, ret. cbn [app].
  destruct (Rltb_spec ((0 + 1 - 0.6) * (0 + 1 - 0.6)) ((0 + 1 + 1 - 0.6) * (0 + 1 + 1 - 0.6))) as [_|?]; [|lra].
  destruct (Rltb_spec (0 + 1 + 1) 0) as [?|_]; [lra|].
  do 3 eexists. split; [reflexivity|]. cbn. lra.
Qed.

(** C22, refuted part: the documentation promises f(xo) strictly below both
    ends; a plateau gives equality at one of them. *)
Theorem C22_strict_refuted :
  exists n g l k st, bracket_basic n 1 2 (pure g) 0 [] = (l, Ok (k, st)) /\ br_fa k = br_fxo k.
Proof.
  exists 2%nat, (fun x => (x - 1/2) * (x - 1/2)).
  unfold bracket_basic, pure, mbind at 1 2, ask at 1 2. cbn [Nat.ltb Nat.leb app].
  destruct (Rltb_spec ((0 - 1/2) * (0 - 1/2)) ((0 + 1 - 1/2) * (0 + 1 - 1/2))) as [?|_]; [lra|].
  cbn [bracket_loop]. unfold mbind, ask, ret. cbn [app].
  destruct (Rltb_spec ((0 + 1 - 1/2) * (0 + 1 - 1/2)) ((0 + 1 + 1 - 1/2) * (0 + 1 + 1 - 1/2))) as [_|?]; [|lra].
  destruct (Rltb_spec (0 + 1 + 1) 0) as [?|_]; [lra|].
  do 3 eexists. split; [reflexivity|]. cbn. lra.
Qed.
Print Assumptions C22_strict_refuted.

(** C22, refuted part: the expansion factor is not validated; a negative one
    returns an optimum outside its own bracket. *)
Theorem C22_expansion_refuted :
  exists n g l k st, bracket_basic n 1 (-1/2) (pure g) 0 [] = (l, Ok (k, st)) /\ ~ (br_a k < br_xo k < br_b k).
Proof.
  exists 2%nat, (fun x => (x - 3) * (x - 3)).
  unfold bracket_basic, pure, mbind at 1 2, ask at 1 2. cbn [Nat.ltb Nat.leb app].
  destruct (Rltb_spec ((0 - 3) * (0 - 3)) ((0 + 1 - 3) * (0 + 1 - 3))) as [?|_]; [lra|].
  cbn [bracket_loop]. unfold mbind, ask, ret. cbn [app].
  destruct (Rltb_spec ((0 + 1 - 3) * (0 + 1 - 3)) ((0 + 1 + 1 - 3) * (0 + 1 + 1 - 3))) as [?|_]; [lra|].
  replace (1 * (-1/2)) with (-1/2) by lra.
  destruct (Rltb_spec ((0 + 1 + 1 - 3) * (0 + 1 + 1 - 3)) ((0 + 1 + 1 + -1/2 - 3) * (0 + 1 + 1 + -1/2 - 3))) as [_|?]; [|lra].
  destruct (Rltb_spec (0 + 1 + 1 + -1/2) (0 + 1)) as [?|_]; [lra|].
  do 3 eexists. split; [reflexivity|]. cbn. lra.
Qed.
Print Assumptions C22_expansion_refuted.

(* ------------------------------------------------------------------ *)
(** * Brent's minimizer *)

Lemma GSR_range : 0.38 < GSR < 0.39.
Proof. unfold GSR. lra. Qed.

(** the next point is strictly inside the current bracket *)
Lemma min_step_inside tol a b x v w fx fv fw :
  0 < tol -> a <= x <= b -> 2 * tol < Rabs (x - (a + b) / 2) + (b - a) / 2 ->
  a < x + min_step tol a b x v w fx fv fw < b /\ min_step tol a b x v w fx fv fw <> 0.
Proof.
  intros Ht Hx Hd. pose proof GSR_range as HG.
  (* the two distances *)
  assert (Hbig : (x < (a + b) / 2 /\ 2 * tol < b - x) \/ ((a + b) / 2 <= x /\ 2 * tol < x - a)).
  { unfold Rabs in Hd. destruct (Rcase_abs _); [left|right]; lra. }
  assert (X : exists s, min_step tol a b x v w fx fv fw =
     (if Rltb (Rabs s) tol then (if Rltb 0 s then tol else - tol) else s) /\
     a < x + s < b /\ (0 < s -> 2 * tol < b - x) /\ (s <= 0 -> 2 * tol < x - a)).
  { unfold min_step. cbv zeta. set (tmp := if Rltb x ((a + b) / 2) then b - x else a - x).
    assert (G : a < x + GSR * tmp < b /\ (0 < GSR * tmp -> 2 * tol < b - x) /\ (GSR * tmp <= 0 -> 2 * tol < x - a)).
    { unfold tmp. destruct (Rltb x ((a + b) / 2)) eqn:E; rb.
      - assert (0 < b - x) by lra. splits; intros; try lra; nra.
      - assert (0 < x - a) by lra. splits; intros; try lra; nra. }
    destruct (Rleb tol (Rabs (x - w))); [|eexists; split; [reflexivity|exact G]].
    set (q0 := (x - v) * (fx - fw)). set (t := (x - w) * (fx - fv)).
    set (p := (x - v) * q0 - (x - w) * t). set (q := 2 * (q0 - t)).
    assert (Q : exists p' q', (if Rltb 0 q then (- p, q) else (p, - q)) = (p', q') /\ 0 <= q').
    { destruct (Rltb 0 q) eqn:E; rb; eexists _, _; (split; [reflexivity|lra]). }
    destruct Q as (p' & q' & -> & Hq').
    match goal with |- context [if ?t then (p' / q') else _] => destruct t eqn:E end;
      [|eexists; split; [reflexivity|exact G]].
    rb. eexists; split; [reflexivity|].
    assert (q' <> 0). { intros ->. rewrite Rmult_0_r, Rabs_R0 in *. pose proof (Rabs_pos p'). lra. }
    pose proof (div_mul p' q' ltac:(auto)) as E3. set (s := p' / q') in *.
    assert (0 < q') by lra.
    assert (a - x + 2 * tol < s) by nra. assert (s < b - x - 2 * tol) by nra. splits; intros; lra. }
  destruct X as (s & -> & Hs & Hp & Hn).
  destruct (Rltb (Rabs s) tol) eqn:E; rb.
  - destruct (Rltb 0 s) eqn:E2; rb; [specialize (Hp ltac:(lra))|specialize (Hn ltac:(lra))]; lra.
  - split; auto. intros ->. rewrite Rabs_R0 in E. lra.
Qed.

(** [g] falls strictly up to [m] and rises strictly from there *)
Definition unimodal (g : R -> R) (lo hi m : R) : Prop :=
  lo <= m <= hi /\ (forall x y, lo <= x -> x < y -> y <= m -> g y < g x) /\
  (forall x y, m <= x -> x < y -> y <= hi -> g x < g y).

Record min_inv (lo hi : R) (l : calls) (s : mstate) : Prop := {
  mi_x : answered l (m_x s) (m_fx s);
  mi_min : forall x y, answered l x y -> m_fx s <= y;
  mi_range : m_a s <= m_x s <= m_b s;
  mi_ab : lo <= m_a s /\ m_b s <= hi;
  mi_in : calls_within l lo hi;
  mi_nf : n_function (m_st s) = length l;
  mi_uni : forall g m, (forall x y, answered l x y -> y = g x) -> unimodal g lo hi m -> m_a s <= m <= m_b s }.

Definition min_answer (tolerance : R) (lo hi : R) (l : calls) (x : R) : Prop :=
  (exists fx, answered l x fx /\ forall x' y, answered l x' y -> fx <= y) /\
  (forall g m, (forall x' y, answered l x' y -> y = g x') -> unimodal g lo hi m ->
     Rabs (x - m) <= 2 * (SQRT_EPS * Rabs x + tolerance / 3)).

Lemma min_loop_ok f tolerance n : forall s l l' r lo hi,
  0 < tolerance -> min_inv lo hi l s ->
  min_loop f tolerance n s l = (l', r) ->
  calls_within l' lo hi /\ (exists l2, l' = l ++ l2) /\
  match r with
  | Ok (x, st) => min_answer tolerance lo hi l' x /\ lo <= x <= hi /\ n_function st = length l' /\
                  n_iterations st = (n_iterations (m_st s) + 1 + (length l' - length l))%nat /\
                  (length l' < length l + n)%nat
  | _ => call_failed l' r \/ (r = Err "brent solver failed to converge" /\ length l' = (length l + n)%nat)
  end.
Proof.
  induction n as [|n IH]; intros s l l' r lo hi Ht I E; cbn [min_loop] in E.
  { inversion E; subst. splits; [apply I|exists []; now rewrite app_nil_r|right; split; auto; lia]. }
  destruct s as [a b x v w fx fv fw st]. destruct I as [Ix Imin Irange Iab Iin Inf Iuni].
  cbn [m_a m_b m_x m_v m_w m_fx m_fv m_fw m_st] in *. cbv zeta in E.
  set (st1 := mkSS (n_function st) _) in E.
  set (tol := SQRT_EPS * Rabs x + tolerance / 3) in *.
  assert (Htol : 0 < tol). { unfold tol. pose proof (Rabs_pos x). pose proof SQRT_EPS_pos. nra. }
  destruct (Rleb (Rabs (x - (a + b) / 2) + (b - a) / 2) (2 * tol)) eqn:E1; rb.
  { unfold ret in E. inversion E; subst l' r; clear E.
    splits; auto; try lra. { exists []. now rewrite app_nil_r. }
    all: unfold st1; cbn [n_function n_iterations]; try lia; auto.
    split; [exists fx; auto|]. intros g m Hg Hm. specialize (Iuni g m Hg Hm). fold tol.
    unfold Rabs in E1 |- *. destruct (Rcase_abs (x - (a + b) / 2)), (Rcase_abs (x - m)); lra. }
  destruct (min_step_inside tol a b x v w fx fv fw Htol Irange E1) as [Hin Hne].
  set (t := x + min_step _ _ _ _ _ _ _ _ _) in *.
  assert (Htx : t <> x) by (unfold t; lra).
  unfold mbind, ask in E.
  assert (Rt : lo <= t <= hi) by lra.
  assert (Iin' : calls_within (l ++ [(t, f l t)]) lo hi).
  { intros y z K. apply in_app_or in K. destruct K as [K|[K|[]]]; [eauto|]. now inversion K; subst. }
  destruct (f l t) as [ft|e|].
  2,3: inversion E; subst; splits; auto; [eexists; reflexivity|left; cbn; eauto].
  set (l1 := l ++ [(t, Ok ft)]) in *.
  assert (Hl1 : length l1 = S (length l)) by (unfold l1; rewrite app_length; cbn; lia).
  assert (Hsub : forall x y, answered l x y -> answered l1 x y) by (intros; apply in_or_app; now left).
  assert (Hb : answered l1 t ft) by (apply in_or_app; right; now left).
  assert (Hinv : forall x y, answered l1 x y -> answered l x y \/ (x = t /\ y = ft)).
  { intros y z K. apply in_app_or in K. destruct K as [K|[K|[]]]; auto. inversion K; auto. }
  assert (Hfin : forall s', n_function (m_st s') = S (n_function st) -> n_iterations (m_st s') = S (n_iterations st) ->
     m_a s' <= m_x s' <= m_b s' -> lo <= m_a s' /\ m_b s' <= hi ->
     answered l1 (m_x s') (m_fx s') -> (forall x y, answered l1 x y -> m_fx s' <= y) ->
     (forall g m, ft = g t -> fx = g x -> unimodal g lo hi m -> a <= m <= b -> m_a s' <= m <= m_b s') ->
     min_loop f tolerance n s' l1 = (l', r) ->
     calls_within l' lo hi /\ (exists l2, l' = l ++ l2) /\
     match r with
     | Ok (x, st0) => min_answer tolerance lo hi l' x /\ lo <= x <= hi /\ n_function st0 = length l' /\
                  n_iterations st0 = (n_iterations st + 1 + (length l' - length l))%nat /\
                  (length l' < length l + S n)%nat
     | _ => call_failed l' r \/ (r = Err "brent solver failed to converge" /\ length l' = (length l + S n)%nat)
     end).
  { intros s' N1 N2 J1 J2 J3 J4 J5 E'. eapply (IH _ _ _ _ lo hi) in E'; auto.
    - destruct E' as (A & (l2 & ->) & B). splits; auto. { exists ((t, Ok ft) :: l2). unfold l1. now rewrite <- app_assoc. }
      destruct r as [[x' st']|e|].
      + destruct B as (B1 & B2 & B3 & B4 & B5). rewrite N2 in B4. unfold calls in *. rewrite app_length in *.
        rewrite Hl1 in *. splits; auto; try lra; lia.
      + destruct B as [B|[B1 B2]]; [now left|right; split; auto]. unfold calls in *. rewrite Hl1 in B2. rewrite B2. lia.
      + destruct B as [B|[B1 B2]]; [now left|discriminate].
    - constructor; auto.
      + unfold calls in *. lia.
      + intros g m Hg Hm. apply (J5 g m); auto. apply (Iuni g m); auto. }
  clear IH.
  destruct (Rleb ft fx) eqn:E2; rb.
  - assert (Hm1 : forall x y, answered l1 x y -> ft <= y).
    { intros y z K. apply Hinv in K. destruct K as [K|[_ ->]]; [apply Imin in K|]; lra. }
    destruct (Rltb t x) eqn:E3; rb; (eapply Hfin; [..|exact E]);
      unfold st1; cbn [m_a m_b m_x m_v m_w m_fx m_fv m_fw m_st n_function n_iterations]; auto; try lia; try lra.
    + intros g m Gt Gx (_ & U1 & U2) Hab. split; [lra|]. apply Rnot_lt_le. intros K.
      pose proof (U1 t x). lra.
    + intros g m Gt Gx (_ & U1 & U2) Hab. split; [|lra]. apply Rnot_lt_le. intros K.
      pose proof (U2 x t). lra.
  - assert (Hm1 : forall x y, answered l1 x y -> fx <= y).
    { intros y z K. apply Hinv in K. destruct K as [K|[_ ->]]; [apply Imin in K|]; lra. }
    assert (Hu1 : t < x -> forall g m, ft = g t -> fx = g x -> unimodal g lo hi m -> a <= m <= b -> t <= m <= b).
    { intros Hlt g m Gt Gx (_ & U1 & U2) Hab. split; [|lra]. apply Rnot_lt_le. intros K.
      pose proof (U2 t x). lra. }
    assert (Hu2 : x <= t -> forall g m, ft = g t -> fx = g x -> unimodal g lo hi m -> a <= m <= b -> a <= m <= t).
    { intros Hlt g m Gt Gx (_ & U1 & U2) Hab. split; [lra|]. apply Rnot_lt_le. intros K.
      pose proof (U1 x t). lra. }
    destruct (Rltb t x) eqn:E3; rb;
      (destruct (Rleb ft fw || Reqb w x); [|destruct (Rleb ft fv || Reqb v x || Reqb v w)]);
      (eapply Hfin; [..|exact E]);
      unfold st1; cbn [m_a m_b m_x m_v m_w m_fx m_fv m_fw m_st n_function n_iterations]; auto; try lia; try lra.
  all: first [exact (Hu1 ltac:(lra)) | exact (Hu2 ltac:(lra))].
Qed.

(** C24: whatever the callback does, all calls stay inside the given interval,
    the answer was evaluated and no evaluated value is below it; for a
    strictly unimodal function the answer is within the tolerance of the true
    minimizer; failures have the documented causes. *)
Theorem C24_brent_min n_iteration_max tolerance f xa xb l r :
  brent_min n_iteration_max tolerance f xa xb [] = (l, r) ->
  let lo := Rmin xa xb in let hi := Rmax xa xb in
  calls_within l lo hi /\
  match r with
  | Ok (x, st) => min_answer tolerance lo hi l x /\ lo <= x <= hi /\
                  n_function st = length l /\ n_function st = n_iterations st /\
                  (n_iterations st <= n_iteration_max)%nat
  | _ => call_failed l r \/
         (r = Err "xa must be different from xb" /\ Rabs (xa - xb) < 10 * FEPS /\ l = []) \/
         (r = Err "n_iteration_max must be ≥ 2" /\ (n_iteration_max < 2)%nat /\ l = []) \/
         (r = Err "the tolerance must be ≥ 10.0 * f64::EPSILON" /\ tolerance < 10 * FEPS /\ l = []) \/
         (r = Err "brent solver failed to converge" /\ length l = (1 + n_iteration_max)%nat)
  end.
Proof.
  intros E lo hi. unfold brent_min in E.
  destruct (Rltb _ _) eqn:E0; rb. { inversion E; subst. split; [intros ? ? []|auto]. }
  destruct (Nat.ltb_spec n_iteration_max 2) as [L|L]. { inversion E; subst. split; [intros ? ? []|auto 6]. }
  destruct (Rltb tolerance _) eqn:E1; rb. { inversion E; subst. split; [intros ? ? []|auto 7]. }
  pose proof FEPS_pos as HF. pose proof GSR_range as HG.
  assert (X : (if Rltb xa xb then (xa, xb) else (xb, xa)) = (lo, hi)).
  { unfold lo, hi. destruct (Rltb xa xb) eqn:E2; rb; [rewrite Rmin_left, Rmax_right|rewrite Rmin_right, Rmax_left]; auto; lra. }
  rewrite X in E. clear X.
  assert (Hlh : lo < hi).
  { unfold lo, hi. destruct (Rtotal_order xa xb) as [K|[K|K]].
    - rewrite Rmin_left, Rmax_right; lra.
    - subst. replace (xb - xb) with 0 in E0 by lra. rewrite Rabs_R0 in E0. lra.
    - rewrite Rmin_right, Rmax_left; lra. }
  cbv zeta in E. set (v := lo + GSR * (hi - lo)) in *.
  assert (Rv : lo <= v <= hi) by (unfold v; nra).
  unfold mbind, ask in E. cbn [app] in E.
  assert (Hin : forall y, calls_within [(v, y)] lo hi).
  { intros y x z [K|[]]. now inversion K; subst. }
  destruct (f [] v) as [fv|e|].
  2,3: inversion E; subst; (split; [apply Hin|left; cbn; now exists [], v]).
  eapply (min_loop_ok _ _ _ _ _ _ _ lo hi) in E; [| lra |].
  - destruct E as (A & (l2 & El) & B). split; auto.
    destruct r as [[x st]|e|].
    + destruct B as (B1 & B2 & B3 & B4 & B5). cbn in B4, B5. splits; auto; try lra.
      * rewrite B3, B4, El. cbn. lia.
      * rewrite El in B5, B4. cbn in B4, B5. lia.
    + destruct B as [B|[B1 B2]]; auto 8.
    + destruct B as [B|[B1 B2]]; auto 8.
  - constructor; cbn [m_a m_b m_x m_v m_w m_fx m_fv m_fw m_st n_function length]; auto; try lra.
    + now left.
    + intros x y [K|[]]. inversion K; subst. lra.
    + intros g m _ (U & _). exact U.
Qed.
Print Assumptions C24_brent_min.

(** a concrete case: the minimum of |x| on [-1, 2], coarse tolerance *)
Example C24_ex n : exists l x st,
  brent_min (S (S n)) 12 (pure (fun x => (x - 1) * (x - 1))) 0 2 [] = (l, Ok (x, st)) /\
  unimodal (fun x => (x - 1) * (x - 1)) (Rmin 0 2) (Rmax 0 2) 1.
Proof.
  unfold brent_min, pure, mbind at 1, ask at 1. cbn [app].
  destruct (Rltb_spec (Rabs (0 - 2)) (10 * FEPS)) as [K|_]; [now destruct (fa_1 K)|].
  cbn [Nat.ltb Nat.leb].
  destruct (Rltb_spec 12 (10 * FEPS)) as [K|_]; [unfold FEPS in K; lra|].
  destruct (Rltb_spec 0 2) as [_|?]; [|lra].
  cbn [min_loop]. pose proof SQRT_EPS_pos. pose proof GSR_range.
  set (v := 0 + GSR * (2 - 0)). pose proof (Rabs_pos v).
  destruct (Rleb_spec (Rabs (v - (0 + 2) / 2) + (2 - 0) / 2) (2 * (SQRT_EPS * Rabs v + 12 / 3))) as [_|K].
  - do 3 eexists. split; [reflexivity|]. rewrite Rmin_left, Rmax_right by lra.
    split; [lra|]. split; intros; nra.
  - exfalso. assert (0 <= SQRT_EPS * Rabs v) by (apply Rmult_le_pos; lra).
    rewrite (Rabs_left (v - _)) in K by (unfold v; lra). assert (0 <= v) by (unfold v; lra). lra.
Qed.

(* ------------------------------------------------------------------ *)
(** * Line search *)

(** the sufficient decrease (Armijo) condition *)
Definition armijo (c1 fx slope alpha fnew : R) : Prop := fnew <= fx + c1 * alpha * slope.

(** the [k]-th trial point *)
Definition trial (s : searcher) (x p : R) (k : nat) : R := x + ls_rho s ^ k * p.

Lemma ls_loop_ok s f x p fx slope n : forall i l l' r,
  0 < ls_rho s < 1 -> 0 < ls_min_alpha s < 1 ->
  (i = 0%nat \/ ls_min_alpha s <= ls_rho s ^ i) ->
  length l = i ->
  (forall k, (k < i)%nat -> exists y, nth_error l k = Some (trial s x p k, Ok y) /\ ~ armijo (ls_c1 s) fx slope (ls_rho s ^ k) y) ->
  ls_loop s f x p fx slope n i (ls_rho s ^ i) l = (l', r) ->
  (exists l2, l' = l ++ l2) /\
  match r with
  | Ok (alpha, m) =>
      (i < m <= i + n)%nat /\ length l' = m /\ alpha = ls_rho s ^ (m - 1) /\
      ((m - 1)%nat = 0%nat \/ ls_min_alpha s <= alpha) /\
      (forall k, (k < m - 1)%nat -> exists y, nth_error l' k = Some (trial s x p k, Ok y) /\ ~ armijo (ls_c1 s) fx slope (ls_rho s ^ k) y) /\
      (exists y, nth_error l' (m - 1) = Some (trial s x p (m - 1), Ok y) /\ armijo (ls_c1 s) fx slope alpha y)
  | _ => call_failed l' r \/
         ((forall k, (k < length l')%nat -> exists y, nth_error l' k = Some (trial s x p k, Ok y) /\ ~ armijo (ls_c1 s) fx slope (ls_rho s ^ k) y) /\
          ((r = Err "line search failed to converge" /\ length l' = (i + n)%nat) \/
           (r = Err "step size too small" /\ (length l' <= i + n)%nat /\ ls_rho s ^ (length l') < ls_min_alpha s)))
  end.
Proof.
  induction n as [|n IH]; intros i l l' r Hr Hm Hi Hl Hk E; cbn [ls_loop] in E.
  { inversion E; subst l' r. split; [exists []; now rewrite app_nil_r|]. right. rewrite Hl. split; auto. }
  cbv zeta in E. unfold mbind, ask in E. set (xn := x + ls_rho s ^ i * p) in *.
  destruct (f l xn) as [y|e|].
  2,3: inversion E; subst; (split; [eexists; reflexivity|left; cbn; eauto]).
  set (l1 := l ++ [(xn, Ok y)]) in *.
  assert (Hl1 : length l1 = S i) by (unfold l1; rewrite app_length; cbn; lia).
  assert (Hold : forall k, (k < i)%nat -> nth_error l1 k = nth_error l k).
  { intros. unfold l1. apply nth_error_app1. lia. }
  assert (Hnew : nth_error l1 i = Some (trial s x p i, Ok y)).
  { unfold l1. rewrite nth_error_app2 by lia. replace (i - length l)%nat with 0%nat by lia. reflexivity. }
  destruct (Rleb y _) eqn:E1; rb.
  - unfold ret in E. inversion E; subst l' r; clear E. split; [eexists; reflexivity|].
    replace (i + 1 - 1)%nat with i by lia. splits; try lia; auto.
    + intros k K. rewrite Hold by auto. auto.
    + exists y. auto.
  - assert (Hnot : ~ armijo (ls_c1 s) fx slope (ls_rho s ^ i) y) by (unfold armijo; lra).
    assert (Hk1 : forall k, (k < S i)%nat -> exists y, nth_error l1 k = Some (trial s x p k, Ok y) /\ ~ armijo (ls_c1 s) fx slope (ls_rho s ^ k) y).
    { intros k K. destruct (Nat.eq_dec k i) as [->|]; [eauto|]. rewrite Hold by lia. apply Hk. lia. }
    replace (ls_rho s ^ i * ls_rho s) with (ls_rho s ^ S i) in E by (cbn; lra).
    destruct (Rltb (ls_rho s ^ S i) (ls_min_alpha s)) eqn:E2; rb.
    + unfold ret in E. inversion E; subst l' r; clear E. split; [eexists; reflexivity|]. right.
      unfold calls in *. rewrite Hl1. split; auto. right. splits; auto; lia.
    + replace (i + 1)%nat with (S i) in E by lia.
      eapply IH in E; auto.
      destruct E as [(l2 & El) B]. split; [exists ((xn, Ok y) :: l2); rewrite El; unfold l1; now rewrite <- app_assoc|].
      destruct r as [[alpha m]|e|].
      * destruct B as (B1 & B2 & B3 & B4 & B5 & B6). splits; auto; lia.
      * destruct B as [B|[B1 [[B2 B3]|(B2 & B3 & B4)]]]; [now left|right|right]; split; auto; [left|right]; splits; auto; lia.
      * destruct B as [B|[B1 [[B2 B3]|(B2 & B3 & B4)]]]; [now left|right|right]; split; auto; [left|right]; splits; auto; lia.
Qed.

(** C21: an answer [(alpha, m)] is the first of the trial steps 1, rho, rho^2,
    ... that satisfies the Armijo condition, it took exactly [m] calls, at the
    trial points and in their order; it is within the limits.  An error has one
    of the documented causes, and then every trial that was made failed the
    condition.  This holds for every callback. *)
Theorem C21_line_search s x p fx slope f l r :
  ls_search s x p fx slope f [] = (l, r) ->
  let valid := 0 < ls_c1 s < 1 /\ 0 < ls_rho s < 1 /\ 0 < ls_min_alpha s < 1 /\ (1 <= ls_max_iterations s)%nat in
  let failed k := exists y, nth_error l k = Some (trial s x p k, Ok y) /\ ~ armijo (ls_c1 s) fx slope (ls_rho s ^ k) y in
  match r with
  | Ok (alpha, m) =>
      valid /\ slope < 0 /\ (1 <= m <= ls_max_iterations s)%nat /\ length l = m /\
      alpha = ls_rho s ^ (m - 1) /\ ls_min_alpha s <= alpha <= 1 /\
      (forall k, (k < m - 1)%nat -> failed k) /\
      (exists y, nth_error l (m - 1) = Some (x + alpha * p, Ok y) /\ armijo (ls_c1 s) fx slope alpha y /\ y < fx)
  | _ =>
      call_failed l r \/ (~ valid /\ l = []) \/
      (r = Err "direction must be a descent direction (slope < 0)" /\ 0 <= slope /\ l = []) \/
      ((forall k, (k < length l)%nat -> failed k) /\
       ((r = Err "line search failed to converge" /\ length l = ls_max_iterations s) \/
        (r = Err "step size too small" /\ (length l <= ls_max_iterations s)%nat /\ ls_rho s ^ (length l) < ls_min_alpha s)))
  end.
Proof.
  intros E valid failed. unfold ls_search, mbind, ret in E.
  assert (V : (ls_validate s = Ok tt /\ valid) \/ ((exists e, ls_validate s = Err e) /\ ~ valid)).
  { unfold ls_validate, valid.
    destruct (Rleb_spec (ls_c1 s) 0); cbn [orb]; [right; split; [eauto|lra]|].
    destruct (Rleb_spec 1 (ls_c1 s)); [right; split; [eauto|lra]|].
    destruct (Rleb_spec (ls_rho s) 0); cbn [orb]; [right; split; [eauto|lra]|].
    destruct (Rleb_spec 1 (ls_rho s)); [right; split; [eauto|lra]|].
    destruct (Rleb_spec (ls_min_alpha s) 0); [right; split; [eauto|lra]|].
    destruct (Rleb_spec 1 (ls_min_alpha s)); [right; split; [eauto|lra]|].
    destruct (Nat.eqb_spec (ls_max_iterations s) 0); [right; split; [eauto|lia]|].
    left. splits; auto; try lra; lia. }
  destruct V as [[V1 V2]|[[e V1] V2]]; rewrite V1 in E.
  2: { inversion E; subst. right; left; auto. }
  destruct (Rleb 0 slope) eqn:E1; rb. { inversion E; subst. right; right; left; auto. }
  destruct V2 as (C & Rr & Mm & Mx) eqn:EV.
  eapply (ls_loop_ok s f x p fx slope (ls_max_iterations s) 0 [] l r) in E; auto.
  2: intros; lia.
  destruct E as [_ B]. destruct r as [[alpha m]|e|].
  - destruct B as (B1 & B2 & B3 & B4 & B5 & (y & B6 & B7)). split; [exact V2|].
    assert (P : 0 < alpha <= 1).
    { rewrite B3. split; [apply pow_lt; lra|]. rewrite <- (pow1 (m - 1)). apply pow_incr. lra. }
    assert (Q : ls_min_alpha s <= alpha <= 1).
    { split; [|lra]. destruct B4 as [B4|B4]; auto. rewrite B3, B4. cbn. lra. }
    split; [auto|]. split; [lia|]. split; [exact B2|]. split; [exact B3|]. split; [exact Q|]. split; [exact B5|].
    exists y. split; [|split].
    + rewrite B6. unfold trial. now rewrite <- B3.
    + exact B7.
    + unfold armijo in B7. assert (ls_c1 s * alpha * slope < 0); [|lra].
      assert (0 < ls_c1 s * alpha) by (apply Rmult_lt_0_compat; lra). nra.
  - destruct B as [B|[B1 B2]]; auto.
  - destruct B as [B|[B1 B2]]; auto.
Qed.
Print Assumptions C21_line_search.

(** C21: for a function differentiable at [x] with the given slope along [p],
    and exact [fx], the search succeeds as soon as enough backtracking is
    allowed. *)
Theorem C21_succeeds g x p slope :
  slope < 0 -> derivable_pt_lim (fun t => g (x + t * p)) 0 slope ->
  forall c1 rho, 0 < c1 < 1 -> 0 < rho < 1 ->
  exists n, forall max_iterations min_alpha, (n <= max_iterations)%nat -> 0 < min_alpha < 1 -> min_alpha <= rho ^ n ->
    exists l alpha m, ls_search (mkLS c1 rho min_alpha max_iterations) x p (g x) slope (pure g) [] = (l, Ok (alpha, m)).
Proof.
  intros Hs Hd c1 rho Hc Hr.
  (* a neighbourhood in which the condition holds *)
  destruct (Hd (- slope * (1 - c1) / 2)) as [delta Hdelta]; [nra|].
  destruct (pow_lt_1_zero rho) with (y := Rmin delta (1/2)) as [N HN].
  { rewrite Rabs_right; lra. }
  { apply Rmin_pos; [apply delta|lra]. }
  assert (Harm : armijo c1 (g x) slope (rho ^ N) (g (x + rho ^ N * p))).
  { specialize (HN N (le_n N)).
    assert (P : 0 < rho ^ N) by (apply pow_lt; lra).
    rewrite Rabs_right in HN by lra.
    pose proof (Rmin_l delta (1/2)).
    specialize (Hdelta (rho ^ N)). rewrite Rplus_0_l, Rmult_0_l, Rplus_0_r in Hdelta.
    assert (Q : Rabs ((g (x + rho ^ N * p) - g x) / rho ^ N - slope) < - slope * (1 - c1) / 2).
    { apply Hdelta; [lra|]. rewrite Rabs_right; lra. }
    apply Rabs_def2 in Q. destruct Q as [Q _].
    pose proof (div_mul (g (x + rho ^ N * p) - g x) (rho ^ N) ltac:(lra)) as D.
    set (q := (g (x + rho ^ N * p) - g x) / rho ^ N) in *. unfold armijo.
    assert (q * rho ^ N <= (c1 * slope) * rho ^ N).
    { apply Rmult_le_compat_r; [lra|]. nra. }
    nra. }
  exists (S N). intros mx ma Hmx Hma Hle.
  destruct (ls_search (mkLS c1 rho ma mx) x p (g x) slope (pure g) []) as [l r] eqn:E.
  pose proof (C21_line_search _ _ _ _ _ _ _ _ E) as T. cbv zeta in T. cbn [ls_c1 ls_rho ls_min_alpha ls_max_iterations] in T.
  assert (Hpure : forall e, r = Err e -> ~ call_failed l r).
  { clear -E. intros e -> (l1 & y & K).
    assert (G : forall n i a l0 l1 r, (forall u v, In (u, v) l0 -> exists z, v = Ok z) ->
       ls_loop (mkLS c1 rho ma mx) (pure g) x p (g x) slope n i a l0 = (l1, r) -> forall u v, In (u, v) l1 -> exists z, v = Ok z).
    { induction n as [|n IH]; intros i a l0 l2 r H0 E1; cbn [ls_loop] in E1; [inversion E1; subst; auto|].
      cbv zeta in E1. unfold mbind, ask, pure in E1.
      assert (H1 : forall u v, In (u, v) (l0 ++ [(x + a * p, Ok (g (x + a * p)))]) -> exists z, v = Ok z).
      { intros u v W. apply in_app_or in W. destruct W as [W|[W|[]]]; eauto. inversion W; eauto. }
      destruct (Rleb _ _); [inversion E1; subst; auto|].
      destruct (Rltb _ _); [inversion E1; subst; auto|]. eapply IH; eauto. }
    unfold ls_search, mbind, ret in E. destruct (ls_validate _); try (inversion E; subst; destruct l1; discriminate).
    destruct (Rleb _ _); try (inversion E; subst; destruct l1; discriminate).
    eapply G in E; [|intros ? ? []|subst l; apply in_or_app; right; left; reflexivity]. destruct E; discriminate. }
  destruct r as [[alpha m]|e|].
  - eauto.
  - exfalso. destruct T as [T|[[T _]|[(_ & T & _)|[T1 T2]]]].
    + now apply (Hpure e).
    + apply T. splits; auto; try lra; lia.
    + lra.
    + (* all trials failed, but trial N satisfies the condition *)
      assert (LN : (N < length l)%nat).
      { destruct T2 as [[_ T2]|(_ & _ & T2)]; [rewrite T2; lia|].
        apply Nat.nle_gt. intros K.
        assert (rho ^ S N <= rho ^ length l); [|lra].
        replace (S N) with (length l + (S N - length l))%nat by lia. rewrite pow_add.
        rewrite <- (Rmult_1_r (rho ^ length l)) at 2.
        apply Rmult_le_compat_l; [apply pow_le; lra|]. rewrite <- (pow1 (S N - length l)). apply pow_incr. lra. }
      destruct (T1 N LN) as (y & K1 & K2). apply K2. clear - E K1 Harm.
      replace y with (g (x + rho ^ N * p)); auto.
      (* the answers are those of g *)
      assert (G : forall n i a l0 l1 r, (forall u v, In (u, v) l0 -> v = Ok (g u)) ->
       ls_loop (mkLS c1 rho ma mx) (pure g) x p (g x) slope n i a l0 = (l1, r) -> forall u v, In (u, v) l1 -> v = Ok (g u)).
      { induction n as [|n IH]; intros i a l0 l2 r H0 E1; cbn [ls_loop] in E1; [inversion E1; subst; auto|].
        cbv zeta in E1. unfold mbind, ask, pure in E1.
        assert (H1 : forall u v, In (u, v) (l0 ++ [(x + a * p, Ok (g (x + a * p)))]) -> v = Ok (g u)).
        { intros u v W. apply in_app_or in W. destruct W as [W|[W|[]]]; eauto. inversion W; eauto. }
        destruct (Rleb _ _); [inversion E1; subst; auto|].
        destruct (Rltb _ _); [inversion E1; subst; auto|]. eapply IH; eauto. }
      unfold ls_search, mbind, ret in E. 
      destruct (ls_validate _); try (inversion E; subst; destruct N; discriminate).
      destruct (Rleb _ _); try (inversion E; subst; destruct N; discriminate).
      apply nth_error_In in K1. eapply G in E; [|intros ? ? []|exact K1]. now inversion E.
  - exfalso. destruct T as [T|[[T _]|[(T & _)|[_ [[T _]|(T & _)]]]]]; try discriminate T.
    + destruct T as (l1 & y & K). 
      assert (G : forall n i a l0 l1 r, (forall u v, In (u, v) l0 -> exists z, v = Ok z) ->
       ls_loop (mkLS c1 rho ma mx) (pure g) x p (g x) slope n i a l0 = (l1, r) -> forall u v, In (u, v) l1 -> exists z, v = Ok z).
    { induction n as [|n IH]; intros i a l0 l2 r H0 E1; cbn [ls_loop] in E1; [inversion E1; subst; auto|].
      cbv zeta in E1. unfold mbind, ask, pure in E1.
      assert (H1 : forall u v, In (u, v) (l0 ++ [(x + a * p, Ok (g (x + a * p)))]) -> exists z, v = Ok z).
      { intros u v W. apply in_app_or in W. destruct W as [W|[W|[]]]; eauto. inversion W; eauto. }
      destruct (Rleb _ _); [inversion E1; subst; auto|].
      destruct (Rltb _ _); [inversion E1; subst; auto|]. eapply IH; eauto. }
    unfold ls_search, mbind, ret in E. destruct (ls_validate _); try (inversion E; subst; destruct l1; discriminate).
    destruct (Rleb _ _); try (inversion E; subst; destruct l1; discriminate).
    eapply G in E; [|intros ? ? []|subst l; apply in_or_app; right; left; reflexivity]. destruct E; discriminate.
    + apply T. splits; auto; try lra; lia.
Qed.
Print Assumptions C21_succeeds.

(** a concrete case: (x - 1)^2 from 0 along +1, where the full step is taken *)
Example C21_ex : exists l,
  line_search 0 1 1 (-2) (pure (fun x => (x - 1) * (x - 1))) [] = (l, Ok 1) /\ length l = 1%nat.
Proof.
  unfold line_search, ls_search, mbind, ret, ls_validate, searcher_new. cbn [ls_c1 ls_rho ls_min_alpha ls_max_iterations].
  repeat match goal with |- context [Rleb ?a ?b] =>
    destruct (Rleb_spec a b); try lra; cbn [orb Nat.eqb] end.
  cbn [ls_loop]. unfold mbind, ask, pure, ret. cbn [app ls_c1].
  destruct (Rleb_spec ((0 + 1 * 1 - 1) * (0 + 1 * 1 - 1)) (1 + 1e-4 * 1 * -2)); [|lra].
  eexists; split; reflexivity.
Qed.

(* ------------------------------------------------------------------ *)
(** * Refinement of roots *)

(** a difference quotient of [g] around [x], over a width of [h_osd] or [2 h_cen] *)
Definition secant_slope (c : refiner) (g : R -> R) (x d : R) : Prop :=
  exists u v, v <= x <= u /\ (u - v = rf_h_osd c \/ u - v = 2 * rf_h_cen c) /\ d = (g u - g v) / (u - v).

(** a point at which the refinement may stop *)
Definition refined (c : refiner) (g : R -> R) (x : R) : Prop :=
  Rabs (g x) < rf_tol_fx c \/
  exists d, secant_slope c g x d /\ (Rabs d < rf_tol_fx c \/ Rabs (g x / d) < rf_tol_dx c).

Lemma refine_dfdx_pure c xa xb g x l :
  0 < rf_h_osd c -> 0 < rf_h_cen c ->
  exists l' d, refine_dfdx c xa xb (pure g) x l = (l', Ok d) /\ secant_slope c g x d.
Proof.
  intros H1 H2. unfold refine_dfdx, mbind, ask, pure, ret, secant_slope.
  destruct (Rleb _ _); [|destruct (Rleb _ _)]; eexists _, _; (split; [reflexivity|]).
  - exists (x + rf_h_osd c), x. splits; try lra. f_equal; lra.
  - exists x, (x - rf_h_osd c). splits; try lra. f_equal; lra.
  - exists (x + rf_h_cen c), (x - rf_h_cen c). splits; try lra. f_equal; lra.
Qed.

Lemma refine_one_pure c xa xb g n : forall x l l' r,
  0 < rf_h_osd c -> 0 < rf_h_cen c ->
  refine_one c xa xb (pure g) n x l = (l', r) ->
  match r with Ok x' => refined c g x' | Err e => e = "Newton's method did not converge"%string | Panic => False end.
Proof.
  induction n as [|n IH]; intros x l l' r H1 H2 E; cbn [refine_one] in E; [inversion E; subst; auto|].
  unfold mbind at 1, ask at 1 in E. change (pure g l x) with (@Ok R (g x)) in E. cbv beta iota zeta in E.
  destruct (Rltb (Rabs (g x)) (rf_tol_fx c)) eqn:E1; rb. { inversion E; subst. now left. }
  destruct (refine_dfdx_pure c xa xb g x (l ++ [(x, Ok (g x))]) H1 H2) as (l1 & d & Ed & Hd).
  unfold mbind at 1 in E. rewrite Ed in E.
  destruct (Rltb (Rabs d) (rf_tol_fx c)) eqn:E2; rb. { inversion E; subst. right. eauto. }
  unfold mbind at 1, ask at 1 in E. change (pure g l1 x) with (@Ok R (g x)) in E. cbv beta iota zeta in E.
  destruct (Rltb (Rabs (- g x / d)) (rf_tol_dx c)) eqn:E3; rb.
  { inversion E; subst. right. exists d. split; auto. right.
    replace (- g x / d) with (- (g x / d)) in E3 by (unfold Rdiv; lra). now rewrite Rabs_Ropp in E3. }
  eapply IH; eauto.
Qed.

(** C73: the refinement keeps the number of roots, and each refined root has
    a residual below the tolerance, or a vanishing difference quotient, or a
    Newton correction below its tolerance; the only failures are an empty list
    and a lack of convergence. *)
Theorem C73_refine c roots xa xb g l r :
  0 < rf_h_osd c -> 0 < rf_h_cen c ->
  refine c roots xa xb (pure g) [] = (l, r) ->
  match r with
  | Ok roots' => length roots' = length roots /\ roots <> [] /\ Forall (refined c g) roots'
  | Err e => (roots = [] /\ e = "at least one root is required"%string) \/ e = "Newton's method did not converge"%string
  | Panic => False
  end.
Proof.
  intros H1 H2 E.
  assert (G : forall rs l0 l1 r1, refine_all c xa xb (pure g) rs l0 = (l1, r1) ->
    match r1 with Ok rs' => length rs' = length rs /\ Forall (refined c g) rs'
    | Err e => e = "Newton's method did not converge"%string | Panic => False end).
  { induction rs as [|x rs IH]; intros l0 l1 r1 E1; cbn [refine_all] in E1.
    - inversion E1; subst. auto.
    - unfold mbind at 1 in E1. destruct (refine_one c xa xb (pure g) (rf_max c) x l0) as [l2 r2] eqn:E2.
      apply refine_one_pure in E2; auto. destruct r2 as [x'|e|]; [|inversion E1; subst; auto|contradiction].
      unfold mbind at 1 in E1. destruct (refine_all c xa xb (pure g) rs l2) as [l3 r3] eqn:E3. apply IH in E3.
      destruct r3 as [rs'|e|]; [|inversion E1; subst; auto|contradiction].
      inversion E1; subst. destruct E3 as [A B]. cbn. auto. }
  destruct roots as [|x rs]; cbn [refine] in E.
  - inversion E; subst. auto.
  - apply G in E. destruct r; auto. destruct E. splits; auto. discriminate.
Qed.
Print Assumptions C73_refine.

Lemma two_asked f u v h l l' r : 
  (f1 <~ ask f u ;; f0 <~ ask f v ;; ret (Ok ((f1 - f0) / h))) l = (l', r) ->
  exists asked, l' = l ++ asked /\ asked <> [] /\ forall q, In q asked -> fst q = u \/ fst q = v.
Proof.
  unfold mbind, ask, ret. intros E.
  destruct (f l u) as [f1|e|].
  - destruct (f (l ++ [(u, Ok f1)]) v) as [f0|e|]; injection E as <- _;
      rewrite <- app_assoc; cbn [app]; eexists; (splits; [reflexivity|discriminate|]); cbn; intros q [<-|[<-|[]]]; auto.
  - injection E as <- _. eexists; (splits; [reflexivity|discriminate|]). cbn. intros q [<-|[]]; auto.
  - injection E as <- _. eexists; (splits; [reflexivity|discriminate|]). cbn. intros q [<-|[]]; auto.
Qed.

(** C73: around a point of the interval the difference quotient asks the function only inside the interval (if the
    interval is wider than the two increments together), for any function, also one that fails. *)
Theorem C73_difference_inside c xa xb f x l l' r :
  0 < rf_h_osd c -> 0 < rf_h_cen c -> rf_h_osd c + rf_h_cen c <= xb - xa -> xa <= x <= xb ->
  refine_dfdx c xa xb f x l = (l', r) ->
  exists asked, l' = l ++ asked /\ asked <> [] /\ Forall (fun q => xa <= fst q <= xb) asked.
Proof.
  intros H1 H2 H3 H4 E. unfold refine_dfdx in E.
  destruct (Rleb_spec (x - rf_h_cen c) xa); [|destruct (Rleb_spec xb (x + rf_h_cen c))];
    apply two_asked in E; destruct E as (asked & -> & Hn & Ha); exists asked;
    (splits; [reflexivity|exact Hn|]); apply Forall_forall; intros q Hq; destruct (Ha q Hq) as [-> | ->]; lra.
Qed.
Print Assumptions C73_difference_inside.

Example C73_ex c : 0 < rf_tol_fx c -> (0 < rf_max c)%nat -> exists l, refine c [1; 1] 0 2 (pure (fun x => x - 1)) [] = (l, Ok [1; 1]).
Proof.
  intros H Hm. destruct (rf_max c) as [|n] eqn:En; [lia|].
  cbn [refine refine_all]. rewrite En. cbn [refine_one]. unfold mbind, ask, pure, ret.
  replace (1 - 1) with 0 by lra. rewrite Rabs_R0. destruct (Rltb_spec 0 (rf_tol_fx c)); [|lra].
  eauto.
Qed.

(** C73, refuted part: an answer need not be anywhere near a root; a function
    without roots is "refined" successfully because a vanishing difference
    quotient counts as convergence (root_finder.rs:293-297). *)
Theorem C73_zero_slope_refuted c :
  0 < rf_tol_fx c < 1 -> (0 < rf_max c)%nat ->
  exists g l, (forall x, g x = 1) /\ refine c [0] (-10) 10 (pure g) [] = (l, Ok [0]).
Proof.
  intros H Hm. exists (fun _ => 1). destruct (rf_max c) as [|n] eqn:En; [lia|].
  cbn [refine refine_all]. rewrite En. cbn [refine_one]. unfold mbind at 1, mbind at 1, ask at 1, pure at 1.
  rewrite Rabs_R1. destruct (Rltb_spec 1 (rf_tol_fx c)); [lra|].
  unfold refine_dfdx, mbind, ask, pure, ret. replace (1 - 1) with 0 by lra. 
  assert (Z : forall k, 0 / k = 0) by (intros; unfold Rdiv; lra).
  destruct (Rleb _ _); [|destruct (Rleb _ _)]; rewrite Z, Rabs_R0; (destruct (Rltb_spec 0 (rf_tol_fx c)); [|lra]); eauto.
Qed.
Print Assumptions C73_zero_slope_refuted.
