(** C25: NewtonSolver returns only converged points. *)
From Verif Require Import Newton_Model.
Open Scope R_scope.

Definition f_answers {mat} (l : ncalls mat) : nat :=
  length (filter (fun c => match c with FCall _ (Ok _) => true | _ => false end) l).
Definition j_answers {mat} (l : ncalls mat) : nat :=
  length (filter (fun c => match c with JCall _ (Ok _) => true | _ => false end) l).

(** the last call of the run failed with this result *)
Definition last_call_failed {mat} (l : ncalls mat) (e : res unit) : Prop :=
  exists l1, (exists x m, e = Err m /\ l = l1 ++ [FCall x (Err m)]) \/
             (exists x m, e = Err m /\ l = l1 ++ [JCall x (Err m)]) \/
             (exists x, e = Panic /\ l = l1 ++ [FCall x Panic]) \/
             (exists x, e = Panic /\ l = l1 ++ [JCall x Panic]).

Lemma norm_max_nonneg r : 0 <= norm_max r.
Proof.
  induction r as [|a r IH]; [cbn; lra|]. change (norm_max (a :: r)) with (Rmax (Rabs a) (norm_max r)).
  pose proof (Rmax_r (Rabs a) (norm_max r)). lra.
Qed.

Lemma norm_max_lt r t : 0 < t -> (norm_max r < t <-> forall v, In v r -> Rabs v < t).
Proof.
  intros Ht. induction r as [|a r IH].
  - cbn. split; [intros _ v []|lra].
  - change (norm_max (a :: r)) with (Rmax (Rabs a) (norm_max r)).
    pose proof (Rmax_l (Rabs a) (norm_max r)). pose proof (Rmax_r (Rabs a) (norm_max r)). split.
    + intros K v [->|Hv]; [lra|]. apply IH; auto. lra.
    + intros K. apply Rmax_lub_lt; [apply K; now left|]. apply IH. intros v Hv. apply K. now right.
Qed.

Lemma f_answers_app {mat} (l1 l2 : ncalls mat) : f_answers (l1 ++ l2) = (f_answers l1 + f_answers l2)%nat.
Proof. unfold f_answers. now rewrite filter_app, app_length. Qed.
Lemma j_answers_app {mat} (l1 l2 : ncalls mat) : j_answers (l1 ++ l2) = (j_answers l1 + j_answers l2)%nat.
Proof. unfold j_answers. now rewrite filter_app, app_length. Qed.

Section Thm.
Variable mat : Type.
Variable calc_f : ncalls mat -> list R -> res (list R).
Variable calc_jj : ncalls mat -> list R -> res mat.
Variable lin : mat -> list R -> res (list R).
Variable c : nparams.

Definition counted (l : ncalls mat) (s : nstats) : Prop :=
  ns_function s = f_answers l /\ ns_jacobian s = j_answers l.

Ltac cnt := unfold counted in *; cbn [ns_function ns_jacobian ns_iterations inc_f inc_j inc_i]; rewrite ?f_answers_app, ?j_answers_app; cbn; split; lia.

Lemma search_ok phi slope xb p n : forall alpha x r l s x' l' s' a,
  counted l s -> (n <> 0%nat \/ exists l1, l = l1 ++ [FCall x (Ok r)]) ->
  newton_search calc_f c phi slope xb p n alpha x r l s = (x', l', s', a) ->
  counted l' s' /\ ns_iterations s' = ns_iterations s /\
  match a with
  | Ok r' => exists l1, l' = l1 ++ [FCall x' (Ok r')]
  | Err m => exists l1 x, l' = l1 ++ [FCall x (Err m)]
  | Panic => exists l1 x, l' = l1 ++ [FCall x Panic]
  end.
Proof.
  induction n as [|n IH]; intros alpha x r l s x' l' s' a Hc Hn E; cbn [newton_search] in E.
  - inversion E; subst. splits; auto; try apply Hc. destruct Hn; [lia|auto].
  - cbv zeta in E. set (x1 := move _ _ _ _) in *. destruct (calc_f l x1) as [r1|e|].
    + destruct (Rleb _ _).
      * inversion E; subst. split; [cnt|]. split; [reflexivity|eauto].
      * eapply IH in E; [exact E|cnt|eauto].
    + inversion E; subst. split; [cnt|]. split; [reflexivity|eauto].
    + inversion E; subst. split; [cnt|]. split; [reflexivity|eauto].
Qed.

Definition good_outcome (o : noutcome mat) : Prop :=
  counted (no_calls o) (no_stats o) /\
  match no_res o with
  | Ok _ => exists l1 r, no_calls o = l1 ++ [FCall (no_x o) (Ok r)] /\ norm_max r < np_tolerance c
  | e => last_call_failed (no_calls o) e \/
         (exists l1 x j b, no_calls o = l1 ++ [JCall x (Ok j)] /\ (lin j b = Panic /\ e = Panic \/ exists m, lin j b = Err m /\ e = Err m)) \/
         e = Err "solution diverged" \/
         (e = Err "Newton solver failed to converge" /\ ns_iterations (no_stats o) = np_max_iterations c)
  end.

Lemma loop_ok n0 n : forall it x r l s,
  counted l s -> (exists l1, l = l1 ++ [FCall x (Ok r)]) -> (ns_iterations s + n = np_max_iterations c)%nat ->
  good_outcome (newton_loop calc_f calc_jj lin c n0 n it x r (norm_max r) l s) /\
  (ns_iterations (no_stats (newton_loop calc_f calc_jj lin c n0 n it x r (norm_max r) l s)) <= np_max_iterations c)%nat.
Proof.
  induction n as [|n IH]; intros it x r l s Hc Hl Hi; cbn [newton_loop].
  - split; [split; [auto|]|]; cbn; [right; right; right; split; auto; lia|lia].
  - cbv zeta. destruct (Rltb (norm_max r) (np_tolerance c)) eqn:E1.
    { apply Rltb_true in E1. split; [split; [cbn [no_calls no_stats]; cnt|destruct Hl as [l1 ->]; cbn; eauto]|cbn; lia]. }
    destruct ((0 <? it) && _). { split; [split; [cbn [no_calls no_stats]; cnt|cbn; auto]|cbn; lia]. }
    destruct (calc_jj l x) as [jj|e|].
    2,3: split; [split; [cbn [no_calls no_stats]; cnt|cbn; left; unfold last_call_failed; eauto 9]|cbn; lia].
    destruct (lin jj (negate (np_ndim c) r)) as [p|e|] eqn:El.
    2,3: split; [split; [cbn [no_calls no_stats]; cnt|cbn; right; left; eauto 9]|cbn; lia].
    destruct (np_use_line_search c).
    + destruct (newton_search _ _ _ _ _ _ _ _ _ _ _ _) as [[[x' l'] s'] a] eqn:Es.
      eapply search_ok in Es; [|cnt|left; lia]. destruct Es as (C' & I' & B). cbn in I'.
      destruct a as [r'|e|].
      * apply IH; auto. lia.
      * destruct B as (l1 & y & ->). split; [split; [exact C'|cbn; left; unfold last_call_failed; eauto 9]|cbn; lia].
      * destruct B as (l1 & y & ->). split; [split; [exact C'|cbn; left; unfold last_call_failed; eauto 9]|cbn; lia].
    + set (x1 := move _ _ _ _). destruct (calc_f _ x1) as [r1|e|].
      * apply IH; [cnt|eauto|cbn; lia].
      * split; [split; [cbn [no_calls no_stats]; cnt|cbn; left; unfold last_call_failed; eauto 9]|cbn; lia].
      * split; [split; [cbn [no_calls no_stats]; cnt|cbn; left; unfold last_call_failed; eauto 9]|cbn; lia].
Qed.

(** C25: whatever the callbacks and the linear solver do: success means that
    the very last call evaluated the residual at the returned point and found
    every component below the tolerance; a failure is a failed callback, a
    failed linear solution, a divergence, an exhausted iteration limit or a
    rejected input; the statistics count the answered calls. *)
Theorem C25_newton x :
  let o := newton_solve calc_f calc_jj lin c x in
  ns_function (no_stats o) = f_answers (no_calls o) /\
  ns_jacobian (no_stats o) = j_answers (no_calls o) /\
  (ns_iterations (no_stats o) <= np_max_iterations c)%nat /\
  match no_res o with
  | Ok _ => exists l1 r, no_calls o = l1 ++ [FCall (no_x o) (Ok r)] /\ (forall v, In v r -> Rabs v < np_tolerance c)
  | e => (no_calls o = [] /\ no_x o = x) \/
         last_call_failed (no_calls o) e \/
         (exists l1 y j b, no_calls o = l1 ++ [JCall y (Ok j)] /\ (lin j b = Panic /\ e = Panic \/ exists m, lin j b = Err m /\ e = Err m)) \/
         e = Err "solution diverged" \/
         (e = Err "Newton solver failed to converge" /\ ns_iterations (no_stats o) = np_max_iterations c)
  end.
Proof.
  cbv zeta. unfold newton_solve.
  destruct (newton_validate c) as [u|e|] eqn:Ev; [|cbn; splits; auto; lia|cbn; splits; auto; lia].
  assert (Htol : 0 < np_tolerance c).
  { unfold newton_validate in Ev. destruct (_ <? _); [discriminate|]. destruct (Rltb _ _) eqn:Et; [discriminate|].
    apply Rltb_false in Et. lra. }
  destruct (negb _). { cbn. splits; auto; lia. }
  cbv zeta. destruct (calc_f [] x) as [r|e|].
  2: cbn; splits; auto; try lia; right; left; exists []; left; now exists x, e.
  2: cbn; splits; auto; try lia; right; left; exists []; right; right; left; now exists x.
  destruct (loop_ok (norm_max r) (np_max_iterations c) 0 x r [FCall x (Ok r)] (inc_f (mkNS 0 0 0))) as [[[A1 A2] B] L];
    [cnt|now exists []|reflexivity|].
  splits; auto.
  destruct (no_res _).
  - destruct B as (l1 & r' & B1 & B2). exists l1, r'. split; auto. now apply norm_max_lt.
  - destruct B as [B|[B|[B|B]]]; auto 7.
  - destruct B as [B|[B|[B|B]]]; auto 7.
Qed.

End Thm.
Print Assumptions C25_newton.

(* ------------------------------------------------------------------ *)
(** * The iterates *)

Section Iter.
Variable mat : Type.
Variable F : list R -> list R.
Variable J : list R -> mat.
Variable lin : mat -> list R -> res (list R).
Variable c : nparams.
Let n := np_ndim c.
Let fF : ncalls mat -> list R -> res (list R) := fun _ x => Ok (F x).
Let fJ : ncalls mat -> list R -> res mat := fun _ x => Ok (J x).

(** half the square of the residual *)
Definition merit (x : list R) : R := 1/2 * inner n (F x) (F x).

(** sufficient decrease of the merit function for the step [alpha * p] *)
Definition sufficient (x p : list R) (alpha : R) : Prop :=
  merit (move n x alpha p) <= (1 - 2e-4 * alpha) * merit x.

(** one Newton step: the full correction, or the first of at most 20 halved
    corrections that decreases the merit function, or else the last of them *)
Definition newton_step (x x' : list R) : Prop :=
  exists p, lin (J x) (negate n (F x)) = Ok p /\
  if np_use_line_search c then
    exists m, (m < 20)%nat /\ x' = move n x (np_initial_alpha c * (1/2) ^ m) p /\
      (forall k, (k < m)%nat -> ~ sufficient x p (np_initial_alpha c * (1/2) ^ k)) /\
      (sufficient x p (np_initial_alpha c * (1/2) ^ m) \/ m = 19%nat)
  else x' = move n x 1 p.

(** [k] steps, each from a point that has not converged *)
Inductive steps : nat -> list R -> list R -> Prop :=
| steps_0 x : steps 0 x x
| steps_S k x y z : steps k x y -> ~ norm_max (F y) < np_tolerance c -> newton_step y z -> steps (S k) x z.

Lemma search_steps x p a0 t : forall m r l s y l' s' a,
  (t + m = 20)%nat -> 
  (forall k, (k < m)%nat -> ~ sufficient x p (a0 * (1/2) ^ k)) ->
  forall xc, (t = 0%nat -> xc = move n x (a0 * (1/2) ^ 19) p /\ r = F xc) ->
  newton_search fF c (merit x) (-2 * merit x) x p t (a0 * (1/2) ^ m) xc r l s = (y, l', s', a) ->
  a = Ok (F y) /\ ns_iterations s' = ns_iterations s /\ ns_jacobian s' = ns_jacobian s /\
  exists m', (m' < 20)%nat /\ y = move n x (a0 * (1/2) ^ m') p /\
    (forall k, (k < m')%nat -> ~ sufficient x p (a0 * (1/2) ^ k)) /\ (sufficient x p (a0 * (1/2) ^ m') \/ m' = 19%nat).
Proof.
  induction t as [|t IH]; intros m r l s y l' s' a Hm Hk xc H0 E; cbn [newton_search] in E.
  - destruct (H0 eq_refl) as [K1 K2]. injection E as <- <- <- <-. rewrite K2. splits; auto.
    exists 19%nat. splits; auto; try lia. intros k K. apply Hk. lia.
  - cbv zeta in E. unfold fF in E at 1. set (x1 := move _ _ _ _) in *. cbv iota beta in E.
    destruct (Rleb _ _) eqn:E1.
    + injection E as <- <- <- <-. splits; auto. exists m. splits; auto; try lia.
      left. apply Rleb_true in E1. unfold sufficient, merit. fold n in E1. fold x1. unfold n, x1 in *. unfold merit in E1. fold n in E1 |- *. nra.
    + replace (a0 * (1/2) ^ m * (1/2)) with (a0 * (1/2) ^ S m) in E by (cbn; ring).
      eapply (IH (S m)) in E.
      * exact E.
      * lia.
      * intros k K. destruct (Nat.eq_dec k m) as [->|]; [|apply Hk; lia].
        apply Rleb_false in E1. unfold sufficient, merit. unfold n, x1 in *. unfold merit in E1. fold n in E1 |- *. nra.
      * intros ->. assert (m = 19)%nat by lia. subst. split; reflexivity.
Qed.

Lemma loop_steps x0 n0 m : forall it x l s k,
  steps k x0 x -> ns_iterations s = k -> ns_jacobian s = k -> (k + m = np_max_iterations c)%nat ->
  let o := newton_loop fF fJ lin c n0 m it x (F x) (norm_max (F x)) l s in
  match no_res o with
  | Ok _ => exists k', (k' < np_max_iterations c)%nat /\ steps k' x0 (no_x o) /\ norm_max (F (no_x o)) < np_tolerance c /\
                       ns_iterations (no_stats o) = S k' /\ ns_jacobian (no_stats o) = k'
  | Err e => e = "Newton solver failed to converge"%string -> 
             (forall j b m, lin j b <> Err m) -> steps (np_max_iterations c) x0 (no_x o)
  | Panic => True
  end.
Proof.
  induction m as [|m IH]; intros it x l s k Hst Hi Hj Hk; cbn [newton_loop].
  - cbn. intros _ _. now replace (np_max_iterations c) with k by lia.
  - cbv zeta. destruct (Rltb (norm_max (F x)) (np_tolerance c)) eqn:E1.
    { apply Rltb_true in E1. cbn. exists k. splits; auto; lia. }
    apply Rltb_false in E1.
    destruct ((0 <? it) && _). { cbn [no_res]. discriminate. }
    change (fJ l x) with (@Ok mat (J x)). cbv iota beta.
    destruct (lin (J x) (negate (np_ndim c) (F x))) as [p|e|] eqn:El.
    3: exact I.
    2: { intros _ K. now destruct (K _ _ _ El). }
    destruct (np_use_line_search c) eqn:Eu.
    + destruct (newton_search _ _ _ _ _ _ _ _ _ _ _ _) as [[[x' l'] s'] a] eqn:Es.
      replace (np_initial_alpha c) with (np_initial_alpha c * (1/2) ^ 0) in Es by (cbn; ring).
      eapply search_steps in Es; [|lia|intros; lia|intros; lia].
      destruct Es as (-> & I & I' & Hx'). cbn in I, I'. apply (IH (it + 1)%nat x' l' s' (S k)); try lia.
      eapply steps_S; [exact Hst|lra|]. exists p. split; auto. rewrite Eu. exact Hx'.
    + cbv zeta. match goal with |- context [fF ?a ?b] => change (fF a b) with (@Ok (list R) (F b)) end. cbv iota beta.
      refine (IH (it + 1)%nat _ _ _ (S k) _ _ _ _); cbn [inc_f inc_i inc_j ns_iterations ns_jacobian]; try lia.
      eapply steps_S; [exact Hst|lra|]. exists p. split; auto. now rewrite Eu.
Qed.

(** C25, for pure functions F and J: the returned point is the first Newton
    iterate with a residual below the tolerance; the iteration count is the
    number of steps plus one.  The steps are those of [newton_step]. *)
Theorem C25_first_converged_iterate x :
  let o := newton_solve fF fJ lin c x in
  match no_res o with
  | Ok _ => exists k, (k < np_max_iterations c)%nat /\ steps k x (no_x o) /\ norm_max (F (no_x o)) < np_tolerance c /\
                      ns_iterations (no_stats o) = S k /\ ns_jacobian (no_stats o) = k
  | Err e => e = "Newton solver failed to converge"%string ->
             (forall j b m, lin j b <> Err m) -> steps (np_max_iterations c) x (no_x o)
  | Panic => True
  end.
Proof.
  cbv zeta. unfold newton_solve.
  destruct (newton_validate c) as [u|e|] eqn:Ev.
  3: exact I.
  2: { cbn [no_res no_x]. intros ->. exfalso. unfold newton_validate in Ev.
       destruct (_ <? _); [discriminate Ev|]. destruct (Rltb (np_tolerance c) _); [discriminate Ev|].
       destruct (Rltb (np_divergent_tol c) _); [discriminate Ev|]. destruct (Rleb _ _); discriminate Ev. }
  destruct (negb _). { cbn [no_res]. discriminate. }
  cbv zeta. change (fF [] x) with (@Ok (list R) (F x)). cbv iota beta.
  refine (loop_steps x _ (np_max_iterations c) 0 x [FCall x (Ok (F x))] _ 0 _ _ _ _); try reflexivity. constructor.
Qed.

(** the iteration that started at [x0] and is at its iterate number [it], [y], meets a converged point [w] after [k]
    more Newton steps, and no iterate on the way (after the first) has a residual above the divergence limit *)
Inductive meets (x0 : list R) : nat -> list R -> nat -> list R -> Prop :=
| meets_0 it w : norm_max (F w) < np_tolerance c -> meets x0 it w 0 w
| meets_S it y z k w : ~ norm_max (F y) < np_tolerance c ->
    (it = 0%nat \/ norm_max (F y) <= np_divergent_tol c * norm_max (F x0)) ->
    newton_step y z -> meets x0 (it + 1) z k w -> meets x0 it y (S k) w.

Lemma step_unique x y z : newton_step x y -> newton_step x z -> y = z.
Proof.
  intros (p & E1 & H1) (q & E2 & H2). rewrite E1 in E2. injection E2 as <-.
  destruct (np_use_line_search c); [|congruence].
  destruct H1 as (m1 & A1 & -> & A2 & A3), H2 as (m2 & B1 & -> & B2 & B3).
  destruct (Nat.lt_trichotomy m1 m2) as [K|[->|K]]; auto; exfalso.
  - destruct A3 as [A3|A3]; [|lia]. now apply (B2 m1).
  - destruct B3 as [B3|B3]; [|lia]. now apply (A2 m2).
Qed.

Lemma loop_finds x0 m : forall it x l s k w,
  (k < m)%nat -> meets x0 it x k w ->
  let o := newton_loop fF fJ lin c (norm_max (F x0)) m it x (F x) (norm_max (F x)) l s in
  no_res o = Ok tt /\ no_x o = w.
Proof.
  induction m as [|m IH]; intros it x l s k w Hk HM; [lia|]. cbn [newton_loop]. cbv zeta.
  inversion HM as [it' w' Hw|it' y z k' w' Hy Hd Hs Hr]; subst.
  { destruct (Rltb (norm_max (F w)) (np_tolerance c)) eqn:E1; [cbn; auto|]. apply Rltb_false in E1. lra. }
  destruct (Rltb (norm_max (F x)) (np_tolerance c)) eqn:E1; [apply Rltb_true in E1; contradiction|].
  replace ((0 <? it) && Rltb (np_divergent_tol c * norm_max (F x0)) (norm_max (F x))) with false.
  2:{ symmetry. apply andb_false_iff. destruct Hd as [->|Hd]; [left; reflexivity|right; now apply Rltb_false]. }
  change (fJ l x) with (@Ok mat (J x)). cbv iota beta.
  pose proof Hs as (p & El & Hp). fold n. rewrite El.
  destruct (np_use_line_search c) eqn:Eu.
  + destruct (newton_search _ _ _ _ _ _ _ _ _ _ _ _) as [[[x' l'] s'] a] eqn:Es.
    replace (np_initial_alpha c) with (np_initial_alpha c * (1/2) ^ 0) in Es by (cbn; ring).
    eapply search_steps in Es; [|lia|intros; lia|intros; lia].
    destruct Es as (-> & _ & _ & Hx').
    assert (x' = z). { apply (step_unique x); auto. exists p. split; auto. rewrite Eu. exact Hx'. } subst z.
    apply (IH (it + 1)%nat x' l' s' k'); auto. lia.
  + cbv zeta. match goal with |- context [fF ?a ?b] => change (fF a b) with (@Ok (list R) (F b)) end. cbv iota beta.
    subst z. apply (IH (it + 1)%nat _ _ _ k'); auto. lia.
Qed.

(** C25: a converged point which the iteration meets within the allowed number of iterations is returned *)
Theorem C25_finds x k w :
  newton_validate c = Ok tt -> length x = n -> (k < np_max_iterations c)%nat -> meets x 0 x k w ->
  let o := newton_solve fF fJ lin c x in no_res o = Ok tt /\ no_x o = w.
Proof.
  intros Hv Hx Hk HM. cbv zeta. unfold newton_solve. rewrite Hv. fold n. rewrite Hx, Nat.eqb_refl. cbn [negb].
  cbv zeta. change (fF [] x) with (@Ok (list R) (F x)). cbv iota beta. eapply loop_finds; eauto.
Qed.

End Iter.
Print Assumptions C25_first_converged_iterate.
Print Assumptions C25_finds.

(** a concrete case: x - 1 = 0 from 3, two iterations *)
Definition demo (max : nat) : nparams := mkNP 1 max 1e-3 1e6 false 1.
Definition demo_lin (j : R) (b : list R) : res (list R) := Ok (map (fun v => v / j) b).

Lemma demo_valid max : newton_validate (demo (S max)) = Ok tt.
Proof.
  unfold newton_validate, demo. cbn [np_max_iterations np_tolerance np_divergent_tol np_initial_alpha].
  destruct (Nat.ltb_spec (S max) 1); [lia|].
  destruct (Rltb_spec 1e-3 (10 * / 2 ^ 52)); [lra|]. destruct (Rltb_spec 1e6 1); [lra|].
  destruct (Rleb_spec 1 0); [lra|]. reflexivity.
Qed.

Lemma demo_norm a : norm_max [a] = Rabs a.
Proof. cbn. apply Rmax_left. apply Rabs_pos. Qed.

Lemma demo_first max :
  newton_solve (fun _ x => Ok [nth 0 x 0 - 1]) (fun _ _ => Ok 1) demo_lin (demo (S max)) [3] =
  newton_loop (fun _ x => Ok [nth 0 x 0 - 1]) (fun _ _ => Ok 1) demo_lin (demo (S max)) 2 max 1 [3 + 1 * (- (3 - 1) / 1)]
    [3 + 1 * (- (3 - 1) / 1) - 1] (norm_max [3 + 1 * (- (3 - 1) / 1) - 1])
    [FCall [3] (Ok [3 - 1]); JCall [3] (Ok 1); FCall [3 + 1 * (- (3 - 1) / 1)] (Ok [3 + 1 * (- (3 - 1) / 1) - 1])] (mkNS 2 1 1).
Proof.
  unfold newton_solve. rewrite demo_valid. change (np_ndim (demo (S max))) with 1%nat. cbn [length Nat.eqb negb nth].
  change (np_max_iterations (demo (S max))) with (S max). cbn [newton_loop].
  change (np_tolerance (demo (S max))) with 1e-3. rewrite !demo_norm.
  assert (E2 : Rabs (3 - 1) = 2) by (rewrite Rabs_right; lra). rewrite E2.
  destruct (Rltb_spec 2 1e-3); [lra|]. cbn [Nat.ltb Nat.leb andb]. cbn [demo_lin]. 
  change (np_use_line_search (demo (S max))) with false. change (np_ndim (demo (S max))) with 1%nat. cbn [negate move map seq nth].
  rewrite ?demo_norm. reflexivity.
Qed.

Example C25_ex max : exists y,
  let o := newton_solve (fun _ x => Ok [nth 0 x 0 - 1]) (fun _ _ => Ok 1) demo_lin (demo (S (S max))) [3] in
  no_res o = Ok tt /\ no_x o = [y] /\ y = 1.
Proof.
  cbv zeta. rewrite demo_first. cbn [newton_loop]. rewrite demo_norm.
  change (np_tolerance (demo (S (S max)))) with 1e-3.
  replace (3 + 1 * (- (3 - 1) / 1)) with 1 by field. replace (1 - 1) with 0 by lra. rewrite Rabs_R0.
  destruct (Rltb_spec 0 1e-3); [|lra]. cbn. eauto.
Qed.

(** C25, refuted part: the residual after the last allowed iteration is never
    tested, so a solve that has reached the exact root is reported as failed
    (newton_solver.rs:265-327). *)
Theorem C25_last_iterate_refuted :
  exists (F : list R -> list R) (J : list R -> R) c x,
    let o := newton_solve (fun _ x => Ok (F x)) (fun _ x => Ok (J x)) demo_lin c x in
    no_res o = Err "Newton solver failed to converge" /\ norm_max (F (no_x o)) = 0.
Proof.
  exists (fun x => [nth 0 x 0 - 1]), (fun _ => 1), (demo 1), [3]. cbv zeta.
  rewrite (demo_first 0). cbn [newton_loop no_res no_x nth]. split; auto.
  rewrite demo_norm. replace (3 + 1 * (- (3 - 1) / 1) - 1) with 0 by field. apply Rabs_R0.
Qed.
Print Assumptions C25_last_iterate_refuted.
