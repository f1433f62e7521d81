(** C43: boundary condition bookkeeping. *)
From Coq Require Import Sorting.Permutation.
From Verif Require Import Base Grid_Model Bcs_Model.

Section B.
Variable F : Type.
Variable fzero : F.

(** the calls a user can make on the essential conditions *)
Inductive bc_op := OpSet (s : side) (f : F) | OpHomogeneous | OpPeriodic (ax ay : bool).

(** ** specification: what a history of calls means (latest call first) *)
Definition axis_x (s : side) : bool := match s with Xmin | Xmax => true | _ => false end.

Fixpoint spec_fun (h : list bc_op) (s : side) : option F :=
  match h with
  | [] => None
  | OpSet s' f :: r => if side_index s =? side_index s' then Some f else spec_fun r s
  | OpHomogeneous :: _ => Some fzero
  | OpPeriodic ax ay :: r => if (if axis_x s then ax else ay) then None else spec_fun r s
  end.
Fixpoint spec_per (h : list bc_op) (x : bool) : bool :=
  match h with
  | [] => false
  | OpSet s _ :: r => if Bool.eqb (axis_x s) x then false else spec_per r x
  | OpHomogeneous :: _ => false
  | OpPeriodic ax ay :: _ => if x then ax else ay
  end.

(** natural conditions: only `set` *)
Fixpoint spec_nat (h : list (side * F)) (s : side) : option F :=
  match h with
  | [] => None
  | (s', f) :: r => if side_index s =? side_index s' then Some f else spec_nat r s
  end.

(** ** 2D *)
Definition apply2 (e : ebc2 F) (o : bc_op) : res (ebc2 F) :=
  match o with
  | OpSet s f => ebc2_set F e s f
  | OpHomogeneous => ebc2_set_homogeneous F fzero e
  | OpPeriodic ax ay => ebc2_set_periodic F e ax ay
  end.
(** run the history (oldest call last in the list) *)
Fixpoint run2 (h : list bc_op) : res (ebc2 F) :=
  match h with [] => Ok (ebc2_new F fzero) | o :: r => e <- run2 r ;; apply2 e o end.
Fixpoint runn (n0 : nbc F) (h : list (side * F)) : res (nbc F) :=
  match h with [] => Ok n0 | (s, f) :: r => n <- runn n0 r ;; nbc_set F n s f end.

Definition shows (fs : list F) (ss : list bool) (s : side) (v : option F) : Prop :=
  match v with
  | Some f => nth_error ss (side_index s) = Some true /\ nth_error fs (side_index s) = Some f
  | None => nth_error ss (side_index s) = Some false
  end.

Definition agrees2 (e : ebc2 F) (h : list bc_op) : Prop :=
  e2_px F e = spec_per h true /\ e2_py F e = spec_per h false /\
  length (e2_fun F e) = 4 /\ length (e2_sides F e) = 4 /\
  forall s, shows (e2_fun F e) (e2_sides F e) s (spec_fun h s).

Ltac list4 l H := destruct l as [|? [|? [|? [|? [|? ?]]]]]; try (exfalso; cbn in H; discriminate H).
Ltac list2 l H := destruct l as [|? [|? [|? ?]]]; try (exfalso; cbn in H; discriminate H).

Theorem C43_history2 : forall h, exists e, run2 h = Ok e /\ agrees2 e h.
Proof.
  induction h as [|o h (e & E & A)].
  - eexists. split; [reflexivity|]. unfold agrees2. cbn. splits; auto. intros []; reflexivity.
  - cbn [run2]. rewrite E. cbn [bind]. destruct e as [px py fs ss].
    destruct A as (A1 & A2 & A3 & A4 & A5). cbn [e2_px e2_py e2_fun e2_sides] in *.
    list4 fs A3. list4 ss A4.
    assert (B0 := A5 Xmin). assert (B1 := A5 Xmax). assert (B2 := A5 Ymin). assert (B3 := A5 Ymax). clear A5 A3 A4.
    destruct o as [s fnew| |ax ay].
    + destruct s; cbn; eexists; (split; [reflexivity|]); unfold agrees2; cbn; splits; auto;
        intros []; cbn; auto.
    + cbn. eexists. split; [reflexivity|]. unfold agrees2; cbn; splits; auto; intros []; cbn; auto.
    + destruct ax, ay; cbn; eexists; (split; [reflexivity|]); unfold agrees2; cbn; splits; auto;
        intros []; cbn; auto.
Qed.

Theorem C43_history_natural2 : forall h, exists n, runn (nbc2_new F fzero) h = Ok n /\
  length (n_fun F n) = 4 /\ length (n_sides F n) = 4 /\
  forall s, shows (n_fun F n) (n_sides F n) s (spec_nat h s).
Proof.
  induction h as [|[s fnew] h (n & E & A)].
  - eexists. split; [reflexivity|]. cbn. splits; auto. intros []; reflexivity.
  - cbn [runn]. rewrite E. cbn [bind]. destruct n as [fs ss].
    destruct A as (A3 & A4 & A5). cbn [n_fun n_sides] in *.
    list4 fs A3. list4 ss A4.
    assert (B0 := A5 Xmin). assert (B1 := A5 Xmax). assert (B2 := A5 Ymin). assert (B3 := A5 Ymax). clear A5 A3 A4.
    destruct s; cbn; eexists; (split; [reflexivity|]); cbn; splits; auto; intros []; cbn; auto.
Qed.

(** a direction that is periodic has no essential condition on its sides *)
Lemma C43_periodic_clears : forall h s, spec_per h (axis_x s) = true -> spec_fun h s = None.
Proof.
  induction h as [|[s' f| |ax ay] h IH]; intros s H; cbn in *; auto; try discriminate.
  - destruct s', s; cbn in *; try discriminate; auto; apply IH; auto.
  - destruct s; cbn in *; rewrite H; reflexivity.
Qed.

(** which side configurations are documented as valid *)
Definition has {A} (o : option A) : Prop := o <> None.
Definition valid_axis (per : bool) (ea na eb nb : option F) : Prop :=
  if per then ~ has na /\ ~ has nb
  else (has ea /\ ~ has na \/ ~ has ea /\ has na) /\ (has eb /\ ~ has nb \/ ~ has eb /\ has nb).

Lemma shows_bool fs ss s v : shows fs ss s v -> vget ss (side_index s) = Ok (match v with Some _ => true | None => false end).
Proof. unfold shows, vget. destruct v; [intros [-> _]|intros ->]; reflexivity. Qed.

Definition isS {A} (o : option A) : bool := match o with Some _ => true | None => false end.
Lemma valid_axis_b per ea na eb nb : valid_axis per ea na eb nb <->
  (if per then negb (isS na) && negb (isS nb) else xorb (isS ea) (isS na) && xorb (isS eb) (isS nb)) = true.
Proof.
  unfold valid_axis, has. destruct per, ea, na, eb, nb; cbn; split; intros Q; try discriminate Q; try reflexivity;
    intuition congruence.
Qed.

(** the decision made by the code, as a function of the ten flags *)
Lemma validate2_flags px py e0 e1 e2 e3 n0 n1 n2 n3 :
  (px = true -> e0 = false /\ e1 = false) -> (py = true -> e2 = false /\ e3 = false) ->
  match ebc2_validate F (mkE2 F px py [] [e0; e1; e2; e3]) (mkN F [] [n0; n1; n2; n3]) with
  | Ok _ => (if px then negb n0 && negb n1 else xorb e0 n0 && xorb e1 n1) &&
            (if py then negb n2 && negb n3 else xorb e2 n2 && xorb e3 n3)
  | Err _ => negb ((if px then negb n0 && negb n1 else xorb e0 n0 && xorb e1 n1) &&
                   (if py then negb n2 && negb n3 else xorb e2 n2 && xorb e3 n3))
  | Panic => false
  end = true.
Proof.
  intros X Y. destruct px; [destruct X as [-> ->]; auto|]; (destruct py; [destruct Y as [-> ->]; auto|]); clear;
  repeat match goal with b : bool |- _ => destruct b end; reflexivity.
Qed.

Theorem C43_validate2 : forall h hn e n, run2 h = Ok e -> runn (nbc2_new F fzero) hn = Ok n ->
  (ebc2_validate F e n = Ok tt <->
     valid_axis (spec_per h true) (spec_fun h Xmin) (spec_nat hn Xmin) (spec_fun h Xmax) (spec_nat hn Xmax) /\
     valid_axis (spec_per h false) (spec_fun h Ymin) (spec_nat hn Ymin) (spec_fun h Ymax) (spec_nat hn Ymax)) /\
  ebc2_validate F e n <> Panic.
Proof.
  intros h hn e n E N.
  destruct (C43_history2 h) as (e' & E' & A1 & A2 & _ & L4 & A5). rewrite E in E'. inversion E'; subst e'; clear E'.
  destruct (C43_history_natural2 hn) as (n' & N' & _ & M4 & B5). rewrite N in N'. inversion N'; subst n'; clear N'.
  assert (P0 := C43_periodic_clears h Xmin). assert (P1 := C43_periodic_clears h Xmax).
  assert (P2 := C43_periodic_clears h Ymin). assert (P3 := C43_periodic_clears h Ymax). cbn [axis_x] in *.
  rewrite !valid_axis_b.
  assert (S0 := shows_bool _ _ _ _ (A5 Xmin)). assert (S1 := shows_bool _ _ _ _ (A5 Xmax)).
  assert (S2 := shows_bool _ _ _ _ (A5 Ymin)). assert (S3 := shows_bool _ _ _ _ (A5 Ymax)).
  assert (R0 := shows_bool _ _ _ _ (B5 Xmin)). assert (R1 := shows_bool _ _ _ _ (B5 Xmax)).
  assert (R2 := shows_bool _ _ _ _ (B5 Ymin)). assert (R3 := shows_bool _ _ _ _ (B5 Ymax)).
  destruct e as [px py fs ss], n as [gs ts]. cbn [e2_px e2_py e2_fun e2_sides n_fun n_sides] in *. subst px py.
  list4 ss L4. list4 ts M4. cbn in S0, S1, S2, S3, R0, R1, R2, R3.
  inversion S0; inversion S1; inversion S2; inversion S3; inversion R0; inversion R1; inversion R2; inversion R3.
  clear - P0 P1 P2 P3.
  assert (Q := validate2_flags (spec_per h true) (spec_per h false)
    (isS (spec_fun h Xmin)) (isS (spec_fun h Xmax)) (isS (spec_fun h Ymin)) (isS (spec_fun h Ymax))
    (isS (spec_nat hn Xmin)) (isS (spec_nat hn Xmax)) (isS (spec_nat hn Ymin)) (isS (spec_nat hn Ymax))).
  specialize (Q ltac:(intros K; rewrite (P0 K), (P1 K); auto) ltac:(intros K; rewrite (P2 K), (P3 K); auto)).
  change (ebc2_validate F (mkE2 F (spec_per h true) (spec_per h false) fs
      [isS (spec_fun h Xmin); isS (spec_fun h Xmax); isS (spec_fun h Ymin); isS (spec_fun h Ymax)])
      (mkN F gs [isS (spec_nat hn Xmin); isS (spec_nat hn Xmax); isS (spec_nat hn Ymin); isS (spec_nat hn Ymax)]))
    with (ebc2_validate F (mkE2 F (spec_per h true) (spec_per h false) []
      [isS (spec_fun h Xmin); isS (spec_fun h Xmax); isS (spec_fun h Ymin); isS (spec_fun h Ymax)])
      (mkN F [] [isS (spec_nat hn Xmin); isS (spec_nat hn Xmax); isS (spec_nat hn Ymin); isS (spec_nat hn Ymax)])).
  rewrite <- andb_true_iff.
  destruct (ebc2_validate _ _ _) as [[]|m|]; [|apply negb_true_iff in Q; rewrite Q|discriminate Q].
  - rewrite Q. split; [tauto|discriminate].
  - split; [|discriminate]. split; discriminate.
Qed.

(** collecting without repetition *)
Lemma collect_spec l : forall nodes, NoDup nodes ->
  exists r, for_each l (fun m nodes => if existsb (Nat.eqb m) nodes then Ok nodes else Ok (nodes ++ [m])) nodes = Ok r /\
    NoDup r /\ forall m, In m r <-> In m nodes \/ In m l.
Proof.
  induction l as [|a l IH]; intros nodes ND; cbn [for_each].
  - eexists; splits; eauto. intros; cbn; tauto.
  - destruct (existsb (Nat.eqb a) nodes) eqn:E; cbn [bind].
    + apply existsb_exists in E. destruct E as (x & Hx & E). apply Nat.eqb_eq in E. subst x.
      destruct (IH nodes ND) as (r & R1 & R2 & R3). exists r. splits; auto.
      intros m. rewrite R3. cbn. intuition (subst; auto).
    + assert (NI : ~ In a nodes).
      { intros Q. assert (existsb (Nat.eqb a) nodes = true) by (apply existsb_exists; exists a; split; auto; apply Nat.eqb_refl). congruence. }
      destruct (IH (nodes ++ [a])) as (r & R1 & R2 & R3).
      { apply (Permutation_NoDup (l := a :: nodes)).
        - apply Permutation_cons_append.
        - now constructor. }
      exists r. splits; auto. intros m. rewrite R3, in_app_iff. cbn. intuition.
Qed.

(** get_nodes: every node of every constrained side, once *)
Theorem C43_get_nodes2 : forall h e on_side, run2 h = Ok e ->
  exists l, ebc2_get_nodes F e on_side = Ok l /\ NoDup l /\
    forall m, In m l <-> exists s, has (spec_fun h s) /\ In m (on_side s).
Proof.
  intros h e on_side E.
  destruct (C43_history2 h) as (e' & E' & A1 & A2 & _ & _ & A5). rewrite E in E'. inversion E'; subst e'; clear E'.
  unfold ebc2_get_nodes.
  set (body := fun index nodes => _).
  assert (ST : forall s nodes, NoDup nodes -> exists r, body (side_index s) nodes = Ok r /\ NoDup r /\
      forall m, In m r <-> In m nodes \/ (has (spec_fun h s) /\ In m (on_side s))).
  { intros s nodes ND. unfold body. rewrite (shows_bool _ _ _ _ (A5 s)). cbn [bind].
    destruct (spec_fun h s) eqn:Q.
    - replace (side_from_index (side_index s)) with (Ok s) by (destruct s; reflexivity). cbn [bind].
      destruct (collect_spec (on_side s) nodes ND) as (r & R1 & R2 & R3). exists r. splits; auto.
      intros m. rewrite R3. unfold has. intuition congruence.
    - exists nodes. splits; auto. unfold has. intuition congruence. }
  unfold for_range. cbn [Nat.sub for_n].
  destruct (ST Xmin [] (NoDup_nil _)) as (r0 & E0 & D0 & I0). cbn [side_index] in E0. rewrite E0. cbn [bind].
  destruct (ST Xmax r0 D0) as (r1 & E1 & D1 & I1). cbn [side_index] in E1. rewrite E1. cbn [bind].
  destruct (ST Ymin r1 D1) as (r2 & E2 & D2 & I2). cbn [side_index] in E2. rewrite E2. cbn [bind].
  destruct (ST Ymax r2 D2) as (r3 & E3 & D3 & I3). cbn [side_index] in E3. rewrite E3. cbn [bind].
  exists r3. splits; auto. intros m. rewrite I3, I2, I1, I0. cbn [In]. split.
  - intros [[[[[]|Q]|Q]|Q]|Q]; eauto.
  - intros ([] & Q); tauto.
Qed.

(** ** 1D: the y sides do not exist *)
Definition apply1 (e : ebc1 F) (o : bc_op) : res (ebc1 F) :=
  match o with
  | OpSet s f => ebc1_set F e s f
  | OpHomogeneous => ebc1_set_homogeneous F fzero e
  | OpPeriodic ax _ => ebc1_set_periodic F e ax
  end.
Fixpoint run1 (h : list bc_op) : res (ebc1 F) :=
  match h with [] => Ok (ebc1_new F fzero) | o :: r => e <- run1 r ;; apply1 e o end.
Definition x_only (o : bc_op) : Prop := match o with OpSet s _ => axis_x s = true | _ => True end.

Definition agrees1 (e : ebc1 F) (h : list bc_op) : Prop :=
  e1_px F e = spec_per h true /\ length (e1_fun F e) = 2 /\ length (e1_sides F e) = 2 /\
  forall s, axis_x s = true -> shows (e1_fun F e) (e1_sides F e) s (spec_fun h s).

Theorem C43_history1 : forall h, Forall x_only h -> exists e, run1 h = Ok e /\ agrees1 e h.
Proof.
  induction 1 as [|o h X H (e & E & A)].
  - eexists. split; [reflexivity|]. unfold agrees1. cbn. splits; auto. intros []; try discriminate; reflexivity.
  - cbn [run1]. rewrite E. cbn [bind]. destruct e as [px fs ss].
    destruct A as (A1 & A3 & A4 & A5). cbn [e1_px e1_fun e1_sides] in *.
    list2 fs A3. list2 ss A4.
    assert (B0 := A5 Xmin eq_refl). assert (B1 := A5 Xmax eq_refl). clear A5 A3 A4.
    destruct o as [s fnew| |ax ay].
    + destruct s; cbn in X; try discriminate X; cbn; eexists; (split; [reflexivity|]); unfold agrees1; cbn; splits; auto;
        intros [] Q; try discriminate Q; cbn; auto.
    + cbn. eexists. split; [reflexivity|]. unfold agrees1; cbn; splits; auto; intros [] Q; try discriminate Q; cbn; auto.
    + destruct ax; cbn; eexists; (split; [reflexivity|]); unfold agrees1; cbn; splits; auto;
        intros [] Q; try discriminate Q; cbn; auto.
Qed.

Theorem C43_history_natural1 : forall h, Forall (fun p => axis_x (fst p) = true) h ->
  exists n, runn (nbc1_new F fzero) h = Ok n /\
  length (n_fun F n) = 2 /\ length (n_sides F n) = 2 /\
  forall s, axis_x s = true -> shows (n_fun F n) (n_sides F n) s (spec_nat h s).
Proof.
  induction 1 as [|[s fnew] h X H (n & E & A)].
  - eexists. split; [reflexivity|]. cbn. splits; auto. intros [] Q; try discriminate Q; reflexivity.
  - cbn [runn]. rewrite E. cbn [bind]. destruct n as [fs ss].
    destruct A as (A3 & A4 & A5). cbn [n_fun n_sides] in *.
    list2 fs A3. list2 ss A4.
    assert (B0 := A5 Xmin eq_refl). assert (B1 := A5 Xmax eq_refl). clear A5 A3 A4.
    destruct s; cbn in X; try discriminate X; cbn; eexists; (split; [reflexivity|]); cbn; splits; auto;
      intros [] Q; try discriminate Q; cbn; auto.
Qed.

(** setting a y side in 1D panics, whatever happened before *)
Theorem C43_y_side_panics1 : forall h e s f, Forall x_only h -> run1 h = Ok e -> axis_x s = false ->
  ebc1_set F e s f = Panic.
Proof.
  intros h e s f X E S. destruct (C43_history1 h X) as (e' & E' & _ & A & _).
  rewrite E in E'. inversion E'; subst e'. destruct e as [px fs ss]. cbn in A. list2 fs A.
  destruct s; try discriminate S; reflexivity.
Qed.

Theorem C43_validate1 : forall h hn e n, Forall x_only h -> Forall (fun p => axis_x (fst p) = true) hn ->
  run1 h = Ok e -> runn (nbc1_new F fzero) hn = Ok n ->
  (ebc1_validate F e n = Ok tt <->
     valid_axis (spec_per h true) (spec_fun h Xmin) (spec_nat hn Xmin) (spec_fun h Xmax) (spec_nat hn Xmax)) /\
  ebc1_validate F e n <> Panic.
Proof.
  intros h hn e n X XN E N.
  destruct (C43_history1 h X) as (e' & E' & A1 & _ & _ & A5). rewrite E in E'. inversion E'; subst e'; clear E'.
  destruct (C43_history_natural1 hn XN) as (n' & N' & _ & _ & B5). rewrite N in N'. inversion N'; subst n'; clear N'.
  assert (P0 := C43_periodic_clears h Xmin). assert (P1 := C43_periodic_clears h Xmax). cbn [axis_x] in *.
  rewrite !valid_axis_b. unfold ebc1_validate.
  rewrite (shows_bool _ _ _ _ (A5 Xmin eq_refl) : vget _ 0 = _), (shows_bool _ _ _ _ (A5 Xmax eq_refl) : vget _ 1 = _).
  rewrite (shows_bool _ _ _ _ (B5 Xmin eq_refl) : vget _ 0 = _), (shows_bool _ _ _ _ (B5 Xmax eq_refl) : vget _ 1 = _).
  cbn [bind]. rewrite A1.
  destruct (spec_per h true); [rewrite (P0 eq_refl) in *; rewrite (P1 eq_refl) in *|];
  clear; unfold isS;
  repeat match goal with |- context [spec_fun ?h ?s] => destruct (spec_fun h s) end;
  repeat match goal with |- context [spec_nat ?h ?s] => destruct (spec_nat h s) end;
  cbn; (split; [|discriminate]); intuition discriminate.
Qed.

Theorem C43_get_nodes1 : forall h e nx, Forall x_only h -> run1 h = Ok e -> 2 <= nx ->
  exists l, ebc1_get_nodes F e nx = Ok l /\ NoDup l /\
    forall m, In m l <-> (has (spec_fun h Xmin) /\ m = 0) \/ (has (spec_fun h Xmax) /\ m = nx - 1).
Proof.
  intros h e nx X E Hx.
  destruct (C43_history1 h X) as (e' & E' & A1 & _ & _ & A5). rewrite E in E'. inversion E'; subst e'; clear E'.
  unfold ebc1_get_nodes, for_range. cbn [Nat.sub for_n].
  rewrite (shows_bool _ _ _ _ (A5 Xmin eq_refl) : vget _ 0 = _), (shows_bool _ _ _ _ (A5 Xmax eq_refl) : vget _ 1 = _).
  unfold has. destruct (spec_fun h Xmin), (spec_fun h Xmax); cbn [bind app Nat.eqb]; eexists; (split; [reflexivity|]); split.
  - constructor; [cbn; intros [Q|[]]; lia|]. constructor; [intros []|constructor].
  - intros m; cbn; split; intros Q; intuition congruence.
  - constructor; [intros []|constructor].
  - intros m; cbn; split; intros Q; intuition congruence.
  - constructor; [intros []|constructor].
  - intros m; cbn; split; intros Q; intuition congruence.
  - constructor.
  - intros m; cbn; split; intros Q; intuition congruence.
Qed.

(** where natural conditions are switched on: exactly as documented in 1D *)
Theorem C43_enabled1 : forall hn n nx m, Forall (fun p => axis_x (fst p) = true) hn ->
  runn (nbc1_new F fzero) hn = Ok n -> 2 <= nx ->
  (nbc1_enabled F n m nx = Ok true <-> (m = 0 /\ has (spec_nat hn Xmin)) \/ (m = nx - 1 /\ has (spec_nat hn Xmax))).
Proof.
  intros hn n nx m X N Hx.
  destruct (C43_history_natural1 hn X) as (n' & N' & _ & _ & B5). rewrite N in N'. inversion N'; subst n'; clear N'.
  unfold nbc1_enabled, has.
  rewrite (shows_bool _ _ _ _ (B5 Xmin eq_refl) : vget _ 0 = _), (shows_bool _ _ _ _ (B5 Xmax eq_refl) : vget _ 1 = _).
  destruct (Nat.eqb_spec m 0); [|destruct (Nat.eqb_spec m (nx - 1))];
    destruct (spec_nat hn Xmin), (spec_nat hn Xmax); split; intros Q; try discriminate Q; try reflexivity; try lia;
    intuition (try congruence; try lia).
Qed.

(** in 2D the documentation says a corner is enabled as soon as one of its two sides is *)
Definition doc_enabled2 (hn : list (side * F)) (i j nx ny : nat) : Prop :=
  (i = 0 /\ has (spec_nat hn Xmin)) \/ (i = nx - 1 /\ has (spec_nat hn Xmax)) \/
  (j = 0 /\ has (spec_nat hn Ymin)) \/ (j = ny - 1 /\ has (spec_nat hn Ymax)).

(** true away from the vertical sides ... *)
Theorem C43_enabled2 : forall hn n nx ny i j,
  runn (nbc2_new F fzero) hn = Ok n -> 2 <= nx -> 2 <= ny -> i < nx -> j < ny ->
  (i = 0 \/ i = nx - 1 -> 0 < j < ny - 1) ->
  (nbc2_enabled F n i j nx ny = Ok true <-> doc_enabled2 hn i j nx ny).
Proof.
  intros hn n nx ny i j N Hx Hy Hi Hj HC.
  destruct (C43_history_natural2 hn) as (n' & N' & _ & _ & B5). rewrite N in N'. inversion N'; subst n'; clear N'.
  unfold nbc2_enabled, doc_enabled2, has.
  rewrite (shows_bool _ _ _ _ (B5 Xmin) : vget _ 0 = _), (shows_bool _ _ _ _ (B5 Xmax) : vget _ 1 = _),
          (shows_bool _ _ _ _ (B5 Ymin) : vget _ 2 = _), (shows_bool _ _ _ _ (B5 Ymax) : vget _ 3 = _).
  cbn [bind].
  destruct (Nat.eqb_spec i 0); [|destruct (Nat.eqb_spec i (nx - 1)); [|destruct (Nat.eqb_spec j 0); [|destruct (Nat.eqb_spec j (ny - 1))]]];
    cbn [andb];
    destruct (spec_nat hn Xmin), (spec_nat hn Xmax), (spec_nat hn Ymin), (spec_nat hn Ymax);
    split; intros Q; try discriminate Q; try reflexivity; try lia; intuition (try congruence; try lia).
Qed.

(** ... but false at a corner: the corner branches of the code come after the edge branches and are
    never taken, so a corner whose horizontal side alone has a natural condition is reported disabled *)
Theorem C43_enabled_corner_refuted : forall f : F,
  ~ (forall hn n nx ny i j, runn (nbc2_new F fzero) hn = Ok n -> 2 <= nx -> 2 <= ny -> i < nx -> j < ny ->
      doc_enabled2 hn i j nx ny -> nbc2_enabled F n i j nx ny = Ok true).
Proof.
  intros f H. specialize (H [(Ymin, f)]). cbn [runn bind] in H. unfold nbc_set in H. cbn in H.
  specialize (H _ 3 3 0 0 eq_refl). assert (Q : doc_enabled2 [(Ymin, f)] 0 0 3 3).
  { right; right; left. split; auto. cbn. discriminate. }
  specialize (H ltac:(lia) ltac:(lia) ltac:(lia) ltac:(lia) Q). discriminate H.
Qed.
End B.

(** a history that overwrites, goes periodic and comes back *)
Example C43_ex : forall e, run2 nat 0 [OpSet nat Ymax 7; OpPeriodic nat true false; OpSet nat Xmin 3; OpHomogeneous nat] = Ok e ->
  ebc2_get_nodes nat e (fun s => match s with Xmin => [0; 2] | Xmax => [1; 3] | Ymin => [0; 1] | Ymax => [2; 3] end) = Ok [0; 1; 2; 3]
  /\ e2_px nat e = true /\ nth_error (e2_fun nat e) 3 = Some 7.
Proof. intros e H. vm_compute in H. inversion H. vm_compute. auto. Qed.

Print Assumptions C43_history2.
Print Assumptions C43_validate2.
Print Assumptions C43_get_nodes2.
Print Assumptions C43_history1.
Print Assumptions C43_validate1.
Print Assumptions C43_get_nodes1.
Print Assumptions C43_enabled2.
Print Assumptions C43_enabled_corner_refuted.
