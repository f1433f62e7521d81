(** C42: grid numbering and boundary queries. *)
From Coq Require Import Sorting.Sorted.
From Verif Require Import Base RBase Grid_Model LabVec_Thm.
Local Open Scope nat_scope.

(** ** 1D *)
Section G1.
Variable T : Type.
Variables (add sub mul div : T -> T -> T) (of_nat : nat -> T) (le : T -> T -> bool) (d : T).

Lemma check_increasing_iff xx msg : check_increasing T le xx msg = Ok tt <->
  forall i, 1 <= i < length xx -> le (nth i xx d) (nth (i - 1) xx d) = false.
Proof.
  unfold check_increasing. destruct (le_lt_dec 1 (length xx)) as [H1|H1].
  - split.
    + intros H i Hi.
      apply (for_range_partial (fun k _ => forall i, 1 <= i < k -> le (nth i xx d) (nth (i - 1) xx d) = false)
               _ 1 (length xx) tt tt H1 H); auto.
      * intros; lia.
      * intros k [] [] Hk IH E i' Hi'. rewrite (vget_ok _ _ d), (vget_ok _ _ d) in E by lia. cbn [bind] in E.
        destruct (Nat.eq_dec i' k) as [->|]; [|apply IH; lia].
        destruct (le (nth k xx d) (nth (k - 1) xx d)); [discriminate|auto].
    + intros H.
      destruct (for_range_inv (fun _ (_ : unit) => True) (fun i (_ : unit) =>
         a <- vget xx i ;; b <- vget xx (i - 1) ;; if le a b then Err msg else Ok tt) 1 (length xx) tt) as ([] & E & _); auto.
      intros i [] Hi _. rewrite (vget_ok _ _ d), (vget_ok _ _ d) by lia. cbn [bind]. rewrite H by lia. eauto.
  - unfold for_range. replace (length xx - 1) with 0 by lia. cbn. split; auto. intros; lia.
Qed.

(** Grid1d::new accepts exactly the strictly increasing lists with at least two points *)
Theorem C42_grid1_new : forall xx,
  (exists g, grid1_new T le xx = Ok g) <->
  2 <= length xx /\ (forall i, 1 <= i < length xx -> le (nth i xx d) (nth (i - 1) xx d) = false).
Proof.
  intros xx. unfold grid1_new. destruct (Nat.ltb_spec (length xx) 2) as [L|L].
  - split; [intros (g & H); discriminate|]. intros [H _]; lia.
  - rewrite <- (check_increasing_iff xx "xx must be strictly increasing"). split.
    + intros (g & H). apply bind_ok in H. destruct H as ([] & H & _). auto.
    + intros [_ ->]. cbn. eauto.
Qed.

(** queries of an accepted 1D grid *)
Theorem C42_grid1_queries : forall xx g, grid1_new T le xx = Ok g ->
  g1_nx T g = length xx /\
  (forall m, m < length xx -> grid1_coord T g m = Ok (nth m xx d)) /\
  grid1_nodes T g Xmin = Ok [0] /\ grid1_nodes T g Xmax = Ok [length xx - 1] /\
  (forall m, grid1_is_xmin T g m = true <-> m = 0) /\
  (forall m, grid1_is_xmax T g m = true <-> m = length xx - 1) /\
  (forall m, grid1_on_boundary T g m = true <-> m = 0 \/ m = length xx - 1) /\
  0 <> length xx - 1.
Proof.
  intros xx g H. unfold grid1_new in H. destruct (Nat.ltb_spec (length xx) 2) as [L|L]; [discriminate|].
  apply bind_ok in H. destruct H as ([] & _ & H). inversion H; subst g. cbn. splits; auto; try lia.
  - intros m Hm. now apply vget_ok.
  - intros m. apply Nat.eqb_eq.
  - intros m. unfold grid1_is_xmax. cbn. apply Nat.eqb_eq.
  - intros m. unfold grid1_on_boundary. cbn. rewrite orb_true_iff, !Nat.eqb_eq. reflexivity.
Qed.
End G1.

(** uniform 1D grid over exact reals: ends are exact and points strictly increase *)
Theorem C42_grid1_uniform_R : forall xmin xmax nx g,
  grid1_new_uniform R Rplus Rminus Rmult Rdiv INR Rleb xmin xmax nx = Ok g ->
  2 <= nx /\ (xmin < xmax)%R /\ g1_nx R g = nx /\ length (g1_coords R g) = nx /\
  nth 0 (g1_coords R g) 0%R = xmin /\ nth (nx - 1) (g1_coords R g) 0%R = xmax /\
  (forall i, i + 1 < nx -> (nth (i + 1) (g1_coords R g) 0 - nth i (g1_coords R g) 0 = (xmax - xmin) / INR (nx - 1))%R) /\
  (forall i, i + 1 < nx -> (nth i (g1_coords R g) 0 < nth (i + 1) (g1_coords R g) 0)%R).
Proof.
  intros xmin xmax nx g H. unfold grid1_new_uniform in H.
  destruct (Nat.ltb_spec nx 2) as [L|L]; [discriminate|].
  destruct (Rleb_spec xmax xmin) as [K|K]; [discriminate|].
  inversion H; subst g; clear H. cbn [g1_nx g1_coords].
  assert (P : (0 < INR (nx - 1))%R) by (apply lt_0_INR; lia).
  assert (V : forall i, i < nx -> nth i (map (fun i => (xmin + INR i * ((xmax - xmin) / INR (nx - 1)))%R) (seq 0 nx)) 0%R
     = (xmin + INR i * ((xmax - xmin) / INR (nx - 1)))%R) by (intros i0 Hi0; exact (nth_map_seq (fun i => (xmin + INR i * ((xmax - xmin) / INR (nx - 1)))%R) nx i0 0%R Hi0)).
  assert (D : forall i, i + 1 < nx ->
    (nth (i + 1) (map (fun i => (xmin + INR i * ((xmax - xmin) / INR (nx - 1)))) (seq 0 nx)) 0
     - nth i (map (fun i => (xmin + INR i * ((xmax - xmin) / INR (nx - 1)))) (seq 0 nx)) 0 = (xmax - xmin) / INR (nx - 1))%R).
  { intros i Hi. rewrite !V by lia. rewrite plus_INR. cbn [INR]. lra. }
  splits; auto.
  - now rewrite map_length, seq_length.
  - rewrite V by lia. cbn [INR]. lra.
  - rewrite V by lia. field. lra.
  - intros i Hi. specialize (D i Hi).
    assert (0 < (xmax - xmin) / INR (nx - 1))%R by (apply Rdiv_lt_0_compat; lra). lra.
Qed.

(** ** 2D *)
Section G2.
Variable T : Type.
Variables (add sub mul div : T -> T -> T) (of_nat : nat -> T) (le : T -> T -> bool) (d : T).

(** the observable content of a grid with x-coordinates [fx] and y-coordinates [fy] *)
Definition grid2_is (g : grid2 T) (nx ny : nat) (fx fy : nat -> T) : Prop :=
  g2_nx T g = nx /\ g2_ny T g = ny /\ g2_npoint T g = nx * ny /\
  (** numbering is a bijection between (i,j) and m *)
  (forall i j, i < nx -> j < ny -> grid2_get_m T g i j < nx * ny /\ grid2_get_ij T g (grid2_get_m T g i j) = (i, j)) /\
  (forall m, m < nx * ny -> let '(i, j) := grid2_get_ij T g m in i < nx /\ j < ny /\ grid2_get_m T g i j = m) /\
  (** coordinates *)
  (forall i j, i < nx -> j < ny -> grid2_coord T g (grid2_get_m T g i j) = Ok (fx i, fy j)) /\
  (** side membership *)
  (forall i j, i < nx -> j < ny ->
     let m := grid2_get_m T g i j in
     (grid2_is_xmin T g m = true <-> i = 0) /\ (grid2_is_xmax T g m = true <-> i = nx - 1) /\
     (grid2_is_ymin T g m = true <-> j = 0) /\ (grid2_is_ymax T g m = true <-> j = ny - 1) /\
     (grid2_on_boundary T g m = true <-> i = 0 \/ i = nx - 1 \/ j = 0 \/ j = ny - 1) /\
     (grid2_is_corner T g m = true <-> (i = 0 \/ i = nx - 1) /\ (j = 0 \/ j = ny - 1))) /\
  (** node lists: ascending, exactly the nodes of the side *)
  (forall s, StronglySorted lt (grid2_nodes T g s)) /\
  (forall s m, In m (grid2_nodes T g s) <-> m < nx * ny /\
     match s with
     | Xmin => grid2_is_xmin T g m | Xmax => grid2_is_xmax T g m
     | Ymin => grid2_is_ymin T g m | Ymax => grid2_is_ymax T g m
     end = true).

Lemma mod_idx i j nx : i < nx -> (i + j * nx) mod nx = i.
Proof. intros. rewrite Nat.mod_add by lia. now apply Nat.mod_small. Qed.
Lemma div_idx i j nx : i < nx -> (i + j * nx) / nx = j.
Proof. intros. rewrite Nat.div_add by lia. rewrite Nat.div_small by auto. lia. Qed.

Lemma sorted_map_lin (f : nat -> nat) s n : (forall a b, a < b -> f a < f b) -> StronglySorted lt (map f (seq s n)).
Proof.
  intros Hf. revert s. induction n as [|n IH]; intros s; cbn; constructor; auto.
  apply Forall_forall. intros x Hx. apply in_map_iff in Hx. destruct Hx as (y & <- & Hy).
  apply in_seq in Hy. apply Hf. lia.
Qed.

Lemma alloc_is b nx ny coords cgl fx fy : 2 <= nx -> 2 <= ny ->
  (forall i j, i < nx -> j < ny -> vget coords (i + j * nx) = Ok (fx i, fy j)) ->
  grid2_is (grid2_alloc T b nx ny coords cgl) nx ny fx fy.
Proof.
  intros Hx Hy HC. unfold grid2_is. cbn [grid2_alloc g2_nx g2_ny g2_npoint].
  assert (M : forall i j, i < nx -> j < ny -> i + j * nx < nx * ny) by (intros; nia).
  assert (R : forall m, m < nx * ny -> m mod nx < nx /\ m / nx < ny /\ m mod nx + m / nx * nx = m).
  { intros m Hm. splits.
    - apply Nat.mod_upper_bound. lia.
    - apply Nat.div_lt_upper_bound; lia.
    - rewrite (Nat.div_mod m nx) at 3 by lia. lia. }
  splits; auto; unfold grid2_get_m, grid2_get_ij, grid2_coord, grid2_is_xmin, grid2_is_xmax, grid2_is_ymin, grid2_is_ymax,
    grid2_on_boundary, grid2_is_corner, grid2_nodes;
    cbn [grid2_alloc g2_nx g2_ny g2_npoint g2_coords g2_xmin g2_xmax g2_ymin g2_ymax].
  - intros i j Hi Hj. rewrite mod_idx, div_idx by auto. auto.
  - intros i j Hi Hj. rewrite !mod_idx, !div_idx by auto. rewrite !Nat.eqb_eq.
    splits; try reflexivity.
    + rewrite !orb_true_iff, !Nat.eqb_eq. intuition.
    + destruct (Nat.eqb_spec (i + j * nx) 0) as [E|E]; cbn [orb].
      { assert (i = 0) by lia. assert (j = 0) by nia. intuition. }
      destruct (Nat.eqb_spec (i + j * nx) (nx * ny - 1)) as [E'|E'].
      { assert (j = ny - 1) by nia. assert (i = nx - 1) by nia. intuition. }
      rewrite orb_true_iff, !andb_true_iff, !Nat.eqb_eq.
      assert (~ (i = 0 /\ j = 0)) by nia. assert (~ (i = nx - 1 /\ j = ny - 1)) by nia. intuition.
  - intros [| | |].
    + apply sorted_map_lin. intros; nia.
    + apply sorted_map_lin. intros; nia.
    + rewrite <- (map_id (seq 0 nx)). apply sorted_map_lin. auto.
    + apply sorted_map_lin. intros; nia.
  - intros s m. destruct s; rewrite ?in_map_iff, ?Nat.eqb_eq.
    + split.
      * intros (j & <- & Hj). apply in_seq in Hj. split; [nia|]. apply Nat.mod_mul. lia.
      * intros [Hm E]. exists (m / nx). destruct (R m Hm) as (R1 & R2 & R3). split; [lia|apply in_seq; lia].
    + split.
      * intros (j & <- & Hj). apply in_seq in Hj. split; [nia|]. rewrite Nat.add_comm. apply mod_idx. lia.
      * intros [Hm E]. exists (m / nx). destruct (R m Hm) as (R1 & R2 & R3). split; [lia|apply in_seq; lia].
    + rewrite in_seq. split.
      * intros Hj. split; [nia|]. apply Nat.div_small. lia.
      * intros [Hm E]. destruct (R m Hm) as (R1 & R2 & R3). lia.
    + split.
      * intros (i & <- & Hi). apply in_seq in Hi. split; [nia|]. rewrite Nat.add_comm. apply div_idx. lia.
      * intros [Hm E]. exists (m mod nx). destruct (R m Hm) as (R1 & R2 & R3). rewrite <- E. split; [lia|apply in_seq; lia].
Qed.

Lemma push_row (g : nat -> T * T) body nx l :
  (forall i l, i < nx -> body i l = Ok (l ++ [g i])) ->
  for_range 0 nx body l = Ok (l ++ map g (seq 0 nx)).
Proof.
  intros H. destruct (for_range_inv (fun k l' => l' = l ++ map g (seq 0 k)) body 0 nx l) as (l' & E & ->).
  - lia.
  - cbn. now rewrite app_nil_r.
  - intros i l' Hi ->. rewrite H by lia. eexists. split; [reflexivity|].
    rewrite seq_S, map_app, app_assoc. reflexivity.
  - exact E.
Qed.

Definition cells (nx ny : nat) (fx fy : nat -> T) : list (T * T) :=
  concat (map (fun j => map (fun i => (fx i, fy j)) (seq 0 nx)) (seq 0 ny)).

Lemma cells_length nx ny fx fy : length (cells nx ny fx fy) = ny * nx.
Proof.
  unfold cells. induction ny as [|ny IH]; auto.
  rewrite seq_S, map_app, concat_app, app_length, IH. cbn [map concat Nat.add].
  rewrite app_nil_r, map_length, seq_length. lia.
Qed.

Lemma cells_get nx ny fx fy i j : i < nx -> j < ny -> vget (cells nx ny fx fy) (i + j * nx) = Ok (fx i, fy j).
Proof.
  intros Hi Hj. unfold vget. replace (nth_error _ _) with (Some (fx i, fy j)); auto. symmetry.
  revert Hj. induction ny as [|ny IH]; intros Hj; [lia|].
  assert (E : cells nx (S ny) fx fy = cells nx ny fx fy ++ map (fun i => (fx i, fy ny)) (seq 0 nx)).
  { unfold cells. rewrite seq_S, map_app, concat_app. cbn. now rewrite app_nil_r. }
  rewrite E. assert (CL := cells_length nx ny fx fy). destruct (Nat.eq_dec j ny) as [->|N].
  - rewrite nth_error_app2 by lia. rewrite CL. replace (i + ny * nx - ny * nx) with i by lia.
    rewrite (nth_error_nth' _ (fx i, fy ny)) by (rewrite map_length, seq_length; auto).
    now rewrite nth_map_seq.
  - rewrite nth_error_app1; [apply IH; lia|]. rewrite CL. nia.
Qed.

(** Grid2d::new *)
Theorem C42_grid2_new : forall xx yy,
  2 <= length xx -> 2 <= length yy ->
  (forall i, 1 <= i < length xx -> le (nth i xx d) (nth (i - 1) xx d) = false) ->
  (forall i, 1 <= i < length yy -> le (nth i yy d) (nth (i - 1) yy d) = false) ->
  exists g, grid2_new T le xx yy = Ok g /\
    grid2_is g (length xx) (length yy) (fun i => nth i xx d) (fun j => nth j yy d).
Proof.
  intros xx yy Hx Hy Ix Iy. unfold grid2_new.
  destruct (Nat.ltb_spec (length xx) 2); [lia|]. destruct (Nat.ltb_spec (length yy) 2); [lia|].
  rewrite !(vget_ok _ _ d) by lia. cbn [bind].
  rewrite (proj2 (check_increasing_iff T le d xx "xx must be strictly increasing") Ix). cbn [bind].
  set (fx := fun i => nth i xx d). set (fy := fun j => nth j yy d).
  set (nx := length xx) in *. set (ny := length yy) in *.
  destruct (for_range_inv (fun k l => l = cells nx k fx fy) (fun j coords =>
      y <- vget yy j ;;
      _ <- (if 0 <? j then yl <- vget yy (j - 1) ;; if le y yl then Err "yy must be strictly increasing" else Ok tt
            else Ok tt) ;;
      for_range 0 nx (fun i coords => x <- vget xx i ;; Ok (coords ++ [(x, y)])) coords) 0 ny [])
    as (l & E & ->).
  - lia.
  - reflexivity.
  - intros j l Hj ->. rewrite (vget_ok _ _ d) by (fold ny; lia). cbn [bind].
    replace (if 0 <? j then yl <- vget yy (j - 1) ;; if le (nth j yy d) yl then Err "yy must be strictly increasing" else Ok tt
            else Ok tt) with (Ok tt).
    2:{ destruct (Nat.ltb_spec 0 j); auto. rewrite (vget_ok _ _ d) by (fold ny; lia). cbn [bind]. now rewrite Iy by lia. }
    cbn [bind]. eexists. split.
    + apply (push_row (fun i => (fx i, fy j))). intros i l Hi. rewrite (vget_ok _ _ d) by (fold nx; lia). reflexivity.
    + unfold cells. rewrite seq_S, map_app, concat_app. cbn. now rewrite app_nil_r.
  - rewrite E. cbn [bind]. eexists. split; [reflexivity|]. apply alloc_is; auto.
    intros. now apply cells_get.
Qed.

(** and nothing else is accepted *)
Theorem C42_grid2_new_rejects : forall xx yy g, grid2_new T le xx yy = Ok g ->
  2 <= length xx /\ 2 <= length yy /\
  (forall i, 1 <= i < length xx -> le (nth i xx d) (nth (i - 1) xx d) = false) /\
  (forall i, 1 <= i < length yy -> le (nth i yy d) (nth (i - 1) yy d) = false).
Proof.
  intros xx yy g H. unfold grid2_new in H.
  destruct (Nat.ltb_spec (length xx) 2); [discriminate|]. destruct (Nat.ltb_spec (length yy) 2); [discriminate|].
  rewrite !(vget_ok _ _ d) in H by lia. cbn [bind] in H.
  apply bind_ok in H. destruct H as ([] & HC & H).
  apply bind_ok in H. destruct H as (l & HF & _).
  splits; auto.
  - now apply (proj1 (check_increasing_iff T le d xx "xx must be strictly increasing")).
  - intros i Hi.
    apply (for_range_partial (fun k _ => forall i, 1 <= i < k -> le (nth i yy d) (nth (i - 1) yy d) = false)
               _ 0 (length yy) [] l ltac:(lia) HF); auto.
    + intros; lia.
    + intros k t t' Hk IH E i' Hi'. destruct (Nat.eq_dec i' k) as [->|]; [|apply IH; lia].
      rewrite (vget_ok _ _ d) in E by lia. cbn [bind] in E.
      apply bind_ok in E. destruct E as ([] & E & _).
      destruct (Nat.ltb_spec 0 k); [|lia]. rewrite (vget_ok _ _ d) in E by lia. cbn [bind] in E.
      destruct (le (nth k yy d) (nth (k - 1) yy d)); [discriminate|auto].
Qed.

(** Grid2d::new_uniform *)
Theorem C42_grid2_uniform : forall xmin xmax ymin ymax nx ny,
  2 <= nx -> 2 <= ny -> le xmax xmin = false -> le ymax ymin = false ->
  exists g, grid2_new_uniform T add sub mul div of_nat le xmin xmax ymin ymax nx ny = Ok g /\
    grid2_is g nx ny (fun i => add xmin (mul (of_nat i) (div (sub xmax xmin) (of_nat (nx - 1)))))
                     (fun j => add ymin (mul (of_nat j) (div (sub ymax ymin) (of_nat (ny - 1))))).
Proof.
  intros xmin xmax ymin ymax nx ny Hx Hy Lx Ly. unfold grid2_new_uniform.
  destruct (Nat.ltb_spec nx 2); [lia|]. destruct (Nat.ltb_spec ny 2); [lia|]. rewrite Lx, Ly.
  set (fx := fun i => add xmin (mul (of_nat i) (div (sub xmax xmin) (of_nat (nx - 1))))).
  set (fy := fun j => add ymin (mul (of_nat j) (div (sub ymax ymin) (of_nat (ny - 1))))).
  destruct (for_range_inv (fun k l => l = cells nx k fx fy) (fun j coords =>
      for_range 0 nx (fun i coords => Ok (coords ++ [(fx i, fy j)])) coords) 0 ny []) as (l & E & ->).
  - lia.
  - reflexivity.
  - intros j l Hj ->. eexists. split.
    + apply (push_row (fun i => (fx i, fy j))). intros. reflexivity.
    + unfold cells. rewrite seq_S, map_app, concat_app. cbn. now rewrite app_nil_r.
  - change (for_range 0 ny _ []) with (for_range 0 ny (fun j coords =>
      for_range 0 nx (fun i coords => Ok (coords ++ [(fx i, fy j)])) coords) []).
    rewrite E. cbn [bind]. eexists. split; [reflexivity|]. apply alloc_is; auto.
    intros. now apply cells_get.
Qed.
End G2.

Example C42_ex : exists g, grid2_new Z Z.leb [0; 1; 5]%Z [2; 3]%Z = Ok g /\
  grid2_coord Z g 4 = Ok (1, 3)%Z /\ grid2_nodes Z g Xmax = [2; 5] /\ grid2_is_corner Z g 3 = true.
Proof. eexists. split; [vm_compute; reflexivity|]. splits; reflexivity. Qed.

Print Assumptions C42_grid1_new.
Print Assumptions C42_grid1_queries.
Print Assumptions C42_grid1_uniform_R.
Print Assumptions C42_grid2_new.
Print Assumptions C42_grid2_new_rejects.
Print Assumptions C42_grid2_uniform.
