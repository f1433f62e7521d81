(** C69: the bordering algorithm and the augmented system.  C77: tangent vectors. *)
From Verif Require Import RSum Sparse_Model Sparse_Spec Sparse_Lib Sparse_CooProofs Nonlin_Drv_Thm Nonlin_Err_Thm.
Local Open Scope nat_scope.

(* ------------------------------------------------------------------ *)
(** * Specification *)

(** entry (i, j) of the matrix that a COO matrix stands for *)
Definition ent (m : coo R) (i j : nat) : R := entry R 0%R Rplus (expand (c_sym m) (coo_triplets m)) i j.

(** an exact linear solver: what it returns solves the system with the matrix last factorized *)
Definition exact_solver {F} (lin : linsolver F) : Prop :=
  forall f0 m f b x, coo_valid m -> c_nrow m = c_ncol m ->
    ls_factorize lin f0 m = (f, Ok tt) -> ls_solve lin f b = Ok x ->
    length x = c_nrow m /\ forall i, i < c_nrow m -> sumn (c_nrow m) (fun j => ent m i j * nth j x 0)%R = nth i b 0%R.

(** the user's function, given an empty matrix, puts entries in the leading n x n block only and
    fills dG/dlambda without resizing it *)
Definition jac_contract {A} (sys : system A) : Prop :=
  forall m0 g0 l u a a' m gl, coo_valid m0 -> coo_triplets m0 = [] -> length g0 = y_ndim sys ->
    y_jac sys m0 g0 l u a = (a', Ok (m, gl)) ->
    coo_valid m /\ c_nrow m = c_nrow m0 /\ c_ncol m = c_ncol m0 /\ c_sym m = c_sym m0 /\ length gl = y_ndim sys /\
    forall t, In t (coo_triplets m) -> row_of t < y_ndim sys /\ col_of t < y_ndim sys.

(** Newton's system for G(u, lambda) = 0 together with the constraint N = 0:
      Gu du + Gl dl = -G,   theta t^T du + (2 - theta) tl dl = -N,   x = (du, dl) *)
Definition newton_augmented (n : nat) (gu : nat -> nat -> R) (gl : vec) (theta : R) (t : vec) (tl : R) (g : vec) (nn : R) (x : vec) : Prop :=
  (forall i, i < n -> (sumn n (fun j => gu i j * nth j x 0) + nth i gl 0 * nth n x 0 = - nth i g 0)%R) /\
  (theta * sumn n (fun j => nth j t 0 * nth j x 0) + (2 - theta) * tl * nth n x 0 = - nn)%R.

(** the sizes of the data of the method (solver_arclength.rs:236-274 `new`) *)
Definition sized {F A} (cfg : config) (sys : system A) (e : env (arcst F) A) : Prop :=
  let n := y_ndim sys in let s := e_s e in
  length (a_ggl s) = n /\ length (w_duds (e_w e)) = n /\
  (if c_bordering cfg then coo_valid (a_ggu s) /\ c_nrow (a_ggu s) = n /\ c_ncol (a_ggu s) = n
   else coo_valid (a_aa s) /\ c_nrow (a_aa s) = n + 1 /\ c_ncol (a_aa s) = n + 1 /\ c_sym (a_aa s) = SymNo).

(** (m, gl) are Gu and Gl at (u, lambda), as computed by the user's function *)
Definition jac_of {A} (sys : system A) (u : vec) (l : R) (m : coo R) (gl : vec) : Prop :=
  exists m0 g0 a a', coo_triplets m0 = [] /\ y_jac sys m0 g0 l u a = (a', Ok (m, gl)).

(* ------------------------------------------------------------------ *)
(** * Entries *)

Lemma expand_no (ts : list (nat * nat * R)) : expand SymNo ts = ts.
Proof. unfold expand. induction ts as [|[[i j] x] t IH]; [reflexivity|]. simpl in *. f_equal. exact IH. Qed.

Lemma fold_Rplus (l : list R) a : fold_left Rplus l a = (a + fold_left Rplus l 0)%R.
Proof.
  revert a. induction l as [|x l IH]; intros a; simpl; [ring|]. rewrite IH, (IH (0 + x)%R). ring.
Qed.

Lemma entry_snoc ts i j x a b :
  entry R 0%R Rplus (ts ++ [(i, j, x)]) a b = (entry R 0%R Rplus ts a b + (if (i =? a) && (j =? b) then x else 0))%R.
Proof.
  unfold entry, vals_at. rewrite filter_app, map_app, fold_left_app. simpl. unfold at_pos, row_of, col_of. simpl.
  destruct ((i =? a) && (j =? b)); simpl; ring.
Qed.

Lemma put_ent m i j x m' : coo_valid m -> c_sym m = SymNo -> put_unwrap m i j x = Ok m' ->
  coo_valid m' /\ c_sym m' = SymNo /\ c_nrow m' = c_nrow m /\ c_ncol m' = c_ncol m /\
  forall a b, ent m' a b = (ent m a b + (if (i =? a) && (j =? b) then x else 0))%R.
Proof.
  intros V Sy H. unfold put_unwrap in H. destruct (coo_put_cases R m i j x V) as [[_ (c' & P & V' & T & R1 & R2 & R3 & R4)]|[_ (z & P)]]; rewrite P in H; [|discriminate].
  injection H as <-. rewrite Sy in R4. refine (conj V' (conj R4 (conj R1 (conj R2 _)))). intros a b. unfold ent. rewrite R4, Sy, !expand_no, T. apply entry_snoc.
Qed.

Lemma entry_out ts a b n : (forall t, In t ts -> row_of t < n /\ col_of t < n) -> n <= a \/ n <= b ->
  entry R 0%R Rplus ts a b = 0%R.
Proof.
  intros H L. unfold entry, vals_at. replace (filter (at_pos a b) ts) with (@nil (nat * nat * R)); [reflexivity|].
  symmetry. induction ts as [|t ts IH]; simpl; [reflexivity|].
  assert (Q : at_pos a b t = false).
  { destruct (H t (or_introl eq_refl)). unfold at_pos.
    destruct (Nat.eqb_spec (row_of t) a), (Nat.eqb_spec (col_of t) b); simpl; auto; lia. }
  rewrite Q. apply IH. intros t' Ht. apply H. right. exact Ht.
Qed.

Lemma border_ent {A} (sys : system A) (gl t : vec) theta tl m aa : let n := y_ndim sys in
  coo_valid m -> c_sym m = SymNo ->
  border A sys false gl t theta tl m = Ok aa ->
  coo_valid aa /\ c_sym aa = SymNo /\ c_nrow aa = c_nrow m /\ c_ncol aa = c_ncol m /\
  forall a b, ent aa a b = (ent m a b + (if (a <? n) && (b =? n) then nth a gl 0 else 0) +
                            (if (a =? n) && (b <? n) then theta * nth b t 0 else 0) +
                            (if (a =? n) && (b =? n) then (2 - theta) * tl else 0))%R.
Proof.
  intros n V Sy H. unfold border in H. fold n in H.
  destruct (for_range _ _ _ _) as [m1|z|] eqn:E1; try discriminate H. simpl in H.
  assert (B : coo_valid m1 /\ c_sym m1 = SymNo /\ c_nrow m1 = c_nrow m /\ c_ncol m1 = c_ncol m /\
    forall a b, ent m1 a b = (ent m a b + (if (a <? n) && (b =? n) then nth a gl 0 else 0) +
                            (if (a =? n) && (b <? n) then theta * nth b t 0 else 0))%R).
  { refine (for_range_partial (fun k m1 => coo_valid m1 /\ c_sym m1 = SymNo /\ c_nrow m1 = c_nrow m /\ c_ncol m1 = c_ncol m /\
      forall a b, ent m1 a b = (ent m a b + (if (a <? k) && (b =? n) then nth a gl 0 else 0) +
                            (if (a =? n) && (b <? k) then theta * nth b t 0 else 0))%R) _ 0 n _ _ _ E1 _ _); [lia| |].
    - splits; auto. intros a b. rewrite andb_false_r. simpl. ring.
    - intros i c c' Hi (C1 & C2 & C3 & C4 & C5) B.
      destruct (vget gl i) as [g|z|] eqn:Eg; try discriminate B. apply (vget_ok_inv _ _ _ 0%R) in Eg. destruct Eg as [_ Eg]. simpl in B.
      destruct (put_unwrap c i n g) as [c1|z|] eqn:P1; try discriminate B. simpl in B.
      destruct (vget t i) as [d|z|] eqn:Ed; try discriminate B. apply (vget_ok_inv _ _ _ 0%R) in Ed. destruct Ed as [_ Ed]. simpl in B.
      apply put_ent in P1; auto. destruct P1 as (D1 & D2 & D3 & D4 & D5).
      apply put_ent in B; auto. destruct B as (F1 & F2 & F3 & F4 & F5).
      splits; auto; try congruence. intros a b. rewrite F5, D5, C5, <- Eg, <- Ed.
      destruct (Nat.eqb_spec i a), (Nat.eqb_spec n b), (Nat.eqb_spec n a), (Nat.eqb_spec i b), (Nat.ltb_spec a i), (Nat.ltb_spec a (S i)),
        (Nat.eqb_spec b n), (Nat.eqb_spec a n), (Nat.ltb_spec b i), (Nat.ltb_spec b (S i)); try lia; subst; simpl; ring. }
  destruct B as (B1 & B2 & B3 & B4 & B5).
  apply put_ent in H; auto. destruct H as (F1 & F2 & F3 & F4 & F5).
  splits; auto; try congruence. intros a b. rewrite F5, B5.
  destruct (Nat.eqb_spec n a), (Nat.eqb_spec a n), (Nat.eqb_spec n b), (Nat.eqb_spec b n); try lia; reflexivity.
Qed.

(* ------------------------------------------------------------------ *)
(** * One correction *)

Lemma inner_sumn (u v : vec) n : length u = n -> length v = n -> inner u v = sumn n (fun i => nth i u 0 * nth i v 0)%R.
Proof.
  revert v n. induction u as [|x u IH]; intros [|y v] [|n] H1 H2; simpl in H1, H2; try lia; [reflexivity|].
  rewrite sumn_S_l. simpl inner. rewrite (IH v n) by lia. reflexivity.
Qed.

Section Bordering.
Context {F A : Type} (fin : R -> bool) (cfg : config) (sys : system A) (lin : linsolver F).
Let E := env (arcst F) A.
Let n := y_ndim sys.
Hypothesis Ex : exact_solver lin.
Hypothesis Jc : jac_contract sys.

(** the state after the assembly and the factorization of Gu *)
Lemma arc_jac_full (e e' : E) x : c_bordering cfg = true -> sized cfg sys e -> arc_jac F A cfg sys lin e = (e', Ok x) ->
  exists st m gl f, eqw (e_w e) (e_w e') /\ e_s e' = set_a_ls f (set_a_ggu m (set_a_ggl gl st)) /\ e_s e = st /\
    jac_of sys (w_u (e_w e)) (w_l (e_w e)) m gl /\ ls_factorize lin (a_ls st) m = (f, Ok tt) /\
    coo_valid m /\ c_nrow m = n /\ c_ncol m = n /\ length gl = n.
Proof.
  intros Hb Sz. destruct Sz as (Z1 & Z2 & Z3). rewrite Hb in Z3. destruct Z3 as (Z3 & Z4 & Z5).
  unfold arc_jac. intros H. apply mbind_ok in H. destruct H as (e0 & [] & H0 & H). apply lift_inv in H0. destruct H0 as [-> _].
  apply mbind_ok in H. destruct H as (e1 & [] & H1 & H). injection H1 as <-. simpl in H.
  apply mbind_ok in H. destruct H as (e2 & [] & H2 & H). simpl in H2.
  destruct (y_jac sys _ _ _ _ _) as [a [[m gl]|z|]] eqn:Ej; try discriminate H2. injection H2 as <-.
  apply mbind_ok in H. destruct H as (e4 & [] & H4 & H). apply arc_write_same in H4. subst e4.
  apply mbind_ok in H. destruct H as (e5 & [] & H5 & H). injection H5 as <-. simpl in H.
  destruct (ls_factorize lin _ _) as [f r] eqn:Ef. injection H as <- ->. destruct x.
  destruct (Jc _ _ _ _ _ _ _ _ (coo_reset_valid R _ Z3) eq_refl Z1 Ej) as (J1 & J2 & J3 & J4 & J5 & J6). simpl in J2, J3.
  do 4 eexists. split; [eexists; reflexivity|]. split; [reflexivity|]. split; [reflexivity|].
  split; [do 4 eexists; split; [|exact Ej]; reflexivity|]. split; [exact Ef|]. subst n. splits; auto; congruence.
Qed.

(** the bordering algorithm solves Newton's system exactly *)
Theorem C69_bordering nn (e e' : E) x : c_bordering cfg = true -> sized cfg sys e ->
  arc_bordering F A cfg sys lin nn e = (e', Ok (Some x)) ->
  exists m gl, jac_of sys (w_u (e_w e)) (w_l (e_w e)) m gl /\
    newton_augmented n (ent m) gl (a_theta (e_s e)) (w_duds (e_w e)) (w_dlds (e_w e)) (w_gg (e_w e)) nn x.
Proof.
  intros Hb Sz H. pose proof Sz as (Z1 & Z2 & _). unfold arc_bordering in H. apply mbind_ok in H. destruct H as (e1 & [] & H1 & H).
  apply arc_jac_full in H1; auto. destruct H1 as (st & m & gl & f & [s1 W1] & S1 & S0 & J & Ff & V & N1 & N2 & N3).
  apply mbind_ok in H. destruct H as (e2 & [] & H2 & H). injection H2 as <-.
  apply mbind_ok in H. destruct H as (e2 & sx & H2 & H). apply gets_inv in H2. destruct H2 as [-> ->].
  apply mbind_ok in H. destruct H as (e3 & dua & H3 & H). apply arc_solve_ok in H3. destruct H3 as (L3 & S3 & s3 & W3). simpl in L3, S3, W3.
  apply mbind_ok in H. destruct H as (e4 & [] & H4 & H). injection H4 as <-.
  apply mbind_ok in H. destruct H as (e4 & w & H4 & H). apply getw_inv in H4. destruct H4 as [-> ->].
  apply mbind_ok in H. destruct H as (e5 & dub & H5 & H). apply arc_solve_ok in H5. destruct H5 as (L5 & S5 & s5 & W5). simpl in L5, S5, W5.
  apply mbind_ok in H. destruct H as (e6 & [] & H6 & H). injection H6 as <-. cbv zeta in H. simpl in H.
  rewrite W3, W1 in *. simpl in H, L5, W5. rewrite S3 in L5, S5. simpl in L5, S5. rewrite S1 in H, L3, L5. simpl in H, L3, L5.
  rewrite S0 in *. set (theta := a_theta st) in *. set (t := w_duds (e_w e)) in *. set (tl := w_dlds (e_w e)) in *.
  destruct (Rltb_spec (Rabs (theta * inner t dua - (2 - theta) * tl)) H_MIN) as [Ld|Ld]; [apply ret_inv in H; destruct H; discriminate|].
  apply mbind_ok in H. destruct H as (e7 & x1 & H7 & H). apply lift_inv in H7. destruct H7 as [-> H7].
  apply mbind_ok in H. destruct H as (e7 & x2 & H8 & H). apply lift_inv in H8. destruct H8 as [-> H8].
  apply mbind_ok in H. destruct H as (e7 & [] & H9 & H). injection H9 as <-. apply ret_inv in H. destruct H as [_ Hx]. injection Hx as ->.
  destruct (Ex _ _ _ _ _ V (eq_trans N1 (eq_sym N2)) Ff L3) as [La Ea].
  destruct (Ex _ _ _ _ _ V (eq_trans N1 (eq_sym N2)) Ff L5) as [Lb Eb].
  rewrite N1 in *. fold n in H7, H8.
  rewrite (inner_sumn t dua n) in Ld, H7, H8 by auto. rewrite (inner_sumn t dub n) in H7, H8 by auto.
  set (ta := sumn n (fun i => nth i t 0 * nth i dua 0)%R) in *. set (tb := sumn n (fun i => nth i t 0 * nth i dub 0)%R) in *.
  set (den := (theta * ta - (2 - theta) * tl)%R) in *. set (dl := ((nn - theta * tb) / den)%R) in *.
  assert (B : length x1 = length (a_x st) /\ n <= length x1 /\ forall i, i < n -> nth i x1 0%R = (- dl * nth i dua 0 - nth i dub 0)%R).
  { refine (for_range_partial (fun k x => length x = length (a_x st) /\ k <= length x /\ forall i, i < k -> nth i x 0%R = (- dl * nth i dua 0 - nth i dub 0)%R)
       _ 0 n _ _ _ H7 _ _); [lia | split; [reflexivity | split; [lia | intros; lia]] |].
    intros i y y' Hi (B0 & B1 & B2) B.
    rewrite (vget_ok dua i 0%R), (vget_ok dub i 0%R) in B by lia. simpl in B.
    unfold vset in B. destruct (Nat.ltb_spec i (length y)); [|discriminate B]. injection B as <-.
    rewrite upd_length. split; [exact B0|]. split; [lia|]. intros j Hj. destruct (Nat.eq_dec j i) as [->|Nj].
    - rewrite nth_upd_eq by lia. reflexivity.
    - rewrite nth_upd_ne by lia. apply B2. lia. }
  destruct B as (_ & B1 & B2). unfold vset in H8. destruct (Nat.ltb_spec n (length x1)) as [Lx|Lx]; [|discriminate H8]. injection H8 as <-.
  exists m, gl. split; [exact J|]. unfold newton_augmented. rewrite nth_upd_eq by lia.
  assert (Q : forall i, i < n -> nth i (upd x1 n dl) 0%R = (- dl * nth i dua 0 - nth i dub 0)%R).
  { intros i Hi. rewrite nth_upd_ne by lia. auto. }
  pose proof H_MIN_val as HM. assert (D0 : den <> 0%R). { intros D0. rewrite D0, Rabs_R0 in Ld. lra. }
  split.
  - intros i Hi.
    rewrite (sumn_ext n _ (fun j => - dl * (ent m i j * nth j dua 0) - ent m i j * nth j dub 0)%R) by (intros j Hj; rewrite Q by exact Hj; ring).
    rewrite sumn_minus, sumn_scal, Ea, Eb by exact Hi. ring.
  - rewrite (sumn_ext n _ (fun j => - dl * (nth j t 0 * nth j dua 0) - nth j t 0 * nth j dub 0)%R) by (intros j Hj; rewrite Q by exact Hj; ring).
    rewrite sumn_minus, sumn_scal. fold ta tb.
    replace (theta * (- dl * ta - tb) + (2 - theta) * tl * dl)%R with (- (dl * den) - theta * tb)%R by (unfold den; ring).
    unfold dl. field. exact D0.
Qed.

(** the algorithm gives up only if the denominator is small: with Gu a = Gl, this is
    |theta t^T a - (2 - theta) tl| < 1e-10 *)
Theorem C69_small_denominator nn (e e' : E) : c_bordering cfg = true -> sized cfg sys e ->
  arc_bordering F A cfg sys lin nn e = (e', Ok None) ->
  exists m gl a, jac_of sys (w_u (e_w e)) (w_l (e_w e)) m gl /\ length a = n /\
    (forall i, i < n -> sumn n (fun j => ent m i j * nth j a 0)%R = nth i gl 0%R) /\
    (Rabs (a_theta (e_s e) * sumn n (fun j => nth j (w_duds (e_w e)) 0 * nth j a 0) - (2 - a_theta (e_s e)) * w_dlds (e_w e)) < H_MIN)%R.
Proof.
  intros Hb Sz H. pose proof Sz as (Z1 & Z2 & _). unfold arc_bordering in H. apply mbind_ok in H. destruct H as (e1 & [] & H1 & H).
  apply arc_jac_full in H1; auto. destruct H1 as (st & m & gl & f & [s1 W1] & S1 & S0 & J & Ff & V & N1 & N2 & N3).
  apply mbind_ok in H. destruct H as (e2 & [] & H2 & H). injection H2 as <-.
  apply mbind_ok in H. destruct H as (e2 & sx & H2 & H). apply gets_inv in H2. destruct H2 as [-> ->].
  apply mbind_ok in H. destruct H as (e3 & dua & H3 & H). apply arc_solve_ok in H3. destruct H3 as (L3 & S3 & s3 & W3). simpl in L3, S3, W3.
  apply mbind_ok in H. destruct H as (e4 & [] & H4 & H). injection H4 as <-.
  apply mbind_ok in H. destruct H as (e4 & w & H4 & H). apply getw_inv in H4. destruct H4 as [-> ->].
  apply mbind_ok in H. destruct H as (e5 & dub & H5 & H). clear H5.
  apply mbind_ok in H. destruct H as (e6 & [] & H6 & H). clear H6. cbv zeta in H. simpl in H.
  rewrite W3, W1 in *. simpl in H. rewrite S1 in H, L3. simpl in H, L3. rewrite S0 in *.
  destruct (Ex _ _ _ _ _ V (eq_trans N1 (eq_sym N2)) Ff L3) as [La Ea]. rewrite N1 in *.
  exists m, gl, dua. split; [exact J|]. split; [exact La|]. split; [exact Ea|].
  rewrite <- (inner_sumn _ _ n) by auto.
  destruct (Rltb_spec (Rabs (a_theta st * inner (w_duds (e_w e)) dua - (2 - a_theta st) * w_dlds (e_w e))) H_MIN) as [Ld|Ld]; [exact Ld|].
  exfalso. repeat (apply mbind_ok in H; destruct H as (? & ? & _ & H)). apply ret_inv in H. destruct H as [_ H]. discriminate H.
Qed.

(** the state after the assembly and the factorization of the augmented matrix *)
Lemma arc_aa_full ini (e e' : E) x : c_bordering cfg = false -> sized cfg sys e -> arc_aa F A cfg sys lin ini e = (e', Ok x) ->
  exists st m aa gl f, eqw (e_w e) (e_w e') /\ e_s e' = set_a_ls f (set_a_aa aa (set_a_aa m (set_a_ggl gl st))) /\ e_s e = st /\
    jac_of sys (w_u (e_w e)) (w_l (e_w e)) m gl /\
    border A sys ini gl (w_duds (e_w e)) (a_theta st) (w_dlds (e_w e)) m = Ok aa /\
    ls_factorize lin (a_ls st) aa = (f, Ok tt) /\
    coo_valid m /\ c_nrow m = n + 1 /\ c_ncol m = n + 1 /\ c_sym m = SymNo /\ length gl = n /\
    forall a b, n <= a \/ n <= b -> ent m a b = 0%R.
Proof.
  intros Hb Sz. destruct Sz as (Z1 & Z2 & Z3). rewrite Hb in Z3. destruct Z3 as (Z3 & Z4 & Z5 & Z6).
  unfold arc_aa. intros H. apply mbind_ok in H. destruct H as (e0 & [] & H0 & H). apply lift_inv in H0. destruct H0 as [-> _].
  apply mbind_ok in H. destruct H as (e1 & [] & H1 & H). injection H1 as <-. simpl in H.
  apply mbind_ok in H. destruct H as (e2 & [] & H2 & H). simpl in H2.
  destruct (y_jac sys _ _ _ _ _) as [a [[m gl]|z|]] eqn:Ej; try discriminate H2. injection H2 as <-.
  apply mbind_ok in H. destruct H as (x1 & s1 & G1 & H). apply gets_inv in G1. destruct G1 as [-> ->].
  apply mbind_ok in H. destruct H as (x1 & s1 & G1 & H). apply getw_inv in G1. destruct G1 as [-> ->].
  apply mbind_ok in H. destruct H as (x1 & aa & G1 & H). apply lift_inv in G1. destruct G1 as [-> G1].
  apply mbind_ok in H. destruct H as (x1 & [] & G2 & H). injection G2 as <-.
  apply mbind_ok in H. destruct H as (e4 & [] & H4 & H). apply arc_write_same in H4. subst e4.
  apply mbind_ok in H. destruct H as (e5 & [] & H5 & H). injection H5 as <-. simpl in H.
  destruct (ls_factorize lin _ _) as [f r] eqn:Ef. injection H as <- ->. destruct x.
  destruct (Jc _ _ _ _ _ _ _ _ (coo_reset_valid R _ Z3) eq_refl Z1 Ej) as (J1 & J2 & J3 & J4 & J5 & J6). simpl in J2, J3, J4.
  do 5 eexists. split; [eexists; reflexivity|]. split; [reflexivity|]. split; [reflexivity|].
  split; [do 4 eexists; split; [|exact Ej]; reflexivity|]. split; [exact G1|]. split; [exact Ef|]. subst n. splits; auto; try congruence.
  intros a0 b0 L. unfold ent. rewrite J4, Z6, expand_no. apply (entry_out _ _ _ _ J6 L).
Qed.

(** rows of the augmented matrix *)
Lemma border_rows gl t theta tl m aa (x : vec) : coo_valid m -> c_nrow m = n + 1 -> c_ncol m = n + 1 -> c_sym m = SymNo ->
  (forall a b, n <= a \/ n <= b -> ent m a b = 0%R) -> border A sys false gl t theta tl m = Ok aa ->
  coo_valid aa /\ c_nrow aa = n + 1 /\ c_ncol aa = n + 1 /\
  (forall i, i < n -> sumn (n + 1) (fun j => ent aa i j * nth j x 0)%R = (sumn n (fun j => ent m i j * nth j x 0) + nth i gl 0 * nth n x 0)%R) /\
  (sumn (n + 1) (fun j => ent aa n j * nth j x 0) = theta * sumn n (fun j => nth j t 0 * nth j x 0) + (2 - theta) * tl * nth n x 0)%R.
Proof.
  intros V N1 N2 Sy Out B. destruct (border_ent sys gl t theta tl m aa V Sy B) as (V' & _ & R1 & R2 & Be).
  split; [exact V'|]. split; [congruence|]. split; [congruence|]. fold n in Be.
  replace (n + 1) with (Datatypes.S n) by lia.
  assert (A1 : (n <? n) = false) by apply Nat.ltb_irrefl.
  assert (A2 : (n =? n) = true) by apply Nat.eqb_refl.
  split.
  - intros i Hi. simpl. assert (A3 : (i <? n) = true) by (apply Nat.ltb_lt; lia). assert (A4 : (i =? n) = false) by (apply Nat.eqb_neq; lia). f_equal.
    + apply sumn_ext. intros j Hj. assert (A5 : (j =? n) = false) by (apply Nat.eqb_neq; lia). rewrite Be, A3, A4, A5. simpl. ring.
    + rewrite Be, A2, A3, A4, (Out i n) by (right; lia). simpl. ring.
  - simpl. f_equal.
    + rewrite <- sumn_scal. apply sumn_ext. intros j Hj. assert (A5 : (j =? n) = false) by (apply Nat.eqb_neq; lia).
      assert (A6 : (j <? n) = true) by (apply Nat.ltb_lt; lia). rewrite Be, A1, A2, A5, A6, (Out n j) by (left; lia). simpl. ring.
    + rewrite Be, A1, A2, (Out n n) by (left; lia). simpl. ring.
Qed.

(** the other implementation: the augmented matrix solves the same system *)
Theorem C69_augmented nn (e e' : E) x : c_bordering cfg = false -> sized cfg sys e ->
  arc_augmented F A cfg sys lin nn e = (e', Ok (Some x)) ->
  exists m gl, jac_of sys (w_u (e_w e)) (w_l (e_w e)) m gl /\
    newton_augmented n (ent m) gl (a_theta (e_s e)) (w_duds (e_w e)) (w_dlds (e_w e)) (w_gg (e_w e)) nn x.
Proof.
  intros Hb Sz H. unfold arc_augmented in H. apply mbind_ok in H. destruct H as (e1 & [] & H1 & H).
  apply arc_aa_full in H1; auto. destruct H1 as (st & m & aa & gl & f & [s1 W1] & S1 & S0 & J & Bo & Ff & V & N1 & N2 & Sy & N3 & Out).
  apply mbind_ok in H. destruct H as (e2 & [] & H2 & H). injection H2 as <-.
  apply mbind_ok in H. destruct H as (e2 & sx & H2 & H). apply gets_inv in H2. destruct H2 as [-> ->].
  apply mbind_ok in H. destruct H as (e4 & w & H4 & H). apply getw_inv in H4. destruct H4 as [-> ->].
  apply mbind_ok in H. destruct H as (e7 & b1 & H7 & H). apply lift_inv in H7. destruct H7 as [-> H7].
  apply mbind_ok in H. destruct H as (e7 & b2 & H8 & H). apply lift_inv in H8. destruct H8 as [-> H8].
  apply mbind_ok in H. destruct H as (e7 & [] & H9 & H). injection H9 as <-.
  apply mbind_ok in H. destruct H as (e5 & x' & H5 & H). apply arc_solve_ok in H5. destruct H5 as (L5 & S5 & s5 & W5). simpl in L5.
  apply mbind_ok in H. destruct H as (e6 & [] & H6 & H). apply ret_inv in H. destruct H as [_ Hx]. injection Hx as ->.
  simpl in H7, H8. rewrite W1 in H7. simpl in H7. rewrite S1 in H7, L5. simpl in H7, L5. fold n in H7, H8.
  assert (B : length b1 = length (a_b st) /\ n <= length b1 /\ forall i, i < n -> nth i b1 0%R = (- nth i (w_gg (e_w e)) 0)%R).
  { refine (for_range_partial (fun k b => length b = length (a_b st) /\ k <= length b /\ forall i, i < k -> nth i b 0%R = (- nth i (w_gg (e_w e)) 0)%R)
       _ 0 n _ _ _ H7 _ _); [lia | split; [reflexivity | split; [lia | intros; lia]] |].
    intros i y y' Hi (B0 & B1 & B2) B.
    destruct (vget (w_gg (e_w e)) i) as [ya|?|] eqn:E1; try discriminate B. apply (vget_ok_inv _ _ _ 0%R) in E1. destruct E1 as [E1 E1'].
    simpl in B. unfold vset in B. destruct (Nat.ltb_spec i (length y)); [|discriminate B]. injection B as <-.
    rewrite upd_length. split; [exact B0|]. split; [lia|]. intros j Hj. destruct (Nat.eq_dec j i) as [->|Nj].
    - rewrite nth_upd_eq by lia. rewrite E1'. reflexivity.
    - rewrite nth_upd_ne by lia. apply B2. lia. }
  destruct B as (_ & B1 & B2). unfold vset in H8. destruct (Nat.ltb_spec n (length b1)) as [Lx|Lx]; [|discriminate H8]. injection H8 as <-.
  rewrite S0 in *. destruct (border_rows _ _ _ _ _ _ x' V N1 N2 Sy Out Bo) as (V' & R1 & R2 & Ra & Rb).
  destruct (Ex _ _ _ _ _ V' (eq_trans R1 (eq_sym R2)) Ff L5) as [La Ea]. rewrite R1 in *.
  exists m, gl. split; [exact J|]. split.
  - intros i Hi. rewrite <- Ra, Ea by lia. rewrite nth_upd_ne by lia. auto.
  - rewrite <- Rb, Ea by lia. rewrite nth_upd_eq by lia. reflexivity.
Qed.
End Bordering.

(** The two implementations agree.  If Gu is non-singular and the denominator of the bordering
    algorithm does not vanish, Newton's system has one solution. *)
Theorem C69_unique n (gu : nat -> nat -> R) gl theta t tl g nn (a x y : vec) :
  (forall v : vec, (forall i, i < n -> sumn n (fun j => gu i j * nth j v 0)%R = 0%R) -> forall i, i < n -> nth i v 0%R = 0%R) ->
  (forall i, i < n -> sumn n (fun j => gu i j * nth j a 0)%R = nth i gl 0%R) ->
  (theta * sumn n (fun j => nth j t 0 * nth j a 0) - (2 - theta) * tl <> 0)%R ->
  length x = n + 1 -> length y = n + 1 ->
  newton_augmented n gu gl theta t tl g nn x -> newton_augmented n gu gl theta t tl g nn y -> x = y.
Proof.
  intros Inj Ha Hd Lx Ly [X1 X2] [Y1 Y2].
  set (w := (nth n x 0 - nth n y 0)%R).
  set (v := map (fun i => nth i x 0 - nth i y 0 + w * nth i a 0)%R (seq 0 n)).
  assert (Hv : forall j, j < n -> nth j v 0%R = (nth j x 0 - nth j y 0 + w * nth j a 0)%R).
  { intros j Hj. unfold v. rewrite (nth_indep _ 0%R ((fun i => nth i x 0 - nth i y 0 + w * nth i a 0)%R 0)) by (rewrite map_length, seq_length; lia).
    rewrite (map_nth (fun i => nth i x 0 - nth i y 0 + w * nth i a 0)%R (seq 0 n) 0 j), seq_nth by lia. reflexivity. }
  assert (Z : forall i, i < n -> nth i v 0%R = 0%R).
  { apply Inj. intros i Hi.
    rewrite (sumn_ext n _ (fun j => gu i j * nth j x 0 - gu i j * nth j y 0 + w * (gu i j * nth j a 0))%R) by (intros j Hj; rewrite Hv by exact Hj; ring).
    rewrite sumn_plus, sumn_minus, sumn_scal, Ha by exact Hi.
    specialize (X1 i Hi). specialize (Y1 i Hi). unfold w. lra. }
  assert (D : forall i, i < n -> (nth i x 0 - nth i y 0 = - w * nth i a 0)%R).
  { intros i Hi. specialize (Z i Hi). rewrite Hv in Z by exact Hi. lra. }
  assert (T : (sumn n (fun j => nth j t 0 * nth j x 0) - sumn n (fun j => nth j t 0 * nth j y 0) = - w * sumn n (fun j => nth j t 0 * nth j a 0))%R).
  { rewrite <- sumn_minus, <- sumn_scal. apply sumn_ext. intros j Hj. rewrite <- Rmult_minus_distr_l, D by exact Hj. ring. }
  assert (W : (w * (theta * sumn n (fun j => nth j t 0 * nth j a 0) - (2 - theta) * tl) = 0)%R).
  { unfold w at 1. set (S1 := sumn n (fun j => nth j t 0 * nth j x 0)%R) in *. set (S2 := sumn n (fun j => nth j t 0 * nth j y 0)%R) in *.
    set (S3 := sumn n (fun j => nth j t 0 * nth j a 0)%R) in *. clearbody S1 S2 S3.
    assert (Q1 : (theta * (S1 - S2) + (2 - theta) * tl * w = 0)%R) by (unfold w; lra).
    rewrite T in Q1. fold w. lra. }
  apply Rmult_integral in W. destruct W as [W|W]; [|contradiction].
  apply (nth_ext _ _ 0%R 0%R); [lia|]. intros i Hi. destruct (Nat.eq_dec i n) as [->|Ni]; [unfold w in W; lra|].
  specialize (D i ltac:(lia)). rewrite W in D. lra.
Qed.

(* ------------------------------------------------------------------ *)
(** * Tangent vectors *)

(** (t, tl) is a unit vector with Gu t + Gl tl = 0 *)
Definition unit_tangent (n : nat) (gu : nat -> nat -> R) (gl t : vec) (tl : R) : Prop :=
  length t = n /\
  (forall i, i < n -> (sumn n (fun j => gu i j * nth j t 0) + nth i gl 0 * tl = 0)%R) /\
  (sumn n (fun j => nth j t 0 * nth j t 0) + tl * tl = 1)%R.

Lemma eqw_refl w : eqw w w.
Proof. exists (w_stats w). destruct w; reflexivity. Qed.

(** a tangent from the solution of Gu a = Gl *)
Lemma tangent_bordering n gu gl (a d : vec) s : (s = 1 \/ s = -1)%R -> length a = n -> length d = n ->
  (forall i, i < n -> sumn n (fun j => gu i j * nth j a 0)%R = nth i gl 0%R) ->
  let tl := (s / sqrt (1 + inner a a))%R in
  (forall i, i < n -> nth i d 0%R = (- tl * nth i a 0)%R) ->
  unit_tangent n gu gl d tl /\ (0 < s * tl)%R.
Proof.
  intros Hs La Ld Ha. rewrite (inner_sumn a a n La La). intros tl Hd.
  set (q := sumn n (fun j => nth j a 0 * nth j a 0)%R) in *.
  assert (Q : (0 <= q)%R) by (apply sumn_nonneg; intros; apply Rle_0_sqr).
  assert (Sp : (0 < sqrt (1 + q))%R) by (apply sqrt_lt_R0; lra).
  assert (Ss : (sqrt (1 + q) * sqrt (1 + q) = 1 + q)%R) by (apply sqrt_sqrt; lra).
  assert (S2 : (s * s = 1)%R) by (destruct Hs as [-> | ->]; ring).
  assert (T2 : (tl * tl * (1 + q) = 1)%R).
  { unfold tl. set (r := sqrt (1 + q)) in *. rewrite <- Ss. replace (s / r * (s / r) * (r * r))%R with (s * s)%R by (field; lra). exact S2. }
  split.
  - split; [exact Ld|]. split.
    + intros i Hi. rewrite (sumn_ext n _ (fun j => - tl * (gu i j * nth j a 0))%R) by (intros j Hj; rewrite Hd by exact Hj; ring).
      rewrite sumn_scal, Ha by exact Hi. ring.
    + rewrite (sumn_ext n _ (fun j => (tl * tl) * (nth j a 0 * nth j a 0))%R) by (intros j Hj; rewrite Hd by exact Hj; ring).
      rewrite sumn_scal. fold q. lra.
  - unfold tl. replace (s * (s / sqrt (1 + q)))%R with (s * s * / sqrt (1 + q))%R by (field; lra). rewrite S2, Rmult_1_l. apply Rinv_0_lt_compat, Sp.
Qed.

Lemma vcopy_scaled_ok (v : vec) a u w : vcopy_scaled v a u = Ok w ->
  length u = length v /\ length w = length u /\ forall i, i < length u -> nth i w 0%R = (a * nth i u 0)%R.
Proof.
  unfold vcopy_scaled. destruct (Nat.eqb_spec (length u) (length v)) as [L|L]; [|discriminate]. intros H. injection H as <-.
  split; [exact L|]. split; [apply map_length|]. intros i Hi.
  rewrite (nth_indep _ 0%R ((fun x => a * x)%R 0%R)) by (rewrite map_length; exact Hi). apply (map_nth (fun x => a * x)%R).
Qed.

Lemma scaled_loop n (f : R -> R) (x d d' : vec) :
  for_range 0 n (fun i d => xi <- vget x i ;; vset d i (f xi)) d = Ok d' ->
  length d' = length d /\ n <= length d /\ forall i, i < n -> nth i d' 0%R = f (nth i x 0%R).
Proof.
  intros H.
  refine (for_range_partial (fun k y => length y = length d /\ k <= length d /\ forall i, i < k -> nth i y 0%R = f (nth i x 0%R)) _ 0 n _ _ _ H _ _);
    [lia | split; [reflexivity | split; [lia | intros; lia]] |].
  intros i y y' Hi (B0 & B1 & B2) B.
  destruct (vget x i) as [xi|z|] eqn:E1; try discriminate B. apply (vget_ok_inv _ _ _ 0%R) in E1. destruct E1 as [_ E1].
  simpl in B. unfold vset in B. destruct (Nat.ltb_spec i (length y)); [|discriminate B]. injection B as <-.
  rewrite upd_length. split; [exact B0|]. split; [lia|]. intros j Hj. destruct (Nat.eq_dec j i) as [->|Nj].
  - rewrite nth_upd_eq by lia. rewrite E1. reflexivity.
  - rewrite nth_upd_ne by lia. apply B2. lia.
Qed.

(** the matrix for the initial tangent: Gu with a unit diagonal entry *)
Lemma border_ini_ent {A} (sys : system A) (gl t : vec) theta tl m aa : let n := y_ndim sys in
  coo_valid m -> c_sym m = SymNo ->
  border A sys true gl t theta tl m = Ok aa ->
  coo_valid aa /\ c_nrow aa = c_nrow m /\ c_ncol aa = c_ncol m /\
  forall a b, ent aa a b = (ent m a b + (if (a =? n) && (b =? n) then 1 else 0))%R.
Proof.
  intros n V Sy H. unfold border in H. fold n in H.
  destruct (for_range _ _ _ _) as [m1|z|] eqn:E1; try discriminate H. simpl in H.
  assert (B : coo_valid m1 /\ c_sym m1 = SymNo /\ c_nrow m1 = c_nrow m /\ c_ncol m1 = c_ncol m /\
    forall a b, ent m1 a b = ent m a b).
  { refine (for_range_partial (fun k m1 => coo_valid m1 /\ c_sym m1 = SymNo /\ c_nrow m1 = c_nrow m /\ c_ncol m1 = c_ncol m /\
      forall a b, ent m1 a b = ent m a b) _ 0 n _ _ _ E1 _ _); [lia| splits; auto |].
    - intros i c c' Hi (C1 & C2 & C3 & C4 & C5) B.
      destruct (put_unwrap c i n 0) as [c1|z|] eqn:P1; try discriminate B. simpl in B.
      apply put_ent in P1; auto. destruct P1 as (D1 & D2 & D3 & D4 & D5).
      apply put_ent in B; auto. destruct B as (F1 & F2 & F3 & F4 & F5).
      splits; auto; try congruence. intros a b. rewrite F5, D5, C5. destruct (_ && _), (_ && _); ring. }
  destruct B as (B1 & B2 & B3 & B4 & B5).
  apply put_ent in H; auto. destruct H as (F1 & F2 & F3 & F4 & F5).
  splits; auto; try congruence. intros a b. rewrite F5, B5, (Nat.eqb_sym n a), (Nat.eqb_sym n b). reflexivity.
Qed.

Section Tangent.
Context {F A : Type} (fin : R -> bool) (cfg : config) (sys : system A) (lin : linsolver F).
Let E := env (arcst F) A.
Let n := y_ndim sys.
Hypothesis Ex : exact_solver lin.
Hypothesis Jc : jac_contract sys.

(** The initial tangent is a unit vector in the kernel of (Gu, Gl) at the initial state, and lambda
    goes in the requested direction. *)
Theorem C77_initial sign0 (e e' : E) : (sign0 = 1 \/ sign0 = -1)%R -> sized cfg sys e ->
  arc_initial_tangent F A cfg sys lin sign0 e = (e', Ok tt) ->
  exists m gl, jac_of sys (w_u (e_w e)) (w_l (e_w e)) m gl /\
    unit_tangent n (ent m) gl (w_duds (e_w e')) (w_dlds (e_w e')) /\ (0 < sign0 * w_dlds (e_w e'))%R.
Proof.
  intros Hs Sz H. pose proof Sz as (Z1 & Z2 & _). unfold arc_initial_tangent in H. set (k := y_ndim sys) in *. change n with k.
  apply mbind_ok in H. destruct H as (e0 & [] & H0 & H).
  apply mbind_ok in H. destruct H as (e9 & w9 & H9 & H). apply getw_inv in H9. destruct H9 as [-> ->].
  assert (e' = e0).
  { destruct (Rltb _ _); [apply lift_inv in H; destruct H; discriminate|].
    destruct (Rltb _ _); [apply lift_inv in H; destruct H; discriminate|]. apply ret_inv in H. apply H. }
  subst e'. clear H. rename H0 into H.
  destruct (c_bordering cfg) eqn:Hb.
  - apply mbind_ok in H. destruct H as (e1 & [] & H1 & H).
    apply (arc_jac_full cfg sys lin Jc) in H1; auto. destruct H1 as (st & m & gl & f & [s1 W1] & S1 & S0 & J & Ff & V & N1 & N2 & N3). fold k in N1, N2, N3.
    apply mbind_ok in H. destruct H as (e2 & sx & H2 & H). apply gets_inv in H2. destruct H2 as [-> ->].
    apply mbind_ok in H. destruct H as (e3 & a & H3 & H). apply arc_solve_ok in H3. destruct H3 as (L3 & S3 & s3 & W3).
    apply mbind_ok in H. destruct H as (e4 & [] & H4 & H). injection H4 as <-. cbv zeta in H.
    apply mbind_ok in H. destruct H as (e4 & w & H4 & H). apply getw_inv in H4. destruct H4 as [-> ->].
    apply mbind_ok in H. destruct H as (e4 & d & H4 & H). apply lift_inv in H4. destruct H4 as [-> H4].
    injection H as <-. simpl. simpl in H4. rewrite W3, W1 in H4. simpl in H4.
    rewrite S1 in L3. simpl in L3.
    destruct (Ex _ _ _ _ _ V (eq_trans N1 (eq_sym N2)) Ff L3) as [La Ea]. rewrite N1 in *.
    apply vcopy_scaled_ok in H4. destruct H4 as (C1 & C2 & C3).
    exists m, gl. split; [exact J|]. apply (tangent_bordering k (ent m) gl a d sign0); auto; try congruence.
    intros i Hi. apply C3. lia.
  - apply mbind_ok in H. destruct H as (e1 & [] & H1 & H).
    apply (arc_aa_full cfg sys lin Jc) in H1; auto.
    destruct H1 as (st & m & aa & gl & f & [s1 W1] & S1 & S0 & J & Bo & Ff & V & N1 & N2 & Sy & N3 & Out). fold k in N1, N2, N3, Out.
    apply mbind_ok in H. destruct H as (e2 & sx & H2 & H). apply gets_inv in H2. destruct H2 as [-> ->].
    apply mbind_ok in H. destruct H as (e7 & b1 & H7 & H). apply lift_inv in H7. destruct H7 as [-> H7].
    apply mbind_ok in H. destruct H as (e7 & b2 & H8 & H). apply lift_inv in H8. destruct H8 as [-> H8].
    apply mbind_ok in H. destruct H as (e7 & [] & H9 & H). injection H9 as <-.
    apply mbind_ok in H. destruct H as (e5 & x & H5 & H). apply arc_solve_ok in H5. destruct H5 as (L5 & S5 & s5 & W5). simpl in L5.
    apply mbind_ok in H. destruct H as (e6 & [] & H6 & H). injection H6 as <-.
    apply mbind_ok in H. destruct H as (e7 & xn & H9 & H). apply lift_inv in H9. destruct H9 as [-> H9].
    apply mbind_ok in H. destruct H as (e7 & [] & H10 & H). apply lift_inv in H10. destruct H10 as [-> H10]. cbv zeta in H.
    apply mbind_ok in H. destruct H as (e4 & w & H4 & H). apply getw_inv in H4. destruct H4 as [-> ->].
    apply mbind_ok in H. destruct H as (e4 & d & H4 & H). apply lift_inv in H4. destruct H4 as [-> H4].
    injection H as <-. simpl. simpl in H4. rewrite W5 in H4. simpl in H4. rewrite W1 in H4. simpl in H4.
    rewrite S1 in L5, H7. simpl in L5, H7.
    apply scaled_loop in H7. destruct H7 as (B0 & B1 & B2).
    unfold vset in H8. destruct (Nat.ltb_spec k (length b1)) as [Lx|Lx]; [|discriminate H8]. injection H8 as <-.
    destruct (border_ini_ent sys _ _ _ _ _ _ V Sy Bo) as (V' & R1 & R2 & Be). fold k in Be.
    assert (R1' : c_nrow aa = k + 1) by congruence. assert (R2' : c_ncol aa = k + 1) by congruence.
    destruct (Ex _ _ _ _ _ V' (eq_trans R1' (eq_sym R2')) Ff L5) as [La Ea]. rewrite R1' in *.
    apply (vget_ok_inv _ _ _ 0%R) in H9. destruct H9 as [_ H9].
    assert (X0 : xn = 0%R). { unfold assert_ in H10. destruct (Reqb_spec xn 0) as [Q|Q]; [exact Q | discriminate H10]. }
    set (y := map (fun v => - v)%R (firstn k x)).
    assert (Ly : length y = k) by (unfold y; rewrite map_length, firstn_length; lia).
    assert (Hy : forall i, i < k -> nth i y 0%R = (- nth i x 0)%R).
    { intros i Hi. unfold y. rewrite (nth_indep _ 0%R (- 0)%R) by (rewrite map_length, firstn_length; lia).
      rewrite (map_nth (fun v => - v)%R), nth_firstn_lt by lia. reflexivity. }
    assert (Ei : inner x x = inner y y).
    { rewrite (inner_sumn x x (k + 1)), (inner_sumn y y k) by auto. rewrite Nat.add_1_r. simpl. rewrite H9, X0.
      rewrite (sumn_ext k (fun i => nth i y 0 * nth i y 0)%R (fun i => nth i x 0 * nth i x 0)%R) by (intros j Hj; rewrite Hy by exact Hj; ring). ring. }
    apply scaled_loop in H4. destruct H4 as (D1 & D2 & D3). rewrite Ei in *.
    exists m, gl. split; [exact J|]. apply (tangent_bordering k (ent m) gl y d sign0); auto; try congruence.
    + intros i Hi. rewrite (sumn_ext k _ (fun j => - (ent m i j * nth j x 0))%R) by (intros j Hj; rewrite Hy by exact Hj; ring).
      rewrite sumn_opp. specialize (Ea i ltac:(lia)). rewrite Nat.add_1_r in Ea. simpl in Ea. rewrite nth_upd_ne, B2 in Ea by lia.
      assert (A4 : (i =? k) = false) by (apply Nat.eqb_neq; lia).
      rewrite (sumn_ext k _ (fun j => ent m i j * nth j x 0)%R) in Ea by (intros j Hj; rewrite Be, A4; simpl; ring).
      rewrite H9, X0 in Ea. lra.
    + intros i Hi. rewrite D3, Hy by exact Hi. ring.
Qed.

(** the matrix that the linear solver holds, with its Gu and Gl *)
Definition factored (e : E) (m : coo R) (gl : vec) : Prop :=
  a_ggl (e_s e) = gl /\ length gl = n /\ coo_valid m /\
  if c_bordering cfg then
    c_nrow m = n /\ c_ncol m = n /\ exists f0, ls_factorize lin f0 m = (a_ls (e_s e), Ok tt)
  else
    c_nrow m = n + 1 /\ c_ncol m = n + 1 /\ c_sym m = SymNo /\ (forall a b, n <= a \/ n <= b -> ent m a b = 0%R) /\
    exists f0 aa, border A sys false gl (w_duds (e_w e)) (a_theta (e_s e)) (w_dlds (e_w e)) m = Ok aa /\
                  ls_factorize lin f0 aa = (a_ls (e_s e), Ok tt).

(** not turning back: the scalar product with the previous tangent is not negative (the augmented
    system weighs its two parts with theta and 2 - theta: with theta = 1 it is the scalar product) *)
Definition forward (theta : R) (t : vec) (tl : R) (t' : vec) (tl' : R) : Prop :=
  if c_bordering cfg then (0 <= sumn n (fun j => nth j t' 0 * nth j t 0) + tl' * tl)%R
  else (0 < theta * sumn n (fun j => nth j t 0 * nth j t' 0) + (2 - theta) * tl * tl')%R.

(** [past]: what is known of the Jacobian that the linear solver holds, if it is reused *)
Theorem C77_update (past : coo R -> vec -> Prop) (e e' : E) : sized cfg sys e ->
  (a_iter_jac (e_s e) = true -> exists m gl, past m gl /\ factored e m gl) ->
  arc_update_tangent F A cfg sys lin e = (e', Ok tt) ->
  exists m gl,
    (if a_iter_jac (e_s e) then past m gl else jac_of sys (w_u (e_w e)) (w_l (e_w e)) m gl) /\
    unit_tangent n (ent m) gl (w_duds (e_w e')) (w_dlds (e_w e')) /\
    forward (a_theta (e_s e)) (w_duds (e_w e)) (w_dlds (e_w e)) (w_duds (e_w e')) (w_dlds (e_w e')) /\
    w_u (e_w e') = w_u (e_w e) /\ w_l (e_w e') = w_l (e_w e).
Proof.
  intros Sz Hf H. pose proof Sz as (Z1 & Z2 & Z3). unfold arc_update_tangent in H. set (k := y_ndim sys) in *. change n with k.
  apply mbind_ok in H. destruct H as (e1 & w & H1 & H). apply getw_inv in H1. destruct H1 as [-> ->].
  apply mbind_ok in H. destruct H as (e1 & s & H1 & H). apply gets_inv in H1. destruct H1 as [-> ->].
  apply mbind_ok in H. destruct H as (e1 & p & H1 & H). apply lift_inv in H1. destruct H1 as [-> H1].
  apply mbind_ok in H. destruct H as (e1 & [] & H2 & H). injection H2 as <-.
  match type of H with _ ?x = _ => set (e1 := x) in H end.
  assert (Ep : p = w_duds (e_w e)) by (unfold vcopy in H1; destruct (_ =? _); congruence). subst p.
  assert (Sz1 : sized cfg sys e1) by exact Sz.
  unfold forward. change n with k. destruct (c_bordering cfg) eqn:Hb.
  - apply mbind_ok in H. destruct H as (e2 & [] & H2 & H).
    assert (Q : exists m gl, (if a_iter_jac (e_s e) then past m gl else jac_of sys (w_u (e_w e)) (w_l (e_w e)) m gl) /\
              eqw (e_w e) (e_w e2) /\ a_ggl (e_s e2) = gl /\ coo_valid m /\ c_nrow m = k /\ c_ncol m = k /\ length gl = k /\
              exists f0, ls_factorize lin f0 m = (a_ls (e_s e2), Ok tt)).
    { destruct (a_iter_jac (e_s e)) eqn:Ei.
      - apply ret_inv in H2. destruct H2 as [-> _]. destruct (Hf eq_refl) as (m & gl & Pm & Fm). exists m, gl. split; [exact Pm|].
        unfold factored in Fm. rewrite Hb in Fm. destruct Fm as (F1 & F2 & F3 & F4 & F5 & F6).
        split; [exact (eqw_refl (e_w e))|]. splits; auto.
      - apply (arc_jac_full cfg sys lin Jc) in H2; auto. destruct H2 as (st & m & gl & f & W1 & S1 & S0 & J & Ff & V & N1 & N2 & N3). fold k in N1, N2, N3.
        exists m, gl. split; [exact J|]. split; [exact W1|]. rewrite S1. simpl. splits; auto. eexists. exact Ff. }
    clear H2. destruct Q as (m & gl & Qm & [s1 W1] & Qg & V & N1 & N2 & N3 & f0 & Ff).
    apply mbind_ok in H. destruct H as (e3 & sx & H3 & H). apply gets_inv in H3. destruct H3 as [-> ->].
    apply mbind_ok in H. destruct H as (e3 & a & H3 & H). apply arc_solve_ok in H3. destruct H3 as (L3 & S3 & s3 & W3).
    apply mbind_ok in H. destruct H as (e4 & [] & H4 & H). injection H4 as <-. cbv zeta in H.
    apply mbind_ok in H. destruct H as (e4 & d & H4 & H). apply lift_inv in H4. destruct H4 as [-> H4].
    apply mbind_ok in H. destruct H as (e5 & [] & H5 & H). injection H5 as <-.
    rewrite Qg in L3. destruct (Ex _ _ _ _ _ V (eq_trans N1 (eq_sym N2)) Ff L3) as [La Ea]. rewrite N1 in *.
    apply vcopy_scaled_ok in H4. destruct H4 as (C1 & C2 & C3).
    set (tl := (1 / sqrt (1 + inner a a))%R) in *.
    destruct (tangent_bordering k (ent m) gl a d 1) as [T _]; auto; [lia | intros i Hi; apply C3; lia |]. fold tl in T.
    exists m, gl. split; [exact Qm|].
    rewrite (inner_sumn d (w_duds (e_w e)) k) in H by (try lia; exact Z2).
    destruct (Rltb_spec (sumn k (fun i => nth i d 0 * nth i (w_duds (e_w e)) 0) + tl * w_dlds (e_w e)) 0)%R as [Lt|Lt].
    + apply mbind_ok in H. destruct H as (e6 & d' & H6 & H). apply lift_inv in H6. destruct H6 as [-> H6].
      injection H as <-. simpl. rewrite W3, W1. simpl.
      assert (B : length d' = k /\ forall i, i < k -> nth i d' 0%R = (- nth i d 0)%R).
      { assert (B : length d' = k /\ (forall i, i < k -> nth i d' 0%R = (- nth i d 0)%R) /\ forall i, k <= i -> nth i d' 0%R = nth i d 0%R).
        { refine (for_range_partial (fun j y => length y = k /\ (forall i, i < j -> nth i y 0%R = (- nth i d 0)%R) /\ forall i, j <= i -> nth i y 0%R = nth i d 0%R)
            _ 0 k _ _ _ H6 _ _); [lia | split; [lia | split; [intros; lia | reflexivity]] |].
          intros i y y' Hi (B0 & B1 & B2) B.
          rewrite (vget_ok y i 0%R) in B by lia. simpl in B. unfold vset in B. destruct (Nat.ltb_spec i (length y)); [|discriminate B]. injection B as <-.
          rewrite upd_length. split; [exact B0|]. split; intros j Hj; (destruct (Nat.eq_dec j i) as [->|Nj]; [|rewrite nth_upd_ne by lia]).
          - rewrite nth_upd_eq by lia. rewrite B2 by lia. reflexivity.
          - apply B1. lia.
          - lia.
          - apply B2. lia. }
        destruct B as (B0 & B1 & _). auto. }
      destruct B as [B1 B2]. destruct T as (T1 & T2 & T3).
      split; [|split; [|auto]].
      * split; [exact B1|]. split.
        -- intros i Hi. rewrite (sumn_ext k _ (fun j => - (ent m i j * nth j d 0))%R) by (intros j Hj; rewrite B2 by exact Hj; ring).
           rewrite sumn_opp. specialize (T2 i Hi). lra.
        -- rewrite (sumn_ext k _ (fun j => nth j d 0 * nth j d 0)%R) by (intros j Hj; rewrite B2 by exact Hj; ring). lra.
      * rewrite (sumn_ext k _ (fun j => - (nth j d 0 * nth j (w_duds (e_w e)) 0))%R) by (intros j Hj; rewrite B2 by exact Hj; ring).
        rewrite sumn_opp. lra.
    + apply ret_inv in H. destruct H as [-> _]. simpl. rewrite W3, W1. simpl. split; [exact T|]. split; [lra | auto].
  - apply mbind_ok in H. destruct H as (e2 & [] & H2 & H).
    assert (Q : exists m gl, (if a_iter_jac (e_s e) then past m gl else jac_of sys (w_u (e_w e)) (w_l (e_w e)) m gl) /\
              eqw (e_w e) (e_w e2) /\ coo_valid m /\ c_nrow m = k + 1 /\ c_ncol m = k + 1 /\ c_sym m = SymNo /\
              (forall a b, k <= a \/ k <= b -> ent m a b = 0%R) /\
              exists f0 aa, border A sys false gl (w_duds (e_w e)) (a_theta (e_s e)) (w_dlds (e_w e)) m = Ok aa /\
                  ls_factorize lin f0 aa = (a_ls (e_s e2), Ok tt)).
    { destruct (a_iter_jac (e_s e)) eqn:Ei.
      - apply ret_inv in H2. destruct H2 as [-> _]. destruct (Hf eq_refl) as (m & gl & Pm & Fm). exists m, gl. split; [exact Pm|].
        unfold factored in Fm. rewrite Hb in Fm. destruct Fm as (F1 & F2 & F3 & F4 & F5 & F6 & F7 & F8).
        split; [exact (eqw_refl (e_w e))|]. splits; auto.
      - apply (arc_aa_full cfg sys lin Jc) in H2; auto.
        destruct H2 as (st & m & aa & gl & f & W1 & S1 & S0 & J & Bo & Ff & V & N1 & N2 & Sy & N3 & Out). fold k in N1, N2, N3, Out.
        exists m, gl. split; [exact J|]. split; [exact W1|]. rewrite S1. simpl. splits; auto. do 2 eexists. split; [|exact Ff].
        rewrite <- S0 in Bo. exact Bo. }
    clear H2. destruct Q as (m & gl & Qm & [s1 W1] & V & N1 & N2 & Sy & Out & f0 & aa & Bo & Ff).
    apply mbind_ok in H. destruct H as (e3 & sx & H3 & H). apply gets_inv in H3. destruct H3 as [-> ->].
    apply mbind_ok in H. destruct H as (e3 & b & H3 & H). apply lift_inv in H3. destruct H3 as [-> H3].
    apply mbind_ok in H. destruct H as (e4 & [] & H4 & H). injection H4 as <-.
    apply mbind_ok in H. destruct H as (e5 & x & H5 & H). apply arc_solve_ok in H5. destruct H5 as (L5 & S5 & s5 & W5). simpl in L5, W5.
    apply mbind_ok in H. destruct H as (e6 & [] & H6 & H). injection H6 as <-. cbv zeta in H.
    apply mbind_ok in H. destruct H as (e6 & d & H6 & H). apply lift_inv in H6. destruct H6 as [-> H6].
    apply mbind_ok in H. destruct H as (e6 & xn & H7 & H). apply lift_inv in H7. destruct H7 as [-> H7].
    injection H as <-. simpl. rewrite W5, W1. simpl.
    destruct (border_rows sys _ _ _ _ _ _ x V N1 N2 Sy Out Bo) as (V' & R1 & R2 & Ra & Rb). fold k in Ra, Rb, R1, R2.
    destruct (Ex _ _ _ _ _ V' (eq_trans R1 (eq_sym R2)) Ff L5) as [La Ea]. rewrite R1 in *.
    apply (scaled_loop k (fun xi => xi / vnorm2 x)%R) in H6. destruct H6 as (D1 & D2 & D3).
    apply (vget_ok_inv _ _ _ 0%R) in H7. destruct H7 as [_ H7].
    unfold vset in H3. rewrite repeat_length in H3. destruct (Nat.ltb_spec k (length (a_b (e_s e2)))) as [Lb|Lb]; [|discriminate H3]. injection H3 as <-.
    set (q := (sumn k (fun j => nth j x 0 * nth j x 0) + xn * xn)%R).
    assert (Eq : inner x x = q).
    { rewrite (inner_sumn x x (k + 1)) by auto. rewrite Nat.add_1_r. simpl. rewrite H7. reflexivity. }
    assert (Rn : (sumn (k + 1) (fun j => ent aa k j * nth j x 0) = 1)%R).
    { rewrite Ea by lia. apply nth_upd_eq. rewrite repeat_length. exact Lb. }
    assert (Hi0 : forall i, i < k -> (sumn k (fun j => ent m i j * nth j x 0) + nth i gl 0 * xn = 0)%R).
    { intros i Hi. rewrite <- H7, <- Ra, Ea by lia. rewrite nth_upd_ne by lia. apply nth_repeat_lt. lia. }
    assert (Q0 : (0 <= sumn k (fun j => nth j x 0 * nth j x 0))%R) by (apply sumn_nonneg; intros; apply Rle_0_sqr).
    assert (Qp : (0 < q)%R).
    { destruct (Rle_or_lt q 0) as [Lq|Lq]; [|exact Lq]. exfalso.
      assert (X2 : (xn * xn = 0)%R) by (unfold q in Lq; pose proof (Rle_0_sqr xn) as P; unfold Rsqr in P; lra).
      assert (X1 : sumn k (fun j => nth j x 0 * nth j x 0)%R = 0%R) by (unfold q in Lq; lra).
      assert (Xn : xn = 0%R) by (apply Rsqr_0_uniq; exact X2).
      pose proof (sumn_nonneg_zero k _ (fun i _ => Rle_0_sqr (nth i x 0%R)) X1) as Xz.
      rewrite Rb, H7, Xn in Rn.
      rewrite (sumn_zero k) in Rn; [lra|]. intros i Hi. specialize (Xz i Hi). apply Rsqr_0_uniq in Xz. rewrite Xz. ring. }
    set (r := vnorm2 x) in *. assert (Er : r = sqrt q) by (unfold r, vnorm2; rewrite Eq; reflexivity).
    assert (Rp : (0 < r)%R) by (rewrite Er; apply sqrt_lt_R0; exact Qp).
    assert (Rr : (r * r = q)%R) by (rewrite Er; apply sqrt_sqrt; lra).
    exists m, gl. split; [exact Qm|]. split; [|split; [|auto]].
    + split; [rewrite D1; exact Z2|]. split.
      * intros i Hi. rewrite (sumn_ext k _ (fun j => / r * (ent m i j * nth j x 0))%R) by (intros j Hj; rewrite D3 by exact Hj; unfold Rdiv; ring).
        rewrite sumn_scal. specialize (Hi0 i Hi). unfold Rdiv.
        replace (/ r * sumn k (fun j => ent m i j * nth j x 0) + nth i gl 0 * (xn * / r))%R
          with (/ r * (sumn k (fun j => ent m i j * nth j x 0) + nth i gl 0 * xn))%R by ring.
        rewrite Hi0. ring.
      * rewrite (sumn_ext k _ (fun j => (/ r * / r) * (nth j x 0 * nth j x 0))%R) by (intros j Hj; rewrite D3 by exact Hj; unfold Rdiv; ring).
        rewrite sumn_scal.
        replace (/ r * / r * sumn k (fun i => nth i x 0 * nth i x 0) + xn / r * (xn / r))%R with (q / (r * r))%R by (unfold q; field; lra).
        rewrite Rr. field. lra.
    + rewrite (sumn_ext k _ (fun j => / r * (nth j (w_duds (e_w e)) 0 * nth j x 0))%R) by (intros j Hj; rewrite D3 by exact Hj; unfold Rdiv; ring).
      rewrite sumn_scal. rewrite Rb, H7 in Rn.
      replace (a_theta (e_s e) * (/ r * sumn k (fun i => nth i (w_duds (e_w e)) 0 * nth i x 0)) + (2 - a_theta (e_s e)) * w_dlds (e_w e) * (xn / r))%R
        with (/ r * (a_theta (e_s e) * sumn k (fun i => nth i (w_duds (e_w e)) 0 * nth i x 0) + (2 - a_theta (e_s e)) * w_dlds (e_w e) * xn))%R by (field; lra).
      rewrite Rn, Rmult_1_r. apply Rinv_0_lt_compat, Rp.
Qed.

(** [pkeeps Q m]: a successful computation keeps Q *)
Definition pkeeps {X} (Q : E -> Prop) (m : M E X) : Prop := forall e e' x, Q e -> m e = (e', Ok x) -> Q e'.
Lemma pk_keeps {X} Q (m : M E X) : keeps Q m -> pkeeps Q m.
Proof. intros H e e' x He Hm. specialize (H e He). rewrite Hm in H. exact H. Qed.
Lemma pk_bind {X Y} Q (m : M E X) (k : X -> M E Y) : pkeeps Q m -> (forall x, pkeeps Q (k x)) -> pkeeps Q (mbind m k).
Proof. intros H1 H2 e e' y He H. apply mbind_ok in H. destruct H as (e1 & x & Hx & Hk). exact (H2 x _ _ _ (H1 _ _ _ He Hx) Hk). Qed.
Lemma pk_if {X} Q (b : bool) (m1 m2 : M E X) : pkeeps Q m1 -> pkeeps Q m2 -> pkeeps Q (if b then m1 else m2).
Proof. destruct b; auto. Qed.
Lemma pk_loop {X} Q (body : nat -> X -> M E (bool * X)) :
  (forall i x, pkeeps Q (body i x)) -> forall k i x, pkeeps Q (mloop k i body x).
Proof.
  intros HB. induction k as [|k IH]; intros i x; simpl; [apply pk_keeps, kp_ret|].
  apply pk_bind; [apply HB|]. intros [b y]; simpl. destruct b; [apply pk_keeps, kp_ret | apply IH].
Qed.

(** during the iterations of a step: the tangent is that of the last accepted point, and the
    factorized matrix, if any, was assembled at an iterate *)
Definition hist (e : E) : Prop := exists u l m gl, jac_of sys u l m gl /\ factored e m gl.
Definition fac (t : vec) (tl : R) (e : E) : Prop :=
  sized cfg sys e /\ w_duds (e_w e) = t /\ w_dlds (e_w e) = tl /\ arc_inv (e_s e) /\ hist e.
Definition iter_inv (t : vec) (tl : R) (e : E) : Prop :=
  sized cfg sys e /\ w_duds (e_w e) = t /\ w_dlds (e_w e) = tl /\ arc_inv (e_s e) /\ (a_iter_jac (e_s e) = true -> hist e).
Lemma fac_inv t tl e : fac t tl e -> iter_inv t tl e.
Proof. intros (H1 & H2 & H3 & H4 & H5). exact (conj H1 (conj H2 (conj H3 (conj H4 (fun _ => H5))))). Qed.

Lemma pk_jac t tl (e e' : E) x : c_bordering cfg = true -> iter_inv t tl e -> arc_jac F A cfg sys lin e = (e', Ok x) -> fac t tl e'.
Proof.
  intros Hb (Sz & T1 & T2 & Ti & _) H. pose proof Sz as (Z1 & Z2 & Z3).
  apply (arc_jac_full cfg sys lin Jc) in H; auto. destruct H as (st & m & gl & f & [s1 W1] & S1 & S0 & J & Ff & V & N1 & N2 & N3).
  unfold fac, sized. rewrite W1, S1. simpl. rewrite Hb. split; [auto|]. split; [exact T1|]. split; [exact T2|]. split; [rewrite <- S0; exact Ti|].
  unfold hist. do 4 eexists. split; [exact J|]. unfold factored. rewrite S1, Hb. simpl. splits; auto. eexists. exact Ff.
Qed.
Lemma pk_aa t tl (e e' : E) x : c_bordering cfg = false -> iter_inv t tl e -> arc_aa F A cfg sys lin false e = (e', Ok x) -> fac t tl e'.
Proof.
  intros Hb (Sz & T1 & T2 & Ti & _) H. pose proof Sz as (Z1 & Z2 & Z3).
  apply (arc_aa_full cfg sys lin Jc) in H; auto.
  destruct H as (st & m & aa & gl & f & [s1 W1] & S1 & S0 & J & Bo & Ff & V & N1 & N2 & Sy & N3 & Out).
  destruct (border_ent sys _ _ _ _ _ _ V Sy Bo) as (V' & Sy' & R1 & R2 & _).
  unfold fac, sized. rewrite W1, S1. simpl. rewrite Hb.
  split; [split; [exact N3|]; split; [exact Z2|]; split; [exact V'|]; repeat split; congruence|]. split; [exact T1|]. split; [exact T2|]. split; [rewrite <- S0; exact Ti|].
  unfold hist. do 4 eexists. split; [exact J|]. unfold factored. rewrite S1, W1, Hb. simpl. splits; auto.
  do 2 eexists. split; [|exact Ff]. rewrite <- S0 in *. exact Bo.
Qed.

Ltac side := intros; match goal with Q : iter_inv _ _ _ |- _ => exact Q | Q : fac _ _ _ |- _ => exact Q end.
Lemma pk_iterate u l t tl : pkeeps (iter_inv t tl) (arc_iterate F A fin cfg sys lin u l).
Proof.
  unfold arc_iterate.
  apply pk_bind; [apply pk_keeps; kp side|]. intros _.
  apply pk_bind; [apply pk_keeps; unfold arc_nn; kp side|]. intros nn.
  apply pk_bind; [apply pk_keeps; kp side|]. intros bad. apply pk_if; [apply pk_keeps, kp_ret|].
  apply pk_bind; [apply pk_keeps; unfold is_conv; kp side|]. intros c. apply pk_if; [apply pk_keeps, kp_ret|].
  apply pk_bind.
  - destruct (c_bordering cfg) eqn:Hb; intros e e' x He H; apply fac_inv.
    + unfold arc_bordering in H. apply mbind_ok in H. destruct H as (e1 & [] & H1 & H). apply (pk_jac t tl) in H1; auto.
      match type of H with ?m e1 = _ => assert (K : keeps (fac t tl) m) by (unfold arc_solve; kp side) end.
      exact (pk_keeps _ _ K _ _ _ H1 H).
    + unfold arc_augmented in H. apply mbind_ok in H. destruct H as (e1 & [] & H1 & H). apply (pk_aa t tl) in H1; auto.
      match type of H with ?m e1 = _ => assert (K : keeps (fac t tl) m) by (unfold arc_solve; kp side) end.
      exact (pk_keeps _ _ K _ _ _ H1 H).
  - intros [x|]; apply pk_keeps; [|apply kp_ret]. unfold after_solve, is_conv. kp side.
Qed.

(** A successful step leaves a unit tangent in the kernel of the (Gu, Gl) assembled at an iterate of
    this step (or at its end), which does not turn back. *)
Theorem C77_step u l st (e e' : E) : sized cfg sys e -> (a_theta (e_s e) = 0 \/ a_theta (e_s e) = 1)%R ->
  arc_step F A fin cfg sys lin u l st e = (e', Ok Success) ->
  exists u1 l1 m gl theta, (theta = 0 \/ theta = 1)%R /\ jac_of sys u1 l1 m gl /\
    unit_tangent n (ent m) gl (w_duds (e_w e')) (w_dlds (e_w e')) /\
    forward theta (w_duds (e_w e)) (w_dlds (e_w e)) (w_duds (e_w e')) (w_dlds (e_w e')).
Proof.
  intros Sz Ht0 H. set (t := w_duds (e_w e)). set (tl := w_dlds (e_w e)). unfold arc_step in H.
  set (B := fun x : E => sized cfg sys x /\ w_duds (e_w x) = t /\ w_dlds (e_w x) = tl /\ arc_inv (e_s x)).
  assert (B0 : B e) by (split; [exact Sz | split; [reflexivity | split; [reflexivity | exact Ht0]]]).
  apply mbind_ok in H. destruct H as (e1 & [] & H1 & H).
  assert (B1 : B e1). { revert H1. apply (pk_keeps B); [|exact B0]. unfold step_begin. kp ltac:(intros; match goal with Q : B _ |- _ => exact Q end). }
  apply mbind_ok in H. destruct H as (e2 & [] & H2 & H).
  assert (B2 : B e2). { revert H2. apply (pk_keeps B); [|exact B1]. unfold arc_lambda.
    kp ltac:(intros; match goal with Q : B _ |- _ => first [exact Q | destruct Q as (Q1 & Q2 & Q3 & Q4); exact (conj Q1 (conj Q2 (conj Q3 (or_introl eq_refl))))] end). }
  apply mbind_ok in H. destruct H as (e3 & [] & H3 & H).
  assert (B3 : B e3). { revert H3. apply (pk_keeps B); [|exact B2]. unfold arc_predict. kp ltac:(intros; match goal with Q : B _ |- _ => exact Q end). }
  apply mbind_ok in H. destruct H as (e4 & s4 & H4 & H).
  assert (B4 : B e4). { revert H4. apply (pk_keeps B); [|exact B3]. kp ltac:(intros; match goal with Q : B _ |- _ => exact Q end). }
  destruct (failure s4) eqn:Fs; [apply ret_inv in H; destruct H as [_ H]; subst s4; discriminate Fs|].
  apply mbind_ok in H. destruct H as (e5 & [] & H5 & H).
  assert (B5 : B e5). { revert H5. apply (pk_keeps B); [|exact B4]. unfold push_debug. kp ltac:(intros; match goal with Q : B _ |- _ => exact Q end). }
  apply mbind_ok in H. destruct H as (e6 & [] & H6 & H). injection H6 as <-.
  assert (B6 : iter_inv t tl (set_e_s (set_a_iter_jac false (e_s e5)) e5)).
  { destruct B5 as (Q1 & Q2 & Q3 & Q4). split; [exact Q1|]. split; [exact Q2|]. split; [exact Q3|]. split; [exact Q4|]. simpl. discriminate. }
  apply mbind_ok in H. destruct H as (e7 & r & H7 & H).
  assert (B7 : iter_inv t tl e7).
  { revert H7. match goal with |- ?m ?x = _ -> _ => assert (K : pkeeps (iter_inv t tl) m) end.
    { unfold iterations. apply pk_bind; [apply pk_keeps; kp side|]. intros _.
      apply pk_bind; [|intros; apply pk_keeps; kp side].
      apply pk_loop. intros. apply pk_bind; [apply pk_keeps; kp side|]. intros _.
      apply pk_bind; [apply pk_iterate|]. intros. apply pk_keeps. kp side. }
    intros H7. exact (K _ _ _ B6 H7). }
  apply mbind_ok in H. destruct H as (e8 & [] & H8 & H). apply ret_inv in H. destruct H as [-> <-]. simpl in H8.
  destruct B7 as (S7 & T7 & L7 & I7 & J7).
  apply (C77_update (fun m gl => exists u1 l1, jac_of sys u1 l1 m gl)) in H8; auto.
  - destruct H8 as (m & gl & Hm & Ut & Fw & _). rewrite T7, L7 in Fw.
    destruct (a_iter_jac (e_s e7)) eqn:Ei.
    + destruct Hm as (u1 & l1 & Hj). exists u1, l1, m, gl, (a_theta (e_s e7)). auto.
    + exists (w_u (e_w e7)), (w_l (e_w e7)), m, gl, (a_theta (e_s e7)). auto.
  - intros Ei. destruct (J7 Ei) as (u1 & l1 & m1 & gl1 & Hj & Hf). exists m1, gl1. eauto.
Qed.
End Tangent.

(* ------------------------------------------------------------------ *)
(** * The hypotheses hold for a concrete system: G(u, lambda) = u - lambda, one unknown *)

(** Cramer's rule for one or two unknowns *)
Definition cramer (m : coo R) (b : vec) : res vec :=
  let '(p, q, r, s) := (ent m 0 0, ent m 0 1, ent m 1 0, ent m 1 1) in
  if c_nrow m =? 1 then
    if Rltb 0 (Rabs p) then Ok [nth 0 b 0 / p]%R else Err "singular"
  else if c_nrow m =? 2 then
    let det := (p * s - q * r)%R in
    if Rltb 0 (Rabs det) then
      Ok [(nth 0 b 0 * s - q * nth 1 b 0) / det; (p * nth 1 b 0 - r * nth 0 b 0) / det]%R
    else Err "singular"
  else Err "size".
Definition bx_lin : linsolver (option (coo R)) :=
  mkLS (fun _ m => (Some m, Ok tt)) (fun f b => match f with Some m => cramer m b | None => Err "not factorized" end).
Lemma bx_exact : exact_solver bx_lin.
Proof.
  intros f0 m f b x V Sq Hf Hs. injection Hf as <-. simpl in Hs. unfold cramer in Hs.
  destruct (Nat.eqb_spec (c_nrow m) 1) as [N|N]; [|destruct (Nat.eqb_spec (c_nrow m) 2) as [N2|N2]; [|discriminate Hs]].
  - destruct (Rltb_spec 0 (Rabs (ent m 0 0))) as [L|L]; [|discriminate Hs]. injection Hs as <-. rewrite N. split; [reflexivity|].
    intros [|i] Hi; [|lia]. simpl. field. intros Z. rewrite Z, Rabs_R0 in L. lra.
  - destruct (Rltb_spec 0 (Rabs (ent m 0 0 * ent m 1 1 - ent m 0 1 * ent m 1 0))) as [L|L]; [|discriminate Hs].
    injection Hs as <-. rewrite N2. split; [reflexivity|].
    assert (Z : (ent m 0 0 * ent m 1 1 - ent m 0 1 * ent m 1 0 <> 0)%R) by (intros Z; rewrite Z, Rabs_R0 in L; lra).
    intros [|[|i]] Hi; [| |lia]; simpl; field; exact Z.
Qed.

Definition bx_sys : system nat :=
  mkSys 1 1 SymNo
    (fun _ l u a => (a, Ok [nth 0 u 0 - l]%R))
    (fun m g _ _ a => match coo_put m 0 0 1%R, vset g 0 (-1)%R with (m', Ok _), Ok g' => (a, Ok (m', g')) | _, _ => (a, Err "no") end)
    None None None None.
Lemma bx_contract : jac_contract bx_sys.
Proof.
  intros m0 g0 l u a a' m gl V T L H. simpl in H.
  destruct (coo_put_cases R m0 0 0 1%R V) as [[_ (c' & P & V' & Tr & R1 & R2 & R3 & R4)]|[_ (z & P)]]; rewrite P in H; [|discriminate H].
  simpl in L. destruct (vset g0 0 (-1)%R) as [g'|z|] eqn:Ev; try discriminate H. injection H as <- <- <-.
  apply (conj V'). splits; auto.
  - unfold vset in Ev. destruct (0 <? length g0); [|discriminate]. injection Ev as <-. rewrite upd_length. exact L.
  - intros t Ht. rewrite Tr, T in Ht. destruct Ht as [<-|[]]. simpl. unfold row_of, col_of. simpl. lia.
Qed.

Definition bx_cfg (b : bool) : config :=
  mkCfg Arclength false false 0.5 1 1 10 None 0.001 0.001 0.001 1000 true 2 2 2
        false b false false false false 0 1 10 1 false 1 1 1 1 1 1.
(** after `new`, with the tangent (1, 0) and the residual 2 *)
Definition bx_env (b : bool) : env (arcst (option (coo R))) nat :=
  mkEnv (mkArc 1 false [0%R] [0%R] 0 None [0%R; 0%R] (mkCoo SymNo 1 1 0 1 [0] [0] [0%R]) [0%R] [0%R]
          (mkCoo SymNo 2 2 0 4 (repeat 0 4) (repeat 0 4) (repeat 0%R 4)) [0%R; 0%R])
    (set_w_gg [2%R] (set_w_duds [1%R] (work_new (bx_cfg b) 1))) 0.
Example C69_sized b : sized (bx_cfg b) bx_sys (bx_env b).
Proof.
  split; [reflexivity|]. split; [reflexivity|].
  destruct b; (split; [|simpl; repeat split]);
    (repeat split; simpl; try lia; try congruence; match goal with H : In _ _ |- _ => destruct H end).
Qed.
Example C69_run_bordering : exists e' x,
  arc_bordering _ _ (bx_cfg true) bx_sys bx_lin 0 (bx_env true) = (e', Ok (Some x)).
Proof. eexists. eexists. unfold arc_bordering. rev. Qed.
Example C69_run_augmented : exists e' x,
  arc_augmented _ _ (bx_cfg false) bx_sys bx_lin 0 (bx_env false) = (e', Ok (Some x)).
Proof. eexists. eexists. unfold arc_augmented. rev. Qed.
Lemma sqrt2_bounds : (1 < sqrt 2 < 2)%R.
Proof.
  split.
  - rewrite <- sqrt_1 at 1. apply sqrt_lt_1; lra.
  - replace 2%R with (sqrt 4) at 2. apply sqrt_lt_1; lra. replace 4%R with (2 * 2)%R by ring. apply sqrt_square. lra.
Qed.
Example C77_run_initial : exists e', arc_initial_tangent _ _ (bx_cfg true) bx_sys bx_lin 1 (bx_env true) = (e', Ok tt).
Proof.
  eexists. unfold arc_initial_tangent. eapply mbind_eval; [rev|]. eapply mbind_eval; [reflexivity|].
  cbv beta. cbn [e_w w_dlds w_duds vmax fold_left map].
  assert (Q : (sqrt (1 + (-1 / (0 + 1) * (-1 / (0 + 1)) + 0)) = sqrt 2)%R) by (f_equal; field).
  pose proof sqrt2_bounds as B. rewrite Q.
  assert (P : (/ 2 < 1 / sqrt 2)%R). { unfold Rdiv. rewrite Rmult_1_l. apply Rinv_lt_contravar; nra. }
  rewrite (proj2 (Rltb_false _ _)).
  2:{ rewrite H_MIN_val, Rabs_right; lra. }
  rewrite (proj2 (Rltb_false _ _)).
  2:{ rewrite H_MIN_val. unfold vmax. cbv -[Rplus Rmult Rinv Rdiv Ropp IZR Rmax Rabs Rle sqrt].
      replace (- (1 / sqrt 2) * (-1 / (0 + 1)))%R with (1 / sqrt 2)%R by (field; lra).
      rewrite ?(Rabs_right (1 / sqrt 2)) by lra. unfold Rmax. destruct (Rle_dec _ _); lra. }
  reflexivity.
Qed.

Print Assumptions C69_bordering.
Print Assumptions C69_small_denominator.
Print Assumptions C69_augmented.
Print Assumptions C69_unique.
Print Assumptions C77_initial.
Print Assumptions C77_update.
Print Assumptions C77_step.
