(** C50: one step of the explicit Runge-Kutta solver is the method of its tableau, and reusing the
    first stage is invisible. *)
From Coq Require Import Qreals Lqa.
From Verif Require Import Erk_Model Ode_Base_Thm Ode_Drv_Thm Ode_Sim_Thm Erk_Tab_Thm.
Local Open Scope nat_scope.

(** * Specification *)

(** sum_{i<n} g i *)
Fixpoint rsum (n : nat) (g : nat -> R) : R :=
  match n with 0 => 0%R | S n' => (rsum n' g + g n')%R end.

(** where stage i evaluates the function:  y + h sum_{j<i} a_ij k_j *)
Definition stage_point (A : list (list R)) (y : vec) (h : R) (k : list vec) (i : nat) : vec :=
  map (fun m => (nth m y 0 + h * rsum i (fun j => nth j (nth i A []) 0 * nth m (nth j k []) 0))%R) (seq 0 (length y)).

(** k is the list of stages of the method (A, c):  k_i = f(x + c_i h, y + h sum_j a_ij k_j) *)
Definition is_stages (f : R -> vec -> res vec) (A : list (list R)) (c : list R) (x : R) (y : vec) (h : R) (k : list vec) : Prop :=
  length k = length A /\ forall i, i < length A -> f (x + nth i c 0 * h)%R (stage_point A y h k i) = Ok (nth i k []).

(** sum_i b_i k_i[m] *)
Definition comb (b : list R) (k : list vec) (m : nat) : R := rsum (length b) (fun i => nth i b 0 * nth m (nth i k []) 0)%R.

(** y + h sum_i b_i k_i *)
Definition new_solution (b : list R) (y : vec) (h : R) (k : list vec) : vec :=
  map (fun m => (nth m y 0 + h * comb b k m)%R) (seq 0 (length y)).

(** the scale of component m in the error norm *)
Definition err_scale (t : params_tol) (y w : vec) (m : nat) : R :=
  (t_abs t + t_rel t * Rmax (Rabs (nth m y 0)) (Rabs (nth m w 0)))%R.
(** root mean square of the scaled local error  h sum_i e_i k_i *)
Definition embedded_error (t : params_tol) (e : list R) (y w : vec) (h : R) (k : list vec) : R :=
  Rmax (sqrt (rsum (length y) (fun m => ((h * comb e k m / err_scale t y w m)²)%R) / INR (length y))) 1e-10.
(** the error of DoPri8, from the estimators of orders 3 and 5 (Hairer-Norsett-Wanner II.10) *)
Definition dopri8_error (t : params_tol) (b e : list R) (y w : vec) (h : R) (k : list vec) : R :=
  let err3 := (rsum (length y) (fun m => ((comb b k m - (Q2R DORMAND_PRINCE_8_BHH1 * nth m (nth 0 k []) 0 +
                  Q2R DORMAND_PRINCE_8_BHH2 * nth m (nth 8 k []) 0 + Q2R DORMAND_PRINCE_8_BHH3 * nth m (nth 11 k []) 0)) / err_scale t y w m)²))%R in
  let err5 := rsum (length y) (fun m => ((comb e k m / err_scale t y w m)²)%R) in
  let den := if Rleb (err5 + 0.01 * err3) 0 then 1%R else (err5 + 0.01 * err3)%R in
  (Rabs h * err5 * sqrt (1 / (INR (length y) * den)))%R.

(** a solver object for [ndim] equations, with the coefficients of its method *)
Definition vecs_ok (ndim n : nat) (l : list vec) : Prop := length l = n /\ forall i, i < n -> length (nth i l []) = ndim.
Record erk_wf (ndim : nat) (s : erk) (A : list (list Q)) (b c : list Q) (ee : option (list Q)) : Prop := mkWf {
  wf_tab : erk_tableau (p_method (e_params s)) = Some (A, b, c);
  wf_err : erk_ee (p_method (e_params s)) = Ok ee;
  wf_info : e_info s = method_information (p_method (e_params s));
  wf_aa : e_aa s = Rmat A; wf_bb : e_bb s = Rrow b; wf_cc : e_cc s = Rrow c; wf_ee : e_ee s = option_map Rrow ee;
  wf_n : e_nstage s = length b;
  wf_v : vecs_ok ndim (length b) (e_v s); wf_k : vecs_ok ndim (length b) (e_k s); wf_w : length (e_w s) = ndim }.

(** the user's function keeps the dimension *)
Definition keeps_dim (ndim : nat) (f : R -> vec -> res vec) : Prop :=
  forall x y k, length y = ndim -> f x y = Ok k -> length k = ndim.

(** * Sums and loops *)
Lemma rsum_ext n g g' : (forall i, i < n -> g i = g' i) -> rsum n g = rsum n g'.
Proof. induction n as [|n IH]; intros H; [reflexivity|]. cbn. rewrite IH, H by (intros; try apply H; lia). reflexivity. Qed.
Lemma rsum_mul n c g : rsum n (fun i => c * g i)%R = (c * rsum n g)%R.
Proof. induction n as [|n IH]; cbn; [lra|]. rewrite IH. lra. Qed.
Lemma rsum_plus n g g' : rsum n (fun i => g i + g' i)%R = (rsum n g + rsum n g')%R.
Proof. induction n as [|n IH]; cbn; [lra|]. rewrite IH. lra. Qed.
Lemma rsum_zero n g : (forall i, i < n -> g i = 0%R) -> rsum n g = 0%R.
Proof. induction n as [|n IH]; intros H; [reflexivity|]. cbn. rewrite IH, H by (intros; try apply H; lia). lra. Qed.

Lemma for_range_det {S} (F : nat -> S) (body : nat -> S -> res S) lo hi : lo <= hi ->
  (forall i, lo <= i < hi -> body i (F i) = Ok (F (Datatypes.S i))) -> for_range lo hi body (F lo) = Ok (F hi).
Proof.
  intros L H. destruct (for_range_inv (fun i t => t = F i) body lo hi (F lo) L eq_refl) as (t & E & ->); [|exact E].
  intros i t Hi ->. exists (F (Datatypes.S i)). split; [now apply H|reflexivity].
Qed.

Lemma nth_tabmap (g : nat -> R) n m d : m < n -> nth m (map g (seq 0 n)) d = g m.
Proof.
  intros H. rewrite (nth_indep _ d (g 0)) by (rewrite map_length, seq_length; lia). rewrite (map_nth g). now rewrite seq_nth.
Qed.
Lemma vec_ext (a b : vec) n : length a = n -> length b = n -> (forall m, m < n -> nth m a 0%R = nth m b 0%R) -> a = b.
Proof. intros Ha Hb H. apply (nth_ext_d _ _ 0%R); [congruence|]. intros m Hm. apply H. lia. Qed.

Lemma tab_ok {A} l (g : nat -> res A) (g' : nat -> A) : (forall i, In i l -> g i = Ok (g' i)) -> tab l g = Ok (map g' l).
Proof. induction l as [|i l IH]; intros H; [reflexivity|]. cbn [tab map]. rewrite H by now left. cbn. rewrite IH by (intros; apply H; now right). reflexivity. Qed.
Lemma tabulate_ok {A} n (g : nat -> res A) (g' : nat -> A) : (forall i, i < n -> g i = Ok (g' i)) -> tabulate n g = Ok (map g' (seq 0 n)).
Proof. intros H. apply tab_ok. intros i Hi. apply in_seq in Hi. apply H. lia. Qed.

Lemma vupdate_ok v a u : length u = length v -> vupdate v a u = Ok (map (fun m => (nth m v 0 + a * nth m u 0)%R) (seq 0 (length v))).
Proof.
  intros H. unfold vupdate. rewrite H, Nat.eqb_refl. f_equal. apply (vec_ext _ _ (length v)).
  - now rewrite map_length, combine_length, H, Nat.min_id.
  - now rewrite map_length, seq_length.
  - intros m Hm. rewrite nth_tabmap by exact Hm.
    rewrite (nth_indep _ 0%R ((fun p => (fst p + a * snd p)%R) (0%R, 0%R))) by (rewrite map_length, combine_length, H, Nat.min_id; lia).
    rewrite (map_nth (fun p : R * R => (fst p + a * snd p)%R)). rewrite combine_nth by lia. reflexivity.
Qed.
Lemma vcopy_ok v u : length u = length v -> vcopy v u = Ok u.
Proof. intros H. unfold vcopy. now rewrite H, Nat.eqb_refl. Qed.

Lemma mget_ok a i j d : i < length a -> j < length (nth i a []) -> mget a i j = Ok (nth j (nth i a []) d).
Proof. intros Hi Hj. unfold mget. rewrite (vget_ok a i []) by exact Hi. cbn. now apply vget_ok. Qed.

Lemma mget_vecs ndim n k i m : vecs_ok ndim n k -> i < n -> m < ndim -> mget k i m = Ok (nth m (nth i k []) 0%R).
Proof. intros (H1 & H2) Hi Hm. unfold vec in *. apply mget_ok; [rewrite H1; exact Hi|]. rewrite H2; [exact Hm|exact Hi]. Qed.
Lemma vget_vecs ndim n k i : vecs_ok ndim n k -> i < n -> vget k i = Ok (nth i k []).
Proof. intros (H1 & H2) Hi. apply vget_ok. rewrite H1. exact Hi. Qed.

Lemma Rmat_nth A i : nth i (Rmat A) [] = Rrow (nth i A []).
Proof. unfold Rmat. now rewrite <- (map_nth Rrow). Qed.
Lemma Q2R0 : Q2R 0 = 0%R. Proof. unfold Q2R. cbn. lra. Qed.
Lemma Rrow_nth b i : nth i (Rrow b) 0%R = Q2R (nth i b 0%Q).
Proof. unfold Rrow. rewrite <- Q2R0. now rewrite (map_nth Q2R). Qed.
Lemma Rrow_length b : length (Rrow b) = length b. Proof. apply map_length. Qed.
Lemma Rmat_length A : length (Rmat A) = length A. Proof. apply map_length. Qed.

(** * The stages *)
Lemma stage_point_length A y h k i : length (stage_point A y h k i) = length y.
Proof. unfold stage_point. now rewrite map_length, seq_length. Qed.
Lemma stage_point_ext A y h k k' i : (forall j, j < i -> nth j k [] = nth j k' []) -> stage_point A y h k i = stage_point A y h k' i.
Proof. intros H. unfold stage_point. apply map_ext. intros m. do 2 f_equal. apply rsum_ext. intros j Hj. now rewrite H. Qed.
Lemma stage_point_0 A y h k : stage_point A y h k 0 = y.
Proof.
  apply (vec_ext _ _ (length y)); [apply stage_point_length|reflexivity|]. intros m Hm. unfold stage_point. rewrite nth_tabmap by exact Hm. cbn. lra.
Qed.

Lemma vset_ok_inv {A} (l : list A) i x l' : vset l i x = Ok l' -> i < length l /\ l' = upd l i x.
Proof. unfold vset. destruct (Nat.ltb_spec i (length l)); intros E; [injection E as <-; auto|discriminate]. Qed.

Lemma tableau_facts m A b c : erk_tableau m = Some (A, b, c) ->
  length A = length b /\ length c = length b /\ 1 <= length b /\ (forall i j, j < i -> i < length b -> j < length (nth i A [])) /\ Q2R (nth 0 c 0%Q) = 0%R.
Proof.
  intros E. destruct (C49_structure _ _ _ _ E) as (H1 & H2 & H3 & _).
  splits; [lia|lia| | |].
  - destruct m; try discriminate E; injection E as <- <- <-; cbn; lia.
  - intros i j Hj Hi. destruct (H3 i ltac:(lia)); lia.
  - rewrite <- Q2R0. apply Qeq_eqR. destruct m; try discriminate E; injection E as <- <- <-; reflexivity.
Qed.

(** filling a vector component by component *)
Definition filled (t : nat) (g : nat -> R) (w0 : vec) : vec := map (fun m => if m <? t then g m else nth m w0 0%R) (seq 0 (length w0)).
Lemma filled_0 g w0 : filled 0 g w0 = w0.
Proof. apply (vec_ext _ _ (length w0)); [unfold filled; now rewrite map_length, seq_length|reflexivity|]. intros m Hm. unfold filled. now rewrite nth_tabmap. Qed.
Lemma filled_all g w0 : filled (length w0) g w0 = map g (seq 0 (length w0)).
Proof. unfold filled. apply map_ext_in. intros m Hm. apply in_seq in Hm. destruct (Nat.ltb_spec m (length w0)); [reflexivity|lia]. Qed.
Lemma filled_length t g w0 : length (filled t g w0) = length w0.
Proof. unfold filled. now rewrite map_length, seq_length. Qed.
Lemma filled_next t g w0 : t < length w0 -> vset (filled t g w0) t (g t) = Ok (filled (S t) g w0).
Proof.
  intros H. rewrite vset_ok by now rewrite filled_length. f_equal. apply (vec_ext _ _ (length w0)); [now rewrite upd_length, filled_length|apply filled_length|].
  intros m Hm. rewrite nth_upd by now rewrite filled_length. unfold filled. rewrite !nth_tabmap by exact Hm.
  destruct (Nat.eqb_spec m t) as [->|N].
  - destruct (Nat.ltb_spec t (S t)); [reflexivity|lia].
  - destruct (Nat.ltb_spec m t), (Nat.ltb_spec m (S t)); try reflexivity; lia.
Qed.

Section Steps.
Variable ndim : nat.
Variable f : R -> vec -> res vec.
Variable powf : R -> R -> R.
Hypothesis FD : keeps_dim ndim f.

Section OneStep.
Variables (s : erk) (A : list (list Q)) (b c : list Q) (ee : option (list Q)).
Hypothesis WF : erk_wf ndim s A b c ee.
Variables (x : R) (y : vec) (h : R).
Hypothesis HY : length y = ndim.
Let n := length b.

Lemma inner_loop k i : i < n -> vecs_ok ndim n k ->
  for_range 0 i (fun j vi => aij <- mget (e_aa s) i j ;; kj <- vget k j ;; vupdate vi (h * aij)%R kj) y = Ok (stage_point (Rmat A) y h k i).
Proof.
  intros Hi (Hk1 & Hk2). destruct (tableau_facts _ _ _ _ (wf_tab _ _ _ _ _ _ WF)) as (T1 & T2 & T3 & T4 & T5).
  set (F := fun t => map (fun m => (nth m y 0 + h * rsum t (fun j => nth j (nth i (Rmat A) []) 0 * nth m (nth j k []) 0))%R) (seq 0 (length y))).
  assert (F0 : F 0 = y).
  { apply (vec_ext _ _ (length y)); [unfold F; now rewrite map_length, seq_length|reflexivity|]. intros m Hm. unfold F. rewrite nth_tabmap by exact Hm. cbn. lra. }
  rewrite <- F0 at 1. change (stage_point (Rmat A) y h k i) with (F i). apply for_range_det; [lia|].
  intros j Hj. rewrite (wf_aa _ _ _ _ _ _ WF).
  rewrite (mget_ok _ i j 0%R); [|rewrite Rmat_length; fold n in T1; lia|rewrite Rmat_nth, Rrow_length; apply T4; [lia|exact Hi]].
  cbn [bind]. rewrite (vget_ok k j []) by lia. cbn [bind].
  assert (LF : length (F j) = ndim) by (unfold F; rewrite map_length, seq_length; exact HY).
  rewrite vupdate_ok by (rewrite Hk2, LF by lia; reflexivity). f_equal.
  rewrite LF. unfold F at 2. rewrite HY. apply map_ext_in. intros m Hm. apply in_seq in Hm.
  unfold F. rewrite nth_tabmap by lia. cbn [rsum]. lra.
Qed.

(** after the stages 0..i-1 *)
Definition stages_to (i : nat) (w : workspace) (st : list vec * list vec * workspace) : Prop :=
  let '(k, v, w') := st in
  vecs_ok ndim n k /\ vecs_ok ndim n v /\ w' = add_n_function (i - 1) w /\
  (forall j, j < i -> f (x + nth j (Rrow c) 0 * h)%R (stage_point (Rmat A) y h k j) = Ok (nth j k [])) /\
  (forall j, 1 <= j < i -> nth j v [] = stage_point (Rmat A) y h k j).

Lemma stage_eq i k v w : 1 <= i < n -> vecs_ok ndim n k -> vecs_ok ndim n v ->
  erk_stage f s x y h i (k, v, w) =
  (ki <- f (x + h * nth i (Rrow c) 0)%R (stage_point (Rmat A) y h k i) ;;
   Ok (upd k i ki, upd v i (stage_point (Rmat A) y h k i), add_n_function 1 w)).
Proof.
  intros Hi Hk Hv. destruct (tableau_facts _ _ _ _ (wf_tab _ _ _ _ _ _ WF)) as (T1 & T2 & T3 & T4 & T5).
  unfold erk_stage. rewrite (wf_cc _ _ _ _ _ _ WF). rewrite (vget_ok (Rrow c) i 0%R) by (rewrite Rrow_length; fold n in T2; lia). cbn [bind].
  destruct Hv as [Hv1 Hv2]. rewrite (vget_ok v i []) by lia. cbn [bind].
  rewrite vcopy_ok by (rewrite Hv2; lia). cbn [bind].
  rewrite inner_loop by (auto; lia). cbn [bind].
  rewrite vset_ok by lia. cbn [bind].
  destruct (f _ _) as [ki|e|]; cbn [bind]; try reflexivity.
  destruct Hk as [Hk1 Hk2]. rewrite vset_ok by lia. reflexivity.
Qed.

Lemma add_n_function_add a a' w : add_n_function a' (add_n_function a w) = add_n_function (a + a') w.
Proof. destruct w as [st]; destruct st; cbn. unfold add_n_function, on_stats, set_w_stats, set_n_function; cbn. now rewrite Nat.add_assoc. Qed.
Lemma add_n_function_0 w : add_n_function 0 w = w.
Proof. destruct w as [st]; destruct st; unfold add_n_function, on_stats, set_w_stats, set_n_function; cbn. now rewrite Nat.add_0_r. Qed.

Lemma upd_vecs l i z m0 : vecs_ok ndim m0 l -> length z = ndim -> vecs_ok ndim m0 (upd l i z).
Proof.
  intros [H1 H2] Hz. split; [now rewrite upd_length|]. intros j Hj.
  destruct (Nat.lt_ge_cases i (length l)) as [L|L]; [|rewrite upd_ge by exact L; auto].
  rewrite nth_upd by exact L. destruct (Nat.eqb j i); auto.
Qed.

Lemma stage_next i st st' w : 1 <= i < n -> stages_to i w st -> erk_stage f s x y h i st = Ok st' -> stages_to (S i) w st'.
Proof.
  destruct st as [[k v] w0]. intros Hi (Hk & Hv & Hw & Hs & Hvs) E. rewrite stage_eq in E by auto.
  apply bind_ok in E as (ki & Ef & E). injection E as <-.
  assert (Lki : length ki = ndim) by (eapply FD; [|exact Ef]; now rewrite stage_point_length).
  assert (K : forall j, j <= i -> stage_point (Rmat A) y h (upd k i ki) j = stage_point (Rmat A) y h k j).
  { intros j Hj. apply stage_point_ext. intros t Ht. apply nth_upd_ne. lia. }
  destruct Hk as [Hk1 Hk2].
  unfold stages_to; splits.
  - apply upd_vecs; [split|]; auto.
  - apply upd_vecs; [exact Hv|]. now rewrite stage_point_length.
  - subst w0. rewrite add_n_function_add. f_equal. lia.
  - intros j Hj. destruct (Nat.eq_dec j i) as [->|N].
    + rewrite K, nth_upd_eq by lia. rewrite Rmult_comm. exact Ef.
    + rewrite K, nth_upd_ne by lia. apply Hs. lia.
  - intros j Hj. rewrite K by lia. destruct (Nat.eq_dec j i) as [->|N].
    + rewrite nth_upd_eq; [reflexivity|]. destruct Hv. lia.
    + rewrite nth_upd_ne by lia. apply Hvs. lia.
Qed.

Lemma stage_loop w k v st' : vecs_ok ndim n k -> vecs_ok ndim n v -> f x y = Ok (nth 0 k []) ->
  for_range 1 (e_nstage s) (erk_stage f s x y h) (k, v, w) = Ok st' -> stages_to n w st'.
Proof.
  intros Hk Hv H0 E. destruct (tableau_facts _ _ _ _ (wf_tab _ _ _ _ _ _ WF)) as (T1 & T2 & T3 & T4 & T5).
  rewrite (wf_n _ _ _ _ _ _ WF) in E. fold n in E.
  apply (for_range_partial (fun i st => stages_to i w st) _ 1 n _ _ T3 E).
  - unfold stages_to; splits; auto; [now rewrite add_n_function_0| |lia].
    intros j Hj. replace j with 0 by lia. rewrite stage_point_0, Rrow_nth, T5, Rmult_0_l, Rplus_0_r. exact H0.
  - intros i st st'' Hi HI Es. eapply stage_next; eauto.
Qed.

(** the loop never panics by itself *)
Lemma stage_loop_total w k v : vecs_ok ndim n k -> vecs_ok ndim n v -> (forall u z, f u z <> Panic) ->
  for_range 1 (e_nstage s) (erk_stage f s x y h) (k, v, w) <> Panic.
Proof.
  intros Hk Hv Hf. rewrite (wf_n _ _ _ _ _ _ WF). fold n. unfold for_range.
  assert (G : forall m i k v w, 1 <= i -> i + m <= n -> vecs_ok ndim n k -> vecs_ok ndim n v -> for_n m i (erk_stage f s x y h) (k, v, w) <> Panic).
  { induction m as [|m IH]; intros i k' v' w' Hi Hm Hk' Hv'; [discriminate|]. cbn [for_n].
    rewrite stage_eq by (auto; lia). destruct (f _ _) as [ki|e|] eqn:Ef; cbn [bind]; [|discriminate|now apply Hf in Ef].
    apply IH; [lia|lia| |]; apply upd_vecs; auto; [|now rewrite stage_point_length].
    eapply FD; [|exact Ef]. now rewrite stage_point_length. }
  destruct (tableau_facts _ _ _ _ (wf_tab _ _ _ _ _ _ WF)) as (_ & _ & T3 & _). fold n in T3.
  apply G; auto; lia.
Qed.

(** * The new solution and the error *)
Lemma comb_loop (g : R -> R -> R) k m (a0 : R) (cf : list R) : vecs_ok ndim n k -> m < ndim -> length cf = n -> (forall a z, g a z = (a + z * h)%R) ->
  for_range 0 n (fun i acc => bi <- vget cf i ;; kim <- mget k i m ;; Ok (acc + bi * kim * h)%R) a0 = Ok (a0 + h * comb cf k m)%R.
Proof.
  intros Hk Hm Hc _. unfold comb. rewrite Hc.
  set (F := fun t => (a0 + h * rsum t (fun i => nth i cf 0 * nth m (nth i k []) 0))%R).
  replace a0 with (F 0) at 1 by (unfold F; cbn; lra). fold (F n). apply for_range_det; [lia|].
  intros i Hi. rewrite (vget_ok cf i 0%R) by lia. cbn [bind]. rewrite (mget_vecs ndim n k i m) by (auto; lia). cbn [bind].
  f_equal. unfold F. cbn [rsum]. lra.
Qed.

Lemma update_plain_eq k : vecs_ok ndim n k -> erk_update_plain ndim s k y h = Ok (new_solution (Rrow b) y h k).
Proof.
  intros Hk. unfold erk_update_plain. pose proof (wf_w _ _ _ _ _ _ WF) as Lw.
  set (g := fun m => (nth m y 0 + h * comb (Rrow b) k m)%R).
  replace (new_solution (Rrow b) y h k) with (filled ndim g (e_w s)) by (rewrite <- Lw at 1; rewrite filled_all, Lw; unfold new_solution; now rewrite HY).
  rewrite <- (filled_0 g (e_w s)) at 1.
  apply (for_range_det (fun t => filled t g (e_w s))); [lia|]. intros m Hm. rewrite (vget_ok y m 0%R) by lia. cbn [bind].
  rewrite (wf_n _ _ _ _ _ _ WF), (wf_bb _ _ _ _ _ _ WF). fold n.
  rewrite (comb_loop (fun a z => (a + z * h)%R)) by (auto; try lia; unfold n; now rewrite Rrow_length). cbn [bind].
  apply filled_next. lia.
Qed.

Lemma update_embedded_eq k e : vecs_ok ndim n k -> length e = n ->
  erk_update_embedded ndim s e k y h = Ok (new_solution (Rrow b) y h k, embedded_error (p_tol (e_params s)) e y (new_solution (Rrow b) y h k) h k).
Proof.
  intros Hk He. unfold erk_update_embedded. pose proof (wf_w _ _ _ _ _ _ WF) as Lw. cbv zeta.
  set (g := fun m => (nth m y 0 + h * comb (Rrow b) k m)%R).
  assert (NS : new_solution (Rrow b) y h k = filled ndim g (e_w s)) by (rewrite <- Lw at 1; rewrite filled_all, Lw; unfold new_solution; now rewrite HY).
  set (W := new_solution (Rrow b) y h k) in *.
  set (F := fun t => (filled t g (e_w s), rsum t (fun m => ((h * comb e k m / err_scale (p_tol (e_params s)) y W m)²)%R))).
  replace (e_w s, 0%R) with (F 0) by (unfold F; cbn [rsum]; now rewrite filled_0).
  erewrite (for_range_det F); [|lia|].
  - unfold F. cbn [bind]. rewrite <- NS. unfold embedded_error. rewrite HY. reflexivity.
  - intros m Hm. unfold F at 1. cbv beta iota. rewrite (vget_ok y m 0%R) by lia. cbn [bind].
    rewrite (wf_n _ _ _ _ _ _ WF), (wf_bb _ _ _ _ _ _ WF). fold n.
    set (G := fun t => ((nth m y 0 + h * rsum t (fun i => nth i (Rrow b) 0 * nth m (nth i k []) 0))%R, (h * rsum t (fun i => nth i e 0 * nth m (nth i k []) 0))%R)).
    replace (nth m y 0%R, 0%R) with (G 0) by (unfold G; cbn [rsum]; f_equal; lra).
    rewrite (for_range_det G); [|lia|].
    + unfold G. cbn [bind].
      assert (EB : rsum n (fun i => (nth i (Rrow b) 0 * nth m (nth i k []) 0)%R) = comb (Rrow b) k m) by (unfold comb; now rewrite Rrow_length).
      assert (EE : rsum n (fun i => (nth i e 0 * nth m (nth i k []) 0)%R) = comb e k m) by (unfold comb; now rewrite He).
      rewrite EB, EE. fold (g m). rewrite filled_next by lia. cbn [bind]. unfold F. f_equal. f_equal. cbn [rsum]. f_equal.
      assert (EW : nth m W 0%R = g m) by (unfold W, new_solution; now rewrite nth_tabmap by lia).
      unfold err_scale. rewrite EW. unfold Rsqr. reflexivity.
    + intros i Hi. unfold G at 1. cbv beta iota. rewrite (mget_vecs ndim n k i m) by (auto; lia). cbn [bind].
      rewrite (vget_ok (Rrow b) i 0%R) by (rewrite Rrow_length; fold n; lia). cbn [bind]. rewrite (vget_ok e i 0%R) by lia. cbn [bind].
      unfold G. cbn [rsum]. do 2 f_equal; lra.
Qed.

Lemma update_dopri8_eq k e : vecs_ok ndim n k -> length e = n -> n = 12 ->
  erk_update_dopri8 ndim s e k y h = Ok (new_solution (Rrow b) y h k, dopri8_error (p_tol (e_params s)) (Rrow b) e y (new_solution (Rrow b) y h k) h k).
Proof.
  intros Hk He N12. unfold erk_update_dopri8. pose proof (wf_w _ _ _ _ _ _ WF) as Lw. cbv zeta.
  set (g := fun m => (nth m y 0 + h * comb (Rrow b) k m)%R).
  assert (NS : new_solution (Rrow b) y h k = filled ndim g (e_w s)) by (rewrite <- Lw at 1; rewrite filled_all, Lw; unfold new_solution; now rewrite HY).
  set (W := new_solution (Rrow b) y h k) in *.
  set (E3 := fun m => (comb (Rrow b) k m - (Q2R DORMAND_PRINCE_8_BHH1 * nth m (nth 0 k []) 0 +
                  Q2R DORMAND_PRINCE_8_BHH2 * nth m (nth 8 k []) 0 + Q2R DORMAND_PRINCE_8_BHH3 * nth m (nth 11 k []) 0))%R).
  set (F := fun t => (filled t g (e_w s), rsum t (fun m => ((E3 m / err_scale (p_tol (e_params s)) y W m)²)%R), rsum t (fun m => ((comb e k m / err_scale (p_tol (e_params s)) y W m)²)%R))).
  replace (e_w s, 0%R, 0%R) with (F 0) by (unfold F; cbn [rsum]; now rewrite filled_0).
  erewrite (for_range_det F); [|lia|].
  - unfold F. cbn [bind]. rewrite <- NS. unfold dopri8_error. rewrite HY. reflexivity.
  - intros m Hm. unfold F at 1. cbv beta iota. rewrite (vget_ok y m 0%R) by lia. cbn [bind].
    rewrite (wf_n _ _ _ _ _ _ WF), (wf_bb _ _ _ _ _ _ WF). fold n.
    set (G := fun t => ((nth m y 0 + h * rsum t (fun i => nth i (Rrow b) 0 * nth m (nth i k []) 0))%R, (rsum t (fun i => nth i (Rrow b) 0 * nth m (nth i k []) 0))%R, (rsum t (fun i => nth i e 0 * nth m (nth i k []) 0))%R)).
    replace (nth m y 0%R, 0%R, 0%R) with (G 0) by (unfold G; cbn [rsum]; do 2 f_equal; lra).
    rewrite (for_range_det G); [|lia|].
    + unfold G. cbn [bind].
      assert (EB : rsum n (fun i => (nth i (Rrow b) 0 * nth m (nth i k []) 0)%R) = comb (Rrow b) k m) by (unfold comb; now rewrite Rrow_length).
      assert (EE : rsum n (fun i => (nth i e 0 * nth m (nth i k []) 0)%R) = comb e k m) by (unfold comb; now rewrite He).
      rewrite EB, EE. fold (g m). rewrite filled_next by lia. cbn [bind].
      rewrite (mget_vecs ndim n k 0 m), (mget_vecs ndim n k 8 m), (mget_vecs ndim n k 11 m) by (auto; lia). cbn [bind]. unfold F. f_equal.
      assert (EW : nth m W 0%R = g m) by (unfold W, new_solution; now rewrite nth_tabmap by lia).
      cbn [rsum]. unfold err_scale. rewrite EW. unfold Rsqr. reflexivity.
    + intros i Hi. unfold G at 1. cbv beta iota.
      rewrite (vget_ok (Rrow b) i 0%R) by (rewrite Rrow_length; fold n; lia). cbn [bind].
      rewrite (mget_vecs ndim n k i m) by (auto; lia). cbn [bind]. rewrite (vget_ok e i 0%R) by lia. cbn [bind].
      unfold G. cbn [rsum]. apply f_equal. apply f_equal2; [apply f_equal2|]; lra.
Qed.
End OneStep.

Lemma ee_facts m A b c ee : erk_tableau m = Some (A, b, c) -> erk_ee m = Ok ee ->
  (i_embedded (method_information m) = match ee with Some _ => true | None => false end) /\
  (forall e, ee = Some e -> length e = length b) /\ (m = DoPri8 -> length b = 12) /\ (m = DoPri5 -> length b = 7).
Proof.
  intros E F. destruct m; try discriminate E; injection E as <- <- <-; cbn in F; injection F as <-;
    (splits; [reflexivity|intros e X; try discriminate X; injection X as <-; reflexivity| |]; intros X; try discriminate X; reflexivity).
Qed.

Definition local_error (s : erk) (b e : list Q) (y : vec) (h : R) (k : list vec) : R :=
  if method_eqb (p_method (e_params s)) DoPri8
  then dopri8_error (p_tol (e_params s)) (Rrow b) (Rrow e) y (new_solution (Rrow b) y h k) h k
  else embedded_error (p_tol (e_params s)) (Rrow e) y (new_solution (Rrow b) y h k) h k.

Lemma method_eqb_eq a b : method_eqb a b = true -> a = b.
Proof. destruct a, b; cbn; intros; congruence. Qed.

Lemma finish_eq s A b c ee w y h : erk_wf ndim s A b c ee -> length y = ndim ->
  erk_finish ndim s w y h = Ok (set_e_w (new_solution (Rrow b) y h (e_k s)) s,
    match ee with Some e => set_w_rel_error (local_error s b e y h (e_k s)) w | None => w end).
Proof.
  intros WF HY. destruct (ee_facts _ _ _ _ _ (wf_tab _ _ _ _ _ _ WF) (wf_err _ _ _ _ _ _ WF)) as (F1 & F2 & F3 & _).
  unfold erk_finish. rewrite (wf_info _ _ _ _ _ _ WF), F1. pose proof (wf_ee _ _ _ _ _ _ WF) as Ee.
  destruct ee as [e|]; cbn [negb].
  - rewrite Ee. cbn [option_map bind]. unfold local_error.
    assert (Le : length (Rrow e) = length b) by (rewrite Rrow_length; auto).
    destruct (method_eqb (p_method (e_params s)) DoPri8) eqn:Em.
    + apply method_eqb_eq in Em. rewrite (update_dopri8_eq _ _ _ _ _ WF y h HY _ (Rrow e) (wf_k _ _ _ _ _ _ WF) Le (F3 Em)). reflexivity.
    + rewrite (update_embedded_eq _ _ _ _ _ WF y h HY _ (Rrow e) (wf_k _ _ _ _ _ _ WF) Le). reflexivity.
  - rewrite (update_plain_eq _ _ _ _ _ WF y h HY _ (wf_k _ _ _ _ _ _ WF)). reflexivity.
Qed.

Lemma wf_set_kv s A b c ee k v : erk_wf ndim s A b c ee -> vecs_ok ndim (length b) k -> vecs_ok ndim (length b) v ->
  erk_wf ndim (set_e_v v (set_e_k k s)) A b c ee.
Proof. intros []. now constructor. Qed.
Lemma wf_set_w s A b c ee w : erk_wf ndim s A b c ee -> length w = ndim -> erk_wf ndim (set_e_w w s) A b c ee.
Proof. intros []. now constructor. Qed.
Lemma wf_set_dense s A b c ee d : erk_wf ndim s A b c ee -> erk_wf ndim (set_e_dense d s) A b c ee.
Proof. intros []. now constructor. Qed.
Lemma wf_set_k s A b c ee k : erk_wf ndim s A b c ee -> vecs_ok ndim (length b) k -> erk_wf ndim (set_e_k k s) A b c ee.
Proof. intros []. now constructor. Qed.

Lemma new_solution_length b y h k : length (new_solution b y h k) = length y.
Proof. unfold new_solution. now rewrite map_length, seq_length. Qed.

(** what `step` does, whenever the first stage is up to date *)
Lemma step_shape fresh s A b c ee w x y h s' w' : erk_wf ndim s A b c ee -> length y = ndim ->
  (fresh s w = false -> f x y = Ok (nth 0 (e_k s) [])) ->
  erk_step_gen ndim f fresh s w x y h = Ok (s', w') ->
  exists k v, is_stages f (Rmat A) (Rrow c) x y h k /\ vecs_ok ndim (length b) k /\ vecs_ok ndim (length b) v /\
    (forall j, 1 <= j < length b -> nth j v [] = stage_point (Rmat A) y h k j) /\
    s' = set_e_w (new_solution (Rrow b) y h k) (set_e_v v (set_e_k k s)) /\
    let w1 := add_n_function (length b - (if needs_k0 s w then 0 else 1)) w in
    w' = match ee with Some e => set_w_rel_error (local_error s b e y h k) w1 | None => w1 end.
Proof.
  intros WF HY HF E. unfold erk_step_gen in E. cbv zeta in E.
  apply bind_ok in E as (k & Ek & E). apply bind_ok in E as ([[k' v'] w2] & El & E).
  destruct (tableau_facts _ _ _ _ (wf_tab _ _ _ _ _ _ WF)) as (T1 & T2 & T3 & T4 & T5).
  assert (Hk : vecs_ok ndim (length b) k /\ f x y = Ok (nth 0 k [])).
  { destruct (fresh s w).
    - apply bind_ok in Ek as (k0 & Ef & Ek). apply vset_ok_inv in Ek as [L ->]. split.
      + apply upd_vecs; [exact (wf_k _ _ _ _ _ _ WF)|eapply FD; eauto].
      + now rewrite nth_upd_eq.
    - injection Ek as <-. split; [exact (wf_k _ _ _ _ _ _ WF)|now apply HF]. }
  destruct Hk as [Hk H0].
  apply (stage_loop _ _ _ _ _ WF _ _ _ HY _ _ _ _ Hk (wf_v _ _ _ _ _ _ WF) H0) in El.
  destruct El as (K1 & K2 & K3 & K4 & K5).
  rewrite (finish_eq _ _ _ _ _ _ _ _ (wf_set_kv _ _ _ _ _ _ _ WF K1 K2) HY) in E. injection E as <- <-.
  exists k', v'. cbn [e_k set_e_v set_e_k]. splits; auto.
  - split; [rewrite Rmat_length, T1; exact (proj1 K1)|]. intros i Hi. apply K4. rewrite Rmat_length in Hi. lia.
  - cbv zeta. subst w2. destruct (needs_k0 s w).
    + rewrite add_n_function_add. replace (1 + (length b - 1)) with (length b - 0) by lia. reflexivity.
    + reflexivity.
Qed.

(** the first stage kept from before is the one that would be computed: recomputing it changes nothing *)
Lemma step_reuse fresh s A b c ee w x y h : erk_wf ndim s A b c ee ->
  (fresh s w = false -> f x y = Ok (nth 0 (e_k s) [])) ->
  erk_step_gen ndim f fresh s w x y h = erk_step_gen ndim f (fun _ _ => true) s w x y h.
Proof.
  intros WF HF. unfold erk_step_gen. destruct (fresh s w); [reflexivity|]. rewrite (HF eq_refl). cbn [bind].
  destruct (wf_k _ _ _ _ _ _ WF) as [L _]. destruct (tableau_facts _ _ _ _ (wf_tab _ _ _ _ _ _ WF)) as (T1 & T2 & T3 & T4 & T5).
  rewrite vset_ok by lia. now rewrite upd_same.
Qed.

(** * The claims about one step *)

(** `new` gives a solver object with the coefficients of the method *)
Theorem C50_new p s : erk_new p ndim = Ok s -> exists A b c ee, erk_wf ndim s A b c ee /\ e_params s = p /\ e_dense s = None.
Proof.
  unfold erk_new. intros E. destruct (erk_tableau (p_method p)) as [[[A b] c]|] eqn:Et; [|discriminate].
  apply bind_ok in E as (ee & Ee & E). injection E as <-. exists A, b, c, ee. split; [|split; reflexivity].
  assert (V : vecs_ok ndim (length b) (repeat (zeros ndim) (length b))).
  { split; [apply repeat_length|]. intros i Hi. rewrite nth_repeat_lt by exact Hi. apply repeat_length. }
  constructor; cbn; auto. apply repeat_length.
Qed.

Theorem C50_step : forall s A b c ee w x y h s' w',
  erk_wf ndim s A b c ee -> length y = ndim ->
  (needs_k0 s w = false -> f x y = Ok (nth 0 (e_k s) [])) ->
  erk_step ndim f s w x y h = Ok (s', w') ->
  erk_wf ndim s' A b c ee /\ e_params s' = e_params s /\
  is_stages f (Rmat A) (Rrow c) x y h (e_k s') /\
  e_w s' = new_solution (Rrow b) y h (e_k s') /\
  n_function (w_stats w') = n_function (w_stats w) + length b - (if needs_k0 s w then 0 else 1) /\
  match ee with
  | None => w_rel_error w' = w_rel_error w
  | Some e => w_rel_error w' =
      if method_eqb (p_method (e_params s)) DoPri8
      then dopri8_error (p_tol (e_params s)) (Rrow b) (Rrow e) y (e_w s') h (e_k s')
      else embedded_error (p_tol (e_params s)) (Rrow e) y (e_w s') h (e_k s')
  end.
Proof.
  intros s A b c ee w x y h s' w' WF HY HF E.
  destruct (step_shape _ _ _ _ _ _ _ _ _ _ _ _ WF HY HF E) as (k & v & S1 & S2 & S3 & S4 & -> & ->).
  destruct (tableau_facts _ _ _ _ (wf_tab _ _ _ _ _ _ WF)) as (T1 & T2 & T3 & T4 & T5).
  splits; try reflexivity; [|exact S1| |].
  - apply wf_set_w; [apply wf_set_kv; auto|]. now rewrite new_solution_length.
  - destruct ee; cbn; destruct (needs_k0 s w); lia.
  - destruct ee; cbn [w_rel_error set_w_rel_error]; [|reflexivity]. cbn [e_k e_w set_e_w set_e_v set_e_k]. reflexivity.
Qed.

(** `accept` returns x + h and the new solution *)
Theorem C50_accept : forall s A b c ee w x y h s' w' x' y',
  erk_wf ndim s A b c ee -> length y = ndim -> erk_accept ndim f powf s w x y h = Ok (s', w', x', y') ->
  x' = (x + h)%R /\ y' = e_w s.
Proof.
  intros s A b c ee w x y h s' w' x' y' WF HY E. unfold erk_accept in E. apply bind_ok in E as ([s1 w1] & E1 & E).
  assert (W1 : e_w s1 = e_w s).
  { destruct (e_dense s); [apply bind_ok in E1 as ([o' n'] & _ & E1)|]; injection E1 as <- <-; reflexivity. }
  cbv zeta in E. apply bind_ok in E as (y2 & Ey & E). unfold vcopy in Ey. destruct (_ =? _); [|discriminate]. injection Ey as <-.
  apply bind_ok in E as (s2 & E2 & E).
  destruct (negb (i_embedded (e_info s2))).
  - injection E as <- <- <- <-. auto.
  - apply bind_ok in E as ([s3 w3] & E3 & E). injection E as <- <- <- <-. auto.
Qed.

(** stepping never panics by itself *)
Theorem C50_no_panic : forall s A b c ee w x y h, erk_wf ndim s A b c ee -> length y = ndim -> (forall u z, f u z <> Panic) ->
  erk_step ndim f s w x y h <> Panic.
Proof.
  intros s A b c ee w x y h WF HY Hf. unfold erk_step, erk_step_gen. cbv zeta.
  assert (Hk : exists r, (if needs_k0 s w then k0 <- f x y ;; vset (e_k s) 0 k0 else Ok (e_k s)) = r /\
                match r with Ok k => vecs_ok ndim (length b) k | Err _ => True | Panic => False end).
  { destruct (needs_k0 s w); [|eexists; split; [reflexivity|exact (wf_k _ _ _ _ _ _ WF)]].
    destruct (f x y) as [k0|e|] eqn:Ef; cbn [bind]; [|eexists; split; [reflexivity|exact I]|now apply Hf in Ef].
    destruct (wf_k _ _ _ _ _ _ WF) as [L1 L2]. destruct (tableau_facts _ _ _ _ (wf_tab _ _ _ _ _ _ WF)) as (T1 & T2 & T3 & T4 & T5).
    rewrite vset_ok by lia. eexists; split; [reflexivity|]. apply upd_vecs; [split; auto|eapply FD; eauto]. }
  destruct Hk as (r & -> & Hr). destruct r as [k|e|]; cbn [bind]; [|discriminate|contradiction].
  pose proof (stage_loop_total _ _ _ _ _ WF x y h HY (if needs_k0 s w then add_n_function 1 w else w) k (e_v s) Hr (wf_v _ _ _ _ _ _ WF) Hf) as T.
  destruct (for_range 1 (e_nstage s) (erk_stage f s x y h) (k, e_v s, (if needs_k0 s w then add_n_function 1 w else w))) as [[[k' v'] w2]|e|] eqn:El; cbn [bind]; [|discriminate|contradiction].
  assert (K : vecs_ok ndim (length b) k' /\ vecs_ok ndim (length b) v').
  { destruct (tableau_facts _ _ _ _ (wf_tab _ _ _ _ _ _ WF)) as (T1 & T2 & T3 & T4 & T5). rewrite (wf_n _ _ _ _ _ _ WF) in El.
    refine (for_range_partial (fun i st => vecs_ok ndim (length b) (fst (fst st)) /\ vecs_ok ndim (length b) (snd (fst st))) _ 1 (length b) _ _ T3 El _ _).
    - split; [exact Hr|exact (wf_v _ _ _ _ _ _ WF)].
    - intros i [[k1 v1] w1] st' Hi [H1 H2] Es. cbn [fst snd] in *. rewrite (stage_eq _ _ _ _ _ WF x y h HY) in Es by auto.
      apply bind_ok in Es as (ki & Ef & Es). injection Es as <-. cbn [fst snd].
      split; (apply upd_vecs; [auto|]); [eapply FD; [|exact Ef]|]; now rewrite stage_point_length. }
  destruct K as [K1 K2]. rewrite (finish_eq _ _ _ _ _ _ _ _ (wf_set_kv _ _ _ _ _ _ _ WF K1 K2) HY). discriminate.
Qed.

(** a function that never fails makes `step` succeed *)
Theorem C50_total : forall s A b c ee w x y h, erk_wf ndim s A b c ee -> length y = ndim ->
  (forall u z, length z = ndim -> exists k, f u z = Ok k) -> exists s' w', erk_step ndim f s w x y h = Ok (s', w').
Proof.
  intros s A b c ee w x y h WF HY Hf. unfold erk_step, erk_step_gen. cbv zeta.
  destruct (tableau_facts _ _ _ _ (wf_tab _ _ _ _ _ _ WF)) as (T1 & T2 & T3 & T4 & T5). destruct (wf_k _ _ _ _ _ _ WF) as [L1 L2].
  assert (Hk : exists k, (if needs_k0 s w then k0 <- f x y ;; vset (e_k s) 0 k0 else Ok (e_k s)) = Ok k /\ vecs_ok ndim (length b) k).
  { destruct (needs_k0 s w); [|eexists; split; [reflexivity|exact (wf_k _ _ _ _ _ _ WF)]].
    destruct (Hf x y HY) as (k0 & Ef). rewrite Ef. cbn [bind].
    rewrite vset_ok by lia. eexists; split; [reflexivity|]. apply upd_vecs; [split; auto|eapply FD; eauto]. }
  destruct Hk as (k & -> & Hk). cbn [bind]. rewrite (wf_n _ _ _ _ _ _ WF).
  destruct (for_range_inv (fun i st => vecs_ok ndim (length b) (fst (fst st)) /\ vecs_ok ndim (length b) (snd (fst st)))
    (erk_stage f s x y h) 1 (length b) (k, e_v s, (if needs_k0 s w then add_n_function 1 w else w)) T3) as ([[k' v'] w'] & -> & K1 & K2).
  - split; [exact Hk|exact (wf_v _ _ _ _ _ _ WF)].
  - intros i [[k1 v1] w1] Hi [H1 H2]. cbn [fst snd] in *. rewrite (stage_eq _ _ _ _ _ WF x y h HY) by auto.
    destruct (Hf (x + h * nth i (Rrow c) 0)%R (stage_point (Rmat A) y h k1 i)) as (ki & Ef); [now rewrite stage_point_length|].
    rewrite Ef. cbn [bind]. eexists; split; [reflexivity|]. cbn [fst snd].
    split; (apply upd_vecs; [auto|]); [eapply FD; [|exact Ef]|]; now rewrite stage_point_length.
  - cbn [bind fst snd] in *. rewrite (finish_eq _ _ _ _ _ _ _ _ (wf_set_kv _ _ _ _ _ _ _ WF K1 K2) HY). eauto.
Qed.

(** * The first stage is never stale *)
Lemma accept_shape s A b c ee w x y h s' w' x' y' : erk_wf ndim s A b c ee -> length y = ndim -> erk_accept ndim f powf s w x y h = Ok (s', w', x', y') ->
  erk_wf ndim s' A b c ee /\ e_params s' = e_params s /\ counters w' = counters w /\ w_follows_reject w' = w_follows_reject w /\
  (i_fsal (e_info s) = true -> nth 0 (e_k s') [] = nth (length b - 1) (e_k s) []).
Proof.
  intros WF HY E. unfold erk_accept in E. apply bind_ok in E as ([s1 w1] & E1 & E).
  assert (W1 : erk_wf ndim s1 A b c ee /\ e_params s1 = e_params s /\ e_info s1 = e_info s /\ e_k s1 = e_k s /\ counters w1 = counters w /\ w_follows_reject w1 = w_follows_reject w).
  { destruct (e_dense s); [apply bind_ok in E1 as ([o' n'] & _ & E1)|]; injection E1 as <- <-; splits; try reflexivity; [now apply wf_set_dense|exact WF]. }
  destruct W1 as (WF1 & P1 & I1 & K1 & C1 & R1). cbv zeta in E. apply bind_ok in E as (y2 & Ey & E). apply bind_ok in E as (s2 & E2 & E).
  destruct (tableau_facts _ _ _ _ (wf_tab _ _ _ _ _ _ WF)) as (T1 & T2 & T3 & T4 & T5).
  assert (W2 : erk_wf ndim s2 A b c ee /\ e_params s2 = e_params s /\ (i_fsal (e_info s) = true -> nth 0 (e_k s2) [] = nth (length b - 1) (e_k s) [])).
  { rewrite I1 in E2. destruct (i_fsal (e_info s)); [|injection E2 as <-; splits; auto; discriminate].
    rewrite (wf_n _ _ _ _ _ _ WF1), usub_ok in E2 by lia. cbn [bind] in E2. destruct (wf_k _ _ _ _ _ _ WF1) as [L1 L2].
    rewrite (vget_ok (e_k s1) (length b - 1) []) in E2 by lia. cbn [bind] in E2. rewrite (vget_ok (e_k s1) 0 []) in E2 by lia. cbn [bind] in E2.
    assert (CP : for_range 0 ndim (fun m k0 => a <- vget (nth (length b - 1) (e_k s1) []) m ;; vset k0 m a) (nth 0 (e_k s1) []) = Ok (nth (length b - 1) (e_k s1) [])).
    { set (kl := nth (length b - 1) (e_k s1) []). set (k0 := nth 0 (e_k s1) []).
      assert (Lk : length k0 = ndim) by (apply L2; lia). assert (Ll : length kl = ndim) by (apply L2; lia).
      rewrite <- (filled_0 (fun m => nth m kl 0%R) k0) at 1.
      replace (Ok kl) with (@Ok vec (filled ndim (fun m => nth m kl 0%R) k0)).
      - apply (for_range_det (fun t => filled t (fun m => nth m kl 0%R) k0)); [lia|]. intros m Hm.
        rewrite (vget_ok kl m 0%R) by lia. cbn [bind]. apply filled_next. lia.
      - f_equal. rewrite <- Lk at 1. rewrite filled_all, Lk. apply (vec_ext _ _ ndim); [now rewrite map_length, seq_length|exact Ll|].
        intros m Hm. now rewrite nth_tabmap. }
    rewrite CP in E2. cbn [bind] in E2. rewrite vset_ok in E2 by lia. cbn [bind] in E2. injection E2 as <-.
    splits; [|exact P1|].
    - apply wf_set_k; [exact WF1|]. apply upd_vecs; [exact (wf_k _ _ _ _ _ _ WF1)|]. apply L2. lia.
    - intros _. cbn [e_k set_e_k]. rewrite nth_upd_eq by lia. now rewrite K1. }
  destruct W2 as (WF2 & P2 & K2).
  destruct (negb (i_embedded (e_info s2))); [injection E as <- <- <- <-; splits; auto|].
  apply bind_ok in E as ([s3 w3] & E3 & E). injection E as <- <- <- <-.
  assert (DS : forall wa xa ps wb, detect_stiffness wa xa ps = Ok wb -> counters wb = counters wa /\ w_follows_reject wb = w_follows_reject wa).
  { unfold detect_stiffness. intros wa xa ps wb E. cbn -[Nat.leb Nat.eqb] in E.
    repeat match type of E with context [if ?c then _ else _] => destruct c end; try discriminate; injection E as <-; split; reflexivity. }
  unfold erk_stiffness in E3. destruct (ps_enabled (p_stiff (e_params s2))); [|injection E3 as <- <-; splits; auto].
  destruct (p_method (e_params s2)) eqn:Em; try (injection E3 as <- <-; splits; auto; fail).
  - repeat (apply bind_ok in E3 as (? & ? & E3)). injection E3 as <- <-.
    match goal with H : detect_stiffness _ _ _ = Ok _ |- _ => apply DS in H as [D1 D2] end.
    splits; auto.
    + rewrite D1. destruct (Rltb EPSILON _); exact C1.
    + rewrite D2. destruct (Rltb EPSILON _); exact R1.
  - apply bind_ok in E3 as (kn & Ekn & E3). apply bind_ok in E3 as (kk & Ekk & E3). apply vset_ok_inv in Ekk as [L ->].
    repeat (apply bind_ok in E3 as (? & ? & E3)). injection E3 as <- <-.
    match goal with H : detect_stiffness _ _ _ = Ok _ |- _ => apply DS in H as [D1 D2] end.
    assert (Ly2 : length y2 = ndim).
    { unfold vcopy in Ey. destruct (_ =? _); [|discriminate]. injection Ey as <-. exact (wf_w _ _ _ _ _ _ WF1). }
    splits; auto.
    + apply wf_set_k; [exact WF2|]. apply upd_vecs; [exact (wf_k _ _ _ _ _ _ WF2)|eapply FD; eauto].
    + rewrite D1. destruct (Rltb EPSILON _); exact C1.
    + rewrite D2. destruct (Rltb EPSILON _); exact R1.
    + intros Hf. cbn [e_k set_e_k]. rewrite nth_upd_ne by discriminate. now apply K2.
Qed.

(** with first-same-as-last, the last stage is f at the new solution *)
Lemma fsal_last m A b c x y h k : erk_tableau m = Some (A, b, c) -> i_fsal (method_information m) = true ->
  is_stages f (Rmat A) (Rrow c) x y h k -> f (x + h)%R (new_solution (Rrow b) y h k) = Ok (nth (length b - 1) k []).
Proof.
  intros Et Hf (L & Hs). destruct (tableau_facts _ _ _ _ Et) as (T1 & T2 & T3 & T4 & T5).
  assert (N8 : m <> DoPri8) by (intros ->; discriminate Hf).
  destruct (proj1 (C49_fsal _ _ _ _ Et N8) Hf) as (C1 & C2). destruct (C49_structure _ _ _ _ Et) as (_ & _ & _ & SL & _).
  rewrite T1 in *. specialize (Hs (length b - 1)). rewrite Rmat_length in Hs. specialize (Hs ltac:(lia)).
  rewrite <- Hs. f_equal.
  - rewrite Rrow_nth, (Qeq_eqR _ _ C1). unfold Q2R. cbn. lra.
  - unfold new_solution, stage_point. apply map_ext. intros mm. do 2 f_equal. unfold comb. rewrite Rrow_length.
    assert (EB : rsum (length b) (fun i => (nth i (Rrow b) 0 * nth mm (nth i k []) 0)%R) =
                 rsum (length b) (fun j => (nth j (nth (length b - 1) (Rmat A) []) 0 * nth mm (nth j k []) 0)%R)).
    { apply rsum_ext. intros i Hi. f_equal. rewrite Rmat_nth, !Rrow_nth. symmetry. apply Qeq_eqR, C2. exact Hi. }
    rewrite EB. destruct (length b) as [|n] eqn:En; [lia|]. replace (S n - 1) with n by lia. cbn [rsum].
    rewrite Rmat_nth, Rrow_nth, (Qeq_eqR _ 0%Q), Q2R0; [lra|]. apply SL; lia.
Qed.

Definition wf (s : erk) : Prop := exists A b c ee, erk_wf ndim s A b c ee.

(** a whole run with the reuse rules of the code is the run that recomputes the first stage at every
    attempt (with the same counters): same outcome, results, output, statistics and solver state *)
Theorem C50_reuse : forall all_finite P s w y0 x0 x1 h_equal oo, wf s ->
  solve (erk_ops ndim f powf) all_finite P ndim s w y0 x0 x1 h_equal oo =
  solve (erk_ops_gen ndim f powf (fun _ _ => true)) all_finite P ndim s w y0 x0 x1 h_equal oo.
Proof.
  intros all_finite P s w y0 x0 x1 h_equal oo HWF.
  set (I0 := fun (s1 s2 : erk) (w : workspace) (x : R) (y : vec) =>
     s1 = s2 /\ wf s1 /\ length y = ndim /\ (needs_k0 s1 w = false -> f x y = Ok (nth 0 (e_k s1) []))).
  set (I1 := fun (s1 s2 : erk) (w : workspace) (x : R) (y : vec) (h : R) =>
     s1 = s2 /\ length y = ndim /\ exists A b c ee, erk_wf ndim s1 A b c ee /\ is_stages f (Rmat A) (Rrow c) x y h (e_k s1) /\ e_w s1 = new_solution (Rrow b) y h (e_k s1)).
  assert (STG0 : forall s1 x y h A b c ee, erk_wf ndim s1 A b c ee -> is_stages f (Rmat A) (Rrow c) x y h (e_k s1) -> f x y = Ok (nth 0 (e_k s1) [])).
  { intros s1 x y h A b c ee WF (L & Hs). destruct (tableau_facts _ _ _ _ (wf_tab _ _ _ _ _ _ WF)) as (T1 & T2 & T3 & T4 & T5).
    specialize (Hs 0). rewrite Rmat_length in Hs. specialize (Hs ltac:(lia)). now rewrite stage_point_0, Rrow_nth, T5, Rmult_0_l, Rplus_0_r in Hs. }
  assert (SIM : simulation _ _ (erk_ops ndim f powf) (erk_ops_gen ndim f powf (fun _ _ => true)) I0 I1).
  { split.
    - intros s1 s2 w0 x y h (<- & (A & b & c & ee & WF) & HY & HF). cbn [m_step erk_ops erk_ops_gen].
      change (needs_k0 s1 (add_n_steps w0) = false -> f x y = Ok (nth 0 (e_k s1) [])) in HF.
      rewrite <- (step_reuse needs_k0 s1 A b c ee (add_n_steps w0) x y h WF HF).
      destruct (erk_step_gen ndim f needs_k0 s1 (add_n_steps w0) x y h) as [[s' w']|e|] eqn:E; constructor. cbn [fst snd].
      destruct (C50_step _ _ _ _ _ _ _ _ _ _ _ WF HY HF E) as (Q1 & Q2 & Q3 & Q4 & _).
      destruct (step_shape _ _ _ _ _ _ _ _ _ _ _ _ WF HY HF E) as (k & v & _ & _ & _ & _ & _ & ->).
      splits; [reflexivity|destruct ee; reflexivity|]. unfold I1. splits; auto. exists A, b, c, ee. auto.
    - intros s1 s2 w0 x y h (<- & HY & A & b & c & ee & WF & ST & NW). cbn [m_accept erk_ops erk_ops_gen].
      destruct (erk_accept ndim f powf s1 (add_n_accepted w0) x y h) as [[[[s' w'] x'] y']|e|] eqn:E; constructor.
      destruct (accept_shape _ _ _ _ _ _ _ _ _ _ _ _ _ WF HY E) as (A1 & A2 & A3 & A4 & A5).
      destruct (C50_accept _ _ _ _ _ _ _ _ _ _ _ _ _ WF HY E) as (-> & ->).
      splits; auto. intros w2 N2 F2. unfold I0. splits; auto; [now exists A, b, c, ee|rewrite NW, new_solution_length; exact HY|].
      unfold needs_k0. rewrite N2, F2. unfold counters in A3. injection A3 as _ A3 _. rewrite A3. cbn [n_accepted w_stats add_n_accepted on_stats set_w_stats set_n_accepted].
      rewrite Nat.add_1_r. cbn [Nat.eqb orb negb andb]. rewrite andb_true_r. intros Hn. apply negb_false_iff in Hn.
      rewrite (wf_info _ _ _ _ _ _ A1), A2 in Hn.
      rewrite A5 by (rewrite (wf_info _ _ _ _ _ _ WF); exact Hn). rewrite NW. eapply fsal_last; [exact (wf_tab _ _ _ _ _ _ WF)|exact Hn|exact ST].
    - intros s1 s2 w0 x y h w2 (<- & HY & A & b & c & ee & WF & ST & NW) Hf _. unfold I0. splits; auto; [now exists A, b, c, ee|].
      intros _. eapply STG0; eauto.
    - intros s1 s2 w0 x y h w2 (<- & HY & A & b & c & ee & WF & ST & NW) Hf _. cbn [m_reject erk_ops erk_ops_gen]. split; [reflexivity|].
      unfold I0, erk_reject. cbn [fst snd]. splits; auto; [now exists A, b, c, ee|]. intros _. eapply STG0; eauto.
    - intros s1 s2 w0 x y (<- & _) _ xo xx yy hh. reflexivity. }
  apply rrel_eq. eapply rrel_imp; [apply (solve_same _ _ _ _ all_finite P _ _ SIM)|].
  - intros Hy _ w0 (Hn & Hf). unfold I0. splits; auto. unfold needs_k0. rewrite Hn, Hf. discriminate.
  - intros Hy _. cbn [m_enable_dense erk_ops erk_ops_gen]. destruct (erk_enable_dense ndim s) as [s'|e|] eqn:Ed; constructor.
    intros w0 (Hn & Hf). unfold I0. splits; auto.
    + unfold erk_enable_dense in Ed. apply bind_ok in Ed as (d & _ & Ed). injection Ed as <-.
      destruct HWF as (A & b & c & ee & WF). exists A, b, c, ee. now apply wf_set_dense.
    + unfold needs_k0. rewrite Hn, Hf. discriminate.
  - intros [b1 d1] [b2 d2] (E1 & (V1 & V2 & V3 & V4 & V5 & V6) & (w' & x' & y' & E2 & _)). cbn [fst snd] in *.
    destruct d1, d2; cbn in *; congruence.
Qed.

(** the contract of the driver (C53, C54) holds *)
Theorem C50_contract : forall s A b c ee, erk_wf ndim s A b c ee -> forall w x y h, length y = ndim ->
  (forall s' w', (needs_k0 s w = false -> f x y = Ok (nth 0 (e_k s) [])) -> erk_step ndim f s w x y h = Ok (s', w') -> counters w' = counters w /\ w_diverging w' = w_diverging w) /\
  (forall s' w' x' y', erk_accept ndim f powf s w x y h = Ok (s', w', x', y') -> counters w' = counters w /\ x' = (x + h)%R) /\
  (forall s' w', erk_reject powf s w h = (s', w') -> counters w' = counters w /\ s' = s).
Proof.
  intros s A b c ee WF w x y h HY. splits.
  - intros s' w' HF E. destruct (step_shape _ _ _ _ _ _ _ _ _ _ _ _ WF HY HF E) as (k & v & _ & _ & _ & _ & _ & ->).
    destruct ee; split; reflexivity.
  - intros s' w' x' y' E. destruct (accept_shape _ _ _ _ _ _ _ _ _ _ _ _ _ WF HY E) as (A1 & A2 & A3 & A4 & A5).
    destruct (C50_accept _ _ _ _ _ _ _ _ _ _ _ _ _ WF HY E) as (-> & ->). auto.
  - intros s' w' E. injection E as <- <-. split; reflexivity.
Qed.
End Steps.

(** non-vacuity: DoPri5 on y' = -y in two dimensions *)
Example C50_ex : let f := fun (_ : R) (z : vec) => Ok (map Ropp z) in forall p, p_method p = DoPri5 ->
  exists s s' w', erk_new p 2 = Ok s /\ keeps_dim 2 f /\ wf 2 s /\
    erk_step 2 f s workspace_new 0 [1; 2]%R 0.5%R = Ok (s', w') /\
    is_stages f (Rmat DORMAND_PRINCE_5_A) (Rrow DORMAND_PRINCE_5_C) 0 [1; 2]%R 0.5%R (e_k s') /\
    e_w s' = new_solution (Rrow DORMAND_PRINCE_5_B) [1; 2]%R 0.5%R (e_k s').
Proof.
  intros f p Hp. assert (FD : keeps_dim 2 f) by (intros x y k H E; injection E as <-; now rewrite map_length).
  destruct (erk_new p 2) as [s|e|] eqn:E; [|unfold erk_new in E; rewrite Hp in E; discriminate E..].
  destruct (C50_new _ _ _ E) as (A & b & c & ee & WF & P1 & _). pose proof (wf_tab _ _ _ _ _ _ WF) as Et. rewrite P1, Hp in Et.
  injection Et as <- <- <-.
  destruct (C50_total 2 f FD s _ _ _ _ workspace_new 0%R [1; 2]%R 0.5%R WF eq_refl) as (s' & w' & Es); [intros u z _; now exists (map Ropp z)|].
  assert (N : needs_k0 s workspace_new = false -> f 0%R [1; 2]%R = Ok (nth 0 (e_k s) [])) by (intros X; discriminate X).
  destruct (C50_step 2 f FD _ _ _ _ _ _ _ [1; 2]%R _ _ _ WF eq_refl N Es) as (Q1 & Q2 & Q3 & Q4 & _).
  exists s, s', w'. splits; auto. now exists DORMAND_PRINCE_5_A, DORMAND_PRINCE_5_B, DORMAND_PRINCE_5_C, ee.
Qed.

Print Assumptions C50_step.
Print Assumptions C50_reuse.
