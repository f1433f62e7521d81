(** Assembly of the FDM matrices: the stored triplets, for any neighbour function. *)
From Coq Require Import Sorting.Sorted.
From Verif Require Import Base Dense_Model Sparse_Model Sparse_Spec Sparse_CooProofs Eqs_Model Eqs_Thm Grid_Model Bcs_Model Fdm_Model.

Lemma for_each_flat {A B S} (g : A -> list B) (f : B -> S -> res S) (l : list A) (s : S) :
  for_each l (fun a s => for_each (g a) f s) s = for_each (flat_map g l) f s.
Proof.
  revert s. induction l as [|a l IH]; intros s; cbn [for_each flat_map]; auto.
  rewrite for_each_app. destruct (for_each (g a) f s) as [s'| |]; cbn [bind]; auto.
Qed.

Lemma for_each_ext {A S} (f g : A -> S -> res S) (l : list A) s :
  (forall a s, In a l -> f a s = g a s) -> for_each l f s = for_each l g s.
Proof.
  revert s. induction l as [|a l IH]; intros s H; cbn [for_each]; auto.
  rewrite H by (now left). destruct (g a s); cbn [bind]; auto. apply IH. intros; apply H; now right.
Qed.

Lemma for_each_map {A B S} (g : A -> B) (f : B -> S -> res S) (l : list A) s :
  for_each (map g l) f s = for_each l (fun a => f (g a)) s.
Proof. revert s. induction l as [|a l IH]; intros s; cbn [for_each map]; auto. destruct (f (g a) s); cbn [bind]; auto. Qed.

(** every item puts at most one triplet in each of two matrices *)
Lemma for_range_each {S} lo n (f : nat -> S -> res S) s : for_range lo (lo + n) f s = for_each (seq lo n) f s.
Proof.
  unfold for_range. replace (lo + n - lo) with n by lia. revert lo s.
  induction n as [|n IH]; intros lo s; cbn; auto. destruct (f lo s); cbn [bind]; auto.
Qed.

Section Puts.
Variable T : Type.

Lemma put_unwrap_ok (c : coo T) i j x :
  coo_valid c -> i < c_nrow c -> j < c_ncol c -> length (coo_triplets c) < c_max c ->
  in_triangle (c_sym c) i j = true ->
  exists c', put_unwrap T c i j x = Ok c' /\ coo_valid c' /\ coo_triplets c' = coo_triplets c ++ [(i, j, x)] /\
    c_nrow c' = c_nrow c /\ c_ncol c' = c_ncol c /\ c_max c' = c_max c /\ c_sym c' = c_sym c.
Proof.
  intros V Hi Hj HL HT. unfold put_unwrap.
  destruct (coo_put_cases T c i j x V) as [[E (c1 & E1 & V1 & Ht & Hr & Hc & Hm & Hs)]|[E _]].
  - rewrite E1. exists c1. splits; auto.
  - exfalso. unfold spec_accepts in E. rewrite HT in E.
    destruct (Nat.ltb_spec i (c_nrow c)); [|lia]. destruct (Nat.ltb_spec j (c_ncol c)); [|lia].
    destruct (Nat.ltb_spec (length (coo_triplets c)) (c_max c)); [discriminate|lia].
Qed.

(** the fixed part of a matrix *)
Definition same_frame (c c' : coo T) : Prop :=
  c_nrow c' = c_nrow c /\ c_ncol c' = c_ncol c /\ c_max c' = c_max c /\ c_sym c' = c_sym c.

Definition fits (c : coo T) (ts : list (nat * nat * T)) : Prop :=
  Forall (fun '(i, j, _) => i < c_nrow c /\ j < c_ncol c /\ in_triangle (c_sym c) i j = true) ts.

Lemma fits_frame c c' ts : same_frame c c' -> fits c ts -> fits c' ts.
Proof. intros (A & B & _ & D) F. unfold fits in *. rewrite A, B, D. exact F. Qed.

(** a loop whose items put the lists [g a] *)
Lemma put_loop {A} (l : list A) (f : A -> coo T -> res (coo T)) (g : A -> list (nat * nat * T)) : forall c,
  coo_valid c ->
  fits c (flat_map g l) ->
  length (coo_triplets c) + length (flat_map g l) <= c_max c ->
  (forall a c, In a l -> coo_valid c -> fits c (g a) -> length (coo_triplets c) + length (g a) <= c_max c ->
     exists c', f a c = Ok c' /\ coo_valid c' /\ coo_triplets c' = coo_triplets c ++ g a /\ same_frame c c') ->
  exists c', for_each l f c = Ok c' /\ coo_valid c' /\ coo_triplets c' = coo_triplets c ++ flat_map g l /\ same_frame c c'.
Proof.
  induction l as [|a l IH]; intros c V F L ST; cbn [for_each flat_map] in *.
  - exists c. rewrite app_nil_r. splits; auto. unfold same_frame; auto.
  - apply Forall_app in F. destruct F as [Fa Fl]. rewrite app_length in L.
    destruct (ST a c) as (c1 & E1 & V1 & T1 & S1); auto; [now left|lia|]. rewrite E1. cbn [bind].
    destruct (IH c1) as (c2 & E2 & V2 & T2 & S2); auto.
    + eapply fits_frame; eauto.
    + destruct S1 as (_ & _ & -> & _). rewrite T1, app_length. lia.
    + intros; apply ST; auto. now right.
    + exists c2. splits; auto.
      * rewrite T2, T1, app_assoc. reflexivity.
      * unfold same_frame in *. intuition congruence.
Qed.

(** the same for a loop filling two matrices *)
Lemma put_loop2 {A} (l : list A) (f : A -> coo T * coo T -> res (coo T * coo T))
    (g g' : A -> list (nat * nat * T)) : forall c d,
  coo_valid c -> coo_valid d ->
  fits c (flat_map g l) -> fits d (flat_map g' l) ->
  length (coo_triplets c) + length (flat_map g l) <= c_max c ->
  length (coo_triplets d) + length (flat_map g' l) <= c_max d ->
  (forall a c d, In a l -> coo_valid c -> coo_valid d -> fits c (g a) -> fits d (g' a) ->
     length (coo_triplets c) + length (g a) <= c_max c -> length (coo_triplets d) + length (g' a) <= c_max d ->
     exists c' d', f a (c, d) = Ok (c', d') /\ coo_valid c' /\ coo_valid d' /\
       coo_triplets c' = coo_triplets c ++ g a /\ coo_triplets d' = coo_triplets d ++ g' a /\
       same_frame c c' /\ same_frame d d') ->
  exists c' d', for_each l f (c, d) = Ok (c', d') /\ coo_valid c' /\ coo_valid d' /\
    coo_triplets c' = coo_triplets c ++ flat_map g l /\ coo_triplets d' = coo_triplets d ++ flat_map g' l /\
    same_frame c c' /\ same_frame d d'.
Proof.
  induction l as [|a l IH]; intros c d V W F G L M ST; cbn [for_each flat_map] in *.
  - exists c, d. rewrite !app_nil_r. splits; auto; unfold same_frame; auto.
  - apply Forall_app in F. destruct F as [Fa Fl]. apply Forall_app in G. destruct G as [Ga Gl].
    rewrite app_length in L, M.
    destruct (ST a c d) as (c1 & d1 & E1 & V1 & W1 & T1 & T1' & S1 & S1'); auto; [now left|lia|lia|]. rewrite E1. cbn [bind].
    destruct (IH c1 d1) as (c2 & d2 & E2 & V2 & W2 & T2 & T2' & S2 & S2'); auto.
    + eapply fits_frame; eauto.
    + eapply fits_frame; eauto.
    + destruct S1 as (_ & _ & -> & _). rewrite T1, app_length. lia.
    + destruct S1' as (_ & _ & -> & _). rewrite T1', app_length. lia.
    + intros; apply ST; auto. now right.
    + exists c2, d2. splits; auto.
      * rewrite T2, T1, app_assoc. reflexivity.
      * rewrite T2', T1', app_assoc. reflexivity.
      * unfold same_frame in *. intuition congruence.
      * unfold same_frame in *. intuition congruence.
Qed.
End Puts.

(** ** rank of an equation among the unknown / prescribed ones *)
Definition rank_u (h : eqs) (e : nat) : nat := match eqs_iu h e with Ok i => i | _ => 0 end.
Definition rank_p (h : eqs) (e : nat) : nat := match eqs_ip h e with Ok i => i | _ => 0 end.

Section Ranks.
Variables (h : eqs) (neq : nat) (p : list nat).
Hypothesis D : describes h neq p.

Lemma iu_ok e : e < neq -> ~ In e p ->
  eqs_iu h e = Ok (rank_u h e) /\ rank_u h e < eqs_nu h /\ nth_error (eq_u_sorted h) (rank_u h e) = Some e.
Proof.
  intros He Hp. destruct D as (_ & _ & _ & _ & I & _ & _ & R & _).
  assert (Q : In e (eq_u_sorted h)) by (apply I; auto).
  apply In_nth_error in Q. destruct Q as (i & Hi).
  assert (L : i < eqs_nu h) by (apply nth_error_Some; congruence).
  assert (E : eqs_iu h e = Ok i) by (apply R; auto).
  unfold rank_u. rewrite E. auto.
Qed.

Lemma ip_ok e : e < neq -> In e p ->
  eqs_ip h e = Ok (rank_p h e) /\ rank_p h e < eqs_np h /\ nth_error (eq_p_sorted h) (rank_p h e) = Some e.
Proof.
  intros He Hp. destruct D as (_ & _ & _ & _ & _ & _ & I & _ & R & _).
  assert (Q : In e (eq_p_sorted h)) by (apply I; auto).
  apply In_nth_error in Q. destruct Q as (i & Hi).
  assert (L : i < eqs_np h) by (apply nth_error_Some; congruence).
  assert (E : eqs_ip h e = Ok i) by (apply R; auto).
  unfold rank_p. rewrite E. auto.
Qed.

Lemma sorted_nth l i j : StronglySorted lt l -> i < j -> j < length l -> nth i l 0 < nth j l 0.
Proof.
  intros S. revert i j. induction S as [|a l S IH F]; intros i j H L; cbn in *; [lia|].
  destruct j as [|j]; [lia|]. destruct i as [|i].
  - rewrite Forall_forall in F. apply F. apply nth_In. lia.
  - apply IH; lia.
Qed.

Lemma rank_mono e e' : e < neq -> e' < neq -> ~ In e p -> ~ In e' p -> (rank_u h e < rank_u h e' <-> e < e').
Proof.
  intros H H' P P'. destruct (iu_ok e H P) as (_ & L & N). destruct (iu_ok e' H' P') as (_ & L' & N').
  destruct D as (_ & _ & _ & S & _).
  assert (V : nth (rank_u h e) (eq_u_sorted h) 0 = e) by (now apply nth_error_nth).
  assert (V' : nth (rank_u h e') (eq_u_sorted h) 0 = e') by (now apply nth_error_nth).
  split; intros Q.
  - rewrite <- V, <- V'. apply sorted_nth; auto.
  - destruct (lt_eq_lt_dec (rank_u h e) (rank_u h e')) as [[K|K]|K]; auto.
    + rewrite K in V. lia.
    + assert (nth (rank_u h e') (eq_u_sorted h) 0 < nth (rank_u h e) (eq_u_sorted h) 0) by (apply sorted_nth; auto). lia.
Qed.

Lemma rank_u_nth i : i < eqs_nu h -> rank_u h (nth i (eq_u_sorted h) 0) = i.
Proof.
  intros H. destruct D as (_ & _ & _ & _ & _ & _ & _ & R & _).
  unfold rank_u. destruct (R (nth i (eq_u_sorted h) 0) i) as [_ ->]; auto.
  split; auto. now apply nth_error_nth'.
Qed.
Lemma rank_p_nth i : i < eqs_np h -> rank_p h (nth i (eq_p_sorted h) 0) = i.
Proof.
  intros H. destruct D as (_ & _ & _ & _ & _ & _ & _ & _ & R & _).
  unfold rank_p. destruct (R (nth i (eq_p_sorted h) 0) i) as [_ ->]; auto.
  split; auto. now apply nth_error_nth'.
Qed.
Lemma u_nth i : i < eqs_nu h -> nth i (eq_u_sorted h) 0 < neq /\ ~ In (nth i (eq_u_sorted h) 0) p.
Proof. intros H. destruct D as (_ & _ & _ & _ & I & _). apply I. now apply nth_In. Qed.
Lemma p_nth i : i < eqs_np h -> nth i (eq_p_sorted h) 0 < neq /\ In (nth i (eq_p_sorted h) 0) p.
Proof. intros H. destruct D as (_ & _ & _ & _ & _ & _ & I & _). apply I. now apply nth_In. Qed.
End Ranks.

(** ** the assembled triplets *)
Definition items (nbrs : nat -> list nat) (rows : list nat) : list (nat * nat * nat) :=
  flat_map (fun m => map (fun '(b, n) => (m, b, n)) (indexed (nbrs m))) rows.

Lemma in_items nbrs rows m b n : In (m, b, n) (items nbrs rows) <-> In m rows /\ nth_error (nbrs m) b = Some n.
Proof.
  unfold items. rewrite in_flat_map. split.
  - intros (x & Hx & H). apply in_map_iff in H. destruct H as ([b' n'] & E & H). inversion E; subst. split; auto.
    unfold indexed in H. apply In_nth_error in H. destruct H as (k & H).
    assert (K : k < length (nbrs m)).
    { assert (Q : nth_error (combine (seq 0 (length (nbrs m))) (nbrs m)) k <> None) by congruence.
      apply nth_error_Some in Q. rewrite combine_length, seq_length in Q. lia. }
    assert (E2 := nth_error_nth _ _ (0, 0) H). rewrite combine_nth in E2 by (now rewrite seq_length).
    rewrite seq_nth in E2 by auto. inversion E2. subst. cbn. now apply nth_error_nth'.
  - intros [Hm H]. exists m. split; auto. apply in_map_iff. exists (b, n). split; auto.
    assert (K : b < length (nbrs m)) by (apply nth_error_Some; congruence).
    unfold indexed. replace (b, n) with (nth b (combine (seq 0 (length (nbrs m))) (nbrs m)) (0, 0)).
    + apply nth_In. rewrite combine_length, seq_length. lia.
    + rewrite combine_nth by (now rewrite seq_length). rewrite seq_nth by auto. f_equal. now apply nth_error_nth.
Qed.

Lemma NoDup_app {A} (l1 l2 : list A) : NoDup l1 -> NoDup l2 -> (forall x, In x l1 -> ~ In x l2) -> NoDup (l1 ++ l2).
Proof.
  induction 1 as [|a l1 H ND IH]; intros N2 X; cbn; auto. constructor.
  - rewrite in_app_iff. intros [Q|Q]; [auto|]. apply (X a); auto. now left.
  - apply IH; auto. intros x Hx. apply X. now right.
Qed.

Lemma nodup_items nbrs rows : NoDup rows -> NoDup (items nbrs rows).
Proof.
  unfold items. induction 1 as [|m rows H ND IH]; cbn [flat_map]; [constructor|].
  apply NoDup_app; auto.
  - unfold indexed. generalize (nbrs m) as l. generalize 0 as s. intros s l. revert s.
    induction l as [|a l IHl]; intros s; cbn; constructor; auto.
    intros Q. apply in_map_iff in Q. destruct Q as ([b n] & E & Q). inversion E; subst.
    apply in_combine_l in Q. apply in_seq in Q. lia.
  - intros x Hx Hy. apply in_map_iff in Hx. destruct Hx as ([b n] & <- & _).
    apply in_flat_map in Hy. destruct Hy as (m' & Hm' & Hy). apply in_map_iff in Hy.
    destruct Hy as ([b' n'] & E & _). inversion E; subst. auto.
Qed.

(** counting by charging: kept items inject into a list *)
Lemma charge_count {A B} (l : list A) (keep : A -> bool) (c : A -> B) (target : list B) :
  NoDup l ->
  (forall a, In a l -> keep a = true -> In (c a) target) ->
  (forall a a', In a l -> In a' l -> keep a = true -> keep a' = true -> c a = c a' -> a = a') ->
  length (filter keep l) <= length target.
Proof.
  intros ND I J. rewrite <- (map_length c (filter keep l)). apply NoDup_incl_length.
  - assert (ND' := NoDup_filter keep ND).
    assert (H : forall a a', In a (filter keep l) -> In a' (filter keep l) -> c a = c a' -> a = a').
    { intros a a' Ha Ha'. apply filter_In in Ha, Ha'. intuition. }
    clear - ND' H. induction ND' as [|a f N ND IH]; cbn; constructor.
    + intros Q. apply in_map_iff in Q. destruct Q as (x & E & Q). apply N. rewrite (H a x); auto; [now left|now right].
    + apply IH. intros; apply H; auto; now right.
  - intros b Hb. apply in_map_iff in Hb. destruct Hb as (a & <- & Ha). apply filter_In in Ha. apply I; tauto.
Qed.

Lemma opt_list_length {A B} (l : list A) (keep : A -> bool) (t : A -> B) :
  length (flat_map (fun a => if keep a then [t a] else []) l) = length (filter keep l).
Proof. induction l as [|a l IH]; cbn; auto. rewrite app_length, IH. destruct (keep a); reflexivity. Qed.

Section Asm.
Variable T : Type.
Variables zero one : T.
Variables (tri_band full_band chk_band : nat).
Variable nbrs : nat -> list nat.
Variable val : nat -> nat -> nat -> res T.
Variable vv : nat -> nat -> nat -> T.
Variables (h : eqs) (neq : nat) (p : list nat).
Hypothesis D : describes h neq p.
Hypothesis NB : forall m b n, m < neq -> nth_error (nbrs m) b = Some n -> n < neq /\ val m b n = Ok (vv m b n).

Definition bar_keep (s : sym) : nat * nat * nat -> bool :=
  fun '(m, b, n) => negb (contains p n) && negb (skip s m n).
Definition bar_of (s : sym) : nat * nat * nat -> list (nat * nat * T) :=
  fun a => if bar_keep s a then [(let '(m, b, n) := a in (rank_u h m, rank_u h n, vv m b n))] else [].
Definition chk_keep : nat * nat * nat -> bool := fun '(m, b, n) => contains p n.
Definition chk_of : nat * nat * nat -> list (nat * nat * T) :=
  fun a => if chk_keep a then [(let '(m, b, n) := a in (rank_u h m, rank_p h n, vv m b n))] else [].

Lemma skip_triangle s i j : skip s i j = negb (in_triangle s i j).
Proof.
  unfold skip, in_triangle. destruct s; cbn [sym_eqb andb orb negb]; auto; rewrite ?orb_false_r.
  - destruct (Nat.ltb_spec i j), (Nat.leb_spec j i); cbn; auto; lia.
  - destruct (Nat.ltb_spec j i), (Nat.leb_spec i j); cbn; auto; lia.
Qed.

Lemma triangle_rank s m n : m < neq -> n < neq -> ~ In m p -> ~ In n p ->
  in_triangle s (rank_u h m) (rank_u h n) = in_triangle s m n.
Proof.
  intros Hm Hn Pm Pn. assert (A := rank_mono h neq p D m n Hm Hn Pm Pn). assert (B := rank_mono h neq p D n m Hn Hm Pn Pm).
  unfold in_triangle. destruct s; auto.
  - destruct (Nat.leb_spec (rank_u h n) (rank_u h m)), (Nat.leb_spec n m); auto; lia.
  - destruct (Nat.leb_spec (rank_u h m) (rank_u h n)), (Nat.leb_spec m n); auto; lia.
Qed.

Lemma asm_sps_ok extra s :
  0 < eqs_nu h ->
  length (filter (bar_keep s) (items nbrs (eq_u_sorted h))) <= (if triangular s then tri_band else full_band) * eqs_nu h + extra ->
  length (filter chk_keep (items nbrs (eq_u_sorted h))) <= chk_band * eqs_np h ->
  0 < (if triangular s then tri_band else full_band) -> 0 < chk_band ->
  exists kb kc, asm_sps T zero tri_band full_band chk_band nbrs val h extra s = Ok (kb, kc) /\
    coo_valid kb /\ c_nrow kb = eqs_nu h /\ c_ncol kb = eqs_nu h /\ c_sym kb = s /\
    coo_triplets kb = flat_map (bar_of s) (items nbrs (eq_u_sorted h)) /\
    match kc with
    | None => eqs_np h = 0
    | Some kc => 0 < eqs_np h /\ coo_valid kc /\ c_nrow kc = eqs_nu h /\ c_ncol kc = eqs_np h /\ c_sym kc = SymNo /\
        coo_triplets kc = flat_map chk_of (items nbrs (eq_u_sorted h))
    end.
Proof.
  intros NU LB LC PB PC. unfold asm_sps.
  set (cap := (if triangular s then tri_band else full_band) * eqs_nu h + extra) in *.
  assert (CP : 1 <= cap) by (unfold cap; clear - PB NU; destruct (triangular s); nia).
  destruct (coo_new T zero (eqs_nu h) (eqs_nu h) cap s) as [kb0|msg|] eqn:E0.
  2,3: exfalso; revert E0; unfold coo_new; destruct (Nat.ltb_spec (eqs_nu h) 1); [lia|];
       destruct (Nat.ltb_spec cap 1); [lia|]; rewrite Nat.eqb_refl, andb_false_r; discriminate.
  destruct (coo_new_valid T zero _ _ _ _ _ E0) as (V0 & R0 & C0 & M0 & S0 & T0).
  cbn [unwrap bind].
  assert (EC : exists kc0, (if eqs_np h =? 0 then coo_new T zero 1 1 1 SymNo
                      else coo_new T zero (eqs_nu h) (eqs_np h) (chk_band * eqs_np h) SymNo) = Ok kc0 /\
      coo_valid kc0 /\ coo_triplets kc0 = [] /\
      (eqs_np h <> 0 -> c_nrow kc0 = eqs_nu h /\ c_ncol kc0 = eqs_np h /\ c_max kc0 = chk_band * eqs_np h /\ c_sym kc0 = SymNo)).
  { destruct (Nat.eqb_spec (eqs_np h) 0) as [Z|Z].
    - destruct (coo_new T zero 1 1 1 SymNo) eqn:E; try discriminate E.
      destruct (coo_new_valid T zero _ _ _ _ _ E) as (V & R & C & M & S & TT). eexists; splits; eauto. intros; lia.
    - destruct (coo_new T zero (eqs_nu h) (eqs_np h) (chk_band * eqs_np h) SymNo) eqn:E.
      2,3: exfalso; revert E; unfold coo_new; destruct (Nat.ltb_spec (eqs_nu h) 1); [lia|];
           destruct (Nat.ltb_spec (eqs_np h) 1); [lia|]; destruct (Nat.ltb_spec (chk_band * eqs_np h) 1); [nia|];
           cbn; discriminate.
      destruct (coo_new_valid T zero _ _ _ _ _ E) as (V & R & C & M & S & TT). eexists; splits; eauto. }
  destruct EC as (kc0 & EC & VC & TC & FC). rewrite EC. cbn [unwrap bind].
  (* flatten the two loops *)
  set (step := fun (a : nat * nat * nat) (st : coo T * coo T) =>
    let '(m, b, n) := a in
    let '(kk_bar, kk_check) := st in
      v <- val m b n ;;
      q <- eqs_is_prescribed h n ;;
      if q : bool then
        jp <- eqs_ip h n ;;
        kk_check <- put_unwrap T kk_check (rank_u h m) jp v ;; Ok (kk_bar, kk_check)
      else if skip s m n then Ok (kk_bar, kk_check)
      else
        ju <- eqs_iu h n ;;
        kk_bar <- put_unwrap T kk_bar (rank_u h m) ju v ;; Ok (kk_bar, kk_check)).
  assert (IU : forall m, In m (eq_u_sorted h) -> m < neq /\ ~ In m p).
  { destruct D as (_ & _ & _ & _ & I & _). intros m. apply I. }
  match goal with |- context [for_each (eq_u_sorted h) ?f (kb0, kc0)] =>
    replace (for_each (eq_u_sorted h) f (kb0, kc0)) with (for_each (items nbrs (eq_u_sorted h)) step (kb0, kc0)) end.
  2:{ unfold items. rewrite <- for_each_flat. apply for_each_ext. intros m st Hm.
      destruct (IU m Hm) as [Hm1 Hm2]. destruct (iu_ok h neq p D m Hm1 Hm2) as (-> & _). cbn [bind].
      rewrite for_each_map. apply for_each_ext. intros [b n] [kb kc] _. reflexivity. }
  set (its := items nbrs (eq_u_sorted h)) in *.
  assert (PR : forall n, n < neq -> eqs_is_prescribed h n = Ok (contains p n)).
  { intros n Hn. destruct D as (_ & Q & _). destruct (Q n Hn) as [Q1 Q2].
    destruct (contains p n) eqn:E.
    - apply Q1. now apply contains_spec.
    - apply Q2. intros K. apply contains_spec in K. congruence. }
  assert (NC : forall n, contains p n = false -> ~ In n p).
  { intros n E K. apply contains_spec in K. congruence. }
  destruct (put_loop2 T its step (bar_of s) chk_of kb0 kc0) as (kb & kc & E & Vb & Vc & Tb & Tc & Sb & Sc); auto.
  - (* fits kb0 *)
    unfold fits. apply Forall_forall. intros [[i j] x] Hx. apply in_flat_map in Hx. destruct Hx as ([[m b] n] & Ha & Hx).
    unfold bar_of in Hx. destruct (bar_keep s (m, b, n)) eqn:K; [|destruct Hx]. destruct Hx as [Hx|[]]. inversion Hx; subst.
    apply in_items in Ha. destruct Ha as [Hm Hn]. destruct (IU m Hm) as [Hm1 Hm2].
    destruct (NB m b n Hm1 Hn) as [Hn1 _].
    unfold bar_keep in K. apply andb_true_iff in K. destruct K as [K1 K2]. apply negb_true_iff in K1, K2.
    rewrite skip_triangle in K2. apply negb_false_iff in K2.
    rewrite R0, C0. splits.
    + now apply (iu_ok h neq p D).
    + apply (iu_ok h neq p D); auto.
    + rewrite triangle_rank by auto. exact K2.
  - unfold fits. apply Forall_forall. intros [[i j] x] Hx. apply in_flat_map in Hx. destruct Hx as ([[m b] n] & Ha & Hx).
    unfold chk_of in Hx. destruct (chk_keep (m, b, n)) eqn:K; [|destruct Hx]. destruct Hx as [Hx|[]]. inversion Hx; subst.
    apply in_items in Ha. destruct Ha as [Hm Hn]. destruct (IU m Hm) as [Hm1 Hm2].
    destruct (NB m b n Hm1 Hn) as [Hn1 _]. unfold chk_keep in K. apply contains_spec in K.
    destruct (ip_ok h neq p D n Hn1 K) as (_ & L & _).
    destruct FC as (F1 & F2 & _ & F3); [lia|]. rewrite F1, F2, F3. splits; auto.
    now apply (iu_ok h neq p D).
  - rewrite T0. cbn [length]. unfold bar_of. rewrite opt_list_length. rewrite M0. lia.
  - rewrite TC. cbn [length]. unfold chk_of. rewrite opt_list_length.
    destruct (Nat.eqb_spec (eqs_np h) 0) as [Z|Z].
    + rewrite Z in LC. assert (1 <= c_max kc0) by apply VC. lia.
    + destruct FC as (_ & _ & -> & _); auto.
  - intros [[m b] n] c d Ha Vc Vd Fc Fd Lc Ld. apply in_items in Ha. destruct Ha as [Hm Hn].
    destruct (IU m Hm) as [Hm1 Hm2]. destruct (NB m b n Hm1 Hn) as [Hn1 Hv].
    unfold step. rewrite Hv. cbn [bind]. rewrite PR by auto. cbn [bind].
    unfold bar_of, chk_of, bar_keep, chk_keep in *. destruct (contains p n) eqn:K; cbn [negb andb] in *.
    + apply contains_spec in K. destruct (ip_ok h neq p D n Hn1 K) as (-> & L & _). cbn [bind].
      inversion Fd as [|? ? F1 _]; subst. destruct F1 as (F1 & F2 & F3). cbn [length] in Ld.
      destruct (put_unwrap_ok T d (rank_u h m) (rank_p h n) (vv m b n)) as (d' & -> & W & TT & R1 & R2 & R3 & R4); auto; [lia|].
      cbn [bind]. exists c, d'. rewrite app_nil_r. splits; auto; unfold same_frame; auto.
    + destruct (skip s m n) eqn:Sk; cbn [negb] in *.
      * exists c, d. rewrite !app_nil_r. splits; auto; unfold same_frame; auto.
      * destruct (iu_ok h neq p D n Hn1 (NC n K)) as (-> & L & _). cbn [bind].
        inversion Fc as [|? ? F1 _]; subst. destruct F1 as (F1 & F2 & F3). cbn [length] in Lc.
        destruct (put_unwrap_ok T c (rank_u h m) (rank_u h n) (vv m b n)) as (c' & -> & W & TT & R1 & R2 & R3 & R4); auto; [lia|].
        cbn [bind]. exists c', d. rewrite app_nil_r. splits; auto; unfold same_frame; auto.
  - rewrite E. cbn [bind]. destruct Sb as (Sb1 & Sb2 & Sb3 & Sb4). destruct Sc as (Sc1 & Sc2 & Sc3 & Sc4).
    rewrite T0 in Tb. rewrite TC in Tc. cbn [app] in Tb, Tc.
    destruct (Nat.eqb_spec (eqs_np h) 0) as [Z|Z].
    + exists kb, None. splits; auto; congruence.
    + destruct FC as (F1 & F2 & F3 & F4); auto. exists kb, (Some kc). splits; auto; try congruence; lia.
Qed.

(** ** the Lagrange system *)
Definition mm_keep (s : sym) : nat * nat * nat -> bool := fun '(m, b, n) => negb (skip s m n).
Definition mm_of (s : sym) : nat * nat * nat -> list (nat * nat * T) :=
  fun a => if mm_keep s a then [(let '(m, b, n) := a in (m, n, vv m b n))] else [].
Definition lag_of (s : sym) (m : nat) : list (nat * nat * T) :=
  match s with
  | SymYesLower => [(neq + rank_p h m, m, one)]
  | SymYesUpper => [(m, neq + rank_p h m, one)]
  | _ => [(neq + rank_p h m, m, one); (m, neq + rank_p h m, one)]
  end.

Lemma asm_lmm_ok extra cc s :
  0 < neq ->
  length (filter (mm_keep s) (items nbrs (seq 0 neq))) <= (if triangular s then tri_band else full_band) * neq ->
  0 < (if triangular s then tri_band else full_band) ->
  exists mm oc, asm_lmm T zero one tri_band full_band nbrs val h extra cc s = Ok (mm, oc) /\
    coo_valid mm /\ c_nrow mm = neq + eqs_np h /\ c_ncol mm = neq + eqs_np h /\ c_sym mm = s /\
    coo_triplets mm = flat_map (mm_of s) (items nbrs (seq 0 neq)) ++ flat_map (lag_of s) (eq_p_sorted h) /\
    match oc with
    | None => cc = false \/ eqs_np h = 0
    | Some c => cc = true /\ coo_valid c /\ c_nrow c = eqs_np h /\ c_ncol c = neq /\
        coo_triplets c = map (fun m => (rank_p h m, m, one)) (eq_p_sorted h)
    end.
Proof.
  intros N0 LB PB. unfold asm_lmm.
  assert (NE : eq_neq h = neq) by apply D. rewrite NE.
  set (cap := (if triangular s then tri_band else full_band) * neq + 2 * eqs_np h + extra) in *.
  assert (CP : 1 <= cap) by (unfold cap; clear - PB N0; destruct (triangular s); nia).
  destruct (coo_new T zero (neq + eqs_np h) (neq + eqs_np h) cap s) as [kb0|msg|] eqn:E0.
  2,3: exfalso; revert E0; unfold coo_new; destruct (Nat.ltb_spec (neq + eqs_np h) 1); [lia|];
       destruct (Nat.ltb_spec cap 1); [lia|]; rewrite Nat.eqb_refl, andb_false_r; discriminate.
  destruct (coo_new_valid T zero _ _ _ _ _ E0) as (V0 & R0 & C0 & M0 & S0 & T0).
  cbn [unwrap bind].
  set (step := fun (a : nat * nat * nat) (mm : coo T) =>
    let '(m, b, n) := a in if skip s m n then Ok mm else v <- val m b n ;; put_unwrap T mm m n v).
  match goal with |- context [for_range 0 neq ?f kb0] =>
    replace (for_range 0 neq f kb0) with (for_each (items nbrs (seq 0 neq)) step kb0) end.
  2:{ unfold items. rewrite <- for_each_flat. rewrite <- (Nat.add_0_l neq) at 2. rewrite for_range_each.
      apply for_each_ext. intros m st Hm. rewrite for_each_map. apply for_each_ext. intros [b n] ? _. reflexivity. }
  assert (PS : forall m, In m (eq_p_sorted h) -> m < neq /\ In m p).
  { destruct D as (_ & _ & _ & _ & _ & _ & I & _). intros m. apply I. }
  destruct (put_loop T (items nbrs (seq 0 neq)) step (mm_of s) kb0) as (k1 & E1 & V1 & T1 & S1); auto.
  - unfold fits. apply Forall_forall. intros [[i j] x] Hx. apply in_flat_map in Hx. destruct Hx as ([[m b] n] & Ha & Hx).
    unfold mm_of in Hx. destruct (mm_keep s (m, b, n)) eqn:K; [|destruct Hx]. destruct Hx as [Hx|[]]. inversion Hx; subst.
    apply in_items in Ha. destruct Ha as [Hm Hn]. apply in_seq in Hm.
    destruct (NB i b j) as [Hn1 _]; [lia|auto|].
    unfold mm_keep in K. rewrite skip_triangle, negb_involutive in K. rewrite R0, C0. splits; auto; lia.
  - rewrite T0. cbn [length]. unfold mm_of. rewrite opt_list_length, M0. lia.
  - intros [[m b] n] c Ha Vc Fc Lc. apply in_items in Ha. destruct Ha as [Hm Hn]. apply in_seq in Hm.
    destruct (NB m b n) as [Hn1 Hv]; [lia|auto|].
    unfold step, mm_of, mm_keep in *. destruct (skip s m n) eqn:Sk; cbn [negb] in *.
    + exists c. rewrite app_nil_r. splits; auto. unfold same_frame; auto.
    + rewrite Hv. cbn [bind]. inversion Fc as [|? ? F1 _]; subst. destruct F1 as (F1 & F2 & F3). cbn [length] in Lc.
      destruct (put_unwrap_ok T c m n (vv m b n)) as (c' & -> & W & TT & R1 & R2 & R3 & R4); auto; [lia|].
      exists c'. splits; auto; unfold same_frame; auto.
  - rewrite E1. cbn [bind]. rewrite T0 in T1. cbn [app] in T1. destruct S1 as (S11 & S12 & S13 & S14).
    assert (LL : length (flat_map (lag_of s) (eq_p_sorted h)) <= 2 * eqs_np h).
    { unfold eqs_np. clear. induction (eq_p_sorted h) as [|a l IH]; cbn [flat_map length]; [lia|].
      rewrite app_length. unfold lag_of at 1. destruct s; cbn [length]; lia. }
    assert (LT : length (coo_triplets k1) <= (if triangular s then tri_band else full_band) * neq).
    { rewrite T1. unfold mm_of. now rewrite opt_list_length. }
    match goal with |- context [for_each (eq_p_sorted h) ?f k1] =>
      destruct (put_loop T (eq_p_sorted h) f (lag_of s) k1) as (k2 & E2 & V2 & T2 & S2); auto end.
    + unfold fits. apply Forall_forall. intros [[i j] x] Hx. apply in_flat_map in Hx. destruct Hx as (m & Ha & Hx).
      destruct (PS m Ha) as [P1 P2]. destruct (ip_ok h neq p D m P1 P2) as (_ & L & _).
      rewrite S11, S12, S14, R0, C0, S0. unfold lag_of in Hx. unfold in_triangle.
      destruct s; cbn [In] in Hx; decompose [or] Hx; try tauto;
        match goal with Q : (_, _, _) = (_, _, _) |- _ => inversion Q; subst end; splits; auto; try lia;
        apply Nat.leb_le; lia.
    + rewrite S13, M0. unfold cap. lia.
    + intros m c Ha Vc Fc Lc. destruct (PS m Ha) as [P1 P2]. destruct (ip_ok h neq p D m P1 P2) as (-> & L & _). cbn [bind].
      unfold lag_of in *. destruct s; unfold fits in Fc; rewrite ?Forall_cons_iff in Fc; cbn [length] in Lc.
      * destruct Fc as ((F1 & F2 & F3) & (F4 & F5 & F6) & _).
        destruct (put_unwrap_ok T c (neq + rank_p h m) m one) as (c' & -> & W & TT & Q1 & Q2 & Q3 & Q4); auto; [lia|].
        cbn [bind].
        destruct (put_unwrap_ok T c' m (neq + rank_p h m) one) as (c2 & -> & W2 & TT2 & Q5 & Q6 & Q7 & Q8); auto; try congruence.
        { rewrite TT, app_length. cbn [length]. lia. }
        exists c2. splits; auto.
        { rewrite TT2, TT, <- app_assoc. reflexivity. }
        { unfold same_frame; splits; congruence. }
      * destruct Fc as ((F1 & F2 & F3) & (F4 & F5 & F6) & _).
        destruct (put_unwrap_ok T c (neq + rank_p h m) m one) as (c' & -> & W & TT & Q1 & Q2 & Q3 & Q4); auto; [lia|].
        cbn [bind].
        destruct (put_unwrap_ok T c' m (neq + rank_p h m) one) as (c2 & -> & W2 & TT2 & Q5 & Q6 & Q7 & Q8); auto; try congruence.
        { rewrite TT, app_length. cbn [length]. lia. }
        exists c2. splits; auto.
        { rewrite TT2, TT, <- app_assoc. reflexivity. }
        { unfold same_frame; splits; congruence. }
      * destruct Fc as ((F1 & F2 & F3) & _).
        destruct (put_unwrap_ok T c (neq + rank_p h m) m one) as (c' & -> & W & TT & Q1 & Q2 & Q3 & Q4); auto; [lia|].
        exists c'. splits; auto. unfold same_frame; splits; congruence.
      * destruct Fc as ((F1 & F2 & F3) & _).
        destruct (put_unwrap_ok T c m (neq + rank_p h m) one) as (c' & -> & W & TT & Q1 & Q2 & Q3 & Q4); auto; [lia|].
        exists c'. splits; auto. unfold same_frame; splits; congruence.
    + rewrite E2. cbn [bind]. destruct S2 as (S21 & S22 & S23 & S24).
      rewrite T1 in T2.
      destruct cc; cbn [andb].
      2:{ exists k2, None. splits; auto; congruence. }
      destruct (Nat.ltb_spec 0 (eqs_np h)) as [Z|Z].
      2:{ exists k2, None. splits; auto; try congruence. right. lia. }
      destruct (coo_new T zero (eqs_np h) neq (eqs_np h) SymNo) as [c0|msg|] eqn:EC.
      2,3: exfalso; revert EC; unfold coo_new; destruct (Nat.ltb_spec (eqs_np h) 1); [lia|];
           destruct (Nat.ltb_spec neq 1); [lia|]; cbn; discriminate.
      destruct (coo_new_valid T zero _ _ _ _ _ EC) as (VC & RC & CC & MC & SC & TC).
      cbn [unwrap bind].
      destruct (put_loop T (eq_p_sorted h) (fun m cc => ip <- eqs_ip h m ;; put_unwrap T cc ip m one)
                 (fun m => [(rank_p h m, m, one)]) c0) as (c1 & EC1 & VC1 & TC1 & SC1); auto.
      * unfold fits. apply Forall_forall. intros [[i j] x] Hx. apply in_flat_map in Hx. destruct Hx as (m & Ha & Hx).
        destruct (PS m Ha) as [P1 P2]. destruct (ip_ok h neq p D m P1 P2) as (_ & L & _).
        destruct Hx as [Hx|[]]. inversion Hx; subst. rewrite RC, CC, SC. auto.
      * rewrite TC, MC. cbn [length]. unfold eqs_np. clear. induction (eq_p_sorted h); cbn in *; lia.
      * intros m c Ha Vc Fc Lc. destruct (PS m Ha) as [P1 P2]. destruct (ip_ok h neq p D m P1 P2) as (-> & L & _). cbn [bind].
        unfold fits in Fc; rewrite ?Forall_cons_iff in Fc; cbn [length] in Lc. destruct Fc as ((F1 & F2 & F3) & _).
        destruct (put_unwrap_ok T c (rank_p h m) m one) as (c' & -> & W & TT & Q1 & Q2 & Q3 & Q4); auto; [lia|].
        exists c'. splits; auto. unfold same_frame; splits; congruence.
      * rewrite EC1. cbn [bind]. destruct SC1 as (SC11 & SC12 & SC13 & SC14). exists k2, (Some c1). splits; auto; try congruence.
        rewrite TC1, TC. cbn [app]. clear. induction (eq_p_sorted h); cbn; congruence.
Qed.
End Asm.
