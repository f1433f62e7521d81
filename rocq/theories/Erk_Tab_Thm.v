(** C49: the order conditions of the Runge-Kutta tableaux. *)
From Coq Require Import Lqa Qabs.
From Verif Require Import Erk_Tab_Model.
Open Scope Q_scope.

(** * Specification: rooted trees (Hairer-Norsett-Wanner II.2) *)

(** a rooted tree is a root with a list of subtrees *)
Inductive tree := Node (children : list tree).

Fixpoint order (t : tree) : nat :=
  match t with Node l => S (fold_right (fun c n => order c + n)%nat 0%nat l) end.

(** the density gamma(t) *)
Fixpoint density (t : tree) : Z :=
  match t with Node l => (Z.of_nat (order t) * fold_right (fun c n => density c * n)%Z 1%Z l)%Z end.

Definition qsum (l : list Q) : Q := fold_right Qplus 0 l.
Definition dotq (a b : list Q) : Q := qsum (map (fun p => fst p * snd p) (combine a b)).

(** the elementary weight of stage i: product over the subtrees c of  sum_j a_ij * weight_j(c) *)
Fixpoint stage_weight (A : list (list Q)) (t : tree) (i : nat) : Q :=
  match t with
  | Node l => fold_right (fun c p => dotq (nth i A []) (map (stage_weight A c) (seq 0 (length A))) * p) 1 l
  end.

(** the elementary weight of a tree:  sum_i b_i * weight_i(t) *)
Definition weight (A : list (list Q)) (b : list Q) (t : tree) : Q :=
  dotq b (map (stage_weight A t) (seq 0 (length A))).

(** order p: the condition of every tree with at most p vertices *)
Definition has_order (A : list (list Q)) (b : list Q) (p : nat) : Prop :=
  forall t, (order t <= p)%nat -> weight A b t == 1 / inject_Z (density t).

(** the same up to a tolerance *)
Definition has_order_within (eps : Q) (A : list (list Q)) (b : list Q) (p : nat) : Prop :=
  forall t, (order t <= p)%nat -> Qabs.Qabs (weight A b t - 1 / inject_Z (density t)) <= eps.

(** * All trees of a given order *)
Fixpoint forests (fuel n : nat) : list (list tree) :=
  match fuel with
  | O => []
  | S d => match n with
           | O => [[]]
           | S _ => flat_map (fun k => flat_map (fun f1 => map (fun f2 => Node f1 :: f2) (forests d (n - k)))
                                                (forests d (k - 1))) (seq 1 n)
           end
  end.

Definition forest_order (l : list tree) : nat := fold_right (fun c n => order c + n)%nat 0%nat l.

Lemma forests_complete : forall d n l, (n < d)%nat -> forest_order l = n -> In l (forests d n).
Proof.
  induction d as [|d IH]; intros n l Hd Hl; [lia|]. cbn [forests].
  destruct l as [|[f1] f2]; cbn [forest_order fold_right order] in Hl.
  - subst n. now left.
  - fold (forest_order f1) in Hl. fold (forest_order f2) in Hl. destruct n as [|n]; [lia|].
    apply in_flat_map. exists (S (forest_order f1)). split; [apply in_seq; lia|].
    apply in_flat_map. exists f1. split; [apply IH; lia|].
    apply in_map_iff. exists f2. split; [reflexivity|]. apply IH; lia.
Qed.

(** * Weights in integer arithmetic over a common denominator *)
Definition zdot (a b : list Z) : Z := fold_right Z.add 0%Z (map (fun p => (fst p * snd p)%Z) (combine a b)).
Definition zmul (a b : list Z) : list Z := map (fun p => (snd p * fst p)%Z) (combine a b).
Fixpoint zstage (A : list (list Z)) (t : tree) : list Z :=
  match t with
  | Node l => fold_right (fun c p => let w := zstage A c in zmul (map (fun row => zdot row w) A) p) (map (fun _ => 1%Z) A) l
  end.
Definition zweight (A : list (list Z)) (b : list Z) (t : tree) : Z := zdot b (zstage A t).

Definition toZ (D : positive) (q : Q) : Z := (Qnum q * (Zpos D / Zpos (Qden q)))%Z.
Definition divides (D : positive) (q : Q) : bool := Z.eqb (Zpos D mod Zpos (Qden q)) 0.

Lemma toZ_ok D q : divides D q = true -> inject_Z (toZ D q) == q * inject_Z (Zpos D).
Proof.
  unfold divides, toZ. intros H. apply Z.eqb_eq in H.
  pose proof (Z.div_mod (Zpos D) (Zpos (Qden q)) ltac:(discriminate)) as E. rewrite H, Z.add_0_r in E.
  unfold Qeq; cbn [inject_Z Qnum Qden Qmult]. rewrite E at 2. rewrite Pos.mul_1_r. ring.
Qed.

Section Scale.
Variable D : positive.
Let d : Q := inject_Z (Zpos D).

Fixpoint pw (n : nat) : Q := match n with O => 1 | S m => d * pw m end.
Lemma d_nz : ~ d == 0.
Proof using. unfold d, Qeq; cbn. lia. Qed.
Lemma pw_add m n : pw (m + n) == pw m * pw n.
Proof using. induction m as [|m IH]; cbn [pw Nat.add]; [ring|]. rewrite IH. ring. Qed.
Lemma pw_nz n : ~ pw n == 0.
Proof using.
  induction n as [|n IH]; cbn [pw]; [discriminate|]. intros H. apply Qmult_integral in H. destruct H; [now apply d_nz|auto].
Qed.
Lemma pw_Z n : pw n == inject_Z (Zpos D ^ Z.of_nat n).
Proof using.
  induction n as [|n IH]; [reflexivity|]. cbn [pw]. rewrite IH, Nat2Z.inj_succ, Z.pow_succ_r, inject_Z_mult by lia. reflexivity.
Qed.

Lemma zdot_ok (a : list Q) (v : list Z) (w : list Q) e :
  forallb (divides D) a = true -> Forall2 (fun z q => inject_Z z == q * e) v w ->
  inject_Z (zdot (map (toZ D) a) v) == dotq a w * (d * e).
Proof using.
  intros Ha F. revert a Ha. induction F as [|z q v w E F IH]; intros [|x a] Ha;
    try (unfold zdot, dotq, qsum; cbn [map combine fold_right]; change (inject_Z 0) with 0; ring).
  - cbn [forallb] in Ha. apply andb_true_iff in Ha. destruct Ha as (Hx & Ha).
    unfold zdot, dotq, qsum. cbn [map combine fold_right fst snd].
    fold (zdot (map (toZ D) a) v). fold (dotq a w).
    change (fold_right Qplus 0 (map (fun p => fst p * snd p) (combine a w))) with (dotq a w).
    rewrite inject_Z_plus, inject_Z_mult, (toZ_ok D x Hx), E, (IH a Ha). fold d. ring.
Qed.

Lemma tree_ind' (P : tree -> Prop) : (forall l, Forall P l -> P (Node l)) -> forall t, P t.
Proof using.
  intros H. fix F 1. intros [l]. apply H. induction l as [|c l IH]; constructor; auto.
Qed.

Variables (A : list (list Q)) (b : list Q).
Hypothesis HA : forallb (forallb (divides D)) A = true.
Hypothesis Hb : forallb (divides D) b = true.
Let AZ := map (map (toZ D)) A.

Lemma zstage_ok t : Forall2 (fun z q => inject_Z z == q * pw (order t - 1)) (zstage AZ t) (map (stage_weight A t) (seq 0 (length A))).
Proof using HA.
  induction t as [l IH] using tree_ind'. cbn [order]. rewrite Nat.sub_succ, Nat.sub_0_r. fold (forest_order l).
  assert (K : forall w, Forall2 (fun z i => inject_Z z == w i) (map (fun _ => 1%Z) AZ) (seq 0 (length A)) -> True) by auto. clear K.
  assert (G : Forall2 (fun z i => inject_Z z == stage_weight A (Node l) i * pw (forest_order l)) (zstage AZ (Node l)) (seq 0 (length A))).
  { induction IH as [|c l Hc Hl IHl].
    - cbn [zstage stage_weight fold_right forest_order pw]. unfold AZ. rewrite map_map.
      assert (Q : forall (B : list (list Q)) k, Forall2 (fun z (_ : nat) => inject_Z z == 1 * 1) (map (fun _ => 1%Z) B) (seq k (length B))).
      { induction B; intros k; cbn; constructor; auto. reflexivity. }
      apply Q.
    - cbn [zstage fold_right forest_order]. cbv zeta. fold (forest_order l).
      cbn [zstage] in IHl.
      set (zl := fold_right _ _ l) in *. clearbody zl.
      assert (E : map (fun row => zdot row (zstage AZ c)) AZ = map (fun x => zdot (map (toZ D) x) (zstage AZ c)) A) by (unfold AZ at 2; now rewrite map_map).
      rewrite E. clear E. unfold zmul.
      assert (Q : forall (B C : list (list Q)) k zl, forallb (forallb (divides D)) B = true -> length C = k -> A = C ++ B ->
         Forall2 (fun z i => inject_Z z == stage_weight A (Node l) i * pw (forest_order l)) zl (seq k (length B)) ->
         Forall2 (fun z i => inject_Z z == stage_weight A (Node (c :: l)) i * pw (order c + forest_order l))
           (map (fun p => (snd p * fst p)%Z) (combine (map (fun x => zdot (map (toZ D) x) (zstage AZ c)) B) zl)) (seq k (length B))).
      { clear zl IHl. induction B as [|row B IHB]; intros C k zl HB HC EA F; cbn [length seq] in *; inversion F as [|z ? zl' ? Ez F']; subst; cbn [map combine].
        - constructor.
        - cbn [forallb] in HB. apply andb_true_iff in HB. destruct HB as (Hrow & HB).
          constructor.
          + cbn [fst snd]. rewrite inject_Z_mult, Ez.
            rewrite (zdot_ok row _ _ _ Hrow Hc). rewrite pw_add.
            cbn [stage_weight fold_right].
            replace (nth (length C) (C ++ row :: B) []) with row by (rewrite app_nth2, Nat.sub_diag; auto).
            assert (Eo : pw (order c) == d * pw (order c - 1)).
            { destruct (order c) eqn:E; [destruct c; discriminate|]. rewrite Nat.sub_succ, Nat.sub_0_r. reflexivity. }
            rewrite Eo. ring.
          + apply (IHB (C ++ [row])); auto.
            * rewrite app_length; cbn; lia.
            * now rewrite <- app_assoc. }
      apply (Q A [] 0%nat); auto. }
  clear -G. revert G. generalize (zstage AZ (Node l)). generalize (seq 0 (length A)).
  intros s. induction s as [|i s IH]; intros z G; inversion G; subst; cbn [map]; constructor; auto.
Qed.

Lemma zweight_ok t : inject_Z (zweight AZ (map (toZ D) b) t) == weight A b t * pw (order t).
Proof using HA Hb.
  unfold zweight, weight. rewrite (zdot_ok b _ _ _ Hb (zstage_ok t)).
  assert (Eo : pw (order t) == d * pw (order t - 1)).
  { destruct (order t) eqn:E; [destruct t; discriminate|]. rewrite Nat.sub_succ, Nat.sub_0_r. reflexivity. }
  rewrite Eo. ring.
Qed.

(** |weight - 1/density| <= 1/K, decided in integers; K = 0 means equality *)
Definition check_entry (K : Z) (bz : list Z) (p : Z) (n : nat) (e : list Z * Z) : bool :=
  let g := (Z.of_nat (S n) * snd e)%Z in
  let w := (zdot bz (fst e) * g)%Z in
  if Z.eqb K 0 then Z.eqb w p else Z.leb (Z.abs (w - p) * K) (p * g)%Z.

(** what is tabulated for a forest: the stage weights of the tree above it and the product of densities *)
Definition entry (l : list tree) : list Z * Z := (zstage AZ (Node l), fold_right (fun c n => density c * n)%Z 1%Z l).
Definition check_tree (K : Z) (t : tree) : bool := match t with Node l => check_entry K (map (toZ D) b) (Zpos D ^ Z.of_nat (S (forest_order l))) (forest_order l) (entry l) end.

(** tables of all entries by number of vertices, each computed once (equal entries kept once): the forests with less than n
    vertices and the trees with less than n vertices (with their product by the matrix) *)
Fixpoint zlist_eqb (a b : list Z) : bool :=
  match a, b with [], [] => true | x :: a, y :: b => Z.eqb x y && zlist_eqb a b | _, _ => false end.
Definition entry_eqb (e e' : list Z * Z) : bool := Z.eqb (snd e) (snd e') && zlist_eqb (fst e) (fst e').
Fixpoint dedup (l : list (list Z * Z)) : list (list Z * Z) :=
  match l with [] => [] | e :: r => let r' := dedup r in if existsb (entry_eqb e) r' then r' else e :: r' end.
Lemma zlist_eqb_eq a b' : zlist_eqb a b' = true -> a = b'.
Proof using.
  revert b'. induction a as [|x a IH]; intros [|y b'] H; try reflexivity; try discriminate. cbn in H. apply andb_true_iff in H as (H1 & H2).
  apply Z.eqb_eq in H1. subst y. f_equal. now apply IH.
Qed.
Lemma dedup_in e l : In e l -> In e (dedup l).
Proof using.
  induction l as [|x l IH]; intros H; [exact H|]. cbn [dedup]. destruct (existsb (entry_eqb x) (dedup l)) eqn:E.
  - destruct H as [->|H]; [|auto]. apply existsb_exists in E as (y & Hy & E). unfold entry_eqb in E. apply andb_true_iff in E as (E1 & E2).
    apply Z.eqb_eq in E1. apply zlist_eqb_eq in E2. destruct e, y; cbn [fst snd] in *. now subst.
  - destruct H as [->|H]; [now left|right; auto].
Qed.
Definition tree_level (M : list (list Z)) (m : nat) (lev : list (list Z * Z)) : list (list Z * Z) :=
  map (fun e => (map (fun row => zdot row (fst e)) M, (Z.of_nat (S m) * snd e)%Z)) lev.
Fixpoint table (M : list (list Z)) (n : nat) : list (list (list Z * Z)) * list (list (list Z * Z)) :=
  match n with
  | O => ([], [])
  | S m => let '(t, a) := table M m in
           match m with
           | O => ([[(map (fun _ => 1%Z) M, 1%Z)]], [])
           | S m' =>
             let a' := a ++ [tree_level M m' (nth m' t [])] in
             (t ++ [dedup (flat_map (fun k => flat_map (fun e1 => map (fun e2 => (zmul (fst e1) (fst e2), (snd e1 * snd e2)%Z)) (nth (m - k) t []))
                                                (nth (k - 1) a' [])) (seq 1 m))], a')
           end
  end.

Lemma table_complete n : length (fst (table AZ n)) = n /\ length (snd (table AZ n)) = (n - 1)%nat /\
  (forall l, (forest_order l < n)%nat -> In (entry l) (nth (forest_order l) (fst (table AZ n)) [])) /\
  (forall l, (forest_order l < n - 1)%nat ->
     In (map (fun row => zdot row (zstage AZ (Node l))) AZ, density (Node l)) (nth (forest_order l) (snd (table AZ n)) [])).
Proof using.
  induction n as [|n IH]; [cbn; repeat split; intros; lia|]. cbn [table]. destruct (table AZ n) as (t, a). cbn [fst snd] in IH.
  destruct IH as (Lt & La & Ct & Ca). destruct n as [|n].
  { cbn. repeat split; auto; [|intros; lia]. intros l Hl. destruct l as [|[f1] f2]; [now left|]. cbn [forest_order fold_right order] in Hl. lia. }
  set (a' := a ++ [tree_level AZ n (nth n t [])]).
  assert (La' : length a' = S n) by (unfold a'; rewrite app_length; cbn [length]; lia).
  assert (Ca' : forall l, (forest_order l < S n)%nat -> In (map (fun row => zdot row (zstage AZ (Node l))) AZ, density (Node l)) (nth (forest_order l) a' [])).
  { intros l Hl. unfold a'. destruct (Nat.eq_dec (forest_order l) n) as [e|e].
    - rewrite app_nth2, e, La by lia. replace (n - (S n - 1))%nat with O by lia. cbn [nth].
      apply in_map_iff. exists (entry l). split; [|rewrite <- e; apply Ct; lia].
      unfold entry. cbn [fst snd density order]. fold (forest_order l). rewrite e. reflexivity.
    - rewrite app_nth1 by lia. apply Ca. lia. }
  clearbody a'. cbn [fst snd]. rewrite app_length, Lt. cbn [length]. split; [lia|]. split; [lia|]. split; [|intros l Hl; apply Ca'; lia].
  intros l Hl. destruct (Nat.eq_dec (forest_order l) (S n)) as [e|e]; [|rewrite app_nth1 by lia; apply Ct; lia].
  rewrite app_nth2, e, Lt, Nat.sub_diag by lia. cbn [nth].
  destruct l as [|[f1] f2]; [cbn in e; discriminate|].
  cbn [forest_order fold_right order] in e. fold (forest_order f1) in e. fold (forest_order f2) in e.
  apply dedup_in, in_flat_map. exists (S (forest_order f1)). split; [apply in_seq; lia|].
  apply in_flat_map. eexists. split; [replace (S (forest_order f1) - 1)%nat with (forest_order f1) by lia; apply Ca'; lia|].
  apply in_map_iff. exists (entry f2). split; [reflexivity|]. replace (S n - S (forest_order f1))%nat with (forest_order f2) by lia. apply Ct. lia.
Qed.

Definition check_all (K : Z) (p : nat) : bool :=
  let t := fst (table AZ p) in let bz := map (toZ D) b in
  forallb (fun n => let q := (Zpos D ^ Z.of_nat (S n))%Z in forallb (check_entry K bz q n) (nth n t [])) (seq 0 p).

Lemma check_all_ok K p : check_all K p = true -> forall t, (order t <= p)%nat -> check_tree K t = true.
Proof using.
  intros H [l] Hl. cbn [order] in Hl. fold (forest_order l) in Hl. unfold check_all in H. rewrite forallb_forall in H.
  specialize (H (forest_order l) ltac:(apply in_seq; lia)). rewrite forallb_forall in H. apply H. now apply table_complete.
Qed.

Lemma check_tree_unfold K t : check_tree K t =
  let w := (zweight AZ (map (toZ D) b) t * density t)%Z in
  let p := (Zpos D ^ Z.of_nat (order t))%Z in
  if Z.eqb K 0 then Z.eqb w p else Z.leb (Z.abs (w - p) * K) (p * density t)%Z.
Proof using. destruct t as [l]. reflexivity. Qed.

Lemma density_pos t : (0 < density t)%Z.
Proof using.
  induction t as [l IH] using tree_ind'. cbn [density].
  apply Z.mul_pos_pos; [cbn [order]; lia|]. induction IH; cbn [fold_right]; [lia|]. now apply Z.mul_pos_pos.
Qed.

Lemma check_exact t : check_tree 0 t = true -> weight A b t == 1 / inject_Z (density t).
Proof using HA Hb.
  rewrite check_tree_unfold. cbn [Z.eqb]. cbv zeta. intros H. apply Z.eqb_eq in H. pose proof (density_pos t) as Hd.
  assert (nz : ~ inject_Z (density t) == 0) by (unfold Qeq; cbn; lia).
  apply (Qmult_inj_r _ _ (pw (order t) * inject_Z (density t))).
  { intros Z. apply Qmult_integral in Z. destruct Z; [now apply (pw_nz (order t))|auto]. }
  rewrite Qmult_assoc, <- zweight_ok, <- inject_Z_mult, H, <- pw_Z. field. auto.
Qed.

Lemma check_not t : check_tree 0 t = false -> ~ weight A b t == 1 / inject_Z (density t).
Proof using HA Hb.
  rewrite check_tree_unfold. cbn [Z.eqb]. cbv zeta. intros H E. apply Z.eqb_neq in H. apply H. pose proof (density_pos t) as Hd.
  assert (nz : ~ inject_Z (density t) == 0) by (unfold Qeq; cbn; lia).
  apply inject_Z_injective. rewrite inject_Z_mult, zweight_ok, E, <- pw_Z. field. auto.
Qed.

Lemma check_within K t : (0 < K)%Z -> check_tree K t = true <-> Qabs (weight A b t - 1 / inject_Z (density t)) <= 1 / inject_Z K.
Proof using HA Hb.
  rewrite check_tree_unfold. cbv zeta. intros HK. destruct (Z.eqb_spec K 0); [lia|]. rewrite Z.leb_le. pose proof (density_pos t) as Hd.
  set (p := (Zpos D ^ Z.of_nat (order t))%Z) in *.
  assert (Hp : (0 < p)%Z) by (apply Z.pow_pos_nonneg; lia).
  assert (Hpq : 0 < inject_Z p) by (unfold Qlt; cbn; lia).
  assert (Hdq : 0 < inject_Z (density t)) by (unfold Qlt; cbn; lia).
  assert (HKq : 0 < inject_Z K) by (unfold Qlt; cbn; lia).
  assert (nzp : ~ inject_Z p == 0) by (intros E; rewrite E in Hpq; now apply Qlt_irrefl in Hpq).
  assert (nz : ~ inject_Z (density t) == 0) by (unfold Qeq; cbn; lia).
  assert (Kz : ~ inject_Z K == 0) by (unfold Qeq; cbn; lia).
  pose proof (pw_Z (order t)) as Ep. fold p in Ep.
  assert (Ew : weight A b t == inject_Z (zweight AZ (map (toZ D) b) t) / inject_Z p) by (rewrite zweight_ok, Ep; field; auto).
  set (w := zweight AZ (map (toZ D) b) t) in *.
  assert (E2 : weight A b t - 1 / inject_Z (density t) == inject_Z (w * density t - p) / inject_Z (p * density t)).
  { rewrite Ew. unfold Z.sub. rewrite inject_Z_plus, inject_Z_opp, !inject_Z_mult. field. auto. }
  assert (Hpd : 0 < inject_Z (p * density t)) by (rewrite inject_Z_mult; apply Qmult_lt_0_compat; auto).
  assert (nzpd : ~ inject_Z (p * density t) == 0) by (intros E; rewrite E in Hpd; now apply Qlt_irrefl in Hpd).
  rewrite E2. unfold Qdiv at 1. rewrite Qabs_Qmult.
  rewrite (Qabs_pos (/ inject_Z (p * density t))) by (apply Qlt_le_weak, Qinv_lt_0_compat; auto).
  change (Qabs (inject_Z (w * density t - p))) with (inject_Z (Z.abs (w * density t - p))).
  rewrite Zle_Qle, (inject_Z_mult _ K).
  set (u := inject_Z (Z.abs (w * density t - p))) in *. set (pd := inject_Z (p * density t)) in *. set (k := inject_Z K) in *.
  split; intros H.
  - apply Qle_shift_div_l; [auto|]. assert (E : u * / pd * k == (u * k) / pd) by (field; auto). rewrite E. apply Qle_shift_div_r; [auto|]. now rewrite Qmult_1_l.
  - assert (Hkp : 0 <= k * pd) by (apply Qlt_le_weak, Qmult_lt_0_compat; auto).
    pose proof (Qmult_le_compat_r _ _ _ H Hkp) as H2.
    assert (E1 : u * / pd * (k * pd) == u * k) by (field; auto). assert (E3 : 1 / k * (k * pd) == pd) by (field; auto).
    now rewrite E1, E3 in H2.
Qed.
End Scale.

Definition scaled (D : positive) (A : list (list Q)) (b : list Q) : bool :=
  andb (forallb (forallb (divides D)) A) (forallb (divides D) b).

(** the decision used below: order p exactly, or within 1/K *)
Lemma order_by_check D A b p : scaled D A b = true -> check_all D A b 0 p = true -> has_order A b p.
Proof.
  intros S C t Ht. apply andb_true_iff in S. destruct S as (S1 & S2).
  apply (check_exact D A b S1 S2). exact (check_all_ok D A b _ p C t Ht).
Qed.

Lemma order_within_by_check D A b p K : (0 < K)%Z -> scaled D A b = true ->
  check_all D A b K p = true -> has_order_within (1 / inject_Z K) A b p.
Proof.
  intros HK S C t Ht. apply andb_true_iff in S. destruct S as (S1 & S2).
  apply (check_within D A b S1 S2 K t HK). exact (check_all_ok D A b _ p C t Ht).
Qed.

(** two trees of order p that serve as counterexamples *)
Definition bushy (p : nat) : tree := Node (repeat (Node []) (p - 1)).
Definition witnesses (p : nat) : list tree := [bushy p; Node [Node []; bushy (p - 2)]].

Lemma order_not_by_check D A b p : scaled D A b = true ->
  existsb (fun t => andb (Nat.leb (order t) p) (negb (check_tree D A b 0 t))) (witnesses p) = true -> ~ has_order A b p.
Proof.
  intros S C H. apply andb_true_iff in S. destruct S as (S1 & S2).
  apply existsb_exists in C. destruct C as (t & _ & C). apply andb_true_iff in C. destruct C as (C1 & C2).
  apply Nat.leb_le in C1. apply negb_true_iff in C2. exact (check_not D A b S1 S2 t C2 (H t C1)).
Qed.

Lemma order_not_within_by_check D A b p K t : (0 < K)%Z -> scaled D A b = true -> Nat.leb (order t) p = true ->
  check_tree D A b K t = false -> ~ has_order_within (1 / inject_Z K) A b p.
Proof.
  intros HK S L C H. apply andb_true_iff in S. destruct S as (S1 & S2). apply Nat.leb_le in L.
  pose proof (proj2 (check_within D A b S1 S2 K t HK) (H t L)). congruence.
Qed.

Definition common (A : list (list Q)) (b : list Q) : positive :=
  Z.to_pos (fold_right (fun q n => Z.lcm (Zpos (Qden q)) n) 1%Z (concat A ++ b)).

Lemma trees_of_order_count : map (fun n => length (forests (S n) n)) (seq 0 8) = [1; 1; 2; 5; 14; 42; 132; 429]%nat.
Proof. reflexivity. Qed.

(** * C49 *)

Definition vsub (a b : list Q) : list Q := map (fun p => Qred (fst p - snd p)) (combine a b).

(** the method has exactly the order it declares *)
Theorem C49_order : forall m A b c, erk_tableau m = Some (A, b, c) -> m <> DoPri8 ->
  has_order A b (i_order (method_information m)) /\ ~ has_order A b (S (i_order (method_information m))).
Proof.
  intros m A b c E N. destruct m; try discriminate E; try congruence; injection E as <- <- <-; cbn [i_order method_information];
  (split; [match goal with |- has_order ?A ?b _ => apply (order_by_check (common A b)) end; vm_compute; reflexivity
          |match goal with |- ~ has_order ?A ?b _ => apply (order_not_by_check (common A b)) end; vm_compute; reflexivity]).
Qed.

(** DoPri8: its coefficients are decimal literals; every condition up to order 8 holds to 10^-28 *)
Theorem C49_order_dopri8 : forall A b c, erk_tableau DoPri8 = Some (A, b, c) ->
  has_order_within (1 / inject_Z (10 ^ 28)) A b (i_order (method_information DoPri8)).
Proof.
  intros A b c E. injection E as <- <- <-. cbn [i_order method_information].
  apply (order_within_by_check (common DORMAND_PRINCE_8_A DORMAND_PRINCE_8_B)); [reflexivity|vm_cast_no_check (eq_refl true)..].
Qed.

(** the embedded solution (weights b - e, with e the error coefficients) has the declared order *)
Theorem C49_estimator_order : forall m A b c e, erk_tableau m = Some (A, b, c) -> erk_ee m = Ok (Some e) -> m <> DoPri8 ->
  length e = length b /\ has_order A (vsub b e) (i_order_of_estimator (method_information m)).
Proof.
  intros m A b c e E Ee N. destruct m; try discriminate E; try congruence; try discriminate Ee;
    injection E as <- <- <-; injection Ee as <-; cbn [i_order_of_estimator method_information];
  (split; [reflexivity|]; match goal with |- has_order ?A ?b _ => apply (order_by_check (common A b)) end; vm_compute; reflexivity).
Qed.

(** ... and no more, except Fehlberg4, whose embedded weights have order 5 although 4 is declared *)
Theorem C49_estimator_exact : forall m A b c e, erk_tableau m = Some (A, b, c) -> erk_ee m = Ok (Some e) -> m <> DoPri8 ->
  m <> Fehlberg4 -> ~ has_order A (vsub b e) (S (i_order_of_estimator (method_information m))).
Proof.
  intros m A b c e E Ee N N2. destruct m; try discriminate E; try congruence; try discriminate Ee;
    injection E as <- <- <-; injection Ee as <-; cbn [i_order_of_estimator method_information];
  (match goal with |- ~ has_order ?A ?b _ => apply (order_not_by_check (common A b)) end; vm_compute; reflexivity).
Qed.
Theorem C49_fehlberg4_estimator_declared_refuted : has_order FEHLBERG_4_A (vsub FEHLBERG_4_B FEHLBERG_4_E) 5.
Proof. match goal with |- has_order ?A ?b _ => apply (order_by_check (common A b)) end; vm_compute; reflexivity. Qed.

(** DoPri8 declares an estimator of order 7: its two embedded solutions have orders 5 and 3 only *)
Definition dopri8_bhh : list Q := [DORMAND_PRINCE_8_BHH1; 0; 0; 0; 0; 0; 0; 0; DORMAND_PRINCE_8_BHH2; 0; 0; DORMAND_PRINCE_8_BHH3].
Theorem C49_estimators_dopri8 :
  has_order_within (1 / inject_Z (10 ^ 27)) DORMAND_PRINCE_8_A (vsub DORMAND_PRINCE_8_B DORMAND_PRINCE_8_E) 5 /\
  has_order_within (1 / inject_Z (10 ^ 28)) DORMAND_PRINCE_8_A dopri8_bhh 3.
Proof.
  split.
  - match goal with |- has_order_within _ ?A ?b _ => apply (order_within_by_check (common A b)) end; vm_compute; reflexivity.
  - match goal with |- has_order_within _ ?A ?b _ => apply (order_within_by_check (common A b)) end; vm_compute; reflexivity.
Qed.
(** a tree of order 6, resp. 4, whose condition fails by more than 10^-4 *)
Theorem C49_dopri8_estimator_declared_refuted :
  i_order_of_estimator (method_information DoPri8) = 7%nat /\
  ~ has_order_within (1 / inject_Z 10000) DORMAND_PRINCE_8_A (vsub DORMAND_PRINCE_8_B DORMAND_PRINCE_8_E) 6 /\
  ~ has_order_within (1 / inject_Z 10000) DORMAND_PRINCE_8_A dopri8_bhh 4.
Proof.
  split; [reflexivity|]. split.
  - match goal with |- ~ has_order_within _ ?A ?b _ => apply (order_not_within_by_check (common A b) _ _ _ _ (bushy 6)) end; [reflexivity|vm_compute; reflexivity..].
  - match goal with |- ~ has_order_within _ ?A ?b _ => apply (order_not_within_by_check (common A b) _ _ _ _ (bushy 4)) end; [reflexivity|vm_compute; reflexivity..].
Qed.

(** structure: s stages, A is s by s and strictly lower triangular, the row sums are the abscissae *)
Definition strictly_lower (A : list (list Q)) : Prop :=
  forall i j, (i < length A)%nat -> (i <= j)%nat -> nth j (nth i A []) 0 == 0.

Lemma forall_lt (P : nat -> Prop) n (f : nat -> bool) :
  (forall i, f i = true -> P i) -> forallb f (seq 0 n) = true -> forall i, (i < n)%nat -> P i.
Proof. intros H F i Hi. apply H. rewrite forallb_forall in F. apply F, in_seq. lia. Qed.

Lemma strictly_lower_by_check A :
  forallb (fun i => forallb (fun j => Qeq_bool (nth j (nth i A []) 0) 0) (seq i (length (nth i A [])))) (seq 0 (length A)) = true -> strictly_lower A.
Proof.
  intros F i j Hi Hj. rewrite forallb_forall in F. specialize (F i ltac:(apply in_seq; lia)).
  rewrite forallb_forall in F. destruct (Nat.lt_ge_cases j (length (nth i A []))) as [L|L].
  - apply Qeq_bool_iff, F, in_seq. lia.
  - now rewrite nth_overflow.
Qed.

Theorem C49_structure : forall m A b c, erk_tableau m = Some (A, b, c) ->
  length b = length A /\ length c = length A /\ (forall i, (i < length A)%nat -> length (nth i A []) = length A \/ length (nth i A []) = (length A - 1)%nat) /\
  strictly_lower A /\
  (m <> DoPri8 -> forall i, (i < length A)%nat -> qsum (nth i A []) == nth i c 0) /\
  (m = DoPri8 -> forall i, (i < length A)%nat -> Qabs (qsum (nth i A []) - nth i c 0) <= 1 / inject_Z (10 ^ 28)).
Proof.
  intros m A b c E.
  split; [destruct m; try discriminate E; injection E as <- <- <-; reflexivity|].
  split; [destruct m; try discriminate E; injection E as <- <- <-; reflexivity|].
  split.
  { apply (forall_lt _ _ (fun i => orb (Nat.eqb (length (nth i A [])) (length A)) (Nat.eqb (length (nth i A [])) (length A - 1)))).
    - intros i H. apply orb_true_iff in H. destruct H as [H|H]; apply Nat.eqb_eq in H; auto.
    - destruct m; try discriminate E; injection E as <- <- <-; reflexivity. }
  split; [apply strictly_lower_by_check; destruct m; try discriminate E; injection E as <- <- <-; reflexivity|].
  split.
  - intros N. apply (forall_lt _ _ (fun i => Qeq_bool (qsum (nth i A [])) (nth i c 0))).
    + intros i. apply Qeq_bool_iff.
    + destruct m; try discriminate E; try congruence; injection E as <- <- <-; vm_compute; reflexivity.
  - intros ->. injection E as <- <- <-.
    apply (forall_lt _ _ (fun i => Qle_bool (Qabs (qsum (nth i DORMAND_PRINCE_8_A []) - nth i DORMAND_PRINCE_8_C 0)) (1 / inject_Z (10 ^ 28)))).
    + intros i. apply Qle_bool_iff.
    + vm_compute; reflexivity.
Qed.

(** SQRT_6 squared is 6 up to 10^-97 *)
Lemma sqrt6_ok : Qabs (SQRT_6 * SQRT_6 - 6) <= 1 / inject_Z (10 ^ 97).
Proof. apply Qle_bool_iff. vm_compute. reflexivity. Qed.

(** the error coefficients are the differences of the two published weight vectors *)
Theorem C49_error_weights :
  forall m b be e, In (m, b, be, e) [(MdEuler, MODIFIED_EULER_B, MODIFIED_EULER_BE, MODIFIED_EULER_E);
     (Merson4, MERSON_4_B, MERSON_4_BE, MERSON_4_E); (Zonneveld4, ZONNEVELD_4_B, ZONNEVELD_4_BE, ZONNEVELD_4_E);
     (Fehlberg4, FEHLBERG_4_B, FEHLBERG_4_BE, FEHLBERG_4_E); (DoPri5, DORMAND_PRINCE_5_B, DORMAND_PRINCE_5_BE, DORMAND_PRINCE_5_E);
     (Verner6, VERNER_6_B, VERNER_6_BE, VERNER_6_E); (Fehlberg7, FEHLBERG_7_B, FEHLBERG_7_BE, FEHLBERG_7_E)] ->
  erk_ee m = Ok (Some e) /\ length e = length b /\ length be = length b /\ forall i, (i < length b)%nat -> nth i e 0 == nth i b 0 - nth i be 0.
Proof.
  intros m b be e H. repeat (destruct H as [H|H]; [injection H as <- <- <- <-; split; [reflexivity|]; split; [reflexivity|]; split; [reflexivity|];
    match goal with |- forall i, (i < length ?b)%nat -> nth i ?e 0 == nth i _ 0 - nth i ?be 0 =>
      apply (forall_lt _ _ (fun i => Qeq_bool (nth i e 0) (nth i b 0 - nth i be 0))); [intros i; apply Qeq_bool_iff|vm_compute; reflexivity] end|]).
  contradiction.
Qed.

(** first-same-as-last exactly where declared: the last stage is evaluated at the new solution *)
Theorem C49_fsal : forall m A b c, erk_tableau m = Some (A, b, c) -> m <> DoPri8 ->
  (i_fsal (method_information m) = true <-> (nth (length A - 1) c 0 == 1 /\ forall j, (j < length b)%nat -> nth j (nth (length A - 1) A []) 0 == nth j b 0)).
Proof.
  intros m A b c E N.
  assert (K : (nth (length A - 1) c 0 == 1 /\ forall j, (j < length b)%nat -> nth j (nth (length A - 1) A []) 0 == nth j b 0) <->
    andb (Qeq_bool (nth (length A - 1) c 0) 1) (forallb (fun j => Qeq_bool (nth j (nth (length A - 1) A []) 0) (nth j b 0)) (seq 0 (length b))) = true).
  { rewrite andb_true_iff, Qeq_bool_iff, forallb_forall. split; intros (H1 & H2); (split; [exact H1|]).
    - intros j Hj. apply in_seq in Hj. apply Qeq_bool_iff, H2. lia.
    - intros j Hj. apply Qeq_bool_iff, H2, in_seq. lia. }
  rewrite K. destruct m; try discriminate E; try congruence; injection E as <- <- <-; vm_compute; tauto.
Qed.

Example C49_ex_tree : order (Node [Node []; Node [Node []; Node []]]) = 5%nat /\ density (Node [Node []; Node [Node []; Node []]]) = 15%Z.
Proof. split; reflexivity. Qed.
Example C49_ex_condition : weight RUNGE_KUTTA_4_A RUNGE_KUTTA_4_B (Node [Node [Node []]; Node []]) == 1 # 8.
Proof. reflexivity. Qed.

Print Assumptions C49_order.
Print Assumptions C49_order_dopri8.
