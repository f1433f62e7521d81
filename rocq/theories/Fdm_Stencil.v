(** Neighbours of a grid node and storage counts. *)
From Verif Require Import Base Dense_Model Sparse_Model Sparse_Spec Eqs_Model Eqs_Thm Grid_Model Grid_Thm Bcs_Model Fdm_Model Fdm_Asm.
Local Open Scope nat_scope.

(** ** one axis with [n] points *)
(** the previous and next point: wrapped around if periodic, mirrored at the ends otherwise *)
Definition dist (a b : nat) : nat := (a - b) + (b - a).
Definition left_of (per : bool) (n i : nat) : nat := if per then (i + n - 1) mod n else dist i 1.
Definition right_of (per : bool) (n i : nat) : nat := if per then (i + 1) mod n else (n - 1) - dist (n - 1) (i + 1).

Lemma left_cases per n i : 2 <= n -> i < n ->
  (i <> 0 /\ left_of per n i = i - 1) \/ (i = 0 /\ left_of per n i = if per then n - 1 else 1).
Proof.
  intros Hn Hi. unfold left_of, dist. destruct per.
  - destruct (Nat.eq_dec i 0) as [->|N].
    + right. split; auto. rewrite Nat.mod_small; lia.
    + left. split; auto. replace (i + n - 1) with ((i - 1) + 1 * n) by lia. rewrite Nat.mod_add by lia. apply Nat.mod_small. lia.
  - destruct i; [right|left]; split; auto; lia.
Qed.
Lemma right_cases per n i : 2 <= n -> i < n ->
  (i <> n - 1 /\ right_of per n i = i + 1) \/ (i = n - 1 /\ right_of per n i = if per then 0 else n - 2).
Proof.
  intros Hn Hi. unfold right_of, dist. destruct per.
  - destruct (Nat.eq_dec i (n - 1)) as [->|N].
    + right. split; auto. replace (n - 1 + 1) with n by lia. apply Nat.mod_same. lia.
    + left. split; auto. apply Nat.mod_small. lia.
  - destruct (Nat.eq_dec i (n - 1)); [right|left]; split; auto; lia.
Qed.
Lemma left_lt per n i : 2 <= n -> i < n -> left_of per n i < n.
Proof. intros Hn Hi. destruct (left_cases per n i Hn Hi) as [[A ->]|[A ->]]; destruct per; lia. Qed.
Lemma right_lt per n i : 2 <= n -> i < n -> right_of per n i < n.
Proof. intros Hn Hi. destruct (right_cases per n i Hn Hi) as [[A ->]|[A ->]]; destruct per; lia. Qed.
Lemma left_ne per n i : 2 <= n -> i < n -> left_of per n i <> i.
Proof. intros Hn Hi. destruct (left_cases per n i Hn Hi) as [[A ->]|[A ->]]; destruct per; lia. Qed.
Lemma right_ne per n i : 2 <= n -> i < n -> right_of per n i <> i.
Proof. intros Hn Hi. destruct (right_cases per n i Hn Hi) as [[A ->]|[A ->]]; destruct per; lia. Qed.

(** ** 1D *)
Lemma nbrs1_spec px nx m : 2 <= nx -> m < nx -> nbrs1 px nx m = [m; left_of px nx m; right_of px nx m].
Proof.
  intros Hn Hm. unfold nbrs1.
  assert (L1 : (if px then if negb (m =? 0) then m - 1 else m + (nx - 1) else if negb (m =? 0) then m - 1 else m + 1) = left_of px nx m).
  { destruct (left_cases px nx m Hn Hm) as [[A ->]|[A ->]]; destruct px, (Nat.eqb_spec m 0); cbn [negb]; lia. }
  assert (L2 : (if px then if negb (m =? nx - 1) then m + 1 else m - (nx - 1) else if negb (m =? nx - 1) then m + 1 else m - 1) = right_of px nx m).
  { destruct (right_cases px nx m Hn Hm) as [[A ->]|[A ->]]; destruct px, (Nat.eqb_spec m (nx - 1)); cbn [negb]; lia. }
  rewrite <- L1, <- L2. destruct px; reflexivity.
Qed.

Lemma item1 px nx m b n : 2 <= nx -> m < nx -> nth_error (nbrs1 px nx m) b = Some n ->
  (b = 0 /\ n = m) \/ (b = 1 /\ n = left_of px nx m) \/ (b = 2 /\ n = right_of px nx m).
Proof.
  intros Hn Hm. rewrite nbrs1_spec by auto. destruct b as [|[|[|b]]]; cbn; intros H; inversion H; auto.
  destruct b; discriminate.
Qed.

Definition charge (s : sym) : nat * nat * nat -> nat * nat :=
  fun '(m, b, n) =>
    match s with
    | SymYesLower => match b with 0 => (m, 0) | 1 => (n, 1) | 2 => (m, 1) | 3 => (n, 2) | _ => (m, 2) end
    | _ => match b with 0 => (m, 0) | 1 => (m, 1) | 2 => (n, 1) | 3 => (m, 2) | _ => (n, 2) end
    end.

Lemma tri_noskip s m n : triangular s = true -> skip s m n = false -> (s = SymYesLower /\ n <= m) \/ (s = SymYesUpper /\ m <= n).
Proof.
  unfold skip. destruct s; cbn [triangular sym_eqb andb orb]; intros H; try discriminate H; rewrite ?orb_false_r; intros K;
    apply Nat.ltb_ge in K; auto.
Qed.

Lemma items_length nbrs k rows : (forall m, In m rows -> length (nbrs m) = k) -> length (items nbrs rows) = k * length rows.
Proof.
  intros H. unfold items. induction rows as [|m rows IH]; cbn [flat_map length]; [lia|].
  rewrite app_length, map_length, IH by (intros; apply H; now right). unfold indexed. rewrite combine_length, seq_length, H by (now left). lia.
Qed.

Lemma filter_le {A} (f : A -> bool) l : length (filter f l) <= length l.
Proof. induction l as [|a l IH]; cbn; [lia|]. destruct (f a); cbn; lia. Qed.

Section Count1.
Variables (px : bool) (nx : nat) (rows : list nat) (keep : nat * nat * nat -> bool) (s : sym).
Hypothesis Hn : 2 <= nx.
Hypothesis ND : NoDup rows.
Hypothesis RB : forall m, In m rows -> m < nx.
Hypothesis KR : forall m b n, keep (m, b, n) = true -> n < nx -> In n rows.
Hypothesis KS : forall m b n, keep (m, b, n) = true -> skip s m n = false.

Lemma count1_tri : triangular s = true -> length (filter keep (items (nbrs1 px nx) rows)) <= 2 * length rows.
Proof.
  intros TS. replace (2 * length rows) with (length (list_prod rows [0; 1])) by (rewrite prod_length; cbn; lia).
  apply (charge_count _ keep (charge s)).
  - now apply nodup_items.
  - intros [[m b] n] Ha K. apply in_items in Ha. destruct Ha as [Hm Hb].
    destruct (item1 px nx m b n Hn (RB m Hm) Hb) as [[-> ->]|[[-> E]|[-> E]]];
      destruct (tri_noskip s _ _ TS (KS _ _ _ K)) as [[-> L]|[-> L]]; cbn [charge]; apply in_prod; cbn; auto;
      apply (KR _ _ _ K); rewrite E; auto using left_lt, right_lt.
  - intros [[m b] n] [[m' b'] n'] Ha Ha' K K' E.
    apply in_items in Ha, Ha'. destruct Ha as [Hm Hb]. destruct Ha' as [Hm' Hb'].
    apply RB in Hm, Hm'.
    assert (Q : b = b' /\ m = m').
    { destruct (item1 px nx m b n Hn Hm Hb) as [[-> ->]|[[-> En]|[-> En]]];
      destruct (item1 px nx m' b' n' Hn Hm' Hb') as [[-> ->]|[[-> En']|[-> En']]];
      clear Hb Hb';
      destruct (tri_noskip s _ _ TS (KS _ _ _ K)) as [[S L]|[S L]]; 
      destruct (tri_noskip s _ _ TS (KS _ _ _ K')) as [[S' L']|[S' L']]; rewrite S in S'; try discriminate S';
      rewrite S in E; clear K K' KS KR; cbn [charge] in E; try discriminate E; apply (f_equal fst) in E; cbn [fst] in E; try (split; [reflexivity|exact E]);
      try (destruct (left_cases px nx m Hn Hm) as [[? Q]|[? Q]]; rewrite Q in *);
      try (destruct (left_cases px nx m' Hn Hm') as [[? Q']|[? Q']]; rewrite Q' in *);
      try (destruct (right_cases px nx m Hn Hm) as [[? P]|[? P]]; rewrite P in *);
      try (destruct (right_cases px nx m' Hn Hm') as [[? P']|[? P']]; rewrite P' in *);
      destruct px; lia. }
    destruct Q as [-> ->]. rewrite Hb in Hb'. congruence.
Qed.

Lemma count1_full : length (filter keep (items (nbrs1 px nx) rows)) <= 3 * length rows.
Proof.
  etransitivity; [apply filter_le|]. rewrite (items_length _ 3); auto.
  intros m Hm. rewrite nbrs1_spec; auto.
Qed.
End Count1.

(** prescribed end points *)
Lemma count1_chk px nx (sx0 sx1 : bool) rows prows (inp : nat -> bool) :
  2 <= nx -> NoDup rows ->
  (forall n, n < nx -> inp n = true <-> (sx0 = true /\ n = 0) \/ (sx1 = true /\ n = nx - 1)) ->
  (px = true -> sx0 = false /\ sx1 = false) ->
  (forall m, In m rows -> m < nx /\ inp m = false) ->
  (forall n, n < nx -> inp n = true -> In n prows) ->
  length (filter (fun '(m, b, n) => inp n) (items (nbrs1 px nx) rows)) <= 2 * length prows.
Proof.
  intros Hn ND IP PX RB PR.
  replace (2 * length prows) with (length (list_prod prows [1; 2])) by (rewrite prod_length; cbn; lia).
  apply (charge_count _ _ (fun '(m, b, n) => (n, b))).
  - now apply nodup_items.
  - intros [[m b] n] Ha K. apply in_items in Ha. destruct Ha as [Hm Hb]. destruct (RB m Hm) as [Hm1 Hm2].
    destruct (item1 px nx m b n Hn Hm1 Hb) as [[-> ->]|[[-> ->]|[-> ->]]].
    + congruence.
    + apply in_prod; cbn; auto. apply PR; auto using left_lt.
    + apply in_prod; cbn; auto. apply PR; auto using right_lt.
  - intros [[m b] n] [[m' b'] n'] Ha Ha' K K' E. inversion E; subst n' b'.
    apply in_items in Ha, Ha'. destruct Ha as [Hm Hb]. destruct Ha' as [Hm' Hb'].
    destruct (RB m Hm) as [Hm1 Hm2]. destruct (RB m' Hm') as [Hm1' Hm2'].
    assert (Q : m = m').
    { destruct (item1 px nx m b n Hn Hm1 Hb) as [[-> ->]|[[-> En]|[-> En]]];
      destruct (item1 px nx m' _ _ Hn Hm1' Hb') as [[B' En']|[[B' En']|[B' En']]]; try discriminate B'; auto.
      - assert (Hnn : n < nx) by (subst n; auto using left_lt). apply (IP n Hnn) in K. 
        destruct px; [destruct (PX eq_refl) as [-> ->]; intuition discriminate|].
        destruct (left_cases false nx m Hn Hm1) as [[? Q]|[? Q]]; rewrite Q in En;
        destruct (left_cases false nx m' Hn Hm1') as [[? Q']|[? Q']]; rewrite Q' in En'; lia.
      - assert (Hnn : n < nx) by (subst n; auto using right_lt). apply (IP n Hnn) in K. 
        destruct px; [destruct (PX eq_refl) as [-> ->]; intuition discriminate|].
        destruct (right_cases false nx m Hn Hm1) as [[? Q]|[? Q]]; rewrite Q in En;
        destruct (right_cases false nx m' Hn Hm1') as [[? Q']|[? Q']]; rewrite Q' in En'; lia. }
    congruence.
Qed.

(** ** 2D: node m = i + j nx *)
Lemma idx_inj nx i j i' j' : i < nx -> i' < nx -> i + j * nx = i' + j' * nx -> i = i' /\ j = j'.
Proof.
  intros H H' E. assert (A := f_equal (fun x => x mod nx) E). cbn in A. rewrite !mod_idx in A by auto. subst i'.
  split; auto. assert (A := f_equal (fun x => x / nx) E). cbn in A. rewrite !div_idx in A by auto. auto.
Qed.
Lemma idx_split nx ny m : 0 < nx -> m < nx * ny -> exists i j, i < nx /\ j < ny /\ m = i + j * nx.
Proof.
  intros H L. exists (m mod nx), (m / nx). splits.
  - apply Nat.mod_upper_bound. lia.
  - apply Nat.div_lt_upper_bound; lia.
  - rewrite (Nat.div_mod m nx) at 1 by lia. lia.
Qed.
Lemma idx_lt nx ny i j : i < nx -> j < ny -> i + j * nx < nx * ny.
Proof. intros. nia. Qed.

Lemma nbrs2_spec px py nx ny i j : 2 <= nx -> 2 <= ny -> i < nx -> j < ny ->
  nbrs2 px py nx ny (i + j * nx) =
    [i + j * nx; left_of px nx i + j * nx; right_of px nx i + j * nx; i + left_of py ny j * nx; i + right_of py ny j * nx].
Proof.
  intros Hx Hy Hi Hj. unfold nbrs2. rewrite mod_idx, div_idx by auto.
  assert (L1 : (if px then if negb (i =? 0) then i + j * nx - 1 else i + j * nx + (nx - 1)
               else if negb (i =? 0) then i + j * nx - 1 else i + j * nx + 1) = left_of px nx i + j * nx).
  { destruct (left_cases px nx i Hx Hi) as [[A ->]|[A ->]]; destruct px, (Nat.eqb_spec i 0); cbn [negb]; lia. }
  assert (L2 : (if px then if negb (i =? nx - 1) then i + j * nx + 1 else i + j * nx - (nx - 1)
               else if negb (i =? nx - 1) then i + j * nx + 1 else i + j * nx - 1) = right_of px nx i + j * nx).
  { destruct (right_cases px nx i Hx Hi) as [[A ->]|[A ->]]; destruct px, (Nat.eqb_spec i (nx - 1)); cbn [negb]; lia. }
  assert (L3 : (if py then if negb (j =? 0) then i + j * nx - nx else i + j * nx + (ny - 1) * nx
               else if negb (j =? 0) then i + j * nx - nx else i + j * nx + nx) = i + left_of py ny j * nx).
  { destruct (left_cases py ny j Hy Hj) as [[A ->]|[A ->]]; destruct py, (Nat.eqb_spec j 0); cbn [negb]; try lia; subst; nia. }
  assert (L4 : (if py then if negb (j =? ny - 1) then i + j * nx + nx else i + j * nx - (ny - 1) * nx
               else if negb (j =? ny - 1) then i + j * nx + nx else i + j * nx - nx) = i + right_of py ny j * nx).
  { destruct (right_cases py ny j Hy Hj) as [[A ->]|[A ->]]; destruct py, (Nat.eqb_spec j (ny - 1)); cbn [negb]; try lia; subst; nia. }
  rewrite <- L1, <- L2, <- L3, <- L4. destruct px, py; reflexivity.
Qed.

Lemma item2 px py nx ny m b n : 2 <= nx -> 2 <= ny -> m < nx * ny -> nth_error (nbrs2 px py nx ny m) b = Some n ->
  exists i j i' j', i < nx /\ j < ny /\ m = i + j * nx /\ i' < nx /\ j' < ny /\ n = i' + j' * nx /\
  ((b = 0 /\ i' = i /\ j' = j) \/ (b = 1 /\ i' = left_of px nx i /\ j' = j) \/ (b = 2 /\ i' = right_of px nx i /\ j' = j) \/
   (b = 3 /\ i' = i /\ j' = left_of py ny j) \/ (b = 4 /\ i' = i /\ j' = right_of py ny j)).
Proof.
  intros Hx Hy Hm. destruct (idx_split nx ny m) as (i & j & Hi & Hj & ->); [lia|auto|].
  rewrite nbrs2_spec by auto. exists i, j.
  destruct b as [|[|[|[|[|b]]]]]; cbn [nth_error] in *; try (inversion H; subst n; clear H).
  - exists i, j. splits; auto; intuition.
  - exists (left_of px nx i), j. splits; auto using left_lt; intuition.
  - exists (right_of px nx i), j. splits; auto using right_lt; intuition.
  - exists i, (left_of py ny j). splits; auto using left_lt; intuition.
  - exists i, (right_of py ny j). splits; auto using right_lt; intuition.
  - destruct b; discriminate.
Qed.

Lemma item2_lt px py nx ny m b n : 2 <= nx -> 2 <= ny -> m < nx * ny -> nth_error (nbrs2 px py nx ny m) b = Some n -> n < nx * ny.
Proof.
  intros Hx Hy Hm H. destruct (item2 px py nx ny m b n Hx Hy Hm H) as (i & j & i' & j' & _ & _ & _ & A & B & -> & _).
  now apply idx_lt.
Qed.

Section Count2.
Variables (px py : bool) (nx ny : nat) (rows : list nat) (keep : nat * nat * nat -> bool) (s : sym).
Hypothesis Hx : 2 <= nx.
Hypothesis Hy : 2 <= ny.
Hypothesis ND : NoDup rows.
Hypothesis RB : forall m, In m rows -> m < nx * ny.
Hypothesis KR : forall m b n, keep (m, b, n) = true -> n < nx * ny -> In n rows.
Hypothesis KS : forall m b n, keep (m, b, n) = true -> skip s m n = false.

Lemma count2_tri : triangular s = true -> length (filter keep (items (nbrs2 px py nx ny) rows)) <= 3 * length rows.
Proof.
  intros TS. replace (3 * length rows) with (length (list_prod rows [0; 1; 2])) by (rewrite prod_length; cbn; lia).
  apply (charge_count _ keep (charge s)).
  - now apply nodup_items.
  - intros [[m b] n] Ha K. apply in_items in Ha. destruct Ha as [Hm Hb].
    assert (Hn := KR _ _ _ K (item2_lt _ _ _ _ _ _ _ Hx Hy (RB m Hm) Hb)).
    unfold charge.
    destruct s; destruct b as [|[|[|[|b]]]]; apply in_prod; cbn; auto.
  - intros [[m b] n] [[m' b'] n'] Ha Ha' K K' E.
    apply in_items in Ha, Ha'. destruct Ha as [Hm Hb]. destruct Ha' as [Hm' Hb'].
    apply RB in Hm, Hm'.
    destruct (item2 _ _ _ _ _ _ _ Hx Hy Hm Hb) as (i & j & a & c & Hi & Hj & Em & Hi1 & Hj1 & En & C).
    destruct (item2 _ _ _ _ _ _ _ Hx Hy Hm' Hb') as (i' & j' & a' & c' & Hi' & Hj' & Em' & Hi1' & Hj1' & En' & C').
    assert (U : forall x y z w, x < nx -> z < nx -> x + y * nx <= z + w * nx -> y <= w) by (intros; nia).
    assert (W : forall x y z, x + y * nx <= z + y * nx -> x <= z) by (intros; lia).
    assert (Q : b = b' /\ i = i' /\ j = j').
    { destruct (tri_noskip s _ _ TS (KS _ _ _ K)) as [[S L]|[S L]]; 
      destruct (tri_noskip s _ _ TS (KS _ _ _ K')) as [[S' L']|[S' L']]; rewrite S in S'; try discriminate S';
      rewrite S in E; clear S S' K K' Hb Hb' KS KR; rewrite Em, En in L; rewrite Em', En' in L'.
      - (* lower *)
        destruct C as [(-> & -> & ->)|[(-> & Ea & ->)|[(-> & Ea & ->)|[(-> & -> & Ec)|(-> & -> & Ec)]]]];
        destruct C' as [(-> & -> & ->)|[(-> & Ea' & ->)|[(-> & Ea' & ->)|[(-> & -> & Ec')|(-> & -> & Ec')]]]];
        cbn [charge] in E; try discriminate E; apply (f_equal fst) in E; cbn [fst] in E; rewrite ?Em, ?En in E; rewrite ?Em', ?En' in E;
        (apply idx_inj in E; [|eassumption|eassumption]); destruct E as [E1 E2];
        try apply W in L; try apply W in L'; try (apply U in L; [|assumption|assumption]); try (apply U in L'; [|assumption|assumption]);
        try (destruct (left_cases px nx i Hx Hi) as [[? Q]|[? Q]]; rewrite Q in *);
        try (destruct (left_cases px nx i' Hx Hi') as [[? Q']|[? Q']]; rewrite Q' in *);
        try (destruct (right_cases px nx i Hx Hi) as [[? P]|[? P]]; rewrite P in *);
        try (destruct (right_cases px nx i' Hx Hi') as [[? P']|[? P']]; rewrite P' in *);
        try (destruct (left_cases py ny j Hy Hj) as [[? R]|[? R]]; rewrite R in *);
        try (destruct (left_cases py ny j' Hy Hj') as [[? R']|[? R']]; rewrite R' in *);
        try (destruct (right_cases py ny j Hy Hj) as [[? V]|[? V]]; rewrite V in *);
        try (destruct (right_cases py ny j' Hy Hj') as [[? V']|[? V']]; rewrite V' in *);
        clear U W; try destruct px; try destruct py; lia.
      - destruct C as [(-> & -> & ->)|[(-> & Ea & ->)|[(-> & Ea & ->)|[(-> & -> & Ec)|(-> & -> & Ec)]]]];
        destruct C' as [(-> & -> & ->)|[(-> & Ea' & ->)|[(-> & Ea' & ->)|[(-> & -> & Ec')|(-> & -> & Ec')]]]];
        cbn [charge] in E; try discriminate E; apply (f_equal fst) in E; cbn [fst] in E; rewrite ?Em, ?En in E; rewrite ?Em', ?En' in E;
        (apply idx_inj in E; [|eassumption|eassumption]); destruct E as [E1 E2];
        try apply W in L; try apply W in L'; try (apply U in L; [|assumption|assumption]); try (apply U in L'; [|assumption|assumption]);
        try (destruct (left_cases px nx i Hx Hi) as [[? Q]|[? Q]]; rewrite Q in *);
        try (destruct (left_cases px nx i' Hx Hi') as [[? Q']|[? Q']]; rewrite Q' in *);
        try (destruct (right_cases px nx i Hx Hi) as [[? P]|[? P]]; rewrite P in *);
        try (destruct (right_cases px nx i' Hx Hi') as [[? P']|[? P']]; rewrite P' in *);
        try (destruct (left_cases py ny j Hy Hj) as [[? R]|[? R]]; rewrite R in *);
        try (destruct (left_cases py ny j' Hy Hj') as [[? R']|[? R']]; rewrite R' in *);
        try (destruct (right_cases py ny j Hy Hj) as [[? V]|[? V]]; rewrite V in *);
        try (destruct (right_cases py ny j' Hy Hj') as [[? V']|[? V']]; rewrite V' in *);
        clear U W; try destruct px; try destruct py; lia. }
    destruct Q as (-> & -> & ->). rewrite <- Em' in Em. subst m. rewrite Hb in Hb'. congruence.
Qed.

Lemma count2_full : length (filter keep (items (nbrs2 px py nx ny) rows)) <= 5 * length rows.
Proof.
  etransitivity; [apply filter_le|]. rewrite (items_length _ 5); auto.
  intros m Hm. destruct (idx_split nx ny m) as (i & j & Hi & Hj & ->); [lia|auto|]. rewrite nbrs2_spec; auto.
Qed.
End Count2.

Lemma axis_left_inj per n (s0 s1 : bool) i i' : 2 <= n -> i < n -> i' < n ->
  (per = true -> s0 = false /\ s1 = false) ->
  (s0 = true /\ left_of per n i = 0) \/ (s1 = true /\ left_of per n i = n - 1) ->
  left_of per n i = left_of per n i' -> i = i'.
Proof.
  intros Hn Hi Hi' P S E. destruct per.
  - destruct (P eq_refl) as [-> ->]. intuition discriminate.
  - destruct (left_cases false n i Hn Hi) as [[? Q]|[? Q]]; destruct (left_cases false n i' Hn Hi') as [[? Q']|[? Q']]; lia.
Qed.
Lemma axis_right_inj per n (s0 s1 : bool) i i' : 2 <= n -> i < n -> i' < n ->
  (per = true -> s0 = false /\ s1 = false) ->
  (s0 = true /\ right_of per n i = 0) \/ (s1 = true /\ right_of per n i = n - 1) ->
  right_of per n i = right_of per n i' -> i = i'.
Proof.
  intros Hn Hi Hi' P S E. destruct per.
  - destruct (P eq_refl) as [-> ->]. intuition discriminate.
  - destruct (right_cases false n i Hn Hi) as [[? Q]|[? Q]]; destruct (right_cases false n i' Hn Hi') as [[? Q']|[? Q']]; lia.
Qed.

Lemma count2_chk px py nx ny (sx0 sx1 sy0 sy1 : bool) rows prows (inp : nat -> bool) :
  2 <= nx -> 2 <= ny -> NoDup rows ->
  (forall i j, i < nx -> j < ny -> inp (i + j * nx) = true <->
     (sx0 = true /\ i = 0) \/ (sx1 = true /\ i = nx - 1) \/ (sy0 = true /\ j = 0) \/ (sy1 = true /\ j = ny - 1)) ->
  (px = true -> sx0 = false /\ sx1 = false) -> (py = true -> sy0 = false /\ sy1 = false) ->
  (forall m, In m rows -> m < nx * ny /\ inp m = false) ->
  (forall n, n < nx * ny -> inp n = true -> In n prows) ->
  length (filter (fun '(m, b, n) => inp n) (items (nbrs2 px py nx ny) rows)) <= 4 * length prows.
Proof.
  intros Hx Hy ND IP PX PY RB PR.
  replace (4 * length prows) with (length (list_prod prows [1; 2; 3; 4])) by (rewrite prod_length; cbn; lia).
  apply (charge_count _ _ (fun '(m, b, n) => (n, b))).
  - now apply nodup_items.
  - intros [[m b] n] Ha K. apply in_items in Ha. destruct Ha as [Hm Hb]. destruct (RB m Hm) as [Hm1 Hm2].
    assert (Hn := PR n (item2_lt _ _ _ _ _ _ _ Hx Hy Hm1 Hb) K).
    destruct (item2 _ _ _ _ _ _ _ Hx Hy Hm1 Hb) as (i & j & a & c & Hi & Hj & Em & Hi1 & Hj1 & En & C).
    apply in_prod; auto.
    destruct C as [(-> & -> & ->)|[(-> & _)|[(-> & _)|[(-> & _)|(-> & _)]]]]; cbn; auto.
    subst. congruence.
  - intros [[m b] n] [[m' b'] n'] Ha Ha' K K' E. inversion E; subst n' b'. clear E.
    apply in_items in Ha, Ha'. destruct Ha as [Hm Hb]. destruct Ha' as [Hm' Hb'].
    destruct (RB m Hm) as [Hm1 Hm2]. destruct (RB m' Hm') as [Hm1' Hm2'].
    destruct (item2 _ _ _ _ _ _ _ Hx Hy Hm1 Hb) as (i & j & a & c & Hi & Hj & Em & Hi1 & Hj1 & En & C).
    destruct (item2 _ _ _ _ _ _ _ Hx Hy Hm1' Hb') as (i' & j' & a' & c' & Hi' & Hj' & Em' & Hi1' & Hj1' & En' & C').
    assert (Q : a = a' /\ c = c') by (apply (idx_inj nx); auto; congruence). destruct Q as [<- <-].
    assert (UN : ~ ((sx0 = true /\ i = 0) \/ (sx1 = true /\ i = nx - 1) \/ (sy0 = true /\ j = 0) \/ (sy1 = true /\ j = ny - 1))).
    { intros Q. apply IP in Q; auto. congruence. }
    rewrite En in K. apply IP in K; auto.
    assert (Q : i = i' /\ j = j').
    { destruct C as [(B & -> & ->)|[(B & Ea & ->)|[(B & Ea & ->)|[(B & -> & Ec)|(B & -> & Ec)]]]];
      destruct C' as [(B' & A1 & A2)|[(B' & A1 & A2)|[(B' & A1 & A2)|[(B' & A1 & A2)|(B' & A1 & A2)]]]]; rewrite B in B'; try discriminate B';
      split; auto.
      - apply (axis_left_inj px nx sx0 sx1); auto; [|congruence]. rewrite <- Ea. tauto.
      - apply (axis_right_inj px nx sx0 sx1); auto; [|congruence]. rewrite <- Ea. tauto.
      - apply (axis_left_inj py ny sy0 sy1); auto; [|congruence]. rewrite <- Ec. tauto.
      - apply (axis_right_inj py ny sy0 sy1); auto; [|congruence]. rewrite <- Ec. tauto. }
    destruct Q as [<- <-]. congruence.
Qed.
