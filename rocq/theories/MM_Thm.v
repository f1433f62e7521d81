(** C11: reading MatrixMarket files. *)
From Coq Require Import Ascii.
From Verif Require Import Base Dense_Model Sparse_Model Sparse_Spec Sparse_Lib Sparse_CooProofs Sparse_Compressed MM_Model.
Local Open Scope string_scope.
Local Open Scope list_scope.
Local Open Scope nat_scope.

(* ------------------------------------------------------------------ *)
(** * Specification: what a MatrixMarket text says *)

(** lines that carry data: not blank and not a comment *)
Definition carries (l : string) : bool := negb (skipped l).

Definition header_says (l : string) (cplx symm : bool) : Prop :=
  exists t3 t4 rest, split_ws l = "%%MatrixMarket" :: "matrix" :: "coordinate" :: t3 :: t4 :: rest /\
    t3 = (if cplx then "complex" else "real") /\
    (t4 = "symmetric" /\ symm = true \/ t4 = "general" /\ symm = false \/ t4 = "Hermitian" /\ symm = false /\ cplx = true).
Definition dims_say (l : string) (m n nnz : Z) : Prop :=
  exists a b c rest, split_ws l = a :: b :: c :: rest /\
    parse_i32 a = Some m /\ parse_i32 b = Some n /\ parse_i32 c = Some nnz /\ (1 <= m /\ 1 <= n /\ 1 <= nnz)%Z.
(** row and column indices are one-based in the file *)
Definition entry_says {V} (vzero : V) (parse : string -> option V) (cplx : bool) (m n : Z) (l : string) (e : Z * Z * (V * V)) : Prop :=
  let '(i, j, (a, b)) := e in
  exists ti tj ta rest, split_ws l = ti :: tj :: ta :: rest /\
    parse_i32 ti = Some (i + 1)%Z /\ parse_i32 tj = Some (j + 1)%Z /\ parse ta = Some a /\
    (if cplx then exists tb rest', rest = tb :: rest' /\ parse tb = Some b else b = vzero) /\
    (0 <= i < m /\ 0 <= j < n)%Z.
Definition file_says {V} (vzero : V) (parse : string -> option V) (ls : list string) (cplx symm : bool) (m n : Z)
    (es : list (Z * Z * (V * V))) : Prop :=
  exists h rest dl body, ls = h :: rest /\ header_says h cplx symm /\ filter carries rest = dl :: body /\
    dims_say dl m n (Z.of_nat (length body)) /\ Forall2 (entry_says vzero parse cplx m n) body es.

(** what is stored for one line *)
Definition stored {V T} (mk : V * V -> T) (h : mmsym) (symm : bool) (e : Z * Z * (V * V)) : list (nat * nat * T) :=
  let '(i, j, v) := e in
  let '(i, j) := (Z.to_nat i, Z.to_nat j) in
  if symm then
    match h with
    | LeaveAsLower => [(i, j, mk v)]
    | SwapToUpper => [(j, i, mk v)]
    | MakeItFull => if i =? j then [(i, j, mk v)] else [(i, j, mk v); (j, i, mk v)]
    end
  else [(i, j, mk v)].
Definition sym_of (h : mmsym) (symm : bool) : sym :=
  if symm then match h with LeaveAsLower => SymYesLower | SwapToUpper => SymYesUpper | MakeItFull => SymYesFull end else SymNo.
(** the files that are accepted: square if symmetric, no more than i32::MAX entries once mirrored, and
    only the lower triangle when one triangle is stored *)
Definition storable {V} (h : mmsym) (symm : bool) (m n : Z) (es : list (Z * Z * (V * V))) : Prop :=
  symm = true ->
  m = n /\
  (h = MakeItFull -> (2 * Z.of_nat (length es) <= I32_MAX)%Z) /\
  (h <> MakeItFull -> forall i j v, In (i, j, v) es -> (j <= i)%Z).
Definition is_matrix {V T} (mk : V * V -> T) (h : mmsym) (symm : bool) (m n : Z) (es : list (Z * Z * (V * V))) (c : coo T) : Prop :=
  coo_valid c /\ c_sym c = sym_of h symm /\ Z.of_nat (c_nrow c) = m /\ Z.of_nat (c_ncol c) = n /\
  coo_triplets c = flat_map (stored mk h symm) es.

(* ------------------------------------------------------------------ *)
(** * Reader *)

Lemma header_iff l cplx symm : parse_header l = Ok (cplx, symm) <-> header_says l cplx symm.
Proof.
  unfold parse_header, header_says. destruct (split_ws l) as [|k [|o1 [|o2 [|o3 [|o4 t]]]]].
  1-5: split; [intros H | intros (? & ? & ? & H & _); discriminate].
  - discriminate.
  - destruct (String.eqb k _); discriminate.
  - destruct (String.eqb k _); try discriminate. destruct (String.eqb o1 _); discriminate.
  - destruct (String.eqb k _); try discriminate. destruct (String.eqb o1 _); try discriminate. destruct (String.eqb o2 _); discriminate.
  - destruct (String.eqb k _); try discriminate. destruct (String.eqb o1 _); try discriminate. destruct (String.eqb o2 _); try discriminate.
    cbn [negb] in H. unfold bind in H. destruct (String.eqb o3 "real"); [discriminate|]. destruct (String.eqb o3 "complex"); discriminate.
  - destruct (String.eqb_spec k "%%MatrixMarket") as [->|N]; [|split; [discriminate | intros (? & ? & ? & H & _); congruence]].
    destruct (String.eqb_spec o1 "matrix") as [->|N]; [|split; [discriminate | intros (? & ? & ? & H & _); congruence]].
    destruct (String.eqb_spec o2 "coordinate") as [->|N]; [|split; [discriminate | intros (? & ? & ? & H & _); congruence]].
    cbn [negb]. unfold bind.
    destruct (String.eqb_spec o3 "real") as [->|N3]; [|destruct (String.eqb_spec o3 "complex") as [->|N3']].
    + split.
      * intros H. exists "real", o4, t. split; [reflexivity|].
        destruct (String.eqb_spec o4 "general") as [->|]; [injection H as <- <-; auto|].
        destruct (String.eqb_spec o4 "symmetric") as [->|]; [injection H as <- <-; auto|].
        destruct (String.eqb o4 "Hermitian"); discriminate.
      * intros (t3 & t4 & rest & H & H3 & H4). injection H as <- <- <-. destruct cplx; [discriminate|].
        destruct H4 as [[-> ->]|[[-> ->]|(_ & _ & H4)]]; [reflexivity | reflexivity | discriminate].
    + split.
      * intros H. exists "complex", o4, t. split; [reflexivity|].
        destruct (String.eqb_spec o4 "general") as [->|]; [injection H as <- <-; auto|].
        destruct (String.eqb_spec o4 "symmetric") as [->|]; [injection H as <- <-; auto|].
        destruct (String.eqb_spec o4 "Hermitian") as [->|]; [injection H as <- <-; auto 6 | discriminate].
      * intros (t3 & t4 & rest & H & H3 & H4). injection H as <- <- <-. destruct cplx; [|discriminate].
        destruct H4 as [[-> ->]|[[-> ->]|(-> & -> & _)]]; reflexivity.
    + split; [discriminate|]. intros (t3 & t4 & rest & H & H3 & _). injection H as <- <- <-. destruct cplx; congruence.
Qed.
Lemma header_no_panic l : parse_header l <> Panic.
Proof.
  unfold parse_header. destruct (split_ws l) as [|k t]; [discriminate|]. destruct (negb (String.eqb k _)); [discriminate|].
  destruct t as [|o1 t]; [discriminate|]. destruct (negb (String.eqb o1 _)); [discriminate|].
  destruct t as [|o2 t]; [discriminate|]. destruct (negb (String.eqb o2 _)); [discriminate|].
  destruct t as [|o3 t]; [discriminate|].
  destruct (String.eqb o3 "real"); [|destruct (String.eqb o3 "complex")]; cbn [bind]; try discriminate;
    (destruct t as [|o4 t]; [discriminate|]; destruct (String.eqb o4 "general"); [discriminate|]; destruct (String.eqb o4 "symmetric"); [discriminate|];
     destruct (String.eqb o4 "Hermitian"); discriminate).
Qed.

Lemma split_trim s : split_ws (trim_start s) = split_ws s.
Proof.
  unfold split_ws. induction s as [|c t IH]; [reflexivity|]. simpl. destruct (is_ws c) eqn:E; [exact IH|]. simpl. rewrite E. reflexivity.
Qed.
Lemma split_acc_nonempty acc s : nonempty acc = true -> split_aux acc s <> [].
Proof.
  revert acc. induction s as [|c t IH]; intros acc H; simpl; rewrite ?H; [discriminate|].
  destruct (is_ws c); [discriminate|]. apply IH. destruct acc; reflexivity.
Qed.
Lemma carries_tokens l : carries l = true -> split_ws l <> [].
Proof.
  unfold carries, skipped. rewrite <- (split_trim l).
  assert (Q : forall s, match trim_start s with EmptyString => True | String c _ => is_ws c = false end).
  { induction s as [|c t IH]; simpl; auto. destruct (is_ws c) eqn:E; auto. }
  specialize (Q l). destruct (trim_start l) as [|c t]; [discriminate|]. intros _. unfold split_ws. simpl. rewrite Q.
  apply split_acc_nonempty. reflexivity.
Qed.

Lemma dims_iff l m n z : carries l = true -> (parse_dimensions l = Ok (Some (m, n, z)) <-> dims_say l m n z).
Proof.
  intros C. unfold parse_dimensions, dims_say. unfold carries in C. apply negb_true_iff in C. rewrite C, split_trim.
  destruct (split_ws l) as [|a [|b [|c t]]].
  - split; [discriminate | intros (? & ? & ? & ? & H & _); discriminate].
  - split; [|intros (? & ? & ? & ? & H & _); discriminate]. destruct (parse_i32 a); discriminate.
  - split; [|intros (? & ? & ? & ? & H & _); discriminate]. destruct (parse_i32 a); [|discriminate]. simpl. destruct (parse_i32 b); discriminate.
  - split.
    + destruct (parse_i32 a) as [m'|] eqn:Ea; [|discriminate]. destruct (parse_i32 b) as [n'|] eqn:Eb; [|discriminate].
      destruct (parse_i32 c) as [z'|] eqn:Ec; [|discriminate]. cbn [num bind].
      destruct ((m' <? 1) || (n' <? 1) || (z' <? 1))%Z eqn:E; [discriminate|]. intros H. injection H as -> -> ->.
      exists a, b, c, t. repeat split; auto; apply orb_false_iff in E; destruct E as [E E3]; apply orb_false_iff in E; destruct E as [E1 E2];
        apply Z.ltb_ge in E1, E2, E3; lia.
    + intros (a' & b' & c' & t' & H & Ha & Hb & Hc & H1 & H2 & H3). injection H as <- <- <- <-. rewrite Ha, Hb, Hc. cbn [num bind].
      rewrite (proj2 (Z.ltb_ge m 1)), (proj2 (Z.ltb_ge n 1)), (proj2 (Z.ltb_ge z 1)) by lia. reflexivity.
Qed.
Lemma dims_cases l : (parse_dimensions l = Ok None /\ carries l = false) \/
  (carries l = true /\ ((exists d, parse_dimensions l = Ok (Some d)) \/ exists e, parse_dimensions l = Err e)).
Proof.
  destruct (carries l) eqn:C.
  - right. split; [reflexivity|]. pose proof (carries_tokens l C) as Tk. unfold parse_dimensions. unfold carries in C. apply negb_true_iff in C.
    rewrite C, split_trim. destruct (split_ws l) as [|a [|b [|c t]]]; [congruence | | |]; destruct (parse_i32 a); cbn [num bind]; eauto;
      destruct (parse_i32 b); cbn [num bind]; eauto; destruct (parse_i32 c); cbn [num bind]; eauto; destruct (_ || _); eauto.
  - left. split; [|reflexivity]. unfold carries in C. apply negb_false_iff in C. unfold parse_dimensions. rewrite C. reflexivity.
Qed.

Lemma find_dims_iff ls m n z t : find_dims ls = Ok (m, n, z, t) <->
  exists pre dl, ls = pre ++ dl :: t /\ filter carries pre = [] /\ carries dl = true /\ dims_say dl m n z.
Proof.
  induction ls as [|l ls IH].
  - split; [discriminate|]. intros (pre & dl & H & _). destruct pre; discriminate.
  - simpl. destruct (dims_cases l) as [[E C]|(C & [[d E]|[e E]])]; rewrite E; cbn [bind].
    + rewrite IH. split.
      * intros (pre & dl & -> & F & C' & D). exists (l :: pre), dl. simpl. rewrite C. auto.
      * intros ([|p pre] & dl & H & F & C' & D); injection H as -> ->; [congruence|]. simpl in F. rewrite C in F. exists pre, dl. auto.
    + split.
      * intros H. injection H as -> <-. exists [], l. repeat split; auto. apply dims_iff; auto.
      * intros ([|p pre] & dl & H & F & C' & D); injection H as -> ->.
        -- apply dims_iff in D; auto. rewrite D in E. injection E as <-. reflexivity.
        -- simpl in F. rewrite C in F. discriminate.
    + split; [discriminate|]. intros ([|p pre] & dl & H & F & C' & D); injection H as -> ->.
      * apply dims_iff in D; auto. congruence.
      * simpl in F. rewrite C in F. discriminate.
Qed.
Lemma find_dims_panic ls : find_dims ls = Panic <-> filter carries ls = [].
Proof.
  induction ls as [|l ls IH]; [simpl; tauto|]. simpl.
  destruct (dims_cases l) as [[E C]|(C & [[d E]|[e E]])]; rewrite E, C; cbn [bind]; [exact IH | split; discriminate | split; discriminate].
Qed.

Section Values.
Variable V : Type.
Variable vzero : V.
Variable parse : string -> option V.
Notation says := (entry_says vzero parse).

Lemma values_iff cplx m n nnz pos l e : carries l = true -> (pos <> nnz)%Z ->
  (parse_values V vzero parse cplx m n nnz pos l = Ok (Some e) <-> says cplx m n l e).
Proof.
  intros C Hp. unfold parse_values, entry_says. unfold carries in C. apply negb_true_iff in C. rewrite C, split_trim, (proj2 (Z.eqb_neq pos nnz) Hp).
  destruct e as [[i j] [a b]].
  destruct (split_ws l) as [|ti [|tj [|ta t]]].
  - split; [discriminate | intros (? & ? & ? & ? & H & _); discriminate].
  - split; [|intros (? & ? & ? & ? & H & _); discriminate]. destruct (parse_i32 ti); discriminate.
  - split; [|intros (? & ? & ? & ? & H & _); discriminate]. destruct (parse_i32 ti); [|discriminate]. simpl. destruct (parse_i32 tj); discriminate.
  - split.
    + destruct (parse_i32 ti) as [i1|] eqn:Ei; [|discriminate]. destruct (parse_i32 tj) as [j1|] eqn:Ej; [|discriminate].
      destruct (parse ta) as [a1|] eqn:Ea; [|discriminate]. cbn [num fnum bind]. intros H.
      destruct (if cplx then match t with [] => Err "cannot read bij" | d :: _ => fnum V (parse d) "cannot parse bij" end else Ok vzero) as [b1|?|] eqn:Eb;
        try discriminate H. cbn [bind] in H.
      unfold dec32 in H. destruct (Z.eqb_spec i1 I32_MIN); [discriminate H|]. cbn [bind] in H. destruct (Z.eqb_spec j1 I32_MIN); [discriminate H|].
      cbn [bind] in H.
      destruct ((i1 - 1 <? 0) || (m <=? i1 - 1) || (j1 - 1 <? 0) || (n <=? j1 - 1))%Z eqn:E; [discriminate H|]. injection H as <- <- <- <-.
      exists ti, tj, ta, t. split; [reflexivity|]. split; [rewrite Ei; f_equal; lia|]. split; [rewrite Ej; f_equal; lia|]. split; [exact Ea|].
      split.
      * destruct cplx; [|congruence]. destruct t as [|tb t]; [discriminate Eb|]. exists tb, t. split; [reflexivity|].
        unfold fnum in Eb. destruct (parse tb); congruence.
      * apply orb_false_iff in E. destruct E as [E E4]. apply orb_false_iff in E. destruct E as [E E3]. apply orb_false_iff in E. destruct E as [E1 E2].
        apply Z.ltb_ge in E1, E3. apply Z.leb_gt in E2, E4. lia.
    + intros (ti' & tj' & ta' & t' & H & Hi & Hj & Ha & Hb & R1 & R2). injection H as <- <- <- <-. rewrite Hi, Hj, Ha. cbn [num fnum bind].
      assert (Q : (if cplx then match t with [] => Err "cannot read bij" | d :: _ => fnum V (parse d) "cannot parse bij" end else Ok vzero) = Ok b).
      { destruct cplx; [|congruence]. destruct Hb as (tb & t'' & -> & Hb). rewrite Hb. reflexivity. }
      rewrite Q. cbn [bind]. unfold dec32.
      destruct (Z.eqb_spec (i + 1) I32_MIN) as [Z1|Z1]; [unfold I32_MIN in Z1; lia|]. destruct (Z.eqb_spec (j + 1) I32_MIN) as [Z2|Z2]; [unfold I32_MIN in Z2; lia|].
      cbn [bind]. replace (i + 1 - 1)%Z with i by lia. replace (j + 1 - 1)%Z with j by lia.
      rewrite (proj2 (Z.ltb_ge i 0)), (proj2 (Z.leb_gt m i)), (proj2 (Z.ltb_ge j 0)), (proj2 (Z.leb_gt n j)) by lia. reflexivity.
Qed.
(** the index that overflows when it is made zero-based *)
Definition min_index (l : string) : Prop :=
  exists a b c rest, split_ws l = a :: b :: c :: rest /\ (parse_i32 a = Some I32_MIN \/ parse_i32 b = Some I32_MIN).
Lemma values_cases cplx m n nnz pos l :
  (carries l = false /\ parse_values V vzero parse cplx m n nnz pos l = Ok None) \/
  (carries l = true /\
   ((pos = nnz /\ exists e, parse_values V vzero parse cplx m n nnz pos l = Err e) \/
    (pos <> nnz /\ ((exists e, parse_values V vzero parse cplx m n nnz pos l = Ok (Some e)) \/
                    (exists e, parse_values V vzero parse cplx m n nnz pos l = Err e) \/
                    (min_index l /\ parse_values V vzero parse cplx m n nnz pos l = Panic))))).
Proof.
  destruct (carries l) eqn:C.
  - right. split; [reflexivity|]. pose proof (carries_tokens l C) as Tk. unfold parse_values. unfold carries in C. apply negb_true_iff in C.
    rewrite C, split_trim. destruct (Z.eqb_spec pos nnz) as [E|E]; [left; eauto|]. right. split; [exact E|].
    unfold min_index. destruct (split_ws l) as [|a [|b [|c t]]]; [congruence | | |].
    + destruct (parse_i32 a); simpl; eauto.
    + destruct (parse_i32 a); simpl; eauto. destruct (parse_i32 b); simpl; eauto.
    + destruct (parse_i32 a) as [i|] eqn:Ei; cbn [num bind]; eauto. destruct (parse_i32 b) as [j|] eqn:Ej; cbn [num bind]; eauto.
      destruct (parse c); cbn [fnum bind]; eauto.
      destruct (if cplx then match t with [] => Err "cannot read bij" | d :: _ => fnum V (parse d) "cannot parse bij" end else Ok vzero) as [b1|?|] eqn:Eb;
        cbn [bind]; eauto.
      2:{ exfalso. destruct cplx; [|discriminate]. destruct t as [|d t]; [discriminate|]. unfold fnum in Eb. destruct (parse d); discriminate. }
      unfold dec32. destruct (Z.eqb_spec i I32_MIN) as [->|]; cbn [bind].
      { right. right. split; [|reflexivity]. exists a, b, c, t. auto. }
      destruct (Z.eqb_spec j I32_MIN) as [->|]; cbn [bind].
      { right. right. split; [|reflexivity]. exists a, b, c, t. auto. }
      destruct (_ || _); eauto.
  - left. split; [reflexivity|]. unfold carries in C. apply negb_false_iff in C. unfold parse_values. rewrite C. reflexivity.
Qed.
End Values.

Lemma says_fun V vzero parse cplx m n l (e e' : Z * Z * (V * V)) : entry_says vzero parse cplx m n l e -> entry_says vzero parse cplx m n l e' -> e = e'.
Proof.
  destruct e as [[i j] [a b]], e' as [[i' j'] [a' b']].
  intros (ti & tj & ta & r & H & Hi & Hj & Ha & Hb & _) (ti' & tj' & ta' & r' & H' & Hi' & Hj' & Ha' & Hb' & _).
  rewrite H in H'. injection H' as <- <- <- <-. rewrite Hi in Hi'. rewrite Hj in Hj'. rewrite Ha in Ha'.
  injection Hi' as Hi'. injection Hj' as Hj'. injection Ha' as <-.
  assert (b = b') as ->.
  { destruct cplx; [|congruence]. destruct Hb as (tb & s & -> & Hb), Hb' as (tb' & s' & X & Hb'). injection X as <- <-. congruence. }
  f_equal. f_equal; lia.
Qed.
Lemma says_range V vzero parse cplx m n l i j (v : V * V) : entry_says vzero parse cplx m n l (i, j, v) -> (0 <= i < m /\ 0 <= j < n)%Z.
Proof. destruct v. intros (ti & tj & ta & r & H & Hi & Hj & Ha & Hb & R). exact R. Qed.

Definition below (s : sym) (i j : nat) : bool :=
  match s with SymYesLower => j <=? i | SymYesUpper => i <=? j | _ => true end.
Lemma put_panics T (c : coo T) (i j : Z) x : coo_valid c -> (0 <= i)%Z -> (0 <= j)%Z -> Z.to_nat i < c_nrow c -> Z.to_nat j < c_ncol c ->
  length (coo_triplets c) < c_max c ->
  if below (c_sym c) (Z.to_nat i) (Z.to_nat j) then
    exists c', put_or_panic c i j x = Ok c' /\ coo_valid c' /\ coo_triplets c' = coo_triplets c ++ [(Z.to_nat i, Z.to_nat j, x)] /\
      c_nrow c' = c_nrow c /\ c_ncol c' = c_ncol c /\ c_max c' = c_max c /\ c_sym c' = c_sym c
  else put_or_panic c i j x = Panic.
Proof.
  intros Vc Hi Hj Ri Rj Rm. unfold put_or_panic.
  destruct (coo_put_cases T c (Z.to_nat i) (Z.to_nat j) x Vc) as [(A & c' & E & R)|(A & e & E)]; rewrite E;
    unfold spec_accepts in A; rewrite (proj2 (Nat.ltb_lt _ _) Ri), (proj2 (Nat.ltb_lt _ _) Rj), (proj2 (Nat.ltb_lt _ _) Rm) in A; cbn [andb] in A;
    unfold below; unfold in_triangle in A; destruct (c_sym c); try discriminate A; rewrite ?A; eauto.
Qed.

Lemma f2_length A B (P : A -> B -> Prop) l l' : Forall2 P l l' -> length l = length l'.
Proof. induction 1; simpl; auto. Qed.
Lemma f2_cons A B (P : A -> B -> Prop) x l y l' : Forall2 P (x :: l) (y :: l') -> P x y /\ Forall2 P l l'.
Proof. intros H. inversion H. auto. Qed.

Section Fill.
Variable V : Type.
Variable vzero : V.
Variable parse : string -> option V.
Variable T : Type.
Variable mk : V * V -> T.
Variables (h : mmsym) (cplx symm : bool) (m n nnz : Z).
Hypothesis Hsq : symm = true -> m = n.
Notation says := (entry_says vzero parse cplx m n).
Definition per : Z := if symm && is_full h then 2 else 1.
(** the line holds an entry of the triangle that is not stored *)
Definition upper_line (l : string) : Prop :=
  symm = true /\ h <> MakeItFull /\ exists i j v, says l (i, j, v) /\ (i < j)%Z.

Definition store (c : coo T) (i j : Z) (v : V * V) : res (coo T) :=
  if symm then
    match h with
    | LeaveAsLower => put_or_panic c i j (mk v)
    | SwapToUpper => put_or_panic c j i (mk v)
    | MakeItFull =>
        c <- put_or_panic c i j (mk v) ;;
        if negb (i =? j)%Z then put_or_panic c j i (mk v) else Ok c
    end
  else put_or_panic c i j (mk v).
Definition okc (c : coo T) (room : Z) : Prop :=
  coo_valid c /\ Z.of_nat (c_nrow c) = m /\ Z.of_nat (c_ncol c) = n /\ c_sym c = sym_of h symm /\
  (Z.of_nat (length (coo_triplets c)) + per * room <= Z.of_nat (c_max c))%Z.

Lemma store_spec c i j v room : okc c room -> (1 <= room)%Z -> (0 <= i < m /\ 0 <= j < n)%Z ->
  (store c i j v = Panic /\ symm = true /\ h <> MakeItFull /\ (i < j)%Z) \/
  ((symm = true -> h <> MakeItFull -> (j <= i)%Z) /\
   exists c', store c i j v = Ok c' /\ okc c' (room - 1) /\ coo_triplets c' = coo_triplets c ++ stored mk h symm (i, j, v)).
Proof.
  intros (Vc & Hm & Hn & Hs & Hr) R (Ri & Rj). unfold store, stored, okc, per in *.
  assert (Bi : Z.to_nat i < c_nrow c) by lia. assert (Bj : Z.to_nat j < c_ncol c) by lia.
  destruct symm eqn:Es.
  - specialize (Hsq eq_refl). assert (Bi' : Z.to_nat i < c_ncol c) by lia. assert (Bj' : Z.to_nat j < c_nrow c) by lia.
    destruct h eqn:Eh; cbn [is_full andb sym_of] in *.
    + pose proof (put_panics T c i j (mk v) Vc (proj1 Ri) (proj1 Rj) Bi Bj ltac:(lia)) as P. rewrite Hs in P. unfold below in P.
      destruct (Nat.leb_spec (Z.to_nat j) (Z.to_nat i)) as [L|L].
      * right. split; [lia|]. destruct P as (c' & E & V' & Tr & E1 & E2 & E3 & E4). exists c'. rewrite Tr, app_length, E1, E2, E3, E4. cbn [length app]. splits; auto; lia.
      * left. splits; auto; [discriminate | lia].
    + pose proof (put_panics T c j i (mk v) Vc (proj1 Rj) (proj1 Ri) Bj' Bi' ltac:(lia)) as P. rewrite Hs in P. unfold below in P.
      destruct (Nat.leb_spec (Z.to_nat j) (Z.to_nat i)) as [L|L].
      * right. split; [lia|]. destruct P as (c' & E & V' & Tr & E1 & E2 & E3 & E4). exists c'. rewrite Tr, app_length, E1, E2, E3, E4. cbn [length app]. splits; auto; lia.
      * left. splits; auto; [discriminate | lia].
    + right. split; [congruence|].
      pose proof (put_panics T c i j (mk v) Vc (proj1 Ri) (proj1 Rj) Bi Bj ltac:(lia)) as P. rewrite Hs in P. unfold below in P.
      destruct P as (c' & E & V' & Tr & E1 & E2 & E3 & E4). rewrite E. cbn [bind].
      destruct (Z.eqb_spec i j) as [Q|Q]; cbn [negb].
      * rewrite (proj2 (Nat.eqb_eq _ _)) by lia. exists c'. rewrite Tr, app_length, E1, E2, E3, E4. cbn [length app]. splits; auto; lia.
      * rewrite (proj2 (Nat.eqb_neq _ _)) by lia.
        pose proof (put_panics T c' j i (mk v) V' (proj1 Rj) (proj1 Ri) ltac:(lia) ltac:(lia)) as P. rewrite E4 in P. unfold below in P.
        rewrite Tr, app_length, E3 in P. simpl in P. specialize (P ltac:(lia)).
        destruct P as (c2 & F & V2 & Tr2 & F1 & F2 & F3 & F4). exists c2. rewrite Tr2, <- app_assoc, !app_length, F1, F2, F3, F4, E1, E2. cbn [length app].
        splits; auto; try congruence; lia.
  - right. split; [discriminate|]. cbn [andb] in Hr.
    pose proof (put_panics T c i j (mk v) Vc (proj1 Ri) (proj1 Rj) Bi Bj ltac:(lia)) as P. rewrite Hs in P. cbn [sym_of below] in P.
    destruct P as (c' & E & V' & Tr & E1 & E2 & E3 & E4). exists c'. rewrite Tr, app_length, E1, E2, E3, E4. cbn [length app andb]. splits; auto; lia.
Qed.

Definition lowers (es : list (Z * Z * (V * V))) : Prop := symm = true -> h <> MakeItFull -> forall i j v, In (i, j, v) es -> (j <= i)%Z.

Lemma fill_spec ls : forall pos c, (0 <= pos <= nnz)%Z -> okc c (nnz - pos) ->
  match fill V vzero parse mk h cplx symm m n nnz ls pos c with
  | Ok c' => exists es, Forall2 says (filter carries ls) es /\ (pos + Z.of_nat (length es) = nnz)%Z /\ lowers es /\
      okc c' 0 /\ coo_triplets c' = coo_triplets c ++ flat_map (stored mk h symm) es
  | Panic => exists l, In l ls /\ carries l = true /\ (min_index l \/ upper_line l)
  | Err _ => ~ exists es, Forall2 says (filter carries ls) es /\ (pos + Z.of_nat (length es) = nnz)%Z
  end.
Proof.
  induction ls as [|l ls IH]; intros pos c Hp Oc; simpl.
  - destruct (Z.eqb_spec pos nnz) as [->|N].
    + exists []. simpl. replace (nnz - nnz)%Z with 0%Z in Oc by lia. splits; auto; try lia; [intros _ _ ? ? ? [] | rewrite app_nil_r; reflexivity].
    + intros (es & F & E). destruct es; [simpl in E; lia | inversion F].
  - destruct (values_cases V vzero parse cplx m n nnz pos l) as [(C & ->)|(C & [(Q & e & ->)|(Q & [(e & E)|[(e & E)|(Q' & ->)]])])];
      rewrite C; cbn [bind].
    + specialize (IH pos c Hp Oc). destruct (fill V vzero parse mk h cplx symm m n nnz ls pos c); auto.
      destruct IH as (l' & I & R). exists l'. simpl. auto.
    + intros (es & F & G). destruct es as [|e0 es]; [inversion F|]. simpl length in G. lia.
    + rewrite E. destruct e as [[i j] v]. cbn [bind]. apply values_iff in E; auto. pose proof (says_range _ _ _ _ _ _ _ _ _ _ E) as R.
      change (match (c0 <- store c i j v ;; fill V vzero parse mk h cplx symm m n nnz ls (pos + 1) c0) with
       | Ok c' => exists es, Forall2 says (l :: filter carries ls) es /\ (pos + Z.of_nat (length es) = nnz)%Z /\ lowers es /\
           okc c' 0 /\ coo_triplets c' = coo_triplets c ++ flat_map (stored mk h symm) es
       | Panic => exists l', (l = l' \/ In l' ls) /\ carries l' = true /\ (min_index l' \/ upper_line l')
       | Err _ => ~ exists es, Forall2 says (l :: filter carries ls) es /\ (pos + Z.of_nat (length es) = nnz)%Z
       end).
      destruct (store_spec c i j v (nnz - pos) Oc ltac:(lia) R) as [(-> & S1 & S2 & S3)|(S1 & c1 & -> & Oc1 & Tr)]; cbn [bind].
      * exists l. split; [auto|]. split; [exact C|]. right. split; [exact S1|]. split; [exact S2|]. eauto.
      * replace (nnz - pos - 1)%Z with (nnz - (pos + 1))%Z in Oc1 by lia. specialize (IH (pos + 1)%Z c1 ltac:(lia) Oc1).
        destruct (fill V vzero parse mk h cplx symm m n nnz ls (pos + 1) c1) as [c2|er|].
        -- destruct IH as (es & F & G & L & Oc2 & Tr2). exists ((i, j, v) :: es). split; [constructor; assumption|]. split; [simpl length; lia|].
           split; [|split; [exact Oc2|]].
           ++ intros A B i' j' v' [Z|I]; [injection Z as -> -> ->; auto | eapply L; eauto].
           ++ rewrite Tr2, Tr, <- app_assoc. reflexivity.
        -- intros (es & F & G). destruct es as [|e es']; [inversion F|]. apply f2_cons in F. destruct F as [Fe Fs]. apply IH. exists es'. split; [exact Fs|]. simpl length in G. lia.
        -- destruct IH as (l' & I & R'). exists l'. auto.
    + rewrite E. intros (es & F & G). destruct es as [|e' es']; [inversion F|]. apply f2_cons in F. destruct F as [Fe Fs].
      apply (values_iff V vzero parse cplx m n nnz pos l e' C Q) in Fe. congruence.
    + exists l. split; [left; reflexivity|]. auto.
Qed.
Lemma fill_complete ls pos c es : (0 <= pos <= nnz)%Z -> okc c (nnz - pos) -> Forall2 says (filter carries ls) es ->
  (pos + Z.of_nat (length es) = nnz)%Z -> lowers es -> exists c', fill V vzero parse mk h cplx symm m n nnz ls pos c = Ok c'.
Proof.
  intros Hp Oc F G L. pose proof (fill_spec ls pos c Hp Oc) as S. destruct (fill V vzero parse mk h cplx symm m n nnz ls pos c) as [c'|er|]; [eauto | |].
  - exfalso. apply S. eauto.
  - exfalso. destruct S as (l & I & C & D).
    assert (I' : In l (filter carries ls)) by (apply filter_In; auto).
    assert (exists e, In e es /\ says l e) as ([[i j] [a b]] & Ie & Se).
    { clear -F I'. induction F; [destruct I'|]. destruct I' as [->|I']; [eexists; split; [left; reflexivity | eassumption]|].
      destruct (IHF I') as (e & A & B). exists e. split; [right; exact A | exact B]. }
    destruct D as [(a' & b' & c'' & r' & E1 & E2)|(Y & N & i' & j' & v' & Y1 & Y2)].
    + destruct Se as (ti & tj & ta & r & E & Hi & Hj & _ & _ & R). rewrite E in E1. injection E1 as <- <- <- <-. unfold I32_MIN in *.
      destruct E2 as [E2|E2]; rewrite E2 in *; [injection Hi as Hi; lia | injection Hj as Hj; lia].
    + pose proof (says_fun _ _ _ _ _ _ _ _ _ Se Y1) as Z. injection Z as <- <- <-. pose proof (L Y N _ _ _ Ie). lia.
Qed.
End Fill.

Lemma find_split V parse (vzero : V) h rest cplx symm m n es :
  file_says vzero parse (h :: rest) cplx symm m n es <->
  header_says h cplx symm /\ exists ls, find_dims rest = Ok (m, n, Z.of_nat (length es), ls) /\ Forall2 (entry_says vzero parse cplx m n) (filter carries ls) es.
Proof.
  unfold file_says. split.
  - intros (h' & rest' & dl & body & E & Hh & F & D & S). injection E as <- <-. split; [exact Hh|].
    assert (Q : forall r, filter carries r = dl :: body -> exists pre t, r = pre ++ dl :: t /\ filter carries pre = [] /\ carries dl = true /\ filter carries t = body).
    { induction r as [|x r IH]; simpl; [discriminate|]. destruct (carries x) eqn:C.
      - intros X. injection X as -> <-. exists [], r. auto.
      - intros X. destruct (IH X) as (pre & t & -> & P1 & P2 & P3). exists (x :: pre), t. simpl. rewrite C. auto. }
    destruct (Q rest F) as (pre & t & -> & P1 & P2 & P3). exists t. rewrite P3. split; [|exact S].
    apply find_dims_iff. exists pre, dl. apply f2_length in S. rewrite <- S. auto.
  - intros (Hh & ls & Fd & S). apply find_dims_iff in Fd. destruct Fd as (pre & dl & -> & P1 & P2 & D).
    exists h, (pre ++ dl :: ls), dl, (filter carries ls). split; [reflexivity|]. split; [exact Hh|].
    split; [rewrite filter_app, P1; simpl; rewrite P2; reflexivity|]. apply f2_length in S as L. rewrite L. auto.
Qed.

(* ------------------------------------------------------------------ *)
(** * C11 *)

Definition read_as {V} (h : mmsym) (cplx symm : bool) (m n : Z) (es : list (Z * Z * (V * V))) (out : coo V + coo (V * V)) : Prop :=
  match out with
  | inl c => cplx = false /\ is_matrix fst h symm m n es c
  | inr c => cplx = true /\ is_matrix (fun v => v) h symm m n es c
  end.

Section C11.
Variable V : Type.
Variable vzero : V.
Variable parse : string -> option V.
Notation read := (mm_read V vzero parse).
Notation says := (file_says vzero parse).

Definition start {T} (zero : T) (h : mmsym) (symm : bool) (m n nnz : Z) : res (coo T) :=
  unwrap (coo_new T zero (Z.to_nat m) (Z.to_nat n) (Z.to_nat (if symm && is_full h then 2 * nnz else nnz)%Z) (sym_of h symm)).
Lemma start_ok T (zero : T) h symm m n nnz : (1 <= m -> 1 <= n -> 1 <= nnz -> (symm = true -> m = n) ->
  exists c, start zero h symm m n nnz = Ok c /\ okc T h symm m n c (nnz - 0) /\ coo_triplets c = [])%Z.
Proof.
  intros Hm Hn Hz Hs. unfold start. set (mx := (if symm && is_full h then 2 * nnz else nnz)%Z).
  assert (Hmx : (mx = per h symm * nnz)%Z) by (unfold mx, per; destruct (symm && is_full h); lia).
  assert (1 <= mx)%Z by (unfold mx; destruct (symm && is_full h); lia).
  destruct (coo_new T zero (Z.to_nat m) (Z.to_nat n) (Z.to_nat mx) (sym_of h symm)) as [c|e|] eqn:E.
  - exists c. split; [reflexivity|]. apply coo_new_valid in E. destruct E as (Vc & E1 & E2 & E3 & E4 & E5). split; [|exact E5].
    unfold okc. rewrite E1, E2, E3, E4, E5. simpl. splits; auto; lia.
  - exfalso. unfold coo_new in E. rewrite !(proj2 (Nat.ltb_ge _ _)) in E by lia.
    destruct symm; [rewrite Hs, Nat.eqb_refl, andb_false_r in E by reflexivity; discriminate | discriminate].
  - exfalso. unfold coo_new in E. rewrite !(proj2 (Nat.ltb_ge _ _)) in E by lia.
    match type of E with (if ?b then _ else _) = _ => destruct b end; discriminate.
Qed.

Lemma read_unfold h text : read h text =
  match lines text with
  | [] => Err "the file is empty"
  | header :: ls =>
      ' (cplx, symm) <- parse_header header ;;
      ' (m, n, nnz, ls) <- find_dims ls ;;
      if symm && negb (m =? n)%Z then
        Err "MatrixMarket data is invalid: the number of rows must equal the number of columns for symmetric matrices"
      else if symm && is_full h && (I32_MAX <? 2 * nnz)%Z then Panic
      else if cplx then
        c <- start (vzero, vzero) h symm m n nnz ;;
        c <- fill V vzero parse (fun v => v) h cplx symm m n nnz ls 0 c ;;
        Ok (inr c)
      else
        c <- start vzero h symm m n nnz ;;
        c <- fill V vzero parse fst h cplx symm m n nnz ls 0 c ;;
        Ok (inl c)
  end.
Proof.
  unfold mm_read, start. destruct (lines text) as [|l ls]; [reflexivity|]. destruct (parse_header l) as [[cplx symm]|e|]; cbn [bind]; try reflexivity.
  destruct (find_dims ls) as [[[[m n] nnz] ls']|e|]; cbn [bind]; try reflexivity. destruct (symm && negb (m =? n)%Z); [reflexivity|].
  destruct (symm && is_full h); cbn [andb bind]; [destruct (I32_MAX <? 2 * nnz)%Z|]; reflexivity.
Qed.

Lemma dims_pos ls m n z t : find_dims ls = Ok (m, n, z, t) -> (1 <= m /\ 1 <= n /\ 1 <= z)%Z.
Proof. intros H. apply find_dims_iff in H. destruct H as (pre & dl & _ & _ & _ & (a & b & c & r & _ & _ & _ & _ & H)). exact H. Qed.

(** An accepted text is a MatrixMarket coordinate file that can be stored, and the matrix that is
    returned has the type, the symmetry, the dimensions and the entries of the file, in the order of the file. *)
Theorem C11_read_is_the_file h text out : read h text = Ok out ->
  exists cplx symm m n es, says (lines text) cplx symm m n es /\ storable h symm m n es /\ read_as h cplx symm m n es out.
Proof.
  rewrite read_unfold. destruct (lines text) as [|hd ls]; [discriminate|].
  destruct (parse_header hd) as [[cplx symm]|e|] eqn:Eh; try discriminate. cbn [bind].
  destruct (find_dims ls) as [[[[m n] nnz] ls']|e|] eqn:Ed; try discriminate. cbn [bind].
  destruct (symm && negb (m =? n)%Z) eqn:Es; [discriminate|].
  assert (Hsq : symm = true -> m = n).
  { intros ->. simpl in Es. apply negb_false_iff, Z.eqb_eq in Es. exact Es. }
  destruct (symm && is_full h && (I32_MAX <? 2 * nnz)%Z) eqn:Eo; [discriminate|].
  destruct (dims_pos _ _ _ _ _ Ed) as (Pm & Pn & Pz). apply header_iff in Eh.
  assert (K : forall T (zero : T) (mk : V * V -> T) c, (c0 <- start zero h symm m n nnz ;; fill V vzero parse mk h cplx symm m n nnz ls' 0 c0) = Ok c ->
    exists es, says (hd :: ls) cplx symm m n es /\ storable h symm m n es /\ is_matrix mk h symm m n es c).
  { intros T zero mk c H. destruct (start_ok T zero h symm m n nnz Pm Pn Pz Hsq) as (c0 & E0 & Oc & Tr). rewrite E0 in H. cbn [bind] in H.
    pose proof (fill_spec V vzero parse T mk h cplx symm m n nnz Hsq ls' 0 c0 ltac:(lia) Oc) as S. rewrite H in S.
    destruct S as (es & F & G & L & Oc' & Tr'). exists es. split.
    - apply find_split. split; [exact Eh|]. exists ls'. split; [|exact F]. rewrite Ed. do 3 f_equal. lia.
    - split.
      + intros ->. split; [auto|]. split; [intros ->|].
        * cbn [andb is_full] in Eo. apply Z.ltb_ge in Eo. lia.
        * intros N. exact (L eq_refl N).
      + destruct Oc' as (A & B & D & E & _). unfold is_matrix. rewrite Tr', Tr. splits; auto. }
  destruct cplx.
  - destruct (start (vzero, vzero) h symm m n nnz) as [c0|e|] eqn:E0; try discriminate. cbn [bind].
    destruct (fill V vzero parse (fun v => v) h true symm m n nnz ls' 0 c0) as [c|e|] eqn:E1; try discriminate. intros H. injection H as <-.
    destruct (K _ (vzero, vzero) (fun v => v) c) as (es & A & B & D); [rewrite E0; exact E1|]. exists true, symm, m, n, es. splits; auto. split; [reflexivity | exact D].
  - destruct (start vzero h symm m n nnz) as [c0|e|] eqn:E0; try discriminate. cbn [bind].
    destruct (fill V vzero parse fst h false symm m n nnz ls' 0 c0) as [c|e|] eqn:E1; try discriminate. intros H. injection H as <-.
    destruct (K _ vzero fst c) as (es & A & B & D); [rewrite E0; exact E1|]. exists false, symm, m, n, es. splits; auto. split; [reflexivity | exact D].
Qed.

(** Every such text is accepted. *)
Theorem C11_reads_every_file h text cplx symm m n es : says (lines text) cplx symm m n es -> storable h symm m n es ->
  exists out, read h text = Ok out /\ read_as h cplx symm m n es out.
Proof.
  intros Hf Hs. rewrite read_unfold. pose proof Hf as (hd & ls & _ & _ & El & _). rewrite El in *.
  apply find_split in Hf. destruct Hf as (Eh & ls' & Ed & F). apply header_iff in Eh. rewrite Eh. cbn [bind]. rewrite Ed. cbn [bind].
  destruct (dims_pos _ _ _ _ _ Ed) as (Pm & Pn & Pz).
  assert (Hsq : symm = true -> m = n) by (intros A; apply Hs; exact A).
  assert (symm && negb (m =? n)%Z = false) as ->.
  { destruct symm; [|reflexivity]. rewrite Hsq, Z.eqb_refl by reflexivity. reflexivity. }
  assert (symm && is_full h && (I32_MAX <? 2 * Z.of_nat (length es))%Z = false) as ->.
  { destruct symm; [|reflexivity]. destruct h; try reflexivity. apply Z.ltb_ge. apply (Hs eq_refl). reflexivity. }
  assert (L : lowers V h symm es) by (intros A N; apply (Hs A); exact N).
  assert (K : forall T (zero : T) (mk : V * V -> T), exists c, (c0 <- start zero h symm m n (Z.of_nat (length es)) ;; fill V vzero parse mk h cplx symm m n (Z.of_nat (length es)) ls' 0 c0) = Ok c /\
    is_matrix mk h symm m n es c).
  { intros T zero mk. destruct (start_ok T zero h symm m n _ Pm Pn Pz Hsq) as (c0 & E0 & Oc & Tr). rewrite E0. cbn [bind].
    destruct (fill_complete V vzero parse T mk h cplx symm m n (Z.of_nat (length es)) Hsq ls' 0 c0 es ltac:(lia) Oc F ltac:(lia) L) as (c & E). exists c. split; [exact E|].
    pose proof (fill_spec V vzero parse T mk h cplx symm m n (Z.of_nat (length es)) Hsq ls' 0 c0 ltac:(lia) Oc) as S. rewrite E in S.
    destruct S as (es' & F' & _ & _ & Oc' & Tr'). assert (es' = es) as ->.
    { clear -F F'. revert es' F'. induction F as [|l e ls es Fe Fs IH]; intros es' F'; inversion F'; subst; [reflexivity|]. f_equal; [eapply says_fun; eauto | auto]. }
    destruct Oc' as (A & B & D & E2 & _). unfold is_matrix. rewrite Tr', Tr. splits; auto. }
  destruct cplx.
  - destruct (K _ (vzero, vzero) (fun v => v)) as (c & E & D). exists (inr c). split; [|split; [reflexivity | exact D]].
    destruct (start (vzero, vzero) h symm m n _) as [c0|e|]; try discriminate. cbn [bind] in *. rewrite E. reflexivity.
  - destruct (K _ vzero fst) as (c & E & D). exists (inl c). split; [|split; [reflexivity | exact D]].
    destruct (start vzero h symm m n _) as [c0|e|]; try discriminate. cbn [bind] in *. rewrite E. reflexivity.
Qed.

(** The reader panics only on these texts. *)
Theorem C11_panics_only_when h text : read h text = Panic ->
  exists hd rest, lines text = hd :: rest /\ exists cplx symm, header_says hd cplx symm /\
   (filter carries rest = [] \/
    exists dl body m n nnz, filter carries rest = dl :: body /\ dims_say dl m n nnz /\
     ((symm = true /\ h = MakeItFull /\ (I32_MAX < 2 * nnz)%Z) \/
      (exists l, In l body /\ min_index l) \/
      (exists l i j v, In l body /\ symm = true /\ h <> MakeItFull /\ entry_says vzero parse cplx m n l (i, j, v) /\ (i < j)%Z))).
Proof.
  rewrite read_unfold. destruct (lines text) as [|hd ls]; [discriminate|].
  destruct (parse_header hd) as [[cplx symm]|e|] eqn:Eh; try discriminate. 2:{ apply header_no_panic in Eh. destruct Eh. }
  cbn [bind]. intros H. exists hd, ls. split; [reflexivity|]. exists cplx, symm. split; [apply header_iff; exact Eh|].
  destruct (find_dims ls) as [[[[m n] nnz] ls']|e|] eqn:Ed; try discriminate; cbn [bind] in H. 2:{ left. apply find_dims_panic. exact Ed. }
  right. destruct (dims_pos _ _ _ _ _ Ed) as (Pm & Pn & Pz). apply find_dims_iff in Ed. destruct Ed as (pre & dl & -> & P1 & P2 & D).
  exists dl, (filter carries ls'), m, n, nnz. split; [rewrite filter_app, P1; simpl; rewrite P2; reflexivity|]. split; [exact D|].
  destruct (symm && negb (m =? n)%Z) eqn:Es; [discriminate|].
  assert (Hsq : symm = true -> m = n).
  { intros ->. simpl in Es. apply negb_false_iff, Z.eqb_eq in Es. exact Es. }
  destruct (symm && is_full h && (I32_MAX <? 2 * nnz)%Z) eqn:Eo.
  { left. apply andb_true_iff in Eo. destruct Eo as [Eo1 Eo2]. apply andb_true_iff in Eo1. destruct Eo1 as [-> Eo1].
    apply Z.ltb_lt in Eo2. destruct h; try discriminate. auto. }
  right.
  assert (K : forall T (zero : T) (mk : V * V -> T), (c0 <- start zero h symm m n nnz ;; fill V vzero parse mk h cplx symm m n nnz ls' 0 c0) = Panic ->
     (exists l, In l (filter carries ls') /\ min_index l) \/
      (exists l i j v, In l (filter carries ls') /\ symm = true /\ h <> MakeItFull /\ entry_says vzero parse cplx m n l (i, j, v) /\ (i < j)%Z)).
  { intros T zero mk HP. destruct (start_ok T zero h symm m n nnz Pm Pn Pz Hsq) as (c0 & E0 & Oc & Tr). rewrite E0 in HP. cbn [bind] in HP.
    pose proof (fill_spec V vzero parse T mk h cplx symm m n nnz Hsq ls' 0 c0 ltac:(lia) Oc) as S. rewrite HP in S.
    destruct S as (l & I & C & [M|(A & B & i & j & v & S1 & S2)]).
    - left. exists l. split; [apply filter_In; auto | exact M].
    - right. exists l, i, j, v. split; [apply filter_In; auto|]. auto. }
  destruct cplx.
  - apply (K _ (vzero, vzero) (fun v => v)). destruct (start (vzero, vzero) h symm m n nnz); try discriminate; [|reflexivity]. cbn [bind] in *.
    destruct (fill V vzero parse (fun v => v) h true symm m n nnz ls' 0 a); try discriminate. reflexivity.
  - apply (K _ vzero fst). destruct (start vzero h symm m n nnz); try discriminate; [|reflexivity]. cbn [bind] in *.
    destruct (fill V vzero parse fst h false symm m n nnz ls' 0 a); try discriminate. reflexivity.
Qed.

(** Each of these texts makes it panic. *)
Theorem C11_missing_dimensions_refuted h text hd rest cplx symm :
  lines text = hd :: rest -> header_says hd cplx symm -> filter carries rest = [] -> read h text = Panic.
Proof.
  intros El Eh F. rewrite read_unfold, El. apply header_iff in Eh. rewrite Eh. cbn [bind]. apply find_dims_panic in F. rewrite F. reflexivity.
Qed.
Theorem C11_many_entries_refuted text hd rest cplx dl body m nnz :
  lines text = hd :: rest -> header_says hd cplx true -> filter carries rest = dl :: body -> dims_say dl m m nnz -> (I32_MAX < 2 * nnz)%Z ->
  read MakeItFull text = Panic.
Proof.
  intros El Eh F D L. rewrite read_unfold, El. apply header_iff in Eh. rewrite Eh. cbn [bind].
  assert (exists t, find_dims rest = Ok (m, m, nnz, t)) as (t & ->).
  { clear -F D. induction rest as [|x r IH]; [discriminate|]. simpl in F. destruct (carries x) eqn:C.
    - injection F as -> <-. exists r. simpl. apply dims_iff in D; [|exact C]. rewrite D. reflexivity.
    - destruct (IH F) as (t & E). exists t. simpl. destruct (dims_cases x) as [[-> _]|(C' & _)]; [exact E | congruence]. }
  cbn [bind]. rewrite Z.eqb_refl. cbn [negb andb is_full]. rewrite (proj2 (Z.ltb_lt _ _) L). reflexivity.
Qed.
End C11.

(** ** Examples with numbers read as integers *)
Notation zread := (mm_read Z 0%Z parse_i32).
Definition of_lines (l : list string) : string := String.concat nl l.
Definition sym_file : string := of_lines ["%%MatrixMarket matrix coordinate real symmetric"; "% comment"; ""; " 3 3 2"; "2 1 5"; "3 3 7"].
Example sym_file_says : file_says 0%Z parse_i32 (lines sym_file) false true 3 3 [(1, 0, (5, 0)); (2, 2, (7, 0))]%Z /\
  forall h, storable h true 3 3 [(1, 0, (5, 0)); (2, 2, (7, 0))]%Z.
Proof.
  split.
  - exists "%%MatrixMarket matrix coordinate real symmetric", ["% comment"; ""; " 3 3 2"; "2 1 5"; "3 3 7"], " 3 3 2", ["2 1 5"; "3 3 7"].
    splits; try reflexivity.
    + exists "real", "symmetric", []. splits; auto.
    + exists "3", "3", "2", []. splits; auto; discriminate.
    + constructor; [|constructor; [|constructor]].
      * exists "2", "1", "5", []. splits; auto; lia.
      * exists "3", "3", "7", []. splits; auto; lia.
  - intros h _. splits; [reflexivity | intros _; discriminate | intros _ i j v [E|[E|[]]]; injection E as <- <- _; lia].
Qed.
Example sym_file_full : exists c, zread MakeItFull sym_file = Ok (inl c) /\ coo_triplets c = [(1, 0, 5%Z); (0, 1, 5%Z); (2, 2, 7%Z)] /\ c_sym c = SymYesFull.
Proof. eexists. split; [reflexivity|]. split; reflexivity. Qed.

(** an entry above the diagonal of a symmetric file *)
Theorem C11_upper_entry_refuted : exists text, zread LeaveAsLower text = Panic /\
  file_says 0%Z parse_i32 (lines text) false true 2 2 [(0, 1, (5, 0))]%Z.
Proof.
  exists (of_lines ["%%MatrixMarket matrix coordinate real symmetric"; "2 2 1"; "1 2 5"]). split; [reflexivity|].
  exists "%%MatrixMarket matrix coordinate real symmetric", ["2 2 1"; "1 2 5"], "2 2 1", ["1 2 5"]. splits; try reflexivity.
  - exists "real", "symmetric", []. splits; auto.
  - exists "2", "2", "1", []. splits; auto; discriminate.
  - constructor; [|constructor]. exists "1", "2", "5", []. splits; auto; lia.
Qed.
(** the index i32::MIN *)
Theorem C11_index_min_refuted : zread LeaveAsLower (of_lines ["%%MatrixMarket matrix coordinate real general"; "2 2 1"; "-2147483648 2 5"]) = Panic.
Proof. reflexivity. Qed.
(** a Hermitian file holds one triangle but is read as a general matrix: the other triangle is missing *)
Theorem C11_hermitian_refuted : exists c, zread MakeItFull (of_lines ["%%MatrixMarket matrix coordinate complex Hermitian"; "2 2 1"; "2 1 5 3"]) = Ok (inr c) /\
  c_sym c = SymNo /\ coo_triplets c = [(1, 0, (5, 3)%Z)].
Proof. eexists. split; [reflexivity|]. split; reflexivity. Qed.

Print Assumptions C11_read_is_the_file.
Print Assumptions C11_reads_every_file.
Print Assumptions C11_panics_only_when.
Print Assumptions C11_missing_dimensions_refuted.
Print Assumptions C11_many_entries_refuted.
