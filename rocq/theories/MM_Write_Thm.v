(** C10: writing a MatrixMarket file and reading it back. *)
From Coq Require Import DecimalString Ascii DecimalN.
From Verif Require Import Base Dense_Model Sparse_Model Sparse_Spec Sparse_Lib Sparse_CooProofs Sparse_Compressed MM_Model MM_Thm.
Local Open Scope string_scope.
Local Open Scope list_scope.
Local Open Scope nat_scope.

(* ------------------------------------------------------------------ *)
(** * Text lemmas *)

Fixpoint sall (p : ascii -> bool) (s : string) : bool :=
  match s with EmptyString => true | String c t => p c && sall p t end.
Definition word (s : string) : Prop := nonempty s = true /\ sall (fun c => negb (is_ws c)) s = true.
Definition in_line (s : string) : Prop := sall (fun c => negb (Ascii.eqb c newline) && negb (Ascii.eqb c cr)) s = true.

Lemma sapp_assoc a b c : ((a ++ b) ++ c = a ++ (b ++ c))%string.
Proof. induction a; simpl; [reflexivity | f_equal; assumption]. Qed.
Lemma sapp_nil a : (a ++ "" = a)%string.
Proof. induction a; simpl; [reflexivity | f_equal; assumption]. Qed.
Lemma snoc_app a c t : (snoc a c ++ t = a ++ String c t)%string.
Proof. unfold snoc. rewrite sapp_assoc. reflexivity. Qed.
Lemma sall_app p a b : sall p (a ++ b)%string = sall p a && sall p b.
Proof. induction a; simpl; [reflexivity|]. rewrite IHa, andb_assoc. reflexivity. Qed.
Lemma word_in_line w : word w -> in_line w.
Proof.
  intros [_ H]. unfold in_line. induction w as [|c t IH]; [reflexivity|]. simpl in *. apply andb_true_iff in H. destruct H as [Hc Ht].
  rewrite IH by exact Ht. rewrite andb_true_r. destruct (Ascii.eqb_spec c newline) as [->|]; [discriminate Hc|].
  destruct (Ascii.eqb_spec c cr) as [->|]; [discriminate Hc | reflexivity].
Qed.
Lemma in_line_app a b : in_line a -> in_line b -> in_line (a ++ b)%string.
Proof. unfold in_line. intros A B. rewrite sall_app, A, B. reflexivity. Qed.

Lemma split_word_acc w : forall acc s, sall (fun c => negb (is_ws c)) w = true -> nonempty (acc ++ w)%string = true ->
  split_aux acc (w ++ String " " s) = (acc ++ w)%string :: split_aux "" s.
Proof.
  induction w as [|c t IH]; intros acc s W N; simpl in *.
  - rewrite sapp_nil in *. rewrite N. reflexivity.
  - apply andb_true_iff in W. destruct W as [Wc Wt]. apply negb_true_iff in Wc. rewrite Wc.
    replace (acc ++ String c t)%string with (snoc acc c ++ t)%string by apply snoc_app.
    apply IH; [exact Wt|]. rewrite snoc_app. exact N.
Qed.
Lemma split_word w s : word w -> split_ws (w ++ String " " s) = w :: split_ws s.
Proof. intros [N W]. unfold split_ws. rewrite split_word_acc; auto. Qed.
Lemma split_last_acc w : forall acc, sall (fun c => negb (is_ws c)) w = true -> nonempty (acc ++ w)%string = true -> split_aux acc w = [(acc ++ w)%string].
Proof.
  induction w as [|c t IH]; intros acc W N; simpl in *.
  - rewrite sapp_nil in *. rewrite N. reflexivity.
  - apply andb_true_iff in W. destruct W as [Wc Wt]. apply negb_true_iff in Wc. rewrite Wc.
    replace (acc ++ String c t)%string with (snoc acc c ++ t)%string by apply snoc_app.
    apply IH; [exact Wt|]. rewrite snoc_app. exact N.
Qed.
Lemma split_last w : word w -> split_ws w = [w].
Proof. intros [N W]. unfold split_ws. rewrite split_last_acc; auto. Qed.

Lemma strip_cr_line s : in_line s -> strip_cr s = s.
Proof.
  unfold in_line. induction s as [|c t IH]; [reflexivity|]. simpl sall. intros H. apply andb_true_iff in H. destruct H as [Hc Ht].
  destruct t as [|d t]; simpl.
  - apply andb_true_iff in Hc. destruct Hc as [_ Hc]. apply negb_true_iff in Hc. rewrite Hc. reflexivity.
  - f_equal. apply IH. exact Ht.
Qed.
Lemma lines_acc l : forall acc s, in_line acc -> in_line l -> lines_aux acc (l ++ nl ++ s)%string = (acc ++ l)%string :: lines s.
Proof.
  induction l as [|c t IH]; intros acc s A L.
  - simpl. rewrite sapp_nil, strip_cr_line by exact A. reflexivity.
  - unfold in_line in L. simpl in L. apply andb_true_iff in L. destruct L as [Lc Lt]. simpl.
    pose proof Lc as Lc'. apply andb_true_iff in Lc'. destruct Lc' as [Ln _]. apply negb_true_iff in Ln. rewrite Ln.
    change (String newline s) with (nl ++ s)%string.
    rewrite IH; [rewrite snoc_app; reflexivity | | exact Lt]. unfold snoc. apply in_line_app; [exact A|]. unfold in_line. simpl. rewrite Lc. reflexivity.
Qed.
Lemma lines_cons l s : in_line l -> lines (l ++ nl ++ s)%string = l :: lines s.
Proof. intros L. unfold lines at 1. rewrite lines_acc; auto. reflexivity. Qed.

(* digits *)
Definition digit (c : ascii) : bool := let n := nat_of_ascii c in (48 <=? n) && (n <=? 57).
Lemma uint_digits d : sall digit (NilEmpty.string_of_uint d) = true.
Proof. induction d; simpl; auto. Qed.
Lemma usz_nonempty n : nonempty (usz n) = true.
Proof.
  unfold usz. pose proof (Unsigned.of_to (N.of_nat n)) as H. destruct (N.to_uint (N.of_nat n)) as [|d|d|d|d|d|d|d|d|d|d] eqn:E; try reflexivity.
  simpl in H. rewrite <- H in E. discriminate E.
Qed.
Lemma digit_ws c : digit c = true -> is_ws c = false.
Proof.
  unfold digit, is_ws. set (k := nat_of_ascii c). clearbody k. intros H. apply andb_true_iff in H. destruct H as [H1 H2]. apply Nat.leb_le in H1, H2.
  rewrite (proj2 (Nat.leb_gt k 13)), andb_false_r by lia. simpl. apply Nat.eqb_neq. lia.
Qed.
Lemma usz_word n : word (usz n).
Proof.
  split; [apply usz_nonempty|]. unfold usz. pose proof (uint_digits (N.to_uint (N.of_nat n))) as D. induction (NilEmpty.string_of_uint _) as [|c t IH]; [reflexivity|].
  simpl in *. apply andb_true_iff in D. destruct D as [Dc Dt]. rewrite (digit_ws c Dc). simpl. auto.
Qed.
Lemma parse_usz n : (Z.of_nat n <= I32_MAX)%Z -> parse_i32 (usz n) = Some (Z.of_nat n).
Proof.
  intros Hn. pose proof (usz_nonempty n) as Ne. pose proof (uint_digits (N.to_uint (N.of_nat n))) as D. fold (usz n) in D.
  assert (P : parse_digits (usz n) = Some (Z.of_nat n)).
  { unfold parse_digits. rewrite Ne. unfold usz. rewrite NilEmpty.usu, Unsigned.of_to. f_equal. lia. }
  assert (Q : parse_i32 (usz n) = match parse_digits (usz n) with Some z => in_i32 z | None => None end).
  { destruct (usz n) as [|c t] eqn:E; [discriminate|]. simpl in D. apply andb_true_iff in D. destruct D as [D _]. unfold parse_i32.
    destruct c as [[] [] [] [] [] [] [] []]; try reflexivity; discriminate D. }
  rewrite Q, P. unfold in_i32. rewrite (proj2 (Z.leb_le _ _)), (proj2 (Z.leb_le _ _)) by (unfold I32_MIN, I32_MAX in *; lia). reflexivity.
Qed.

(* ------------------------------------------------------------------ *)
(** * Writer *)

Section W.
Variable T : Type.
Variable kind : string.
Variables counts keeps : T -> bool.
Variables text vtext : T -> string.

(** the entries of the matrix that are above the tolerance *)
Definition above (p : T -> bool) (s : csc T) : list (nat * nat * T) := filter (fun t => p (val_of t)) (csc_triplets s).
(** the rows of the file: the lower triangle of a symmetric matrix *)
Definition rows_of (p : T -> bool) (s : csc T) : list (nat * nat * T) :=
  match s_sym s with
  | SymYesUpper => map (fun '(i, j, x) => (j, i, x)) (above p s)
  | SymYesFull => filter (fun '(i, j, x) => j <=? i) (above p s)
  | _ => above p s
  end.
Definition row_line (t : nat * nat * T) : string := let '(i, j, x) := t in (usz (i + 1) ++ " " ++ usz (j + 1) ++ " " ++ text x)%string.
Definition head_line (s : csc T) : string :=
  ("%%MatrixMarket matrix coordinate " ++ kind ++ " " ++ (if sym_eqb (s_sym s) SymNo then "general" else "symmetric"))%string.
Definition dims_line (s : csc T) (n : nat) : string := (usz (s_nrow s) ++ " " ++ usz (s_ncol s) ++ " " ++ usz n)%string.

Lemma scan_fold {S} (zero : T) (s : csc T) (f : nat -> nat -> T -> S -> S) st : csc_safe s ->
  csc_scan T s f st = Ok (fold_left (fun a t => f (row_of t) (col_of t) (val_of t) a) (csc_triplets s) st).
Proof.
  intros (_ & W). unfold csc_scan.
  rewrite (comp_loop T zero (s_ncol s) (s_bp s) (s_bi s) (s_bx s) _ (fun a t => Ok (f (fst (snd a)) (fst a) (snd (snd a)) t))).
  - rewrite csc_triplets_items. generalize (comp_items (s_ncol s) (s_bp s) (s_bi s) (s_bx s)). intros l. revert st.
    induction l as [|a l IH]; intros st; [reflexivity|]. simpl. apply IH.
  - eapply safe_pointers; eassumption.
  - intros b p t Hb Hp1 Hp2. rewrite (vget_ok (s_bi s) _ 0) by lia. rewrite (vget_ok (s_bx s) _ zero) by lia. reflexivity.
Qed.
Lemma fold_concat {A} (f : A -> string) (l : list A) : forall b, fold_left (fun b t => (b ++ f t)%string) l b = (b ++ String.concat "" (map f l))%string.
Proof.
  induction l as [|a l IH]; intros b; simpl; [symmetry; apply sapp_nil|]. rewrite IH, sapp_assoc. f_equal.
  destruct l; simpl; [apply sapp_nil | reflexivity].
Qed.
Lemma fold_filter {A B} (p : A -> bool) (g : B -> A -> B) (l : list A) : forall b,
  fold_left (fun b a => if p a then g b a else b) l b = fold_left g (filter p l) b.
Proof. induction l as [|a l IH]; intros b; simpl; [reflexivity|]. destruct (p a); simpl; apply IH. Qed.
Lemma fold_count {A} (l : list A) : forall k, fold_left (fun n _ => n + 1) l k = k + length l.
Proof. induction l as [|a l IH]; intros k; simpl; [lia|]. rewrite IH. lia. Qed.
Lemma fold_ext {A B} (f g : B -> A -> B) l : (forall b a, f b a = g b a) -> forall b, fold_left f l b = fold_left g l b.
Proof. intros E. induction l as [|a l IH]; intros b; simpl; [reflexivity|]. rewrite E. apply IH. Qed.
Lemma fold_map {A B C} (h : A -> C) (f : B -> C -> B) l : forall b, fold_left f (map h l) b = fold_left (fun b a => f b (h a)) l b.
Proof. induction l as [|a l IH]; intros b; simpl; auto. Qed.

Lemma count_rows (zero : T) (s : csc T) : csc_safe s -> mm_count T counts false s = Ok (length (rows_of counts s)).
Proof.
  intros W. unfold mm_count. cbn [andb negb]. unfold rows_of, above. destruct (s_sym s); cbn [sym_eqb]; rewrite (scan_fold zero) by exact W; f_equal.
  - rewrite (fold_filter (fun t => counts (val_of t)) (fun n _ => n + 1)), fold_count. reflexivity.
  - rewrite (fold_filter (fun t => counts (val_of t)) (fun n t => if col_of t <=? row_of t then n + 1 else n)).
    rewrite (fold_filter (fun t => col_of t <=? row_of t) (fun n _ => n + 1)), fold_count. simpl. f_equal. apply filter_ext. intros [[i j] x]. reflexivity.
  - rewrite (fold_filter (fun t => counts (val_of t)) (fun n _ => n + 1)), fold_count. reflexivity.
  - rewrite (fold_filter (fun t => counts (val_of t)) (fun n _ => n + 1)), fold_count, map_length. reflexivity.
Qed.

Lemma write_text (zero : T) (s : csc T) : csc_safe s ->
  mm_write T kind counts keeps text vtext false s =
  Ok (head_line s ++ nl ++ dims_line s (length (rows_of counts s)) ++ nl ++ String.concat "" (map (fun t => row_line t ++ nl) (rows_of keeps s)))%string.
Proof.
  intros W. unfold mm_write. rewrite (count_rows zero) by exact W. cbn [bind]. rewrite (scan_fold zero) by exact W. f_equal.
  set (b0 := (_ ++ usz (s_nrow s) ++ _)%string).
  transitivity (b0 ++ String.concat "" (map (fun t => row_line t ++ nl) (rows_of keeps s)))%string.
  2:{ unfold b0, head_line, dims_line. rewrite !sapp_assoc. reflexivity. }
  clearbody b0. rewrite <- (fold_concat (fun t => (row_line t ++ nl)%string)). unfold rows_of, above.
  assert (R : forall t : nat * nat * T, mm_row (row_of t + 1) (col_of t + 1) (text (val_of t)) = (row_line t ++ nl)%string).
  { intros [[i j] x]. unfold mm_row, row_line, row_of, col_of, val_of. cbn [fst snd]. rewrite !sapp_assoc. reflexivity. }
  destruct (s_sym s).
  - rewrite <- (fold_filter (fun t => keeps (val_of t))). apply fold_ext. intros b t. rewrite R. reflexivity.
  - rewrite <- (fold_filter (fun '(i, j, x) => j <=? i)), <- (fold_filter (fun t => keeps (val_of t))). apply fold_ext. intros b t. rewrite R.
    destruct t as [[i j] x]. reflexivity.
  - rewrite <- (fold_filter (fun t => keeps (val_of t))). apply fold_ext. intros b t. rewrite R. reflexivity.
  - rewrite fold_map, <- (fold_filter (fun t => keeps (val_of t))). apply fold_ext. intros b t. destruct t as [[i j] x].
    change (usz (j + 1) ++ " " ++ usz (i + 1) ++ " " ++ text x)%string with (row_line (j, i, x)). rewrite <- R. reflexivity.
Qed.

Lemma lines_rows (rs : list (nat * nat * T)) : (forall t, In t rs -> in_line (row_line t)) ->
  lines (String.concat "" (map (fun t => row_line t ++ nl) rs))%string = map row_line rs.
Proof.
  induction rs as [|t rs IH]; intros H; [reflexivity|].
  assert (E : String.concat "" (map (fun t => (row_line t ++ nl)%string) (t :: rs)) = (row_line t ++ nl ++ String.concat "" (map (fun t => (row_line t ++ nl)%string) rs))%string).
  { cbn [map]. destruct rs as [|u rs]; [cbn; rewrite ?sapp_nil; reflexivity|]. rewrite <- sapp_assoc. reflexivity. }
  rewrite E, lines_cons by (apply H; left; reflexivity). simpl. f_equal. apply IH. intros u Hu. apply H. right. exact Hu.
Qed.
End W.

Lemma usz_carries n s : carries (usz n ++ s)%string = true.
Proof.
  unfold carries, skipped. pose proof (usz_nonempty n) as Ne. pose proof (uint_digits (N.to_uint (N.of_nat n))) as D. fold (usz n) in D.
  destruct (usz n) as [|c t]; [discriminate|]. simpl in D. apply andb_true_iff in D. destruct D as [D _].
  cbn [append trim_start]. rewrite (digit_ws c D). destruct (Ascii.eqb_spec c "%"%char) as [->|]; [discriminate D | reflexivity].
Qed.

(* ------------------------------------------------------------------ *)
(** * C10 *)

(** what the tokens after the two indices say *)
Definition value_says {V} (vzero : V) (parse : string -> option V) (cplx : bool) (toks : list string) (v : V * V) : Prop :=
  exists ta rest, toks = ta :: rest /\ parse ta = Some (fst v) /\
    (if cplx then exists tb rest', rest = tb :: rest' /\ parse tb = Some (snd v) else snd v = vzero).
(** the symmetry kind of the matrix that comes back *)
Definition sym_back (h : mmsym) (s : sym) : sym := sym_of h (negb (sym_eqb s SymNo)).

Section RT.
Variables V T : Type.
Variable vzero : V.
Variable parse : string -> option V.
Variable cplx : bool.
Variable emb : T -> V * V.
Variable mk : V * V -> T.
Variables counts keeps : T -> bool.
Variable text : T -> string.
Hypothesis Hmk : forall x, mk (emb x) = x.
Hypothesis Htext : forall x, keeps x = true -> in_line (text x) /\ value_says vzero parse cplx (split_ws (text x)) (emb x).
Notation kind := (if cplx then "complex" else "real").
Notation rows := (rows_of T).
Notation rline := (row_line T text).

Definition ent (t : nat * nat * T) : Z * Z * (V * V) := let '(i, j, x) := t in (Z.of_nat i, Z.of_nat j, emb x).

Lemma kind_word : word kind.
Proof. destruct cplx; split; reflexivity. Qed.
Lemma symw_word (s : csc T) : word (if sym_eqb (s_sym s) SymNo then "general" else "symmetric").
Proof. destruct (sym_eqb (s_sym s) SymNo); split; reflexivity. Qed.
Lemma head_split s : split_ws (head_line T kind s) =
  ["%%MatrixMarket"; "matrix"; "coordinate"; kind; if sym_eqb (s_sym s) SymNo then "general" else "symmetric"].
Proof.
  unfold head_line.
  change ("%%MatrixMarket matrix coordinate " ++ kind ++ " " ++ (if sym_eqb (s_sym s) SymNo then "general" else "symmetric"))%string with
    ("%%MatrixMarket" ++ String " " ("matrix" ++ String " " ("coordinate" ++ String " " (kind ++ String " " (if sym_eqb (s_sym s) SymNo then "general" else "symmetric")))))%string.
  rewrite split_word by (split; reflexivity). rewrite split_word by (split; reflexivity). rewrite split_word by (split; reflexivity).
  rewrite split_word by apply kind_word. rewrite split_last by apply symw_word. reflexivity.
Qed.
Lemma head_in_line s : in_line (head_line T kind s).
Proof. unfold head_line. destruct cplx, (sym_eqb (s_sym s) SymNo); reflexivity. Qed.
Lemma head_says s : header_says (head_line T kind s) cplx (negb (sym_eqb (s_sym s) SymNo)).
Proof.
  unfold header_says. rewrite head_split. eexists _, _, _. split; [reflexivity|]. split; [reflexivity|].
  destruct (sym_eqb (s_sym s) SymNo); auto.
Qed.
Lemma dims_split s n : split_ws (dims_line T s n) = [usz (s_nrow s); usz (s_ncol s); usz n].
Proof.
  unfold dims_line. change (usz (s_nrow s) ++ " " ++ usz (s_ncol s) ++ " " ++ usz n)%string with
    (usz (s_nrow s) ++ String " " (usz (s_ncol s) ++ String " " (usz n)))%string.
  rewrite !split_word by apply usz_word. rewrite split_last by apply usz_word. reflexivity.
Qed.
Lemma dims_in_line s n : in_line (dims_line T s n).
Proof. unfold dims_line. repeat apply in_line_app; try (apply word_in_line, usz_word); reflexivity. Qed.
Lemma row_in_line t : keeps (val_of t) = true -> in_line (rline t).
Proof.
  destruct t as [[i j] x]. intros K. unfold row_line. repeat apply in_line_app; try (apply word_in_line, usz_word); try reflexivity. apply Htext. exact K.
Qed.
Lemma row_says i j x m n : keeps x = true ->
  (Z.of_nat i < m /\ Z.of_nat j < n /\ m <= I32_MAX /\ n <= I32_MAX)%Z -> entry_says vzero parse cplx m n (rline (i, j, x)) (ent (i, j, x)).
Proof.
  intros K (Hi & Hj & Hm & Hn). unfold ent, entry_says. destruct (Htext x K) as [_ (ta & rest & E & Pa & Pb)]. destruct (emb x) as [a b]. cbn [fst snd] in *.
  exists (usz (i + 1)), (usz (j + 1)), ta, rest. split.
  - unfold row_line. change (usz (i + 1) ++ " " ++ usz (j + 1) ++ " " ++ text x)%string with (usz (i + 1) ++ String " " (usz (j + 1) ++ String " " (text x)))%string.
    rewrite !split_word by apply usz_word. rewrite E. reflexivity.
  - rewrite !parse_usz by lia. splits; auto; try (f_equal; lia); lia.
Qed.

Lemma rows_in p s t : In t (rows p s) -> exists u, In u (csc_triplets s) /\ p (val_of t) = true /\ val_of u = val_of t /\
  ((s_sym s <> SymYesUpper /\ u = t) \/ (s_sym s = SymYesUpper /\ row_of u = col_of t /\ col_of u = row_of t)) /\ (s_sym s = SymYesFull -> col_of t <= row_of t).
Proof.
  unfold rows_of, above. destruct (s_sym s).
  - intros H. apply filter_In in H. exists t. splits; try tauto; try congruence. left. split; [discriminate | reflexivity].
  - intros H. apply filter_In in H. destruct H as [H L]. apply filter_In in H. exists t. splits; try tauto; [left; split; [discriminate | reflexivity]|].
    destruct t as [[i j] x]. apply Nat.leb_le in L. intros _. exact L.
  - intros H. apply filter_In in H. exists t. splits; try tauto; try congruence. left. split; [discriminate | reflexivity].
  - intros H. apply in_map_iff in H. destruct H as ([[i j] x] & <- & H). apply filter_In in H. exists (i, j, x). splits; try tauto; congruence.
Qed.

Definition the_text (s : csc T) : string :=
  (head_line T kind s ++ nl ++ dims_line T s (length (rows counts s)) ++ nl ++ String.concat "" (map (fun t => rline t ++ nl) (rows keeps s)))%string.
Lemma text_lines s : lines (the_text s) = head_line T kind s :: dims_line T s (length (rows counts s)) :: map rline (rows keeps s).
Proof.
  unfold the_text. rewrite lines_cons by apply head_in_line. rewrite lines_cons by apply dims_in_line. do 2 f_equal.
  apply lines_rows. intros t I. apply row_in_line. apply rows_in in I. destruct I as (u & _ & K & _). exact K.
Qed.
Lemma body_carries s n : filter carries (dims_line T s n :: map rline (rows keeps s)) = dims_line T s n :: map rline (rows keeps s).
Proof.
  assert (A : forall l, (forall x, In x l -> carries x = true) -> filter carries l = l).
  { induction l as [|y l IH]; intros H; [reflexivity|]. simpl. rewrite (H y) by (left; reflexivity). f_equal. apply IH. intros x I. apply H. right. exact I. }
  apply A. intros x [<-|I]; [apply usz_carries|]. apply in_map_iff in I. destruct I as ([[i j] v] & <- & _). apply usz_carries.
Qed.

(** A file whose declared number of entries is zero or differs from the number of its rows cannot be read. *)
Lemma unreadable s h out : csc_safe s -> length (rows counts s) = 0 \/ length (rows counts s) <> length (rows keeps s) ->
  (Z.of_nat (length (rows counts s)) <= I32_MAX)%Z -> mm_read V vzero parse h (the_text s) <> Ok out.
Proof.
  intros W Hc Hb R. apply C11_read_is_the_file in R. destruct R as (cp & symm & m & n & es & (hd & rest & dl & body & El & _ & Ef & Ed & _) & _).
  rewrite text_lines in El. injection El as _ <-. rewrite body_carries in Ef. injection Ef as <- <-.
  destruct Ed as (a & b & c & r & E & _ & _ & Ec & Hp). rewrite dims_split in E. injection E as <- <- <- <-.
  rewrite parse_usz in Ec by exact Hb. injection Ec as Ec. rewrite map_length in Ec, Hp. lia.
Qed.

(** the two tests agree on the stored values *)
Definition agree (s : csc T) : Prop := forall t, In t (csc_triplets s) -> counts (val_of t) = keeps (val_of t).
Lemma rows_same s : agree s -> rows counts s = rows keeps s.
Proof. intros A. unfold rows_of, above. rewrite (filter_ext_in (fun t => counts (val_of t)) (fun t => keeps (val_of t))); [reflexivity | exact A]. Qed.


Definition dims_fit (s : csc T) : Prop :=
  1 <= s_nrow s /\ 1 <= s_ncol s /\ (Z.of_nat (s_nrow s) <= I32_MAX)%Z /\ (Z.of_nat (s_ncol s) <= I32_MAX)%Z.
Lemma text_says s : agree s -> csc_safe s -> dims_fit s ->
  1 <= length (rows keeps s) -> (Z.of_nat (length (rows keeps s)) <= I32_MAX)%Z ->
  file_says vzero parse (lines (the_text s)) cplx (negb (sym_eqb (s_sym s) SymNo)) (Z.of_nat (s_nrow s)) (Z.of_nat (s_ncol s)) (map ent (rows keeps s)).
Proof.
  intros Ag W (D1 & D2 & D3 & D4) H1 H2. rewrite text_lines, rows_same by exact Ag. eexists _, _, _, _. split; [reflexivity|]. split; [apply head_says|].
  split; [apply body_carries|]. split.
  - unfold dims_say. rewrite dims_split, map_length. eexists _, _, _, _. split; [reflexivity|]. rewrite !parse_usz by lia. splits; auto; lia.
  - assert (R : forall t, In t (rows keeps s) -> keeps (val_of t) = true /\ row_of t < s_nrow s /\ col_of t < s_ncol s).
    { intros t I. apply rows_in in I. destruct I as (u & Iu & K & _ & C & _). split; [exact K|].
      pose proof (csc_trip_safe T s W) as F. rewrite Forall_forall in F. apply F in Iu. destruct Iu as [Ir Ic].
      destruct C as [[_ ->]|(Sy & Er & Ec)]; [auto|]. destruct W as [Sq _]. rewrite Sq in Ir by congruence. rewrite <- Sq in Ic by congruence. rewrite Er in Ir. rewrite Ec in Ic. auto. }
    clear H1 H2. induction (rows keeps s) as [|t l IH]; [constructor|]. simpl. constructor.
    + destruct t as [[i j] x]. destruct (R (i, j, x)) as (K & A & B); [left; reflexivity|]. apply row_says; [exact K|].
      unfold row_of, col_of in A, B. simpl in A, B. lia.
    + apply IH. intros u I. apply R. right. exact I.
Qed.

(** the matrix of the entries above the tolerance and the matrix that is read are the same *)
Definition mirror (h : mmsym) (symm : bool) (t : nat * nat * T) : list (nat * nat * T) :=
  let '(i, j, x) := t in
  if symm then
    match h with
    | LeaveAsLower => [(i, j, x)]
    | SwapToUpper => [(j, i, x)]
    | MakeItFull => if i =? j then [(i, j, x)] else [(i, j, x); (j, i, x)]
    end
  else [(i, j, x)].
Lemma stored_mirror h symm l : flat_map (stored mk h symm) (map ent l) = flat_map (mirror h symm) l.
Proof.
  induction l as [|[[i j] x] l IH]; [reflexivity|]. cbn [map flat_map]. rewrite IH. f_equal. unfold stored, ent, mirror. rewrite !Nat2Z.id, Hmk. reflexivity.
Qed.
Lemma flat_map_ext2 {A B} (f g : A -> list B) l : (forall a, f a = g a) -> flat_map f l = flat_map g l.
Proof. intros E. induction l; simpl; [reflexivity|]. rewrite E, IHl. reflexivity. Qed.
Lemma flat_map_flat {A B C} (f : A -> list B) (g : B -> list C) l : flat_map g (flat_map f l) = flat_map (fun a => flat_map g (f a)) l.
Proof. induction l; simpl; [reflexivity|]. rewrite flat_map_app, IHl. reflexivity. Qed.

Lemma at_pair (t : nat * nat * T) i j : vals_at [t] i j = if (row_of t =? i) && (col_of t =? j) then [val_of t] else [].
Proof. unfold vals_at, at_pos. simpl. destruct ((row_of t =? i) && (col_of t =? j)); reflexivity. Qed.

Definition both (t : nat * nat * T) : list (nat * nat * T) := let '(i, j, x) := t in if i =? j then [(i, j, x)] else [(i, j, x); (j, i, x)].
Lemma vals_both a b x i j : vals_at (both (a, b, x)) i j = if ((a =? i) && (b =? j)) || ((b =? i) && (a =? j)) then [x] else [].
Proof.
  unfold both. destruct (Nat.eqb_spec a b) as [->|N].
  - unfold vals_at, at_pos, row_of, col_of, val_of. simpl. destruct (b =? i), (b =? j); reflexivity.
  - unfold vals_at, at_pos, row_of, col_of, val_of. simpl. destruct (Nat.eqb_spec a i), (Nat.eqb_spec b j), (Nat.eqb_spec b i), (Nat.eqb_spec a j); subst; simpl; congruence.
Qed.
Lemma expand_mirror h a b x i j : vals_at (expand (sym_of h true) (mirror h true (a, b, x))) i j = vals_at (both (a, b, x)) i j.
Proof.
  unfold mirror, sym_of. destruct h; unfold expand; cbn [flat_map triangular andb app].
  - unfold both. destruct (a =? b); reflexivity.
  - rewrite (Nat.eqb_sym b a). change (if negb (a =? b) then [(b, a, x); (a, b, x)] else [(b, a, x)]) with (if negb (a =? b) then [(b, a, x); (a, b, x)] else [(b, a, x)]).
    rewrite vals_both. destruct (Nat.eqb_spec a b) as [->|N]; cbn [negb app].
    + unfold vals_at, at_pos, row_of, col_of, val_of. simpl. destruct (b =? i), (b =? j); reflexivity.
    + unfold vals_at, at_pos, row_of, col_of, val_of. simpl. destruct (Nat.eqb_spec a i), (Nat.eqb_spec b j), (Nat.eqb_spec b i), (Nat.eqb_spec a j); subst; simpl; congruence.
  - unfold both. destruct (a =? b); reflexivity.
Qed.
Lemma expand_flat (sy : sym) (f : nat * nat * T -> list (nat * nat * T)) l i j :
  vals_at (expand sy (flat_map f l)) i j = flat_map (fun t => vals_at (expand sy (f t)) i j) l.
Proof. unfold expand. rewrite flat_map_flat, vals_at_flat. reflexivity. Qed.
Lemma expand_self sy (l : list (nat * nat * T)) i j : vals_at (expand sy l) i j = flat_map (fun t => vals_at (expand sy [t]) i j) l.
Proof. rewrite <- expand_flat. f_equal. f_equal. induction l; simpl; congruence. Qed.
Lemma expand_tri sy t i j : triangular sy = true -> vals_at (expand sy [t]) i j = vals_at (both t) i j.
Proof. intros Tr. destruct t as [[a b] x]. unfold expand, both. cbn [flat_map app]. rewrite Tr. destruct (a =? b); reflexivity. Qed.
Lemma both_swap a b x i j : vals_at (both (a, b, x)) i j = vals_at (both (b, a, x)) i j.
Proof. rewrite !vals_both, orb_comm. reflexivity. Qed.
Lemma full_lower (l : list (nat * nat * T)) i j :
  flat_map (fun t => vals_at (both t) i j) (filter (fun '(i, j, x) => j <=? i) l) = if j <=? i then vals_at l i j else vals_at l j i.
Proof.
  assert (C : forall t (l : list (nat * nat * T)) i j, vals_at (t :: l) i j = vals_at [t] i j ++ vals_at l i j).
  { intros t l' a b. apply (vals_at_app T [t] l'). }
  induction l as [|[[a b] x] l IH]; [simpl; destruct (j <=? i); reflexivity|]. rewrite !(C (a, b, x) l), !at_pair. unfold row_of, col_of, val_of. cbn [fst snd filter].
  destruct (Nat.leb_spec b a) as [L|L].
  - cbn [flat_map]. rewrite IH, vals_both. destruct (Nat.leb_spec j i) as [L'|L'].
    + f_equal. destruct (Nat.eqb_spec a i), (Nat.eqb_spec b j), (Nat.eqb_spec b i), (Nat.eqb_spec a j); subst; simpl; auto; lia.
    + f_equal. destruct (Nat.eqb_spec a i), (Nat.eqb_spec b j), (Nat.eqb_spec b i), (Nat.eqb_spec a j); subst; simpl; auto; lia.
  - rewrite IH. destruct (Nat.leb_spec j i) as [L'|L'].
    + destruct (Nat.eqb_spec a i), (Nat.eqb_spec b j); subst; simpl; auto; lia.
    + destruct (Nat.eqb_spec a j), (Nat.eqb_spec b i); subst; simpl; auto; lia.
Qed.

Definition writable (s : csc T) : Prop :=
  csc_safe s /\ dims_fit s /\ Forall (fun t => in_triangle (s_sym s) (row_of t) (col_of t) = true) (csc_triplets s) /\
  (s_sym s = SymYesFull -> forall i j, vals_at (above T keeps s) i j = vals_at (above T keeps s) j i).
Definition same_matrix (h : mmsym) (s : csc T) (c : coo T) : Prop :=
  coo_valid c /\ c_nrow c = s_nrow s /\ c_ncol c = s_ncol s /\ c_sym c = sym_back h (s_sym s) /\
  forall i j, vals_at (expand (c_sym c) (coo_triplets c)) i j = vals_at (expand (s_sym s) (above T keeps s)) i j.

Lemma round_trip s h : agree s -> writable s -> 1 <= length (rows keeps s) -> (2 * Z.of_nat (length (rows keeps s)) <= I32_MAX)%Z ->
  exists out, mm_read V vzero parse h (the_text s) = Ok out /\ read_as h cplx (negb (sym_eqb (s_sym s) SymNo)) (Z.of_nat (s_nrow s)) (Z.of_nat (s_ncol s)) (map ent (rows keeps s)) out.
Proof.
  intros Ag (W & D & Tri & _) H1 H2. apply C11_reads_every_file; [apply text_says; auto; lia|].
  intros Sy. assert (Sn : s_sym s <> SymNo) by (destruct (s_sym s); [discriminate | | |]; congruence).
  split; [f_equal; apply W; exact Sn|]. split; [intros _; rewrite map_length; exact H2|].
  intros _ i j v I. apply in_map_iff in I. destruct I as ([[a b] x] & E & I). injection E as <- <- <-. apply rows_in in I.
  destruct I as (u & Iu & _ & _ & C & Fu). rewrite Forall_forall in Tri. apply Tri in Iu. unfold row_of, col_of in *. cbn [fst snd] in *.
  destruct (s_sym s); [congruence | specialize (Fu eq_refl); lia | |].
  - destruct C as [[_ ->]|(C & _)]; [|discriminate]. cbn [in_triangle fst snd] in Iu. apply Nat.leb_le in Iu. lia.
  - destruct C as [[C _]|(_ & Ca & Cb)]; [congruence|]. cbn [in_triangle] in Iu. rewrite Ca, Cb in Iu. apply Nat.leb_le in Iu. lia.
Qed.
Lemma round_trip_matrix s h c : writable s ->
  is_matrix mk h (negb (sym_eqb (s_sym s) SymNo)) (Z.of_nat (s_nrow s)) (Z.of_nat (s_ncol s)) (map ent (rows keeps s)) c -> same_matrix h s c.
Proof.
  intros (_ & _ & _ & Fs) (Vc & Sy & Hr & Hc & Tr). unfold same_matrix. splits; auto; try lia.
  intros i j. rewrite Tr, stored_mirror, Sy, expand_flat. rewrite (expand_self (s_sym s)). unfold rows_of. destruct (s_sym s) eqn:Es; cbn [sym_eqb negb].
  - apply flat_map_ext2. intros [[a b] x]. reflexivity.
  - rewrite (flat_map_ext2 _ (fun t => vals_at (both t) i j)) by (intros [[a b] x]; apply expand_mirror). rewrite full_lower.
    rewrite <- (expand_self SymYesFull). replace (expand SymYesFull (above T keeps s)) with (above T keeps s).
    + destruct (j <=? i); [reflexivity | apply Fs; reflexivity].
    + unfold expand. cbn [triangular andb]. clear. induction (above T keeps s) as [|[[a b] x] l IH]; [reflexivity|]. simpl. rewrite <- IH. reflexivity.
  - apply flat_map_ext2. intros [[a b] x]. rewrite expand_mirror, expand_tri by reflexivity. reflexivity.
  - rewrite (flat_map_ext2 (fun t => vals_at (expand SymYesUpper [t]) i j) (fun t => vals_at (both t) i j)) by (intros t; apply expand_tri; reflexivity).
    clear Fs. induction (above T keeps s) as [|[[a b] x] l IH]; [reflexivity|]. cbn [map flat_map]. rewrite expand_mirror, both_swap. f_equal. exact IH.
Qed.
End RT.

(** Writing a real matrix and reading the file back gives the matrix of the entries above the tolerance.
    [show] and [parse] stand for `{:?}` and `str::parse` of f64: what is shown is one word and is parsed back. *)
Theorem C10_write_then_read V (vzero : V) (parse : string -> option V) (show vshow : V -> string) (big : V -> bool) (s : csc V) (h : mmsym) :
  (forall x, big x = true -> word (show x) /\ parse (show x) = Some x) ->
  writable V big s ->
  1 <= length (rows_of V big s) -> (2 * Z.of_nat (length (rows_of V big s)) <= I32_MAX)%Z ->
  exists txt c, mm_write V "real" big big show vshow false s = Ok txt /\ mm_read V vzero parse h txt = Ok (inl c) /\ same_matrix V big h s c.
Proof.
  intros Hs W H1 H2.
  assert (Ht : forall x, big x = true -> in_line (show x) /\ value_says vzero parse false (split_ws (show x)) (x, vzero)).
  { intros x K. destruct (Hs x K) as [Wd P]. split; [apply word_in_line; exact Wd|]. rewrite split_last by exact Wd. exists (show x), []. auto. }
  exists (the_text V false big big show s).
  destruct (round_trip V V vzero parse false (fun x => (x, vzero)) big big show Ht s h (fun t _ => eq_refl) W H1 H2) as (out & R & A).
  destruct out as [c|c]; destruct A as [E A]; [|discriminate E]. exists c. split; [|split; [exact R|]].
  - rewrite (write_text V "real" big big show vshow vzero) by apply W. reflexivity.
  - exact (round_trip_matrix V V (fun x => (x, vzero)) fst big (fun x => eq_refl) s h c W A).
Qed.

(** The same for complex matrices, as long as the two tests of the writer agree on the stored values. *)
Theorem C10_complex_when_tests_agree V (vzero : V) (parse : string -> option V) (show : V -> string) (vshow : V * V -> string)
    (counts keeps : V * V -> bool) (s : csc (V * V)) (h : mmsym) :
  (forall x, word (show x) /\ parse (show x) = Some x) ->
  agree (V * V) counts keeps s -> writable (V * V) keeps s ->
  1 <= length (rows_of (V * V) keeps s) -> (2 * Z.of_nat (length (rows_of (V * V) keeps s)) <= I32_MAX)%Z ->
  exists txt c, mm_write (V * V) "complex" counts keeps (fun x => show (fst x) ++ " " ++ show (snd x))%string vshow false s = Ok txt /\
    mm_read V vzero parse h txt = Ok (inr c) /\ same_matrix (V * V) keeps h s c.
Proof.
  intros Hs Ag W H1 H2. set (text := fun x : V * V => (show (fst x) ++ " " ++ show (snd x))%string).
  assert (Ht : forall x, keeps x = true -> in_line (text x) /\ value_says vzero parse true (split_ws (text x)) x).
  { intros [a b] _. destruct (Hs a) as [Wa Pa]. destruct (Hs b) as [Wb Pb]. unfold text. cbn [fst snd]. split.
    - apply in_line_app; [apply word_in_line; exact Wa|]. apply in_line_app; [reflexivity | apply word_in_line; exact Wb].
    - change (show a ++ " " ++ show b)%string with (show a ++ String " " (show b))%string. rewrite split_word, split_last by assumption.
      exists (show a), [show b]. splits; auto. exists (show b), []. auto. }
  exists (the_text (V * V) true counts keeps text s).
  destruct (round_trip V (V * V) vzero parse true (fun x => x) counts keeps text Ht s h Ag W H1 H2) as (out & R & A).
  destruct out as [c|c]; destruct A as [E A]; [discriminate E|]. exists c. split; [|split; [exact R|]].
  - rewrite (write_text (V * V) "complex" counts keeps text vshow (vzero, vzero)) by apply W. reflexivity.
  - exact (round_trip_matrix V (V * V) (fun x => x) (fun x => x) keeps (fun x => eq_refl) s h c W A).
Qed.

(** A matrix without an entry above the tolerance is written to a file that cannot be read. *)
Theorem C10_nothing_left_refuted V (vzero : V) (parse : string -> option V) (show vshow : V -> string) (big : V -> bool) (s : csc V) (h : mmsym) :
  csc_safe s -> rows_of V big s = [] ->
  exists txt, mm_write V "real" big big show vshow false s = Ok txt /\ forall out, mm_read V vzero parse h txt <> Ok out.
Proof.
  intros W E. set (never := fun _ : V => false).
  assert (X : rows_of V never s = []).
  { unfold rows_of, above, never. replace (filter (fun _ => false) (csc_triplets s)) with (@nil (nat * nat * V)) by (induction (csc_triplets s); auto). destruct (s_sym s); reflexivity. }
  assert (Q : the_text V false big big show s = the_text V false big never show s) by (unfold the_text; rewrite E, X; reflexivity).
  exists (the_text V false big big show s). split; [rewrite (write_text V "real" big big show vshow vzero) by exact W; reflexivity|].
  intros out. rewrite Q.
  refine (unreadable V V vzero parse false (fun x => (x, vzero)) big never show (fun x (K : never x = true) => _) s h out W (or_introl _) _).
  - discriminate K.
  - rewrite E. reflexivity.
  - rewrite E. discriminate.
Qed.
(** A complex matrix on which the two tests of the writer disagree in number is written to a file that cannot be read. *)
Theorem C10_complex_count_refuted V (vzero : V) (parse : string -> option V) (show : V -> string) (vshow : V * V -> string)
    (counts keeps : V * V -> bool) (s : csc (V * V)) (h : mmsym) :
  (forall x, word (show x) /\ parse (show x) = Some x) -> csc_safe s ->
  length (rows_of (V * V) counts s) <> length (rows_of (V * V) keeps s) -> (Z.of_nat (length (rows_of (V * V) counts s)) <= I32_MAX)%Z ->
  exists txt, mm_write (V * V) "complex" counts keeps (fun x => show (fst x) ++ " " ++ show (snd x))%string vshow false s = Ok txt /\
    forall out, mm_read V vzero parse h txt <> Ok out.
Proof.
  intros Hs W Hc Hb. set (text := fun x : V * V => (show (fst x) ++ " " ++ show (snd x))%string).
  assert (Ht : forall x, keeps x = true -> in_line (text x) /\ value_says vzero parse true (split_ws (text x)) x).
  { intros [a b] _. destruct (Hs a) as [Wa Pa]. destruct (Hs b) as [Wb Pb]. unfold text. cbn [fst snd]. split.
    - apply in_line_app; [apply word_in_line; exact Wa|]. apply in_line_app; [reflexivity | apply word_in_line; exact Wb].
    - change (show a ++ " " ++ show b)%string with (show a ++ String " " (show b))%string. rewrite split_word, split_last by assumption.
      exists (show a), [show b]. splits; auto. exists (show b), []. auto. }
  exists (the_text (V * V) true counts keeps text s). split; [rewrite (write_text (V * V) "complex" counts keeps text vshow (vzero, vzero)) by exact W; reflexivity|].
  intros out. exact (unreadable V (V * V) vzero parse true (fun x => x) counts keeps text Ht s h out W (or_intror Hc) Hb).
Qed.

(** The SMAT file: the dimensions, the number of rows that follow, and all entries above the tolerance with
    zero-based indices; both triangles are written for a matrix that stores one. *)
Theorem C10_vismatrix T (zero : T) kind (counts keeps : T -> bool) (text vtext : T -> string) (s : csc T) : csc_safe s ->
  (forall x, counts x = true -> in_line (vtext x)) ->
  exists txt, mm_write T kind counts keeps text vtext true s = Ok txt /\
    let all := expand (s_sym s) (above T counts s) in
    lines txt = (usz (s_nrow s) ++ " " ++ usz (s_ncol s) ++ " " ++ usz (length all))%string ::
      map (fun '(i, j, x) => (usz i ++ " " ++ usz j ++ " " ++ vtext x)%string) all.
Proof.
  intros W Hv. set (all := expand (s_sym s) (above T counts s)).
  assert (Cn : mm_count T counts true s = Ok (length all)).
  { unfold mm_count. cbn [andb negb]. unfold all. unfold above.
    destruct (triangular (s_sym s)) eqn:Tr; rewrite (scan_fold T zero) by exact W; f_equal.
    - rewrite (fold_filter (fun t => counts (val_of t)) (fun n t => if negb (row_of t =? col_of t) then n + 1 + 1 else n + 1)).
      generalize (filter (fun t => counts (val_of t)) (csc_triplets s)) as l. intros l.
      enough (Q : forall l k, fold_left (fun n t => if negb (row_of t =? col_of t) then n + 1 + 1 else n + 1) l k = k + length (expand (s_sym s) l)) by apply (Q l 0).
      clear -Tr. induction l as [|[[i j] x] l IH]; intros k; [simpl; lia|]. cbn [fold_left]. rewrite IH. unfold expand at 2. cbn [flat_map]. fold (expand (s_sym s) l).
      rewrite app_length, Tr. unfold row_of, col_of. cbn [fst snd andb]. destruct (negb (i =? j)); simpl length; lia.
    - rewrite (fold_filter (fun t => counts (val_of t)) (fun n _ => n + 1)), fold_count. simpl.
      generalize (filter (fun t => counts (val_of t)) (csc_triplets s)) as l. induction l as [|[[i j] x] l IH]; [reflexivity|].
      unfold expand. cbn [flat_map]. rewrite Tr. cbn [andb app length]. f_equal. rewrite IH. unfold expand. rewrite Tr. reflexivity. }
  set (line := fun t : nat * nat * T => let '(i, j, x) := t in (usz i ++ " " ++ usz j ++ " " ++ vtext x)%string).
  set (dims := (usz (s_nrow s) ++ " " ++ usz (s_ncol s) ++ " " ++ usz (length all))%string).
  exists (dims ++ nl ++ String.concat "" (map (fun t => line t ++ nl) all))%string. split.
  - unfold mm_write. rewrite Cn. cbn [bind]. rewrite (scan_fold T zero) by exact W. f_equal.
    transitivity ((dims ++ nl) ++ String.concat "" (map (fun t => line t ++ nl) all))%string; [|rewrite sapp_assoc; reflexivity].
    assert (Bf : ("" ++ usz (s_nrow s) ++ " " ++ usz (s_ncol s) ++ " " ++ usz (length all) ++ nl)%string = (dims ++ nl)%string).
    { unfold dims. rewrite !sapp_assoc. reflexivity. }
    rewrite Bf. generalize (dims ++ nl)%string as b0. intros b0. unfold all, above.
    rewrite (fold_filter (fun t => counts (val_of t)) (fun b t => let b := (b ++ mm_row (row_of t) (col_of t) (vtext (val_of t)))%string in
        if triangular (s_sym s) then if negb (row_of t =? col_of t) then (b ++ mm_row (col_of t) (row_of t) (vtext (val_of t)))%string else b else b)).
    generalize (filter (fun t => counts (val_of t)) (csc_triplets s)) as l. intros l. rewrite <- (fold_concat (fun t => (line t ++ nl)%string)).
    assert (R : forall i j x, mm_row i j (vtext x) = (line (i, j, x) ++ nl)%string).
    { intros i j x. unfold mm_row, line. rewrite !sapp_assoc. reflexivity. }
    revert b0. induction l as [|[[i j] x] l IH]; intros b0; [reflexivity|]. cbn [fold_left]. rewrite IH. unfold expand at 2. cbn [flat_map]. fold (expand (s_sym s) l).
    rewrite fold_left_app. f_equal. unfold row_of, col_of, val_of. cbn [fst snd]. rewrite !R.
    destruct (triangular (s_sym s)); [|reflexivity]. cbn [andb]. destruct (negb (i =? j)); reflexivity.
  - cbv zeta. rewrite lines_cons.
    2:{ unfold dims. repeat apply in_line_app; try (apply word_in_line, usz_word); reflexivity. }
    f_equal. assert (Hin : forall t, In t all -> in_line (line t)).
    { intros [[i j] x] I. unfold line. repeat apply in_line_app; try (apply word_in_line, usz_word); try reflexivity. apply Hv.
      unfold all, expand in I. apply in_flat_map in I. destruct I as ([[a b] y] & Iy & I). unfold above in Iy. apply filter_In in Iy. destruct Iy as [_ Iy].
      unfold val_of in Iy. cbn [snd] in Iy. destruct (triangular (s_sym s) && negb (a =? b)); simpl in I; [destruct I as [I|[I|[]]] | destruct I as [I|[]]]; congruence. }
    clearbody all. clear -Hin. induction all as [|t l IH]; [reflexivity|].
    assert (E : String.concat "" (map (fun t => (line t ++ nl)%string) (t :: l)) = (line t ++ nl ++ String.concat "" (map (fun t => (line t ++ nl)%string) l))%string).
    { cbn [map]. destruct l as [|u l]; [cbn; rewrite ?sapp_nil; reflexivity|]. rewrite <- sapp_assoc. reflexivity. }
    rewrite E, lines_cons by (apply Hin; left; reflexivity). cbn [map]. f_equal. apply IH. intros u I. apply Hin. right. exact I.
Qed.

(** ** Non-vacuity *)
Definition nshow (z : Z) : string := usz (Z.to_nat z).
Definition nbig (z : Z) : bool := ((2 <? z) && (z <=? 100))%Z.
Example nshow_contract x : nbig x = true -> word (nshow x) /\ parse_i32 (nshow x) = Some x.
Proof.
  intros H. apply andb_true_iff in H. destruct H as [H1 H2]. apply Z.ltb_lt in H1. apply Z.leb_le in H2. split; [apply usz_word|].
  unfold nshow. rewrite parse_usz by (unfold I32_MAX; lia). f_equal. lia.
Qed.
(** upper triangle of [[7 1 5] [1 0 9] [5 9 0]] with tolerance 2: the 1 is dropped *)
Definition up3 : csc Z := mkCsc SymYesUpper 3 3 [0; 1; 2; 4] [0; 0; 0; 1] [7; 1; 5; 9]%Z [] [] [] [] [].
Example up3_writable : writable Z nbig up3 /\ rows_of Z nbig up3 = [(0, 0, 7%Z); (2, 0, 5%Z); (2, 1, 9%Z)].
Proof.
  split; [|reflexivity]. unfold writable. splits.
  - split; [reflexivity|]. unfold compressed_safe, up3; simpl. splits; try lia.
    + intros b H. destruct b as [|[|[|b]]]; simpl; lia.
    + intros b H. destruct b as [|[|[|b]]]; simpl; try lia; repeat constructor.
  - unfold dims_fit, up3, I32_MAX; simpl; lia.
  - repeat constructor.
  - discriminate.
Qed.
Example up3_text : mm_write Z "real" nbig nbig nshow nshow false up3 =
  Ok ("%%MatrixMarket matrix coordinate real symmetric" ++ nl ++ "3 3 3" ++ nl ++ "1 1 7" ++ nl ++ "3 1 5" ++ nl ++ "3 2 9" ++ nl)%string.
Proof. reflexivity. Qed.
(** the two tests of the complex writer with tolerance 2 *)
Definition zcount (x : Z * Z) : bool := ((2 <? Z.abs (fst x)) || (2 <? Z.abs (snd x)))%Z.
Definition zkeep (x : Z * Z) : bool := ((2 <? Z.abs (fst x)) || (Z.abs (snd x) <? 2))%Z.
Definition cd2 : csc (Z * Z) := mkCsc SymNo 2 2 [0; 1; 2] [0; 1] [(7, 0); (0, 1)]%Z [] [] [] [] [].
Example cd2_disagree : length (rows_of (Z * Z) zcount cd2) = 1 /\ length (rows_of (Z * Z) zkeep cd2) = 2.
Proof. split; reflexivity. Qed.

Print Assumptions C10_write_then_read.
Print Assumptions C10_complex_when_tests_agree.
Print Assumptions C10_nothing_left_refuted.
Print Assumptions C10_complex_count_refuted.
Print Assumptions C10_vismatrix.
