(** C06: compressed row construction by counting and push-back. *)
From stdpp Require Import sorting.
From Verif Require Import Base CsrModel CsrSpec CsrProof.

(** Counting the keys [ks] in any order, allocating, and pushing back [items]
    in any order (same keys, any interleaving) yields row pointers and columns
    that hold exactly the values pushed to each row, in push order, without
    any out-of-bounds access or failed assertion. *)
Theorem C06_two_phase m ks items junk :
  0 < m → items ≠ [] → Forall (λ k, k < m) ks → ks ≡ₚ items.*1 →
  ∃ A0 A1 A2 A3 ja,
    new_count_nnz m [] = Some (Some A0, []) ∧
    csr_count A0 ks = Some A1 ∧
    new_elms_pushback junk A1 [] = Some (length items, A2, []) ∧
    csr_push A2 items = Some A3 ∧
    a_ja A3 = Some ja ∧ a_nnz A3 = length items ∧ length ja = length items ∧
    holds_rows (a_ia A3) ja (row_of items <$> seq 0 m).
Proof.
  intros Hm Hne Hks Hp.
  assert (Hf : Forall (λ kv, kv.1 < m) items).
  { rewrite Hp in Hks. by apply Forall_fmap in Hks. }
  set (cs := (λ i, length (row_of items i)) <$> seq 0 m).
  assert (Hcs : length cs = m) by (unfold cs; by rewrite fmap_length, seq_length).
  assert (Hsum : sum_list cs = length items) by (by apply sum_counts).
  destruct (count_scan m ks items Hks Hp) as (ia & E & ->). fold cs in E.
  pose proof (push_all_correct m items Hf 0 (junk <$> seq 0 (length items))) as HP.
  fold cs in HP. specialize (HP ltac:(by rewrite fmap_length, seq_length)).
  exists (Csr m 0 (replicate (m + 1) 0) None), (Csr m 0 (0 :: cs) None),
    (Csr m (length items) (0 :: offs 0 cs) (Some (junk <$> seq 0 (length items)))),
    (Csr m (length items) (0 :: tail (starts 0 (rows_of m items))) (Some (concat (rows_of m items)))),
    (concat (rows_of m items)).
  split_and!; try done.
  - unfold new_count_nnz. by rewrite decide_True by done.
  - unfold csr_count. cbn [a_ia a_m a_nnz a_ja]. by rewrite E.
  - unfold new_elms_pushback. cbn [a_ia a_m a_nnz a_ja].
    simpl (_ !! 0). cbn [mbind option_bind]. rewrite decide_True by done.
    rewrite <- Hcs at 1. rewrite scan_loop_correct. cbn [mbind option_bind].
    simpl (_ !! 0). cbn [mbind option_bind]. rewrite Hsum.
    rewrite decide_True by (destruct items; simpl; [done|lia]).
    rewrite upd_Some by (simpl; lia). done.
  - unfold csr_push. cbn [a_ia a_m a_nnz a_ja mbind option_bind]. by rewrite HP.
  - rewrite concat_rows_length. by apply off_total.
  - cbn [a_ia]. pose proof (starts_holds (rows_of m items)) as HH.
    replace (0 :: tail (starts 0 (rows_of m items))) with (starts 0 (rows_of m items)); [done|].
    by destruct (rows_of m items).
Qed.
Print Assumptions C06_two_phase.

(** Whatever the allocator does after counting: either both arrays are there,
    with room for exactly the counted entries, or the matrix reports 0 nonzeros
    and holds no column array. *)
Theorem C06_allocation_failure junk A o n A' o' :
  new_elms_pushback junk A o = Some (n, A', o') →
  a_nnz A' = n ∧ a_m A' = a_m A ∧
  match a_ja A' with
  | Some ja => 0 < n ∧ length ja = n ∧ (next_alloc o).1 = true ∧ (next_alloc (next_alloc o).2).1 = true
  | None => n = 0 ∧ ((next_alloc o).1 = false ∨ (next_alloc (next_alloc o).2).1 = false)
  end.
Proof.
  unfold new_elms_pushback. intros H.
  destruct (a_ia A !! 0) as [a0|]; [|done]. cbn [mbind option_bind] in H.
  case_decide; [|done].
  destruct (scan_loop _ _ _) as [ia|]; [|done]. cbn [mbind option_bind] in H.
  destruct (ia !! 0) as [nnz|]; [|done]. cbn [mbind option_bind] in H.
  case_decide; [|done].
  destruct (upd ia 0 0) as [ia'|]; [|done]. cbn [mbind option_bind] in H.
  destruct (next_alloc o) as [ok1 o1]. destruct (next_alloc o1) as [ok2 o2] eqn:E2.
  destruct ok1, ok2; simpl in H; simplify_eq; simpl; rewrite ?E2; simpl; split_and!; auto.
  by rewrite fmap_length, seq_length.
Qed.
Print Assumptions C06_allocation_failure.

(** False of the code: csrmatrix_new_count_nnz survives every allocation
    failure.  If the second allocation fails it frees two pointers it never
    assigned. *)
Theorem C06_new_count_nnz_refuted : ∃ m o, 0 < m ∧ new_count_nnz m o = None.
Proof. exists 1, [true; false]. split; [lia|done]. Qed.
Print Assumptions C06_new_count_nnz_refuted.

(** Sorting keeps every row's content and leaves it in increasing order. *)
Theorem C06_sortrows qsort A ja rows :
  qsort_contract qsort →
  a_ja A = Some ja → a_m A = length rows → holds_rows (a_ia A) ja rows →
  ∃ A' ja' rows', sortrows qsort A = Some A' ∧ a_ja A' = Some ja' ∧ a_m A' = a_m A ∧
    a_ia A' = a_ia A ∧ holds_rows (a_ia A') ja' rows' ∧
    length rows' = length rows ∧
    ∀ i r r', rows !! i = Some r → rows' !! i = Some r' → r' ≡ₚ r ∧ Sorted le r'.
Proof.
  intros Hq Hja Hm Hh.
  assert (Hqp : ∀ l, qsort l ≡ₚ l) by (intros l; apply Hq).
  pose proof (holds_rows_unique _ _ _ Hh) as [Ei Ej].
  unfold sortrows. rewrite Hja. cbn [mbind option_bind]. rewrite Hm, Ei, Ej.
  rewrite (sort_rows_correct qsort Hqp). cbn [mbind option_bind].
  eexists _, _, (qsort <$> rows). split_and!; try done.
  - cbn [a_ia]. rewrite <- (starts_sorted qsort Hqp). apply starts_holds.
  - by rewrite fmap_length.
  - intros i r r' Hr Hr'. rewrite list_lookup_fmap, Hr in Hr'. simpl in Hr'. simplify_eq.
    apply Hq.
Qed.
Print Assumptions C06_sortrows.

(** On sorted rows csrmatrix_elm_index finds every stored column, at a position
    inside its row, and only those (otherwise its assertion fails). *)
Theorem C06_elm_index bsearch A ja rows i r j :
  bsearch_contract bsearch →
  a_ja A = Some ja → holds_rows (a_ia A) ja rows → rows !! i = Some r → Sorted le r →
  (j ∈ r → ∃ b e p, a_ia A !! i = Some b ∧ a_ia A !! S i = Some e ∧
      elm_index bsearch i j A = Some p ∧ b ≤ p ∧ p < e ∧ ja !! p = Some j) ∧
  (j ∉ r → elm_index bsearch i j A = None).
Proof.
  intros Hb Hja (_ & _ & _ & Hr) Hi Hs.
  destruct (Hr i r Hi) as (b & e & Eb & Ee & Hle & Hsl).
  unfold elm_index. rewrite Hja, Eb, Ee. cbn [mbind option_bind].
  rewrite decide_True by done. rewrite Hsl. cbn [mbind option_bind].
  specialize (Hb j r Hs). split; intros Hj.
  - destruct (bsearch j r) as [p|]; [|done]. exists b, e, (b + p).
    pose proof (lookup_lt_Some _ _ _ Hb). pose proof (slice_length _ _ _ _ Hsl).
    split_and!; try done; try lia.
    rewrite (slice_lookup _ _ _ _ p Hsl) by lia. done.
  - destruct (bsearch j r) as [p|]; [|done].
    destruct Hj. by eapply elem_of_list_lookup_2.
Qed.
Print Assumptions C06_elm_index.

(** ** The sparsity pattern of the two-point system *)

Lemma row_of_elem items i j : j ∈ row_of items i ↔ (i, j) ∈ items.
Proof.
  unfold row_of. rewrite elem_of_list_fmap. split.
  - intros ([k v] & -> & H). apply elem_of_list_filter in H as [H ?]. simpl in *. by subst.
  - intros H. exists (i, j). split; [done|]. by apply elem_of_list_filter.
Qed.

Lemma self_keys_elem n i j : (i, j) ∈ self_keys n ↔ i = j ∧ i < n.
Proof.
  unfold self_keys. rewrite elem_of_list_fmap. split.
  - intros (x & [=] & Hx). apply elem_of_seq in Hx. lia.
  - intros [-> ?]. exists j. split; [done|]. apply elem_of_seq. lia.
Qed.

Lemma face_keys_elem faces i j :
  (i, j) ∈ face_keys faces ↔ (Some i, Some j) ∈ faces ∨ (Some j, Some i) ∈ faces.
Proof.
  unfold face_keys. rewrite elem_of_list_In, in_flat_map. setoid_rewrite <- elem_of_list_In.
  split.
  - intros ([[c1|] [c2|]] & Hf & Hx); try (by apply elem_of_nil in Hx).
    apply elem_of_cons in Hx as [[=]|Hx]; [by subst; left|].
    apply elem_of_list_singleton in Hx as [=]. subst. by right.
  - intros [H|H].
    + exists (Some i, Some j). split; [done|]. left.
    + exists (Some j, Some i). split; [done|]. right. left.
Qed.

Lemma well_keys_elem nc wells i j :
  (i, j) ∈ well_keys nc wells ↔
  ∃ w cells, wells !! w = Some cells ∧ ((i ∈ cells ∧ j = nc + w) ∨ (i = nc + w ∧ j ∈ cells)).
Proof.
  unfold well_keys. rewrite elem_of_list_In, in_concat. split.
  - intros (l & Hl & Hx). rewrite <- elem_of_list_In in Hl. rewrite <- elem_of_list_In in Hx. apply elem_of_list_lookup in Hl as [w Hw].
    rewrite list_lookup_imap in Hw. destruct (wells !! w) as [cells|] eqn:E; [|done].
    simpl in Hw. simplify_eq. exists w, cells. split; [done|].
    rewrite elem_of_list_In, in_flat_map in Hx. destruct Hx as (c & Hc & Hx).
    rewrite <- elem_of_list_In in Hc. rewrite <- elem_of_list_In in Hx.
    apply elem_of_cons in Hx as [[=]|Hx]; [subst; by left|].
    apply elem_of_list_singleton in Hx as [=]. subst. by right.
  - intros (w & cells & Hw & H).
    exists (flat_map (λ c, [(c, nc + w); (nc + w, c)]) cells). split; [apply elem_of_list_In|].
    2:{ rewrite in_flat_map. destruct H as [[H ->]|[-> H]].
      - exists i. split; [by apply elem_of_list_In|]. left. done.
      - exists j. split; [by apply elem_of_list_In|]. right. left. done. }
    apply elem_of_list_lookup. exists w. by rewrite list_lookup_imap, Hw.
Qed.

(** ifs_tpfa_construct_matrix: for every grid and every set of wells with cell
    numbers in range, the matrix has one row per unknown, each row is sorted and
    contains exactly the coupled unknowns; no assertion fails and no array is
    exceeded. *)
Theorem C06_tpfa_pattern qsort junk nc faces wells :
  qsort_contract qsort →
  0 < nc + length (default [] wells) →
  (∀ c1 c2, (Some c1, Some c2) ∈ faces → c1 < nc ∧ c2 < nc) →
  Forall (Forall (λ c, c < nc)) (default [] wells) →
  ∃ A ja rows, construct_matrix qsort junk nc faces wells [] = Some (Some A, []) ∧
    a_ja A = Some ja ∧ a_nnz A = length ja ∧ a_m A = nc + length (default [] wells) ∧ a_m A = length rows ∧
    holds_rows (a_ia A) ja rows ∧
    ∀ i r, rows !! i = Some r →
      Sorted le r ∧ ∀ j, j ∈ r ↔ coupled nc faces (default [] wells) i j.
Proof.
  intros Hq Hn Hfaces Hwells. unfold construct_matrix.
  set (wl := default [] wells) in *. set (nnu := nc + length wl) in *.
  set (items := self_keys nnu ++ face_keys faces ++ well_keys nc wl).
  assert (Hels : ∀ i j, (i, j) ∈ items ↔ coupled nc faces wl i j).
  { intros i j. unfold items. rewrite !elem_of_app, self_keys_elem, face_keys_elem, well_keys_elem.
    unfold coupled. fold nnu. naive_solver. }
  assert (Hf : Forall (λ kv, kv.1 < nnu) items).
  { apply Forall_forall. intros [i j] Hx. apply Hels in Hx. simpl.
    destruct Hx as [[_ ?]|[Hx|[Hx|(w & cells & Hw & Hx)]]].
    - done.
    - apply Hfaces in Hx. lia.
    - apply Hfaces in Hx. lia.
    - pose proof (lookup_lt_Some _ _ _ Hw).
      destruct Hx as [[Hx _]|[-> _]]; [|lia].
      rewrite Forall_forall in Hwells.
      pose proof (Hwells cells ltac:(by eapply elem_of_list_lookup_2)) as Hc.
      rewrite Forall_forall in Hc. specialize (Hc i Hx). lia. }
  assert (Hne : items ≠ []).
  { intros E. assert ((0, 0) ∈ items) as H0.
    { apply Hels. left. split; [done|]. fold nnu. lia. }
    rewrite E in H0. by apply elem_of_nil in H0. }
  destruct (C06_two_phase nnu items.*1 items junk Hn Hne)
    as (A0 & A1 & A2 & A3 & ja & E0 & E1 & E2 & E3 & Eja & Ennz & Elen & Hh).
  { by apply Forall_fmap. } { done. }
  rewrite E0. cbn [mbind option_bind].
  unfold csr_count in E1 |- *.
  unfold items in E1. rewrite !fmap_app, count_all_app in E1.
  destruct (count_all (a_ia A0) (self_keys nnu).*1) as [ia1|]; [|done]. cbn [mbind option_bind a_ia a_m a_nnz a_ja] in E1 |- *.
  rewrite count_all_app in E1.
  destruct (count_all ia1 (face_keys faces).*1) as [ia2|]; [|done]. cbn [mbind option_bind a_ia a_m a_nnz a_ja] in E1 |- *.
  destruct (count_all ia2 (well_keys nc wl).*1) as [ia3|]; [|done]. cbn [mbind option_bind a_ia a_m a_nnz a_ja] in E1 |- *.
  simplify_eq E1. intros EA1. rewrite EA1, E2. cbn [mbind option_bind].
  rewrite decide_False by (destruct items; simpl; [done|lia]).
  unfold csr_push in E3 |- *.
  destruct (a_ja A2) as [ja2|]; [|done]. cbn [mbind option_bind] in E3 |- *.
  unfold items in E3. rewrite push_all_app in E3.
  destruct (push_all (a_ia A2, ja2) (self_keys nnu)) as [[ia4 ja4]|]; [|done].
  cbn [mbind option_bind a_ia a_m a_nnz a_ja fst snd] in E3 |- *.
  rewrite push_all_app in E3.
  destruct (push_all (ia4, ja4) (face_keys faces)) as [[ia5 ja5]|]; [|done].
  cbn [mbind option_bind a_ia a_m a_nnz a_ja fst snd] in E3 |- *.
  destruct (push_all (ia5, ja5) (well_keys nc wl)) as [[ia6 ja6]|]; [|done].
  cbn [mbind option_bind a_ia a_m a_nnz a_ja fst snd] in E3 |- *.
  simplify_eq E3. intros EA3. rewrite EA3.
  assert (Hm3 : a_m A3 = nnu).
  { rewrite <- EA3. cbn [a_m]. apply C06_allocation_failure in E2 as (_ & -> & _).
    rewrite <- EA1. cbn [a_m]. unfold new_count_nnz in E0. rewrite decide_True in E0 by done.
    simpl in E0. by simplify_eq. }
  assert (Hrl : length (row_of items <$> seq 0 nnu) = nnu) by (by rewrite fmap_length, seq_length).
  assert (a_ia A3 !! nnu = Some (length items)) as Hend.
  { destruct Hh as (_ & _ & He & _). rewrite Hrl in He. congruence. }
  replace (ia6 !! nnu) with (Some (length items)) by (rewrite <- EA3 in Hend; done).
  cbn [mbind option_bind]. rewrite decide_True by done.
  destruct (C06_sortrows qsort A3 ja (row_of items <$> seq 0 nnu) Hq Eja) as
    (A4 & ja' & rows' & Es & Eja' & Em' & Eia' & Hh' & Hl' & Hrows).
  { by rewrite Hrl. } { done. }
  rewrite Es. cbn [mbind option_bind].
  exists A4, ja', rows'. split_and!; try done; [|congruence|congruence|].
  { unfold sortrows in Es. rewrite Eja in Es. cbn [mbind option_bind] in Es.
    destruct (sort_loop _ _ _ _ _) as [ja''|]; [|done]. cbn [mbind option_bind] in Es. injection Es as <-.
    cbn [a_nnz a_ia] in *. rewrite Ennz. destruct Hh' as (_ & _ & He & _). rewrite Hl', Hrl, Hend in He. by injection He. }
  intros i r Hr. pose proof (lookup_lt_Some _ _ _ Hr) as Hi. rewrite Hl', Hrl in Hi.
  destruct (Hrows i (row_of items i) r) as [Hp Hsrt]; [|done|].
  { rewrite list_lookup_fmap, lookup_seq_lt by lia. done. }
  split; [done|]. intros j. rewrite Hp, row_of_elem. apply Hels.
Qed.
Print Assumptions C06_tpfa_pattern.

(** The coupling, hence the pattern, is symmetric. *)
Theorem C06_pattern_symmetric nc faces wells i j :
  coupled nc faces wells i j → coupled nc faces wells j i.
Proof. unfold coupled. naive_solver. Qed.

(** ** Cases meeting the hypotheses *)

(** Sorting and searching functions that meet the contracts exist. *)
Definition qsort0 : list nat → list nat := merge_sort le.
Fixpoint bsearch0 (j : nat) (l : list nat) : option nat :=
  match l with [] => None | x :: l => if decide (x = j) then Some 0 else S <$> bsearch0 j l end.
Lemma qsort0_ok : qsort_contract qsort0.
Proof. intros l. split; [apply merge_sort_Permutation|apply Sorted_merge_sort; apply _]. Qed.
Lemma bsearch0_ok : bsearch_contract bsearch0.
Proof.
  intros j l _. induction l as [|x l IH]; simpl; [apply not_elem_of_nil|].
  case_decide; [by subst|]. destruct (bsearch0 j l); simpl; [done|].
  by apply not_elem_of_cons.
Qed.

(** Three cells in a row with outer boundary faces, one well in cells 0 and 2. *)
Example C06_example_matrix :
  construct_matrix qsort0 (λ _, 77) 3
    [(None, Some 0); (Some 0, Some 1); (Some 2, Some 1); (Some 2, None)] (Some [[0; 2]]) []
  = Some (Some (Csr 4 12 [0; 3; 6; 9; 12] (Some [0;1;3; 0;1;2; 1;2;3; 0;2;3])), []).
Proof. by vm_compute. Qed.
Example C06_example_index A o :
  construct_matrix qsort0 (λ _, 77) 3
    [(None, Some 0); (Some 0, Some 1); (Some 2, Some 1); (Some 2, None)] (Some [[0; 2]]) []
  = Some (Some A, o) →
  elm_index bsearch0 2 3 A = Some 8 ∧ elm_index bsearch0 0 2 A = None.
Proof. rewrite C06_example_matrix. intros [= <- <-]. by vm_compute. Qed.
(** Interleaved pushes, an empty row in the middle, counts in another order. *)
Example C06_example_two_phase :
  (A1 ← csr_count (Csr 3 0 [0;0;0;0] None) [2; 0; 0; 2; 0];
   '(_, A2, _) ← new_elms_pushback (λ _, 77) A1 [];
   csr_push A2 [(0,5); (2,8); (0,4); (2,1); (0,9)])
  = Some (Csr 3 5 [0; 3; 3; 5] (Some [5;4;9;8;1])).
Proof. by vm_compute. Qed.
