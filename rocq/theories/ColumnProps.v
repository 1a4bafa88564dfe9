(** C25: extractColumn partitions the cells into vertical stacks. *)
From Verif Require Import Base GridModel GridSpec CsrSpec LoopModel LoopProof ColumnModel ColumnProof.
From stdpp Require Import relations.

(** ** Specification *)
(** Global index of a cell, its horizontal and its depth index, with the
    Cartesian numbering described in grid.h (i fastest, k slowest). *)
Definition gindex (gc : option (list nat)) (c : nat) : nat :=
  match gc with Some a => default 0 (a !! c) | None => c end.
Definition hcol (d0 d1 : nat) gc c : nat := gindex gc c mod (d0 * d1).
Definition depth (d0 d1 : nat) gc c : nat := gindex gc c / (d0 * d1).

(** std::sort (C++03 25.3): a permutation of the argument in which no later
    element compares less than an earlier one. *)
Definition std_sort (less : nat → nat → option bool) (sort : list nat → list nat) : Prop :=
  ∀ l, (∀ a b, a ∈ l → b ∈ l → is_Some (less a b)) →
    sort l ≡ₚ l ∧
    ∀ i j a b, i < j → sort l !! i = Some a → sort l !! j = Some b → less b a = Some false.

(** [b] is the next cell below [a] in the grid and shares a face with it. *)
Definition next_below (g : ugrid) (d0 d1 : nat) gc (a b : nat) : Prop :=
  a < u_nc g ∧ b < u_nc g ∧ hcol d0 d1 gc a = hcol d0 d1 gc b ∧ depth d0 d1 gc a < depth d0 d1 gc b ∧
  (∀ c, c < u_nc g → hcol d0 d1 gc c = hcol d0 d1 gc a →
     ¬ (depth d0 d1 gc a < depth d0 d1 gc c < depth d0 d1 gc b)) ∧
  adjacent g a b.

(** ** Theorems *)
Lemma elem_of_concat {A} (x : A) ls : x ∈ concat ls ↔ ∃ l, x ∈ l ∧ l ∈ ls.
Proof.
  rewrite elem_of_list_In, in_concat. split; intros (l & H1 & H2); exists l; split;
    by apply elem_of_list_In.
Qed.
Lemma concat_perm {A} (l l' : list (list A)) : l ≡ₚ l' → concat l ≡ₚ concat l'.
Proof. induction 1; simpl; [done|by f_equiv|solve_Permutation|by etrans]. Qed.

Section props.
  Context (g : ugrid) (cf : list (list nat)) (d0 d1 : nat) (gc : option (list nat)).
  Context (sort : list nat → list nat).
  Context (G : grid_ok g cf) (H0 : 0 < d0) (H1 : 0 < d1).
  Context (HG : ∀ a, gc = Some a → length a = u_nc g).
  Context (HS : std_sort (compare d0 d1 gc) sort).

  Lemma index_of_ok c : c < u_nc g → index_of gc c = Some (gindex gc c).
  Proof using All.
    intros Hc. unfold index_of, gindex. destruct gc as [a|]; [|done].
    assert (is_Some (a !! c)) as [x ->]; [|done]. apply lookup_lt_is_Some. by rewrite (HG a eq_refl).
  Qed.
  Lemma compare_ok a b : a < u_nc g → b < u_nc g →
    compare d0 d1 gc a b = Some (bool_decide (depth d0 d1 gc a < depth d0 d1 gc b)).
  Proof using All.
    intros Ha Hb. unfold compare. rewrite !index_of_ok by done. cbn [mbind option_bind].
    unfold depth. by rewrite !Nat.div_div by lia.
  Qed.

  Lemma extract_main : ∃ scols cols keys,
    extract_column g d0 d1 gc sort [] = Some cols ∧
    cols ≡ₚ concat (runs (λ a b, default false (neighbours g a b)) <$> scols) ∧
    scols = (sort <$> ((λ k, filter (λ c, hcol d0 d1 gc c = k) (seq 0 (u_nc g))) <$> keys)) ∧
    NoDup keys ∧ (∀ k, k ∈ keys ↔ ∃ c, c < u_nc g ∧ hcol d0 d1 gc c = k) ∧
    (∀ k, sort (filter (λ c, hcol d0 d1 gc c = k) (seq 0 (u_nc g))) ≡ₚ
       filter (λ c, hcol d0 d1 gc c = k) (seq 0 (u_nc g))).
  Proof using All.
    destruct (collect_spec d0 d1 gc (hcol d0 d1 gc) H0 H1 (u_nc g)) as (m & keys & E & Hnd & Hk).
    { intros c Hc. exists (gindex gc c). split; [by apply index_of_ok|done]. }
    assert (HP : ∀ k, sort (filter (λ c, hcol d0 d1 gc c = k) (seq 0 (u_nc g))) ≡ₚ
       filter (λ c, hcol d0 d1 gc c = k) (seq 0 (u_nc g))).
    { intros k. apply HS. intros a b [_ Ha%elem_of_seq]%elem_of_list_filter [_ Hb%elem_of_seq]%elem_of_list_filter.
      rewrite compare_ok by lia. done. }
    set (scols := sort <$> ((λ k, filter (λ c, hcol d0 d1 gc c = k) (seq 0 (u_nc g))) <$> keys)).
    assert (Hin : ∀ col, col ∈ scols → ∃ k, k ∈ keys ∧ col ≡ₚ filter (λ c, hcol d0 d1 gc c = k) (seq 0 (u_nc g))).
    { intros col (l & -> & (k & -> & Hkk)%elem_of_list_fmap)%elem_of_list_fmap. exists k. split; [done|apply HP]. }
    destruct (split_all g (λ a b, default false (neighbours g a b)) scols) as (cols' & news & E' & Hp).
    - intros col i a b Hc Ha Hb. destruct (Hin _ Hc) as (k & _ & HPc).
      assert (a ∈ seq 0 (u_nc g)) as Ha'%elem_of_seq.
      { apply elem_of_list_lookup_2 in Ha. rewrite HPc in Ha. by apply elem_of_list_filter in Ha as [_ ?]. }
      assert (a ≠ b) as Hne.
      { intros ->. assert (NoDup col) as Hd. { rewrite HPc. apply NoDup_filter, NoDup_seq. }
        pose proof (NoDup_lookup _ _ _ _ Hd Ha Hb). lia. }
      destruct (neighbours_spec g cf a b G ltac:(lia) Hne) as (r & -> & _). done.
    - intros col Hc. destruct (Hin _ Hc) as (k & (c & Hcn & Hck)%Hk & HPc). intros ->.
      apply Permutation_nil in HPc.
      assert (c ∈ filter (λ c, hcol d0 d1 gc c = k) (seq 0 (u_nc g))) as HH.
      { apply elem_of_list_filter. split; [done|]. apply elem_of_seq. lia. }
      rewrite HPc in HH. by apply elem_of_nil in HH.
    - exists scols, (cols' ++ news), keys. split_and!; try done.
      unfold extract_column. rewrite E. cbn [mbind option_bind].
      replace (length ((λ k, filter (λ c, hcol d0 d1 gc c = k) (seq 0 (u_nc g))) <$> keys)) with (length scols)
        by (unfold scols; rewrite !fmap_length; done).
      fold scols. rewrite E'. done.
  Qed.

  (** The columns partition the cells; a column is a non-empty vertical stack,
      ordered by depth, in which each cell shares a face with the next. *)
  Theorem C25_extract : ∃ cols,
    extract_column g d0 d1 gc sort [] = Some cols ∧
    concat cols ≡ₚ seq 0 (u_nc g) ∧
    (∀ col, col ∈ cols →
       col ≠ [] ∧
       (∀ a b, a ∈ col → b ∈ col → hcol d0 d1 gc a = hcol d0 d1 gc b) ∧
       (∀ i j a b, i < j → col !! i = Some a → col !! j = Some b → depth d0 d1 gc a ≤ depth d0 d1 gc b) ∧
       (∀ i a b, col !! i = Some a → col !! S i = Some b → adjacent g a b)).
  Proof using All.
    destruct extract_main as (scols & cols & keys & E & Hp & Hs & Hnd & Hk & HP).
    exists cols. split; [done|]. split.
    - rewrite (concat_perm _ _ Hp).
      assert (concat (concat (runs (λ a b, default false (neighbours g a b)) <$> scols)) = concat scols) as EE.
      { clear. induction scols as [|s scols IH]; [done|]. simpl. rewrite concat_app, runs_concat. by f_equal. }
      rewrite EE, Hs.
      etrans; [|apply (concat_filter_perm (hcol d0 d1 gc) (seq 0 (u_nc g)) keys Hnd)].
      + clear -HP. induction keys as [|k keys IH]; [done|]. rewrite !fmap_cons. cbn [concat]. by rewrite HP, IH.
      + intros c Hc%elem_of_seq. apply Hk. exists c. split; [lia|done].
    - intros col Hcol. rewrite Hp in Hcol. apply elem_of_concat in Hcol as (rs & Hcol & Hrs).
      apply elem_of_list_fmap in Hrs as (sc & -> & Hsc).
      pose proof Hsc as Hsc'. rewrite Hs in Hsc'.
      apply elem_of_list_fmap in Hsc' as (l & -> & (k & -> & Hkk)%elem_of_list_fmap).
      pose proof (HP k) as HPk.
      set (l := filter (λ c, hcol d0 d1 gc c = k) (seq 0 (u_nc g))) in *.
      pose proof (runs_concat (λ a b, default false (neighbours g a b)) (sort l)) as HC.
      apply elem_of_list_split in Hcol as HSp.
      destruct HSp as (r1 & r2 & HSp). rewrite HSp, concat_app in HC. cbn [concat] in HC.
      assert (Hsub : ∀ i a, col !! i = Some a → sort l !! (length (concat r1) + i) = Some a).
      { intros i a Ha. rewrite <- HC, lookup_app_r by lia. rewrite lookup_app_l.
        - rewrite <- Ha. f_equal. lia.
        - apply lookup_lt_Some in Ha. lia. }
      assert (Hmem : ∀ a, a ∈ col → a ∈ l).
      { intros a [i Hi]%elem_of_list_lookup. rewrite <- HPk. eapply elem_of_list_lookup_2, Hsub, Hi. }
      assert (Hl : ∀ a, a ∈ l → a < u_nc g ∧ hcol d0 d1 gc a = k).
      { intros a [? Ha%elem_of_seq]%elem_of_list_filter. split; [lia|done]. }
      split_and!.
      + eapply runs_ne. exact Hcol.
      + intros a b Ha%Hmem%Hl Hb%Hmem%Hl. naive_solver congruence.
      + intros i j a b Hij Ha Hb.
        destruct (HS l) as [_ Hsort].
        { intros x y Hx%Hl Hy%Hl. rewrite compare_ok; naive_solver. }
        pose proof (Hsort (length (concat r1) + i) (length (concat r1) + j) a b ltac:(lia) (Hsub _ _ Ha) (Hsub _ _ Hb)) as HH.
        rewrite compare_ok in HH.
        * injection HH as HH%bool_decide_eq_false. lia.
        * by apply Hl, Hmem, (elem_of_list_lookup_2 _ j).
        * by apply Hl, Hmem, (elem_of_list_lookup_2 _ i).
      + intros i a b Ha Hb.
        pose proof (runs_chain _ _ _ Hcol i a b Ha Hb) as Hn. simpl in Hn.
        assert (NoDup (sort l)) as Hd. { rewrite HPk. apply NoDup_filter, NoDup_seq. }
        assert (a ≠ b) as Hne.
        { intros ->. pose proof (NoDup_lookup _ _ _ _ Hd (Hsub _ _ Ha) (Hsub _ _ Hb)). lia. }
        assert (a < u_nc g) as Han. { by apply Hl, Hmem, (elem_of_list_lookup_2 _ i). }
        destruct (neighbours_spec g cf a b G Han Hne) as (r & Er & Hr). rewrite Er in Hn. simpl in Hn.
        by apply Hr.
  Qed.

  (** If no two cells have the same global index, a cell and the next cell
      below it are consecutive in one column if they share a face ... *)
  Theorem C25_consecutive cols : extract_column g d0 d1 gc sort [] = Some cols →
    (∀ a b, a < u_nc g → b < u_nc g → gindex gc a = gindex gc b → a = b) →
    ∀ a b, next_below g d0 d1 gc a b →
      ∃ col i, col ∈ cols ∧ col !! i = Some a ∧ col !! S i = Some b.
  Proof using All.
    intros EE Hinj a b (Ha & Hb & Hh & Hd & Hbet & Hadj).
    destruct extract_main as (scols & cols' & keys & E & Hp & Hs & Hnd & Hk & HP).
    rewrite E in EE. injection EE as ->.
    set (k := hcol d0 d1 gc a).
    assert (Hkk : k ∈ keys). { apply Hk. by exists a. }
    pose proof (HP k) as HPk. set (l := filter (λ c, hcol d0 d1 gc c = k) (seq 0 (u_nc g))) in *.
    assert (Hl : ∀ c, c ∈ l ↔ c < u_nc g ∧ hcol d0 d1 gc c = k).
    { intros c. unfold l. rewrite elem_of_list_filter, elem_of_seq. split; intros [? ?]; split; (done || lia). }
    assert (Hal : a ∈ l) by (by apply Hl). assert (Hbl : b ∈ l) by (by apply Hl).
    rewrite <- HPk in Hal, Hbl. apply elem_of_list_lookup in Hal as [i Hi]. apply elem_of_list_lookup in Hbl as [j Hj].
    destruct (HS l) as [_ Hsort].
    { intros x y [??]%Hl [??]%Hl. by rewrite compare_ok. }
    assert (Hord : ∀ p q x y, p < q → sort l !! p = Some x → sort l !! q = Some y →
      x < u_nc g ∧ y < u_nc g ∧ hcol d0 d1 gc x = k ∧ hcol d0 d1 gc y = k ∧ depth d0 d1 gc x < depth d0 d1 gc y).
    { intros p q x y Hpq Hx Hy. pose proof (Hsort _ _ _ _ Hpq Hx Hy) as HH.
      assert (x ∈ l) as [Hx1 Hx2]%Hl by (rewrite <- HPk; by eapply elem_of_list_lookup_2).
      assert (y ∈ l) as [Hy1 Hy2]%Hl by (rewrite <- HPk; by eapply elem_of_list_lookup_2).
      rewrite compare_ok in HH by done. injection HH as HH%bool_decide_eq_false. split_and!; try done.
      assert (depth d0 d1 gc x ≠ depth d0 d1 gc y); [|lia]. intros Hde.
      assert (x = y) as ->.
      { apply Hinj; [done..|]. unfold depth, hcol in *.
        rewrite (Nat.div_mod_eq (gindex gc x) (d0 * d1)), (Nat.div_mod_eq (gindex gc y) (d0 * d1)). congruence. }
      assert (NoDup (sort l)) as Hdd. { rewrite HPk. apply NoDup_filter, NoDup_seq. }
      pose proof (NoDup_lookup _ _ _ _ Hdd Hx Hy). lia. }
    assert (i < j) as Hij.
    { destruct (decide (i = j)) as [->|]; [simplify_eq; lia|]. destruct (decide (i < j)); [done|].
      destruct (Hord j i b a ltac:(lia) Hj Hi) as (_ & _ & _ & _ & ?). lia. }
    assert (j = S i) as ->.
    { destruct (decide (j = S i)); [done|]. exfalso.
      assert (is_Some (sort l !! S i)) as [c Hc]. { apply lookup_lt_is_Some. apply lookup_lt_Some in Hj. lia. }
      destruct (Hord i (S i) a c ltac:(lia) Hi Hc) as (_ & Hcn & _ & Hck & H2).
      destruct (Hord (S i) j c b ltac:(lia) Hc Hj) as (_ & _ & _ & _ & H3).
      apply (Hbet c Hcn Hck). lia. }
    assert (a ≠ b) as Hne by (intros ->; lia).
    destruct (neighbours_spec g cf a b G Ha Hne) as (r & Er & Hr).
    destruct (runs_keep (λ a b, default false (neighbours g a b)) (sort l) i a b Hi Hj) as (p & m & Hpin & H2 & H3).
    { simpl. rewrite Er. simpl. by apply Hr. }
    exists p, m. split_and!; [|done|done]. rewrite Hp. apply elem_of_concat.
    eexists. split; [exact Hpin|]. apply elem_of_list_fmap. exists (sort l). split; [done|].
    rewrite Hs. apply elem_of_list_fmap. exists l. split; [done|]. apply elem_of_list_fmap. by exists k.
  Qed.

  (** ... so a whole connected stack is in one column. *)
  Theorem C25_connected cols : extract_column g d0 d1 gc sort [] = Some cols →
    (∀ a b, a < u_nc g → b < u_nc g → gindex gc a = gindex gc b → a = b) →
    ∀ a b, a < u_nc g → rtc (next_below g d0 d1 gc) a b → ∃ col, col ∈ cols ∧ a ∈ col ∧ b ∈ col.
  Proof using All.
    intros E Hinj a b Ha Hr.
    destruct C25_extract as (cols' & E' & Hp & _). rewrite E in E'. injection E' as <-.
    assert (Huniq : ∀ c col col', c ∈ col → c ∈ col' → col ∈ cols → col' ∈ cols → col = col').
    { assert (NoDup (concat cols)) as Hnd. { rewrite Hp. apply NoDup_seq. }
      clear -Hnd. induction cols as [|x cols IH]; intros c col col' H1 H2 H3 H4; [by apply elem_of_nil in H3|].
      cbn [concat] in Hnd. apply NoDup_app in Hnd as (_ & Hd & Hn).
      apply elem_of_cons in H3 as [->|H3], H4 as [->|H4]; try done.
      - exfalso. apply (Hd c H1). apply elem_of_concat. by exists col'.
      - exfalso. apply (Hd c H2). apply elem_of_concat. by exists col.
      - by apply (IH Hn c). }
    assert (Hex : ∀ c, c < u_nc g → ∃ col, col ∈ cols ∧ c ∈ col).
    { intros c Hc. assert (c ∈ concat cols) as (col & ? & ?)%elem_of_concat.
      { rewrite Hp. apply elem_of_seq. lia. } by exists col. }
    induction Hr as [x|x y z Hxy Hyz IH].
    - destruct (Hex x Ha) as (col & ? & ?). by exists col.
    - destruct (C25_consecutive cols E Hinj x y Hxy) as (col & i & Hcol & Hx & Hy).
      destruct Hxy as (_ & Hyn & _). destruct (IH Hyn) as (col' & Hcol' & Hy' & Hz).
      assert (col = col') as <-. { apply (Huniq y); [by eapply elem_of_list_lookup_2|done..]. }
      exists col. split_and!; [done|by eapply elem_of_list_lookup_2|done].
  Qed.
End props.

(** ** Non-vacuity: a 1 x 1 x 4 stack whose cells are numbered from below and
    where the third cell is missing: two columns, [2] and [1;0] *)
Definition stack : ugrid := UGrid 3 5 [0; 2; 4; 6] [0; 1; 1; 2; 3; 4] [-1; 0; 0; 1; 1; -1; -1; 2; 2; -1]%Z.
Definition stack_gc : option (list nat) := Some [3; 2; 0].
Fixpoint isort_ins (key : nat → nat) (x : nat) (l : list nat) : list nat :=
  match l with [] => [x] | y :: l' => if decide (key x < key y) then x :: l else y :: isort_ins key x l' end.
Definition isort key l := foldr (isort_ins key) [] l.
Example C25_example : extract_column stack 1 1 stack_gc (isort (gindex stack_gc)) [] = Some [[1; 0]; [2]].
Proof. vm_compute. reflexivity. Qed.
Lemma isort_ins_perm key x l : isort_ins key x l ≡ₚ x :: l.
Proof.
  induction l as [|y l IH]; simpl; [done|]. case_decide; [done|]. rewrite IH. apply Permutation_swap.
Qed.
Lemma isort_ins_sorted key x l : StronglySorted (λ a b, key a ≤ key b) l →
  StronglySorted (λ a b, key a ≤ key b) (isort_ins key x l).
Proof.
  induction 1 as [|y l Hs IH Hf]; simpl; [by repeat constructor|]. case_decide.
  - constructor; [by constructor|]. constructor; [lia|]. eapply Forall_impl; [exact Hf|]. simpl. lia.
  - constructor; [done|]. rewrite isort_ins_perm. constructor; [lia|done].
Qed.
Lemma isort_sorted key l : isort key l ≡ₚ l ∧ StronglySorted (λ a b, key a ≤ key b) (isort key l).
Proof.
  induction l as [|x l [IH1 IH2]]; simpl; [split; [done|constructor]|]. split.
  - by rewrite isort_ins_perm, IH1.
  - by apply isort_ins_sorted.
Qed.
(** the sorting contract is met by a stable insertion sort *)
Example C25_sort_contract : std_sort (compare 1 1 stack_gc) (isort (gindex stack_gc)).
Proof.
  intros l Hl. pose proof (isort_sorted (gindex stack_gc) l) as [HP HS]. split; [done|].
  intros i j a b Hij Ha Hb.
  assert (HA : a ∈ l) by (rewrite <- HP; by eapply elem_of_list_lookup_2).
  assert (HB : b ∈ l) by (rewrite <- HP; by eapply elem_of_list_lookup_2).
  destruct (Hl b a HB HA) as [r Hr]. pose proof Hr as Hr'. unfold compare in Hr'.
  unfold index_of, stack_gc in Hr'. destruct ([3; 2; 0] !! b) as [x|] eqn:Ex; [|done]. cbn [mbind option_bind] in Hr'.
  destruct ([3; 2; 0] !! a) as [y|] eqn:Ey; [|done]. cbn [mbind option_bind] in Hr'. apply (inj Some) in Hr'. subst r.
  rewrite Hr. f_equal. apply bool_decide_eq_false. rewrite !Nat.div_1_r.
  assert (gindex stack_gc a ≤ gindex stack_gc b) as HH.
  { revert i j Hij Ha Hb. clear -HS. induction HS as [|z l' HS IH Hf]; intros i j Hij Ha Hb; [done|].
    destruct j as [|j]; [lia|]. simpl in Hb. destruct i as [|i]; simpl in Ha.
    - simplify_eq. rewrite Forall_forall in Hf. apply Hf. by eapply elem_of_list_lookup_2.
    - eapply (IH i j); [lia|done..]. }
  unfold gindex, stack_gc in HH. rewrite Ex, Ey in HH. simpl in HH. lia.
Qed.
Example C25_example_grid : grid_ok stack [[0; 1]; [1; 2]; [3; 4]].
Proof.
  split.
  - done.
  - split_and!; [done|done|done|]. intros [|[|[|i]]] r Hr; simplify_eq/=; eexists _, _; split_and!; try done; lia.
  - done.
  - intros f a b [Ha Hb]. unfold face_between, stack in *; cbn [u_facecells u_nc] in *.
    do 5 (destruct f as [|f]; [simpl in *; simplify_eq; lia|]).
    exfalso. apply lookup_lt_Some in Ha. simpl in Ha. lia.
  - intros [|[|[|i]]] r Hr; simplify_eq/=; (apply NoDup_cons; split; [set_unfold; lia|apply NoDup_singleton]).
  - assert (HF : ∀ f a b, face_between stack f a b →
      (f, a, b) ∈ [(0%nat, -1, 0); (1%nat, 0, 1); (2%nat, 1, -1); (3%nat, -1, 2); (4%nat, 2, -1)]%Z).
    { intros f a b [Ha Hb]. unfold stack in *; cbn [u_facecells] in *.
      do 5 (destruct f as [|f]; [simpl in *; simplify_eq; by repeat constructor|]).
      exfalso. apply lookup_lt_Some in Ha. simpl in Ha. lia. }
    intros i r f Hr. split.
    + destruct i as [|[|[|i]]]; simplify_eq/=; intros Hf; repeat (apply elem_of_cons in Hf as [->|Hf]);
        try (by apply elem_of_nil in Hf); eexists _, _; (split; [split; reflexivity|]); lia.
    + intros (a & b & Hab%HF & Hor). destruct i as [|[|[|i]]]; simplify_eq/=;
      repeat (apply elem_of_cons in Hab as [?|Hab]); try (by apply elem_of_nil in Hab); simplify_eq;
      try (exfalso; lia); by repeat constructor.
Qed.

(** The function appends only to an empty vector: columns already present are
    reordered and split as well. *)
Theorem C25_append_refuted : ∃ (g : ugrid) gc sort (old cols : list (list nat)),
  grid_ok g [[0; 1]; [1; 2]; [3; 4]] ∧ std_sort (compare 1 1 gc) sort ∧
  extract_column g 1 1 gc sort old = Some cols ∧ take (length old) cols ≠ old.
Proof.
  exists stack, stack_gc, (isort (gindex stack_gc)), [[0; 1; 2]], [[1; 0]; [1; 0]; [2]; [2]].
  split; [exact C25_example_grid|]. split; [exact C25_sort_contract|].
  split; [vm_compute; reflexivity|]. done.
Qed.

Print Assumptions C25_extract.
Print Assumptions C25_consecutive.
Print Assumptions C25_connected.
Print Assumptions C25_append_refuted.
