(** Theorems about SparseTable (C04) and SparseVector (C05). *)
From Verif Require Import Base SparseModel SparseSpec SparseProof.

Section props.
Context {T : Type}.
Variable dflt : T.

(** C04.  Every operation throws exactly when the requested shape is impossible,
    and otherwise produces the rows its documentation describes. *)
Theorem C04_step debug t rows p :
  t_reach dflt debug t rows → top_valid debug p →
  ∃ ok t', top_step dflt debug p t = (ok, t') ∧
    (ok = false ↔ top_spec dflt p rows = None) ∧
    (∀ rows', top_spec dflt p rows = Some rows' → t_reach dflt debug t' rows').
Proof.
  intros H Hv. destruct (top_step_correct dflt debug p t rows (t_reach_rel _ _ _ _ H) Hv)
    as (ok & t' & E & H1 & H2).
  exists ok, t'. split; [done|]. split; [done|]. intros rows' Hr.
  eapply tr_step; [done..| |done]. rewrite E. f_equal. destruct ok; [done|].
  rewrite (proj1 H1 eq_refl) in Hr. done.
Qed.

(** C04.  After any history the public accessors describe exactly the rows. *)
Theorem C04_observers debug t rows :
  t_reach dflt debug t rows →
  t_view t = Some rows ∧ t_size t = Z.of_nat (length rows) ∧
  t_empty t = bool_decide (rows = []) ∧
  t_dataSize t = Z.of_nat (length (concat rows)) ∧
  (∀ i r, rows !! i = Some r →
     t_row t (Z.of_nat i) = Some r ∧ t_rowSize t (Z.of_nat i) = Some (Z.of_nat (length r))).
Proof.
  intros H. apply t_reach_rel in H. split; [by apply trel_view|]. split; [by apply trel_size|].
  split; [|split].
  - unfold t_empty. rewrite (tr_rs _ _ H). destruct rows; done.
  - unfold t_dataSize. by rewrite (tr_data _ _ H).
  - intros i r Hi. split; [by eapply trel_row|by eapply trel_rowSize].
Qed.

(** C04.  Indexing outside [0, size) is the only undefined access. *)
Theorem C04_bounds debug t rows i :
  t_reach dflt debug t rows → t_row t i = None ↔ ¬ (0 ≤ i < t_size t)%Z.
Proof. intros H. eapply trel_row_None. by eapply t_reach_rel. Qed.

(** C04.  operator== compares the represented rows. *)
Theorem C04_equality `{EqDecision T} debug s t rows1 rows2 :
  t_reach dflt debug s rows1 → t_reach dflt debug t rows2 → t_eq s t = true ↔ rows1 = rows2.
Proof. intros H1 H2. apply trel_eq; by eapply t_reach_rel. Qed.

(** C05.  Adding elements is accepted exactly for strictly increasing indices
    below the size; afterwards element access, counting and enumeration agree
    with the list of added pairs. *)
Theorem C05_add_accepts sz (l : list (Z * T)) :
  is_Some (sv_adds l (sv_new sz)) ↔ increasing l.*1 ∧ Forall (λ p, p.1 < sz)%Z l.
Proof.
  destruct (sv_adds_correct l (sv_new sz) sz []) as [(Hs & Hf & v' & -> & _)|[Hn ->]].
  - split; simpl; done.
  - simpl in Hs. split; [done|eauto].
  - simpl in Hn. split; [intros [? ?]; done|done].
Qed.

Theorem C05_element sz (l : list (Z * T)) v :
  sv_adds l (sv_new sz) = Some v →
  v_size v = sz ∧ sv_nnz v = Z.of_nat (length l) ∧
  (∀ i, (0 ≤ i < sz)%Z → sv_element dflt v i = Some (default dflt (stored l i))) ∧
  (∀ k i x, l !! k = Some (i, x) →
     sv_nzelem v (Z.of_nat k) = Some x ∧ sv_nzidx v (Z.of_nat k) = Some i).
Proof.
  intros E. destruct (sv_adds_correct l (sv_new sz) sz []) as [(_ & _ & v' & E' & HR)|[_ E']].
  - split; simpl; done.
  - rewrite E in E'. simplify_eq. simpl in HR. split; [apply HR|].
    assert (sv_nnz v' = Z.of_nat (length l)) as Hnnz.
    { unfold sv_nnz. by rewrite (vr_data _ _ _ HR), fmap_length. }
    split; [done|]. split; [intros i Hi; by eapply vrel_element|].
    intros k i x Hk. unfold sv_nzelem, sv_nzidx. rewrite Hnnz.
    pose proof (lookup_lt_Some _ _ _ Hk). rewrite !decide_True by lia. rewrite Nat2Z.id.
    rewrite (vr_data _ _ _ HR), (vr_idx _ _ _ HR), !list_lookup_fmap, Hk. done.
  - congruence.
Qed.

(** C05.  The range constructor (debug build) accepts exactly the admissible data
    and yields the same vector as adding the elements one by one. *)
Theorem C05_construct sz (l : list (Z * T)) :
  (0 ≤ sz)%Z →
  (is_Some (sv_construct sz l.*2 l.*1) ↔
     increasing l.*1 ∧ Forall (λ i, 0 ≤ i < sz)%Z l.*1) ∧
  (∀ v, sv_construct sz l.*2 l.*1 = Some v → sv_adds l (sv_new sz) = Some v).
Proof.
  intros Hsz. unfold sv_construct. rewrite decide_True by (rewrite !fmap_length; lia).
  destruct (sv_check (-1) sz l.*1) eqn:E.
  - apply sv_check_correct in E as [Hs Hf].
    assert (increasing l.*1) as Hs'.
    { intros a b x y Hab Ha Hb. apply (Hs (S a) (S b)); [lia|done|done]. }
    assert (Forall (λ i, 0 ≤ i < sz)%Z l.*1) as Hf'.
    { apply Forall_lookup. intros i x Hi. rewrite Forall_lookup in Hf. specialize (Hf i x Hi).
      specialize (Hs 0 (S i) (-1)%Z x ltac:(lia) eq_refl Hi). lia. }
    split; [split; [done|eauto]|]. intros v [= <-].
    destruct (sv_adds_correct l (sv_new sz) sz []) as [(_ & _ & v' & E' & HR)|[Hn _]].
    + split; simpl; done.
    + rewrite E'. simpl in HR. destruct v' as [a b c], HR; simpl in *. by subst.
    + exfalso. apply Hn. split; [done|]. rewrite Forall_fmap in Hf.
      eapply Forall_impl; [exact Hf|]. done.
  - split; [|done]. split; [intros [? ?]; done|]. intros [Hs Hf]. exfalso.
    apply not_true_iff_false in E. apply E. apply sv_check_correct. split.
    + intros a b x y Hab Ha Hb. destruct a as [|a].
      * simpl in Ha. simplify_eq. destruct b as [|b]; [lia|]. simpl in Hb.
        rewrite Forall_lookup in Hf. specialize (Hf b y Hb). simpl in Hf. lia.
      * destruct b as [|b]; [lia|]. apply (Hs a b); [lia|done|done].
    + eapply Forall_impl; [exact Hf|]. simpl. lia.
Qed.
End props.
Print Assumptions C04_step.
Print Assumptions C04_observers.
Print Assumptions C04_bounds.
Print Assumptions C04_equality.
Print Assumptions C05_add_accepts.
Print Assumptions C05_element.
Print Assumptions C05_construct.

(** ** Concrete cases *)

(** A reachable table with an empty row in the middle. *)
Example C04_case :
  ∃ t, t_reach 0%Z true t [[1;2]; []; [3;4;5]; [9]]%Z ∧
       t_row t 2 = Some [3;4;5]%Z ∧ t_row t 1 = Some [] ∧ t_row t 4 = None.
Proof.
  eexists. split.
  { eapply (tr_step _ _ _ _ (TAppend [9]%Z)); [|done|done|].
    - eapply (tr_construct _ _ [1;2;3;4;5]%Z [2;0;3]%Z); [by left|reflexivity|reflexivity].
    - reflexivity. }
  done.
Qed.

(** C04 as a strong guarantee fails: an assign that throws has already replaced
    the data, and the table is left with rows that do not exist. *)
Theorem C04_assign_throws_refuted :
  ∃ t rows p t', t_reach 0%Z true t rows ∧ top_valid true p ∧
    top_step 0%Z true p t = (false, t') ∧
    (0 ≤ 0 < t_size t')%Z ∧ t_row t' 0 = None.
Proof.
  exists empty_table, [], (TAssign [1;2]%Z [3]%Z), (Table [1;2]%Z [0;3]%Z).
  split; [constructor|]. split; [by left|]. done.
Qed.

(** The hypotheses of the vector theorems are met with gaps at both ends. *)
Example C05_case :
  ∃ v, sv_adds [(1, 10); (4, 40); (6, 60)]%Z (sv_new 9) = Some v ∧
    (λ i, sv_element 0%Z v (Z.of_nat i)) <$> seq 0 9 = Some <$> [0;10;0;0;40;0;60;0;0]%Z.
Proof. eexists. split; [reflexivity|]. vm_compute. reflexivity. Qed.
Print Assumptions C04_assign_throws_refuted.
