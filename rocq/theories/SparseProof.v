(** Proofs about SparseTable and SparseVector. *)
From Verif Require Import Base SparseModel SparseSpec.

Section proof.
Context {T : Type}.
Variable dflt : T.
Implicit Types (t : table T) (rows : list (list T)).

(** ** Row starts *)

Lemma psums_length acc l : length (psums acc l) = length l.
Proof. revert acc. induction l as [|x l IH]; intros acc; simpl; [done|]. by rewrite IH. Qed.

Lemma psums_lookup acc l i :
  i ≤ length l → (acc :: psums acc l) !! i = Some (acc + total (take i l))%Z.
Proof.
  revert acc i. induction l as [|x l IH]; intros acc [|i] Hi; simpl in *; try lia.
  - f_equal. lia.
  - f_equal. lia.
  - rewrite IH by lia. f_equal. lia.
Qed.

Lemma total_app l k : total (l ++ k) = (total l + total k)%Z.
Proof. induction l as [|x l IH]; simpl; [done|]. rewrite IH. lia. Qed.

Lemma zsum_total l : zsum l = total l.
Proof.
  unfold zsum. assert (∀ a, foldl Z.add a l = a + total l)%Z as H; [|by rewrite H].
  induction l as [|x l IH]; intros a; simpl; [lia|]. rewrite IH. lia.
Qed.

Lemma psums_last acc l d : List.last (acc :: psums acc l) d = (acc + total l)%Z.
Proof.
  revert acc d. induction l as [|x l IH]; intros acc d; [simpl; lia|].
  change (List.last ((acc + x)%Z :: psums (acc + x) l) d = acc + total (x :: l))%Z.
  rewrite IH. simpl. lia.
Qed.

Definition lens rows : list Z := (λ r, Z.of_nat (length r)) <$> rows.
Definition starts rows : list Z :=
  match rows with [] => [] | _ => 0%Z :: psums 0 (lens rows) end.

Record trel t rows : Prop := {
  tr_data : t_data t = concat rows;
  tr_rs : t_rs t = starts rows }.

Lemma total_lens rows : total (lens rows) = Z.of_nat (length (concat rows)).
Proof.
  induction rows as [|r rows IH]; [done|].
  change (lens (r :: rows)) with (Z.of_nat (length r) :: lens rows).
  cbn [concat total foldr]. unfold total in IH. rewrite app_length, IH. lia.
Qed.

Lemma starts_length rows : length (starts rows) = match rows with [] => 0 | _ => S (length rows) end.
Proof.
  destruct rows as [|r rows]; [done|]. unfold starts. simpl.
  rewrite psums_length. unfold lens. by rewrite fmap_length.
Qed.

Lemma starts_lookup rows i :
  rows ≠ [] → i ≤ length rows →
  starts rows !! i = Some (Z.of_nat (length (concat (take i rows)))).
Proof.
  intros Hne Hi. destruct rows as [|r rows]; [done|]. unfold starts.
  rewrite psums_lookup by (unfold lens; by rewrite fmap_length).
  unfold lens. rewrite <- fmap_take. fold (lens (take i (r :: rows))).
  rewrite total_lens. done.
Qed.

Lemma trel_size t rows : trel t rows → t_size t = Z.of_nat (length rows).
Proof.
  intros [_ H]. unfold t_size, t_empty. rewrite H, starts_length.
  destruct rows; simpl; [done|lia].
Qed.

Lemma concat_slice rows i r :
  rows !! i = Some r → slice (concat rows) (length (concat (take i rows))) (length r) = Some r.
Proof.
  intros Hi. assert (concat rows = concat (take i rows) ++ r ++ concat (drop (S i) rows)) as ->.
  { rewrite <- (take_drop_middle rows i r Hi) at 1. rewrite List.concat_app. done. }
  apply slice_pointwise; [done|]. intros k Hk.
  rewrite lookup_app_r by lia. rewrite lookup_app_l by lia. f_equal. lia.
Qed.

Lemma concat_take_S rows i r :
  rows !! i = Some r → length (concat (take (S i) rows)) = length (concat (take i rows)) + length r.
Proof.
  intros Hi. rewrite (take_S_r _ _ _ Hi), List.concat_app, app_length. simpl.
  by rewrite app_nil_r.
Qed.

Lemma trel_row t rows i r : trel t rows → rows !! i = Some r → t_row t (Z.of_nat i) = Some r.
Proof.
  intros H Hi. pose proof (lookup_lt_Some _ _ _ Hi) as Hlt. unfold t_row.
  rewrite (trel_size t rows H). rewrite decide_True by lia.
  destruct H as [Hd Hs]. rewrite Hs, Hd.
  assert (rows ≠ []) by (intros ->; simpl in *; lia).
  replace (Z.to_nat (Z.of_nat i)) with i by lia.
  replace (Z.to_nat (Z.of_nat i + 1)) with (S i) by lia.
  rewrite !starts_lookup by (done || lia). simpl.
  rewrite (concat_take_S _ _ _ Hi). rewrite decide_True by lia.
  replace (Z.to_nat (Z.of_nat (length (concat (take i rows)) + length r) -
      Z.of_nat (length (concat (take i rows))))) with (length r) by lia.
  rewrite Nat2Z.id. by apply concat_slice.
Qed.

Lemma trel_rowSize t rows i r :
  trel t rows → rows !! i = Some r → t_rowSize t (Z.of_nat i) = Some (Z.of_nat (length r)).
Proof.
  intros H Hi. pose proof (lookup_lt_Some _ _ _ Hi) as Hlt. unfold t_rowSize.
  rewrite (trel_size t rows H). rewrite decide_True by lia.
  destruct H as [Hd Hs]. rewrite Hs.
  assert (rows ≠ []) by (intros ->; simpl in *; lia).
  replace (Z.to_nat (Z.of_nat i)) with i by lia.
  replace (Z.to_nat (Z.of_nat i + 1)) with (S i) by lia.
  rewrite !starts_lookup by (done || lia). simpl.
  rewrite (concat_take_S _ _ _ Hi). f_equal. lia.
Qed.

Lemma mapM_seq_Some {A} (f : nat → option A) n (l : list A) :
  length l = n → (∀ i x, l !! i = Some x → f i = Some x) → mapM f (seq 0 n) = Some l.
Proof.
  intros Hn Hf. apply mapM_Some_2. apply Forall2_lookup. intros i.
  destruct (decide (i < n)) as [Hi|Hi].
  - rewrite lookup_seq_lt by done. simpl.
    destruct (lookup_lt_is_Some_2 l i) as [x Hx]; [lia|]. rewrite Hx.
    constructor. by apply Hf.
  - rewrite lookup_seq_ge by lia. rewrite lookup_ge_None_2 by lia. constructor.
Qed.

Lemma trel_view t rows : trel t rows → t_view t = Some rows.
Proof.
  intros H. unfold t_view. apply mapM_seq_Some.
  - rewrite (trel_size t rows H). lia.
  - intros i r. by apply trel_row.
Qed.

Lemma trel_unique t rows rows' : trel t rows → trel t rows' → rows = rows'.
Proof. intros H1 H2. apply trel_view in H1, H2. congruence. Qed.

(** ** Operations *)

Lemma cut_lens sizes (l : list T) :
  Forall (λ n, 0 ≤ n)%Z sizes → total sizes = Z.of_nat (length l) → lens (cut sizes l) = sizes.
Proof.
  intros Hf. revert l. induction Hf as [|n sizes Hn Hf IH]; intros l Ht; simpl in *; [done|].
  assert (0 ≤ total sizes)%Z as Hge.
  { clear -Hf. induction Hf; simpl; lia. }
  f_equal.
  - rewrite take_length. lia.
  - apply IH. rewrite drop_length. lia.
Qed.

Lemma cut_concat sizes (l : list T) :
  Forall (λ n, 0 ≤ n)%Z sizes → total sizes = Z.of_nat (length l) → concat (cut sizes l) = l.
Proof.
  intros Hf. revert l. induction Hf as [|n sizes Hn Hf IH]; intros l Ht; simpl in *.
  - by destruct l.
  - assert (0 ≤ total sizes)%Z as Hge.
    { clear -Hf. induction Hf; simpl; lia. }
    rewrite IH; [by rewrite take_drop|]. rewrite drop_length. lia.
Qed.

Lemma set_row_starts_correct debug sizes t :
  (debug = true ∨ Forall (λ n, 0 ≤ n)%Z sizes) →
  ∃ ok t', set_row_starts debug sizes t = (ok, t') ∧
    (ok = true ↔ sizes ≠ [] ∧ Forall (λ n, 0 ≤ n)%Z sizes ∧ total sizes = Z.of_nat (length (t_data t))) ∧
    (ok = true → trel t' (cut sizes (t_data t))).
Proof.
  intros Hv. unfold set_row_starts. case_decide as Hl.
  { eexists _, _. split; [done|]. split; [|done]. split; [done|]. intros [Hne _].
    destruct sizes; simpl in Hl; [done|lia]. }
  assert (sizes ≠ []) as Hne by (intros ->; simpl in Hl; lia).
  destruct (debug && bool_decide (Exists (λ x, (x < 0)%Z) sizes)) eqn:E.
  { apply andb_true_iff in E as [_ E]. apply bool_decide_eq_true in E.
    eexists _, _. split; [done|]. split; [|done]. split; [done|]. intros (_ & Hf & _).
    apply Exists_exists in E as (x & Hx & Hlt). rewrite Forall_forall in Hf.
    specialize (Hf x Hx). lia. }
  assert (Forall (λ n, 0 ≤ n)%Z sizes) as Hf.
  { destruct Hv as [->|]; [|done]. simpl in E. apply bool_decide_eq_false in E.
    apply Forall_forall. intros x Hx. destruct (decide (0 ≤ x)%Z); [done|]. exfalso. apply E.
    apply Exists_exists. exists x. split; [done|lia]. }
  rewrite psums_last. simpl.
  eexists _, _. split; [done|]. rewrite bool_decide_eq_true. split.
  - split; [intros Hx; split_and!; try done; lia|]. intros (_ & _ & ->). lia.
  - intros Ht. assert (total sizes = Z.of_nat (length (t_data t))) as Ht' by lia. split; simpl.
    + by rewrite cut_concat.
    + unfold starts. destruct (cut sizes (t_data t)) eqn:Ec; [destruct sizes; done|].
      rewrite <- Ec. by rewrite cut_lens.
Qed.

Lemma top_step_correct debug p t rows :
  trel t rows → top_valid debug p →
  ∃ ok t', top_step dflt debug p t = (ok, t') ∧
    (ok = false ↔ top_spec dflt p rows = None) ∧
    (∀ rows', top_spec dflt p rows = Some rows' → trel t' rows').
Proof.
  intros HR Hv. destruct p as [data sizes|sizes|row|]; simpl in *.
  - unfold assign.
    destruct (set_row_starts_correct debug sizes (Table data (t_rs t)) Hv) as (ok & t' & -> & H1 & H2).
    simpl in *. exists ok, t'. split; [done|]. case_decide as Hd.
    + assert (ok = true) as -> by (by apply H1). split; [done|]. intros rows' [= <-]. by apply H2.
    + split; [|done]. split; [done|]. intros _. destruct ok; [|done]. exfalso. by apply Hd, H1.
  - unfold allocate. rewrite zsum_total. case_decide as Hn.
    { exists false, t. split; [done|]. rewrite decide_False; [done|]. intros [_ Hf].
      assert (0 ≤ total sizes)%Z; [|lia]. clear -Hf. induction Hf; simpl; lia. }
    destruct HR as [Hd Hs]. rewrite Hd.
    destruct (set_row_starts_correct debug sizes
       (Table (resize (Z.to_nat (total sizes)) dflt (concat rows)) (t_rs t)) Hv) as (ok & t' & -> & H1 & H2).
    simpl in *. rewrite resize_length in H1. exists ok, t'. split; [done|]. case_decide as Hc.
    + assert (ok = true) as ->. { apply H1. destruct Hc. split; [done|]. split; [done|]. lia. }
      split; [done|]. intros rows' [= <-]. by apply H2.
    + split; [|done]. split; [done|]. intros _. destruct ok; [|done]. exfalso.
      apply Hc. by destruct H1 as [(?&?&?) _].
  - eexists _, _. split; [done|]. split; [done|]. intros rows' [= <-].
    destruct HR as [Hd Hs]. unfold append_row. rewrite Hd, Hs. split; simpl.
    + rewrite List.concat_app. simpl. by rewrite app_nil_r.
    + destruct rows as [|r rows].
      * simpl. done.
      * unfold starts. rewrite <- app_comm_cons. simpl. f_equal.
        unfold lens. rewrite fmap_app. simpl.
        assert (∀ l acc k, psums acc (l ++ [k]) = psums acc l ++ [acc + total l + k]%Z) as Hp.
        { induction l as [|x l IH]; intros acc k; simpl; [f_equal; lia|].
          f_equal. rewrite IH. do 2 f_equal. lia. }
        rewrite Hp. f_equal. f_equal. fold (lens rows). rewrite total_lens, !app_length.
       f_equal. lia.
  - eexists _, _. split; [done|]. split; [done|]. intros rows' [= <-]. by split.
Qed.

Lemma t_reach_rel debug t rows : t_reach dflt debug t rows → trel t rows.
Proof.
  induction 1 as [|data sizes t rows Hv E Hs|t rows p t' rows' _ IH Hv E Hs].
  - by split.
  - unfold construct in E.
    destruct (top_step_correct debug (TAssign data sizes) empty_table [] ltac:(by split) Hv)
      as (ok & t1 & E1 & _ & H2). simpl in E1. rewrite E1 in E. destruct ok; [|done].
    simplify_eq. by apply H2.
  - destruct (top_step_correct debug p t rows IH Hv) as (ok & t1 & E1 & _ & H2).
    rewrite E in E1. simplify_eq. by apply H2.
Qed.

Lemma trel_eq `{EqDecision T} s t rows1 rows2 :
  trel s rows1 → trel t rows2 → t_eq s t = true ↔ rows1 = rows2.
Proof.
  intros H1 H2. unfold t_eq. rewrite andb_true_iff, !bool_decide_eq_true. split.
  - intros [Hd Hr]. apply (trel_unique t); [|done]. destruct H1. split; congruence.
  - intros <-. destruct H1, H2. split; congruence.
Qed.

Lemma trel_row_None t rows i :
  trel t rows → t_row t i = None ↔ ¬ (0 ≤ i < t_size t)%Z.
Proof.
  intros H. split.
  - intros Hn Hi. rewrite (trel_size t rows H) in Hi.
    destruct (lookup_lt_is_Some_2 rows (Z.to_nat i)) as [r Hr]; [lia|].
    pose proof (trel_row t rows _ r H Hr) as E. rewrite Z2Nat.id in E by lia. congruence.
  - intros Hn. unfold t_row. rewrite decide_False; [done|]. lia.
Qed.

(** ** SparseVector *)

Lemma lb_loop_correct fuel l x first len :
  increasing l → len < fuel → first + len ≤ length l →
  (∀ i y, i < first → l !! i = Some y → (y < x)%Z) →
  (∀ i y, first + len ≤ i → l !! i = Some y → (x ≤ y)%Z) →
  ∃ r, lb_loop fuel l x first len = Some r ∧ r ≤ length l ∧
    (∀ i y, i < r → l !! i = Some y → (y < x)%Z) ∧
    (∀ i y, r ≤ i → l !! i = Some y → (x ≤ y)%Z).
Proof.
  intros Hs. revert first len. induction fuel as [|fuel IH]; intros first len Hf Hl Hlo Hhi; [lia|].
  cbn [lb_loop]. case_decide as Hd.
  - pose proof (Nat.lt_div2 len Hd) as Hdiv. set (half := Nat.div2 len) in *.
    destruct (lookup_lt_is_Some_2 l (first + half)) as [y Hy]; [lia|]. rewrite Hy. simpl.
    case_decide as Hyx.
    + apply IH; [lia|lia| |].
      * intros i z Hi Hz. destruct (decide (i = first + half)) as [->|Hne]; [congruence|].
        specialize (Hs i (first + half) z y ltac:(lia) Hz Hy). lia.
      * intros i z Hi Hz. apply (Hhi i); [lia|done].
    + apply IH; [lia|lia|done|].
      intros i z Hi Hz. destruct (decide (i = first + half)) as [->|Hne]; [simplify_eq; lia|].
      specialize (Hs (first + half) i y z ltac:(lia) Hy Hz). lia.
  - assert (len = 0) as -> by lia. rewrite Nat.add_0_r in *. eauto.
Qed.

Record vrel (v : svec T) (sz : Z) (l : list (Z * T)) : Prop := {
  vr_size : v_size v = sz;
  vr_idx : v_idx v = l.*1;
  vr_data : v_data v = l.*2;
  vr_sorted : increasing l.*1;
  vr_lt : Forall (λ p, p.1 < sz)%Z l }.

Lemma sorted_snoc l i :
  increasing l → (∀ x, list.last l = Some x → (x < i)%Z) → increasing (l ++ [i]).
Proof.
  intros Hs Hl a b x y Hab Ha Hb.
  destruct (decide (b < length l)) as [Hlt|Hge].
  - rewrite lookup_app_l in Ha, Hb by lia. eapply (Hs a b); eauto.
  - pose proof (lookup_lt_Some _ _ _ Hb) as Hb'. rewrite app_length in Hb'. simpl in Hb'.
    rewrite lookup_app_r in Hb by lia. replace (b - length l) with 0 in Hb by lia. simplify_eq/=.
    rewrite lookup_app_l in Ha by lia.
    destruct (decide (a = length l - 1)) as [->|Hne].
    + apply Hl. rewrite last_lookup. by replace (pred (length l)) with (length l - 1) by lia.
    + destruct (list.last l) as [z|] eqn:Ez.
      * specialize (Hl z eq_refl). rewrite last_lookup in Ez.
        specialize (Hs a (pred (length l)) x z ltac:(lia) Ha Ez). lia.
      * apply last_None in Ez as ->. by rewrite lookup_nil in Ha.
Qed.

Lemma sorted_snoc_inv l i :
  increasing (l ++ [i]) → increasing l ∧ (∀ x, list.last l = Some x → (x < i)%Z).
Proof.
  intros Hs. split.
  - intros a b x y Hab Ha Hb. apply (Hs a b x y Hab); rewrite lookup_app_l; try done;
      by eapply lookup_lt_Some.
  - intros x Hx. rewrite last_lookup in Hx. pose proof (lookup_lt_Some _ _ _ Hx).
    apply (Hs (pred (length l)) (length l) x i); [lia| |].
    + by rewrite lookup_app_l.
    + rewrite lookup_app_r by done. by rewrite Nat.sub_diag.
Qed.

Lemma sv_add_correct v sz l i x :
  vrel v sz l →
  (∃ v', sv_add x i v = Some v' ∧ vrel v' sz (l ++ [(i, x)])) ∨
  (sv_add x i v = None ∧ ¬ (increasing (l ++ [(i, x)]).*1 ∧ (i < sz)%Z)).
Proof.
  intros [H1 H2 H3 H4 H5]. unfold sv_add. rewrite H2, H1.
  destruct (list.last l.*1) as [y|] eqn:El.
  - destruct (bool_decide (y < i)%Z) eqn:Eb.
    + apply bool_decide_eq_true in Eb. case_decide as Hi.
      * left. eexists. split; [done|]. split; cbn [v_size v_idx v_data]; try done.
        -- rewrite fmap_app. done.
        -- rewrite H3, fmap_app. done.
        -- rewrite fmap_app. apply sorted_snoc; [done|]. intros z Hz. rewrite El in Hz. by simplify_eq.
        -- apply Forall_app. split; [done|]. apply Forall_singleton. done.
      * right. split; [done|]. intros [_ ?]. done.
    + right. split; [done|]. apply bool_decide_eq_false in Eb. intros [Hs _].
      rewrite fmap_app in Hs. apply sorted_snoc_inv in Hs as [_ Hl]. specialize (Hl y El). done.
  - case_decide as Hi.
    + left. eexists. split; [done|]. split; cbn [v_size v_idx v_data]; try done.
      * rewrite fmap_app. done.
      * rewrite H3, fmap_app. done.
      * rewrite fmap_app. apply sorted_snoc; [done|]. intros z Hz. rewrite El in Hz. by simplify_eq.
      * apply Forall_app. split; [done|]. apply Forall_singleton. done.
    + right. split; [done|]. intros [_ ?]. done.
Qed.

Lemma sorted_prefix l k : increasing (l ++ k) → increasing l.
Proof.
  intros Hs a b x y Hab Ha Hb. apply (Hs a b x y Hab); rewrite lookup_app_l; try done;
    by eapply lookup_lt_Some.
Qed.

Lemma sv_adds_correct l v sz l0 :
  vrel v sz l0 →
  (increasing (l0 ++ l).*1 ∧ Forall (λ p, p.1 < sz)%Z l ∧
     ∃ v', sv_adds l v = Some v' ∧ vrel v' sz (l0 ++ l)) ∨
  (¬ (increasing (l0 ++ l).*1 ∧ Forall (λ p, p.1 < sz)%Z l) ∧ sv_adds l v = None).
Proof.
  revert v l0. induction l as [|[i x] l IH]; intros v l0 HR; simpl.
  - left. rewrite app_nil_r. split; [apply HR|]. split; [constructor|]. eauto.
  - destruct (sv_add_correct v sz l0 i x HR) as [(v1 & -> & HR1)|[-> Hn]]; simpl.
    + destruct (IH v1 _ HR1) as [(Hs & Hf & v' & E & HR')|[Hn E]].
      * left. rewrite <- app_assoc in *. split; [done|]. split; [|eauto]. constructor; [|done].
        pose proof (vr_lt _ _ _ HR1) as Hlt. rewrite Forall_app, Forall_singleton in Hlt. apply Hlt.
      * right. rewrite <- app_assoc in Hn. split; [|done]. intros [Hs Hf]. apply Hn. split; [done|].
        by inversion Hf.
    + right. split; [|done]. intros [Hs Hf]. apply Hn. split.
      * replace (l0 ++ (i, x) :: l) with ((l0 ++ [(i, x)]) ++ l) in Hs by (by rewrite <- app_assoc).
        rewrite fmap_app in Hs. by apply sorted_prefix in Hs.
      * by inversion Hf.
Qed.

Lemma sv_check_correct last sz idx :
  sv_check last sz idx = true ↔ increasing (last :: idx) ∧ Forall (λ i, i < sz)%Z idx.
Proof.
  revert last. induction idx as [|i idx IH]; intros last; simpl.
  - split; [|done]. intros _. split; [|constructor]. intros a b x y Hab Ha Hb.
    destruct b as [|[]]; simpl in *; try done; lia.
  - rewrite andb_true_iff, IH, negb_true_iff, orb_false_iff, !bool_decide_eq_false. split.
    + intros [[H1 H2] [H3 H4]]. split; [|constructor; [lia|done]].
      intros a b x y Hab Ha Hb. destruct a as [|a].
      * simpl in Ha. simplify_eq. destruct b as [|[|b]]; simpl in Hb; [lia|simplify_eq; lia|].
        specialize (H3 0 (S b) i y ltac:(lia) eq_refl Hb). lia.
      * destruct b as [|b]; [lia|]. apply (H3 a b); [lia|done|done].
    + intros [Hs Hf]. inversion Hf; subst. split; [|split; [|done]].
      * split; [|lia]. specialize (Hs 0 1 last i ltac:(lia) eq_refl eq_refl). lia.
      * intros a b x y Hab Ha Hb. apply (Hs (S a) (S b)); [lia|done|done].
Qed.

Lemma stored_lookup (l : list (Z * T)) k i x :
  increasing l.*1 → l !! k = Some (i, x) → stored l i = Some x.
Proof.
  intros Hs Hk. unfold stored.
  assert (list_find (λ p : Z * T, p.1 = i) l = Some (k, (i, x))) as ->; [|done].
  apply list_find_Some. split; [done|]. split; [done|]. intros j [i' y] Hj Hlt. simpl. intros ->.
  assert (i < i)%Z; [|lia]. eapply (Hs j k); [done| |].
  - rewrite list_lookup_fmap, Hj. done.
  - rewrite list_lookup_fmap, Hk. done.
Qed.

Lemma stored_None (l : list (Z * T)) i : (∀ k x, l !! k ≠ Some (i, x)) → stored l i = None.
Proof.
  intros H. unfold stored. destruct (list_find _ l) as [[k [i' x]]|] eqn:E; [|done].
  apply list_find_Some in E as (E & Hi & _). simpl in *. subst. by destruct (H k x).
Qed.

Lemma vrel_element v sz l i :
  vrel v sz l → (0 ≤ i < sz)%Z → sv_element dflt v i = Some (default dflt (stored l i)).
Proof.
  intros [H1 H2 H3 H4 H5] Hi. unfold sv_element. rewrite H1. rewrite decide_True by lia.
  rewrite H2. unfold lower_bound.
  destruct (lb_loop_correct (S (length l.*1)) l.*1 i 0 (length l.*1) H4) as (r & -> & Hr & Hlo & Hhi);
    [lia|lia|intros; lia| |].
  { intros j y Hj Hy. apply lookup_lt_Some in Hy. lia. }
  simpl. case_decide as Hlt.
  - destruct (lookup_lt_is_Some_2 l.*1 r Hlt) as [y Hy]. rewrite Hy. simpl.
    rewrite list_lookup_fmap in Hy. destruct (l !! r) as [[i' x]|] eqn:Er; [|done].
    simpl in Hy. simplify_eq. case_decide as Hc.
    + subst. rewrite H3, list_lookup_fmap, Er. simpl. by rewrite (stored_lookup l r i x).
    + rewrite stored_None; [done|]. intros k x' Hk.
      destruct (decide (k < r)) as [Hkr|Hkr].
      * specialize (Hlo k i Hkr). rewrite list_lookup_fmap, Hk in Hlo. specialize (Hlo eq_refl). lia.
      * assert (k ≠ r) by congruence.
        assert (y < i)%Z.
        { eapply (H4 r k); [lia| |]; rewrite list_lookup_fmap, ?Er, ?Hk; done. }
        specialize (Hhi r y ltac:(lia)). rewrite list_lookup_fmap, Er in Hhi.
        specialize (Hhi eq_refl). lia.
  - rewrite stored_None; [done|]. intros k x' Hk.
    assert (k < r) as Hkr. { apply lookup_lt_Some in Hk. rewrite fmap_length in Hlt, Hr. lia. }
    specialize (Hlo k i Hkr). rewrite list_lookup_fmap, Hk in Hlo. specialize (Hlo eq_refl). lia.
Qed.
End proof.
