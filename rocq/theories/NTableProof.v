(** Nonuniform tables: lemmas. *)
From Coq Require Import Reals Lra Psatz.
From Verif Require Import Base TableModel UTableProof.
Local Open Scope R_scope.

(** Strictly monotone: increasing for [s = 1], decreasing for [s = -1]. *)
Definition ordered (s : R) (l : list R) : Prop :=
  (s = 1 ∨ s = -1) ∧ ∀ i j a b, (i < j)%nat → l !! i = Some a → l !! j = Some b → s * a < s * b.
(** Weakly monotone. *)
Definition weakly (s : R) (l : list R) : Prop :=
  (s = 1 ∨ s = -1) ∧ ∀ i j a b, (i <= j)%nat → l !! i = Some a → l !! j = Some b → s * a <= s * b.

Section index.
  Context (table : list R) (x : R) (ascend : bool).
  Local Definition test (t : R) : bool := bool_decide ((if Rge_dec x t then true else false) = ascend).

  Lemma index_loop_spec fuel jl ju : (jl < ju)%nat → (ju < length table)%nat → (ju - jl <= fuel)%nat →
    ∃ i, index_loop fuel table x ascend jl ju = Some i ∧ (jl <= i)%nat ∧ (i < ju)%nat ∧
      (i = jl ∨ ∃ t, table !! i = Some t ∧ test t = true) ∧
      (S i = ju ∨ ∃ t, table !! S i = Some t ∧ test t = false).
  Proof using.
    revert jl ju. induction fuel as [|fuel IH]; intros jl ju H1 H2 H3; [lia|]. simpl.
    destruct (decide (1 < ju - jl)%nat) as [Hd|Hd].
    - assert (jl < (ju + jl) / 2)%nat as Hm1 by (apply Nat.div_le_lower_bound; lia).
      assert ((ju + jl) / 2 < ju)%nat as Hm2 by (apply Nat.div_lt_upper_bound; lia).
      change (fst (Nat.divmod (ju + jl) 1 0 1)) with ((ju + jl) / 2)%nat. set (jm := ((ju + jl) / 2)%nat) in *.
      assert (is_Some (table !! jm)) as [t Ht] by (apply lookup_lt_is_Some; lia). rewrite Ht.
      cbn [mbind option_bind]. fold (test t). destruct (test t) eqn:Et.
      + destruct (IH jm ju) as (i & E & Hi1 & Hi2 & Hl & Hu); [lia..|]. exists i. split_and!; try done; try lia.
        destruct Hl as [->|Hl]; right; [by exists t|done].
      + destruct (IH jl jm) as (i & E & Hi1 & Hi2 & Hl & Hu); [lia..|]. exists i. split_and!; try done; try lia.
        destruct Hu as [Hu|Hu]; right; [rewrite Hu; by exists t|done].
    - exists jl. split_and!; [done|lia|lia|by left|left; lia].
  Qed.
End index.

(** The interval found by tableIndex. *)
Lemma table_index_spec s table x fuel : ordered s table → (1 < length table)%nat → (length table <= fuel)%nat →
  ∃ i, table_index fuel table x = Some i ∧ (S i < length table)%nat ∧
    (i = 0%nat ∨ ∃ t, table !! i = Some t ∧ s * t <= s * x) ∧
    (S (S i) = length table ∨ ∃ t, table !! S i = Some t ∧ s * x <= s * t).
Proof.
  intros [Hs Ho] Hl Hf. unfold table_index. case_decide as Hn.
  - exists 0%nat. split_and!; [done|lia|by left|left; lia].
  - assert (is_Some (table !! (length table - 1)%nat)) as [tn En] by (apply lookup_lt_is_Some; lia).
    assert (is_Some (table !! 0%nat)) as [t0 E0] by (apply lookup_lt_is_Some; lia).
    rewrite En, E0. cbn [mbind option_bind].
    set (asc := if Rgt_dec tn t0 then true else false).
    assert (Hn0 := Ho 0%nat (length table - 1)%nat t0 tn ltac:(lia) E0 En).
    assert (HT : ∀ t, test x asc t = true → s * t <= s * x).
    { intros t Ht%bool_decide_eq_true. unfold asc in Ht. destruct (Rge_dec x t), (Rgt_dec tn t0), Hs as [->| ->]; try done; lra. }
    assert (HF : ∀ t, test x asc t = false → s * x <= s * t).
    { intros t Ht%bool_decide_eq_false. unfold asc in Ht. destruct (Rge_dec x t), (Rgt_dec tn t0), Hs as [->| ->]; try done; lra. }
    destruct (index_loop_spec table x asc fuel 0 (length table - 1)) as (i & E & _ & Hi & HL & HU); [lia..|].
    exists i. split_and!; [done|lia| |].
    + destruct HL as [->|(t & Ht & HL)]; [by left|right]. exists t. auto.
    + destruct HU as [HU|(t & Ht & HU)]; [left; lia|right]. exists t. auto.
Qed.

(** The line through two points. *)
Definition line (x0 y0 x1 y1 x : R) : R := y0 + (y1 - y0) * ((x - x0) / (x1 - x0)).

Lemma linear_of_index fuel xv yv x i x0 x1 y0 y1 :
  table_index fuel xv x = Some i → xv !! i = Some x0 → xv !! S i = Some x1 →
  yv !! i = Some y0 → yv !! S i = Some y1 → x0 ≠ x1 →
  linear_interpolation fuel xv yv x = Some (line x0 y0 x1 y1 x) ∧
  linear_derivative fuel xv yv x = Some ((y1 - y0) / (x1 - x0)).
Proof.
  intros Ei Ex0 Ex1 Ey0 Ey1 Hne. unfold linear_interpolation, linear_derivative. rewrite Ei. cbn [mbind option_bind].
  replace (i + 1)%nat with (S i) by lia. rewrite Ey1, Ey0, Ex1, Ex0. cbn [mbind option_bind].
  rewrite rdiv_Some by lra. cbn [mbind option_bind]. split; [|done]. f_equal. unfold line. field. lra.
Qed.

Lemma ordered_ne s l i j a b : ordered s l → i ≠ j → l !! i = Some a → l !! j = Some b → a ≠ b.
Proof.
  intros [Hs Ho] Hij Ha Hb. destruct (decide (i < j)%nat) as [H|H].
  - pose proof (Ho i j a b H Ha Hb). intros ->. lra.
  - pose proof (Ho j i b a ltac:(lia) Hb Ha). intros ->. lra.
Qed.
Lemma ordered_le s l i j a b : ordered s l → (i <= j)%nat → l !! i = Some a → l !! j = Some b → s * a <= s * b.
Proof.
  intros [Hs Ho] Hij Ha Hb. destruct (decide (i = j)) as [->|H].
  - simplify_eq. lra.
  - pose proof (Ho i j a b ltac:(lia) Ha Hb). lra.
Qed.
Lemma sign_inj s a b : (s = 1 ∨ s = -1) → s * a = s * b → a = b.
Proof. intros [->| ->]; lra. Qed.

(** The interpolant on every closed interval, whichever index is found. *)
Lemma interp_closed s xv yv fuel x i x0 x1 y0 y1 : ordered s xv → length yv = length xv → (length xv <= fuel)%nat →
  xv !! i = Some x0 → xv !! S i = Some x1 → yv !! i = Some y0 → yv !! S i = Some y1 →
  s * x0 <= s * x <= s * x1 →
  linear_interpolation fuel xv yv x = Some (line x0 y0 x1 y1 x).
Proof.
  intros O Hlen Hf Ex0 Ex1 Ey0 Ey1 [Hx0 Hx1]. pose proof O as [Hs Ho].
  assert (S i < length xv)%nat as Hi by (by eapply lookup_lt_Some).
  assert (Hne : x0 ≠ x1) by (eapply (ordered_ne s xv i (S i)); eauto).
  destruct (table_index_spec s xv x fuel O ltac:(lia) Hf) as (j & Ej & Hj & HL & HU).
  assert (is_Some (xv !! j)) as [a Ea] by (apply lookup_lt_is_Some; lia).
  assert (is_Some (xv !! S j)) as [b Eb] by (apply lookup_lt_is_Some; lia).
  assert (is_Some (yv !! j)) as [ya Eya] by (apply lookup_lt_is_Some; lia).
  assert (is_Some (yv !! S j)) as [yb Eyb] by (apply lookup_lt_is_Some; lia).
  assert (Hab : a ≠ b) by (eapply (ordered_ne s xv j (S j)); eauto).
  destruct (linear_of_index fuel xv yv x j a b ya yb Ej Ea Eb Eya Eyb Hab) as [-> _].
  destruct (decide (i = j)) as [<-|Hij]; [by simplify_eq|]. f_equal.
  destruct (decide (i < j)%nat) as [Hlt|Hge].
  - destruct HL as [->|(t & Et & HL)]; [lia|]. rewrite Ea in Et. injection Et as <-.
    pose proof (ordered_le s xv (S i) j x1 a O ltac:(lia) Ex1 Ea).
    assert (x1 = a) as <- by (apply (sign_inj s); [done|lra]).
    assert (x = x1) as -> by (apply (sign_inj s); [done|lra]).
    assert (S i = j) as <-. { destruct (decide (S i = j)); [done|]. exfalso. by eapply (ordered_ne s xv (S i) j). }
    simplify_eq. unfold line. field. lra.
  - destruct HU as [HU|(t & Et & HU)]; [lia|]. rewrite Eb in Et. injection Et as <-.
    pose proof (ordered_le s xv (S j) i b x0 O ltac:(lia) Eb Ex0).
    assert (x0 = b) as <- by (apply (sign_inj s); [done|lra]).
    assert (x = x0) as -> by (apply (sign_inj s); [done|lra]).
    assert (S j = i) as <-. { destruct (decide (S j = i)); [done|]. exfalso. by eapply (ordered_ne s xv (S j) i). }
    simplify_eq. unfold line. field. lra.
Qed.

(** Every argument in range is in a closed interval. *)
Lemma interval_of s xv x x0 xn : ordered s xv → (1 < length xv)%nat → head xv = Some x0 → last xv = Some xn →
  s * x0 <= s * x <= s * xn →
  ∃ i a b, xv !! i = Some a ∧ xv !! S i = Some b ∧ s * a <= s * x <= s * b.
Proof.
  intros O Hl H0 Hn Hx. destruct (table_index_spec s xv x (length xv) O Hl ltac:(lia)) as (j & Ej & Hj & HL & HU).
  assert (is_Some (xv !! j)) as [a Ea] by (apply lookup_lt_is_Some; lia).
  assert (is_Some (xv !! S j)) as [b Eb] by (apply lookup_lt_is_Some; lia).
  rewrite head_lookup in H0. rewrite last_lookup in Hn.
  exists j, a, b. split_and!; try done.
  - destruct HL as [->|(t & Et & HL)]; simplify_eq; lra.
  - destruct HU as [HU|(t & Et & HU)]; [|simplify_eq; lra]. replace (pred (length xv)) with (S j) in Hn by lia.
    simplify_eq. lra.
Qed.

(** nondecreasing test *)
Lemma is_nondecreasing_spec l : is_nondecreasing l = true ↔ weakly 1 l.
Proof.
  split.
  - intros H. split; [by left|]. induction l as [|x l IH]; intros i j a b Hij Ha Hb; [done|].
    assert (is_nondecreasing l = true ∧ ∀ y, head l = Some y → x <= y) as [Hl Hx].
    { destruct l as [|y l]; [done|]. simpl in H. destruct (Rlt_dec y x); [done|]. split; [done|].
      intros z [= <-]. lra. }
    destruct i as [|i].
    + simpl in Ha. simplify_eq. destruct j as [|j]; [simpl in Hb; simplify_eq; lra|]. simpl in Hb.
      destruct l as [|y l]; [done|]. pose proof (Hx y eq_refl). pose proof (IH Hl 0%nat j y b ltac:(lia) eq_refl Hb). lra.
    + destruct j as [|j]; [lia|]. apply (IH Hl i j); [lia|done|done].
  - intros [_ H]. induction l as [|x l IH]; [done|]. destruct l as [|y l]; [done|]. cbn [is_nondecreasing].
    destruct (Rlt_dec y x) as [Hlt|_].
    + pose proof (H 0%nat 1%nat x y ltac:(lia) eq_refl eq_refl). lra.
    + apply IH. intros i j a b Hij Ha Hb. apply (H (S i) (S j)); [lia|done|done].
Qed.
Lemma ordered_weakly s l : ordered s l → weakly s l.
Proof. intros O. split; [apply O|]. intros. by eapply ordered_le. Qed.
Lemma ordered_reverse s l : ordered s l → ordered (- s) (reverse l).
Proof.
  intros [Hs Ho]. split; [destruct Hs as [->| ->]; [right|left]; lra|].
  intros i j a b Hij Ha Hb. pose proof (lookup_lt_Some _ _ _ Hb) as Hl. rewrite reverse_length in Hl.
  rewrite reverse_lookup in Ha by lia. rewrite reverse_lookup in Hb by lia.
  pose proof (Ho (length l - S j)%nat (length l - S i)%nat b a ltac:(lia) Hb Ha). lra.
Qed.
