(** Lemmas about the monotone cubic interpolator. *)
From Coq Require Import Reals Lra Psatz.
From Verif Require Import Base TableModel UTableProof MonoModel.
Local Open Scope R_scope.

(** ** Maps *)
Definition keys (m : rmap) : list R := m.*1.
(** strictly ordered *)
Definition inorder (l : list R) : Prop := ∀ i a b, l !! i = Some a → l !! S i = Some b → a < b.

Lemma inorder_lt l i j a b : inorder l → (i < j)%nat → l !! i = Some a → l !! j = Some b → a < b.
Proof.
  intros Hl Hij. revert b. induction Hij as [|j Hij IH]; intros b Ha Hb; [by eapply Hl|].
  destruct (l !! j) as [c|] eqn:Hc.
  - apply Rlt_trans with c; [by apply IH|by eapply Hl].
  - apply lookup_ge_None in Hc. apply lookup_lt_Some in Hb. lia.
Qed.
Lemma inorder_inj l i j a : inorder l → l !! i = Some a → l !! j = Some a → i = j.
Proof.
  intros Hl Hi Hj. destruct (lt_eq_lt_dec i j) as [[H|H]|H]; [|done|].
  - pose proof (inorder_lt l i j a a Hl H Hi Hj). lra.
  - pose proof (inorder_lt l j i a a Hl H Hj Hi). lra.
Qed.
Lemma inorder_NoDup l : inorder l → NoDup l.
Proof. intros Hl. apply NoDup_alt. intros i j x. by apply inorder_inj. Qed.
Lemma inorder_tail x l : inorder (x :: l) → inorder l.
Proof. intros H i a b Ha Hb. by apply (H (S i)). Qed.
Lemma inorder_cons x l : inorder l → (∀ y, head l = Some y → x < y) → inorder (x :: l).
Proof.
  intros Hl Hh [|i] a b Ha Hb; [|by eapply Hl]. simpl in Ha, Hb. injection Ha as <-. apply Hh. by rewrite head_lookup.
Qed.
Lemma inorder_head_lt x l y : inorder (x :: l) → y ∈ l → x < y.
Proof. intros H [i Hi]%elem_of_list_lookup. by apply (inorder_lt _ 0 (S i) x y H); [lia| |]. Qed.

Lemma mset_keys_head m k v : head (keys (mset m k v)) =
  Some (match head (keys m) with Some a => if Rlt_dec a k then a else k | None => k end).
Proof.
  destruct m as [|[a b] m]; [done|]. simpl. destruct (Rlt_dec k a), (Req_EM_T k a), (Rlt_dec a k); simpl; try done; try lra; f_equal; lra.
Qed.
Lemma mset_inorder m k v : inorder (keys m) → inorder (keys (mset m k v)).
Proof.
  induction m as [|[a b] m IH]; intros Hm.
  - intros [|i] x y Hx Hy; done.
  - simpl. destruct (Rlt_dec k a); [|destruct (Req_EM_T k a)].
    + apply inorder_cons; [done|]. intros y [= <-]. done.
    + simpl in *. by subst a.
    + change (keys ((a, b) :: mset m k v)) with (a :: keys (mset m k v)). apply inorder_cons.
      * apply IH. by eapply inorder_tail.
      * intros y Hy. rewrite mset_keys_head in Hy. injection Hy as <-.
        destruct (head (keys m)) as [c|] eqn:Hc; [|lra].
        assert (a < c). { rewrite head_lookup in Hc. by apply (Hm 0%nat). }
        destruct (Rlt_dec c k); lra.
Qed.
Lemma mset_keys m k v x : x ∈ keys (mset m k v) ↔ x = k ∨ x ∈ keys m.
Proof.
  induction m as [|[a b] m IH]; simpl; [rewrite elem_of_list_singleton; split; [auto|intros [?|H]; [done|by apply not_elem_of_nil in H]]|].
  destruct (Rlt_dec k a); [|destruct (Req_EM_T k a)]; simpl.
  - by rewrite elem_of_cons.
  - subst. rewrite !elem_of_cons. tauto.
  - change (keys ((a, b) :: mset m k v)) with (a :: keys (mset m k v)). rewrite !elem_of_cons, IH. tauto.
Qed.
(** The key list does not change if the key is there. *)
Lemma mset_same_keys m k v : inorder (keys m) → k ∈ keys m → keys (mset m k v) = keys m.
Proof.
  induction m as [|[a b] m IH]; intros Ho Hk; [by apply elem_of_nil in Hk|].
  simpl. destruct (Rlt_dec k a); [|destruct (Req_EM_T k a)].
  - apply elem_of_cons in Hk as [->|Hk]; [simpl in *; lra|].
    pose proof (inorder_head_lt _ _ k Ho Hk). simpl in *. lra.
  - simpl. by subst.
  - apply elem_of_cons in Hk as [->|Hk]; [done|]. change (a :: keys (mset m k v) = a :: keys m). f_equal.
    apply IH; [|done]. by eapply inorder_tail.
Qed.
Lemma mget_mset m k v k' : inorder (keys m) → mget (mset m k v) k' = if Req_EM_T k' k then Some v else mget m k'.
Proof.
  induction m as [|[a b] m IH]; intros Ho; simpl.
  - done.
  - destruct (Rlt_dec k a); [|destruct (Req_EM_T k a)]; simpl.
    + done.
    + subst. by destruct (Req_EM_T k' a).
    + rewrite IH by (by eapply inorder_tail). destruct (Req_EM_T k' a), (Req_EM_T k' k); try done. congruence.
Qed.
Lemma mget_elem m k : is_Some (mget m k) ↔ k ∈ keys m.
Proof.
  induction m as [|[a b] m IH]; simpl.
  - split; [by intros [? ?]|intros H; by apply elem_of_nil in H].
  - destruct (Req_EM_T k a) as [->|Hn]; simpl.
    + split; [intros _; by left|eauto].
    + change (keys ((a, b) :: m)) with (a :: keys m). rewrite IH, elem_of_cons. tauto.
Qed.
Lemma mget_lookup m i k v : inorder (keys m) → m !! i = Some (k, v) → mget m k = Some v.
Proof.
  revert i. induction m as [|[a b] m IH]; intros i Ho Hi; [done|]. destruct i as [|i]; simpl in Hi.
  - injection Hi as -> ->. simpl. destruct (Req_EM_T k k); [done|lra].
  - simpl. assert (a < k).
    { apply (inorder_lt _ 0 (S i) a k Ho); [lia|done|]. change (keys m !! i = Some k). unfold keys. by rewrite list_lookup_fmap, Hi. }
    destruct (Req_EM_T k a); [lra|]. apply (IH i); [by eapply inorder_tail|done].
Qed.
(** Equal sets of keys: equal sizes *)
Lemma same_keys_length (m m' : rmap) : inorder (keys m) → inorder (keys m') → (∀ k, k ∈ keys m ↔ k ∈ keys m') →
  length m = length m'.
Proof.
  intros H H' Hk. rewrite <- (fmap_length fst m), <- (fmap_length fst m'). apply Permutation_length.
  apply NoDup_Permutation; [by apply inorder_NoDup..|done].
Qed.

(** lower_bound *)
Lemma mlower_spec m k : inorder (keys m) → (mlower m k <= length m)%nat ∧
  (∀ j p, m !! j = Some p → (j < mlower m k)%nat ↔ p.1 < k).
Proof.
  induction m as [|[a b] m IH]; intros Ho; simpl; [split; [lia|done]|].
  destruct (IH ltac:(by eapply inorder_tail)) as [Hl Hp]. destruct (Rlt_dec a k) as [Hk|Hk].
  - split; [lia|]. intros [|j] p Hj; simpl in Hj; [injection Hj as <-; simpl; split; [done|lia]|].
    rewrite <- (Hp j p Hj). lia.
  - split; [lia|]. intros j p Hj. split; [lia|]. intros Hpk. exfalso. apply Hk.
    destruct j as [|j]; simpl in Hj; [by injection Hj as <-|].
    apply Rlt_trans with p.1; [|done]. apply (inorder_lt _ 0 (S j) a p.1 Ho); [lia|done|].
    change (keys m !! j = Some p.1). unfold keys. by rewrite list_lookup_fmap, Hj.
Qed.
Lemma mlower_mono m x y : inorder (keys m) → x <= y → (mlower m x <= mlower m y)%nat.
Proof.
  intros Ho Hxy. destruct (mlower_spec m x Ho) as [Hx1 Hx2]. destruct (mlower_spec m y Ho) as [Hy1 Hy2].
  destruct (decide (mlower m y < mlower m x)%nat) as [H|H]; [|lia].
  destruct (lookup_lt_is_Some_2 m (mlower m y)) as [p Hp]; [lia|].
  assert (p.1 < x) by (by apply (Hx2 _ p Hp)). assert (p.1 < y) as Hy by lra. apply (Hy2 _ p Hp) in Hy. lia.
Qed.

(** ** Monotone lists; [s] = 1: increasing, -1: decreasing *)
Definition weak (s : R) (l : rmap) : Prop := ∀ i p q, l !! i = Some p → l !! S i = Some q → s * p.2 <= s * q.2.
Definition strict (s : R) (l : rmap) : Prop := ∀ i p q, l !! i = Some p → l !! S i = Some q → s * p.2 < s * q.2.
Lemma weak_tail s x l : weak s (x :: l) → weak s l.
Proof. intros H i p q Hp Hq. by apply (H (S i)). Qed.
Lemma strict_tail s x l : strict s (x :: l) → strict s l.
Proof. intros H i p q Hp Hq. by apply (H (S i)). Qed.
Lemma weak_le s l i j p q : weak s l → (i <= j)%nat → l !! i = Some p → l !! j = Some q → s * p.2 <= s * q.2.
Proof.
  intros Hl Hij. revert q. induction Hij as [|j Hij IH]; intros q Hp Hq; [rewrite Hp in Hq; injection Hq as <-; lra|].
  destruct (l !! j) as [c|] eqn:Hc.
  - apply Rle_trans with (s * c.2); [by apply IH|by eapply Hl].
  - apply lookup_ge_None in Hc. apply lookup_lt_Some in Hq. lia.
Qed.
Lemma weak_cons2 s p q l : weak s (p :: q :: l) ↔ s * p.2 <= s * q.2 ∧ weak s (q :: l).
Proof.
  split.
  - intros H. split; [by apply (H 0%nat)|by eapply weak_tail].
  - intros [H1 H2] [|i] a b Ha Hb; [|by eapply H2]. simpl in Ha, Hb. by simplify_eq.
Qed.
Lemma strict_cons2 s p q l : strict s (p :: q :: l) ↔ s * p.2 < s * q.2 ∧ strict s (q :: l).
Proof.
  split.
  - intros H. split; [by apply (H 0%nat)|by eapply strict_tail].
  - intros [H1 H2] [|i] a b Ha Hb; [|by eapply H2]. simpl in Ha, Hb. by simplify_eq.
Qed.
Lemma weak_1 s p : weak s [p].
Proof. intros [|i] a b Ha Hb; done. Qed.
Lemma strict_1 s p : strict s [p].
Proof. intros [|i] a b Ha Hb; done. Qed.
Lemma strict_weak s l : strict s l → weak s l.
Proof. intros H i p q Hp Hq. left. by eapply H. Qed.

(** ** The flags *)
Lemma scan_inc_spec d fl : let '(m, s_m, si) := scan_inc d fl in
  (m = true ↔ fl.1.1 = true ∧ weak 1 d) ∧ (s_m = true ↔ fl.1.2 = true ∧ strict 1 d) ∧
  (si = true ↔ fl.2 = true ∧ strict 1 d).
Proof.
  revert fl. induction d as [|p d IH]; intros [[m0 s0] i0]; simpl.
  - split_and!; (split; [intros; split; [done|intros ? ? ?; done]|tauto]).
  - destruct d as [|q d]; [split_and!; (split; [intros; split; [done|apply weak_1 || apply strict_1]|tauto])|].
    pose proof (weak_cons2 1 p q d) as W. pose proof (strict_cons2 1 p q d) as S. destruct (Rgt_dec p.2 q.2) as [H1|H1]; [|destruct (Rge_dec p.2 q.2) as [H2|H2]].
    + rewrite W, S. split_and!; (split; [done|intros (? & ? & ?); lra]).
    + specialize (IH (m0, false, false)). destruct (scan_inc (q :: d) _) as [[m s] i]. simpl in IH.
      destruct IH as (E1 & E2 & E3). rewrite E1, E2, E3, W, S. split_and!.
      * split; [intros [? ?]; split_and!; try done; lra|tauto].
      * split; [intros [? ?]; done|intros (? & ? & ?); lra].
      * split; [intros [? ?]; done|intros (? & ? & ?); lra].
    + specialize (IH (m0, s0, i0)). destruct (scan_inc (q :: d) _) as [[m s] i]. simpl in IH.
      destruct IH as (E1 & E2 & E3). rewrite E1, E2, E3, W, S. split_and!;
        (split; [intros [? ?]; split_and!; try done; lra|tauto]).
Qed.
Lemma scan_dec_spec d fl : let '(m, s_m, si) := scan_dec d fl in
  (m = true ↔ fl.1.1 = true ∧ weak (-1) d) ∧ (s_m = true ↔ fl.1.2 = true ∧ strict (-1) d) ∧
  (si = true ↔ fl.2 = true ∧ strict (-1) d).
Proof.
  revert fl. induction d as [|p d IH]; intros [[m0 s0] i0]; simpl.
  - split_and!; (split; [intros; split; [done|intros ? ? ?; done]|tauto]).
  - destruct d as [|q d]; [split_and!; (split; [intros; split; [done|apply weak_1 || apply strict_1]|tauto])|].
    pose proof (weak_cons2 (-1) p q d) as W. pose proof (strict_cons2 (-1) p q d) as S. destruct (Rlt_dec p.2 q.2) as [H1|H1]; [|destruct (Rle_dec p.2 q.2) as [H2|H2]].
    + rewrite W, S. split_and!; (split; [done|intros (? & ? & ?); lra]).
    + specialize (IH (m0, false, false)). destruct (scan_dec (q :: d) _) as [[m s] i]. simpl in IH.
      destruct IH as (E1 & E2 & E3). rewrite E1, E2, E3, W, S. split_and!.
      * split; [intros [? ?]; split_and!; try done; lra|tauto].
      * split; [intros [? ?]; done|intros (? & ? & ?); lra].
      * split; [intros [? ?]; done|intros (? & ? & ?); lra].
    + specialize (IH (m0, s0, i0)). destruct (scan_dec (q :: d) _) as [[m s] i]. simpl in IH.
      destruct IH as (E1 & E2 & E3). rewrite E1, E2, E3, W, S. split_and!;
        (split; [intros [? ?]; split_and!; try done; lra|tauto]).
Qed.

(** skip_flat: a prefix of equal values *)
Lemma skip_flat_spec d : d ≠ [] → let '(l, flat) := skip_flat d in
  l ≠ [] ∧ (∀ s, weak s d ↔ weak s l) ∧
  (flat = false → l = d) ∧ (flat = true → ∀ s, ¬ strict s d) ∧
  (∀ p q l', l = p :: q :: l' → p.2 ≠ q.2).
Proof.
  induction d as [|p d IH]; intros Hd; [done|]. simpl. destruct d as [|q d].
  - split_and!; try done.
  - destruct (Req_EM_T p.2 q.2) as [E|E].
    + specialize (IH ltac:(done)). destruct (skip_flat (q :: d)) as [l flat]. simpl.
      destruct IH as (I1 & I2 & I3 & I4 & I5). split_and!; [done| |done| |done].
      * intros s. rewrite <- I2, weak_cons2, E. split; [tauto|]. split; [lra|done].
      * intros _ s. rewrite strict_cons2, E. lra.
    + split_and!; try done. intros p' q' l' [= <- <- <-]. done.
Qed.

(** What the flags mean. *)
Record flags_ok (s : mci) : Prop := {
  fl_mono : mono s = true ↔ weak 1 (data s) ∨ weak (-1) (data s);
  fl_sm : sm s = true ↔ strict 1 (data s) ∨ strict (-1) (data s);
  fl_inc : mono s && inc s = true ↔ weak 1 (data s);
  fl_dec : mono s && dec s = true ↔ weak (-1) (data s);
  fl_sinc : sm s && sinc s = true ↔ strict 1 (data s);
  fl_sdec : sm s && sdec s = true ↔ strict (-1) (data s) }.
(** What getMaximumF and getMinimumF rely on. *)
Definition flags_weak (s : mci) : Prop :=
  (sinc s = true → weak 1 (data s)) ∧ (sdec s = true → weak (-1) (data s)).

Lemma mono_flags_spec d : d ≠ [] → ∃ m s_m sd si de ic, mono_flags d = Some (m, s_m, sd, si, de, ic) ∧
  ∀ dd c c', flags_ok (MCI d dd c c' s_m m sd si de ic) ∧ flags_weak (MCI d dd c c' s_m m sd si de ic).
Proof.
  intros Hne. unfold mono_flags.
  pose proof (skip_flat_spec d Hne) as Hskip. destruct (skip_flat d) as [l flat] eqn:El.
  destruct Hskip as (Hl & Hw & Hf1 & Hf2 & Hlne). clear El.
  assert (Hst : ∀ t, (t = 1 ∨ t = -1) → strict t d ↔ negb flat = true ∧ strict t l).
  { intros t _. destruct flat; simpl.
    - split; [intros H; by apply Hf2 in H|by intros [? _]].
    - rewrite (Hf1 eq_refl). tauto. }
  pose proof (Hst 1 ltac:(by left)) as S1. pose proof (Hst (-1) ltac:(by right)) as S2.
  pose proof (Hw 1) as W1. pose proof (Hw (-1)) as W2. clear Hst Hw Hf1 Hf2.
  destruct l as [|p [|q l]]; [done| |].
  - eexists _, _, _, _, _, _. split; [reflexivity|]. intros dd c c'.
    assert (Hne1 : ∀ t, weak t [p]) by (intros; apply weak_1). assert (Hne2 : ∀ t, strict t [p]) by (intros; apply strict_1).
    split.
    + split; simpl; try rewrite andb_true_r; try rewrite S1; try rewrite S2; try rewrite W1; try rewrite W2.
      all: try (destruct flat; simpl; naive_solver).
    + split; simpl; rewrite ?W1, ?W2; auto.
  - pose proof (Hlne p q l eq_refl) as Hpq. rewrite weak_cons2 in W1, W2. rewrite strict_cons2 in S1, S2.
    destruct (Rgt_dec p.2 q.2) as [H1|H1]; [|destruct (Rlt_dec p.2 q.2) as [H2|H2]; [|lra]].
    + pose proof (scan_dec_spec (q :: l) (true, negb flat, true)) as Hs.
      destruct (scan_dec (q :: l) _) as [[m s_m] sd]. cbn [fst snd] in Hs. destruct Hs as (E1 & E2 & E3).
      eexists _, _, _, _, _, _. split; [reflexivity|]. intros dd c c'.
      assert (N1 : ¬ weak 1 d) by (rewrite W1; lra). assert (N2 : ¬ strict 1 d) by (rewrite S1; lra).
      assert (V : weak (-1) d ↔ weak (-1) (q :: l)) by (rewrite W2; split; [tauto|split; [lra|done]]).
      assert (V' : strict (-1) d ↔ negb flat = true ∧ strict (-1) (q :: l)).
      { rewrite S2. split; [tauto|]. intros [? ?]. split_and!; [done|lra|done]. }
      split.
      * split; simpl; rewrite ?andb_true_r, ?andb_false_r, ?andb_true_iff.
        -- rewrite E1. tauto.
        -- rewrite E2. tauto.
        -- split; [done|tauto].
        -- rewrite E1. tauto.
        -- split; [done|tauto].
        -- rewrite E2, E3. tauto.
      * split; simpl; [done|]. intros H. apply E3 in H as [_ H]. apply V. by apply strict_weak.
    + pose proof (scan_inc_spec (q :: l) (true, negb flat, true)) as Hs.
      destruct (scan_inc (q :: l) _) as [[m s_m] sd]. cbn [fst snd] in Hs. destruct Hs as (E1 & E2 & E3).
      eexists _, _, _, _, _, _. split; [reflexivity|]. intros dd c c'.
      assert (N1 : ¬ weak (-1) d) by (rewrite W2; lra). assert (N2 : ¬ strict (-1) d) by (rewrite S2; lra).
      assert (V : weak 1 d ↔ weak 1 (q :: l)) by (rewrite W1; split; [tauto|split; [lra|done]]).
      assert (V' : strict 1 d ↔ negb flat = true ∧ strict 1 (q :: l)).
      { rewrite S1. split; [tauto|]. intros [? ?]. split_and!; [done|lra|done]. }
      split.
      * split; simpl; rewrite ?andb_true_r, ?andb_false_r, ?andb_true_iff.
        -- rewrite E1. tauto.
        -- rewrite E2. tauto.
        -- rewrite E1. tauto.
        -- split; [done|tauto].
        -- rewrite E2, E3. tauto.
        -- split; [done|tauto].
      * split; simpl; [|done]. intros H. apply E3 in H as [_ H]. apply V. by apply strict_weak.
Qed.

(** ** The derivatives *)
Definition slope (p q : R * R) : R := (q.2 - p.2) / (q.1 - p.1).
(** all slopes of consecutive points satisfy [P] *)
Definition slopes (P : R → Prop) (d : rmap) : Prop :=
  ∀ i p q, d !! i = Some p → d !! S i = Some q → P (slope p q).
Definition values (P : R → Prop) (m : rmap) : Prop := ∀ k v, mget m k = Some v → P v.

Lemma keys_lookup (m : rmap) i p : m !! i = Some p → keys m !! i = Some p.1.
Proof. intros H. unfold keys. by rewrite list_lookup_fmap, H. Qed.
Lemma keys_lookup_inv (m : rmap) i k : keys m !! i = Some k → ∃ v, m !! i = Some (k, v).
Proof. unfold keys. intros H. rewrite list_lookup_fmap in H. destruct (m !! i) as [[a b]|]; [|done]. injection H as ->. eauto. Qed.
Lemma elem_keys (m : rmap) k : k ∈ keys m ↔ ∃ i v, m !! i = Some (k, v).
Proof.
  split.
  - intros [i Hi]%elem_of_list_lookup. apply keys_lookup_inv in Hi as [v Hv]. eauto.
  - intros (i & v & H). apply elem_of_list_lookup. exists i. by apply (keys_lookup m i (k, v)).
Qed.

Lemma values_mset P m k v : inorder (keys m) → values P m → P v → values P (mset m k v).
Proof.
  intros Ho HP Hv k' v'. rewrite mget_mset by done. destruct (Req_EM_T k' k); [by intros [= <-]|apply HP].
Qed.

Lemma simple_inner_cons p q r l dd : simple_inner (p :: q :: r :: l) dd =
  (a ← rdiv (r.2 - q.2) (2 * (r.1 - q.1));
   b ← rdiv (q.2 - p.2) (2 * (q.1 - p.1));
   simple_inner (q :: r :: l) (mset dd q.1 (a + b))).
Proof. done. Qed.
Lemma adjust_cons p q d dd : adjust (p :: q :: d) dd =
  (delta ← rdiv (q.2 - p.2) (q.1 - p.1);
   dd ←
    (if Rlt_dec (Rabs delta) (/ 10 ^ 14) then Some (mset (mset dd p.1 0) q.1 0)
     else
       dp ← mget dd p.1; alpha ← rdiv dp delta;
       dq ← mget dd q.1; beta ← rdiv dq delta;
       if is_monotone_coeff alpha beta then Some dd
       else
         tau ← rdiv 3 (R_sqrt.sqrt (alpha*alpha + beta*beta));
         Some (mset (mset dd p.1 (tau*alpha*delta)) q.1 (tau*beta*delta)));
   adjust (q :: d) dd).
Proof. done. Qed.
Lemma simple_inner_spec (P : R → Prop) l dd : (∀ u v, P u → P v → P (u / 2 + v / 2)) →
  inorder (keys l) → slopes P l → inorder (keys dd) → values P dd →
  ∃ dd', simple_inner l dd = Some dd' ∧ inorder (keys dd') ∧ values P dd' ∧
    ∀ k, k ∈ keys dd' ↔ k ∈ keys dd ∨ ∃ j, (1 <= j)%nat ∧ (S j < length l)%nat ∧ keys l !! j = Some k.
Proof.
  intros HP. revert dd. induction l as [|p l IH]; intros dd Ho Hs Hd Hv.
  { exists dd. split_and!; try done. intros k. split; [auto|]. intros [?|(j & ? & ? & ?)]; [done|simpl in *; lia]. }
  destruct l as [|q l].
  { exists dd. split_and!; try done. intros k. split; [auto|]. intros [?|(j & ? & ? & ?)]; [done|simpl in *; lia]. }
  destruct l as [|r l].
  { exists dd. split_and!; try done. intros k. split; [auto|]. intros [?|(j & ? & ? & ?)]; [done|simpl in *; lia]. }
  assert (Hpq : p.1 < q.1) by (by apply (Ho 0%nat)). assert (Hqr : q.1 < r.1) by (by apply (Ho 1%nat)).
  pose proof (Hs 0%nat p q eq_refl eq_refl) as P1. pose proof (Hs 1%nat q r eq_refl eq_refl) as P2. unfold slope in P1, P2.
  rewrite simple_inner_cons, !rdiv_Some by lra. cbn [mbind option_bind].
  destruct (IH (mset dd q.1 ((r.2 - q.2) / (2 * (r.1 - q.1)) + (q.2 - p.2) / (2 * (q.1 - p.1))))) as (dd' & E & I1 & I2 & I3).
  - by eapply inorder_tail.
  - intros i a b Ha Hb. by apply (Hs (S i)).
  - by apply mset_inorder.
  - apply values_mset; [done..|].
    replace ((r.2 - q.2) / (2 * (r.1 - q.1))) with ((r.2 - q.2) / (r.1 - q.1) / 2) by (field; lra).
    replace ((q.2 - p.2) / (2 * (q.1 - p.1))) with ((q.2 - p.2) / (q.1 - p.1) / 2) by (field; lra). by apply HP.
  - exists dd'. split; [exact E|]. split; [done|]. split; [done|]. intros k. rewrite I3, mset_keys. split.
    + intros [[->|H]|(j & H1 & H2 & H3)].
      * right. exists 1%nat. simpl. split_and!; [lia|lia|done].
      * by left.
      * right. exists (S j). split_and!; [lia|simpl in *; lia|done].
    + intros [H|(j & H1 & H2 & H3)]; [by left; right|]. destruct j as [|[|j]]; [lia| |].
      * left. left. simpl in H3. by injection H3.
      * right. exists (S j). split_and!; [lia|simpl in *; lia|done].
Qed.

Definition same_keys (d dd : rmap) : Prop := inorder (keys dd) ∧ ∀ k, k ∈ keys dd ↔ k ∈ keys d.

Lemma last_two {A} (l : list A) z y rv : reverse l = z :: y :: rv →
  l !! (length l - 2)%nat = Some y ∧ l !! (length l - 1)%nat = Some z.
Proof.
  intros E. assert (El : l = reverse rv ++ [y; z]).
  { rewrite <- (reverse_involutive l), E, !reverse_cons, <- app_assoc. done. }
  rewrite El, app_length. simpl. split.
  - rewrite lookup_app_r by lia. by replace (length (reverse rv) + 2 - 2 - length (reverse rv))%nat with 0%nat by lia.
  - rewrite lookup_app_r by lia. by replace (length (reverse rv) + 2 - 1 - length (reverse rv))%nat with 1%nat by lia.
Qed.

Lemma simple_spec (P : R → Prop) d : (∀ u v, P u → P v → P (u / 2 + v / 2)) →
  inorder (keys d) → slopes P d → (2 <= length d)%nat →
  ∃ dd, simple_derivatives d = Some dd ∧ same_keys d dd ∧ values P dd.
Proof.
  intros HP Ho Hs Hn. unfold simple_derivatives.
  destruct d as [|p [|q d]]; [simpl in Hn; lia..|].
  destruct (reverse (p :: q :: d)) as [|z [|y rv]] eqn:Erv.
  1,2: (apply (f_equal length) in Erv; rewrite reverse_length in Erv; simpl in Erv; lia).
  set (l := p :: q :: d) in *. set (n := length l).
  destruct (last_two l z y rv Erv) as [Hy Hz]. fold n in Hy, Hz.
  assert (Hpq : p.1 < q.1) by (by apply (Ho 0%nat)).
  assert (Hyz : y.1 < z.1).
  { apply (Ho (n - 2)%nat); [by apply keys_lookup|]. replace (S (n - 2)) with (n - 1)%nat by (unfold n, l; simpl; lia). by apply keys_lookup. }
  pose proof (Hs 0%nat p q eq_refl eq_refl) as P1.
  assert (P2 : P (slope y z)).
  { apply (Hs (n - 2)%nat); [done|]. by replace (S (n - 2)) with (n - 1)%nat by (unfold n, l; simpl; lia). }
  unfold slope in P1, P2. rewrite !rdiv_Some by lra. cbn [mbind option_bind].
  set (dd0 := mset (mset [] p.1 _) z.1 _).
  assert (O1 : inorder (keys (mset [] p.1 ((q.2 - p.2) / (q.1 - p.1))))) by (intros [|i] a b Ha Hb; done).
  assert (O2 : inorder (keys dd0)) by (by apply mset_inorder).
  assert (V2 : values P dd0).
  { apply values_mset; [done| |done]. intros k v. simpl. by destruct (Req_EM_T k p.1); [intros [= <-]|]. }
  assert (K2 : ∀ k, k ∈ keys dd0 ↔ k = z.1 ∨ k = p.1).
  { intros k. unfold dd0. rewrite mset_keys. simpl. by rewrite elem_of_list_singleton. }
  assert (Hk : ∀ k, k ∈ keys l ↔ (k ∈ keys dd0) ∨ ∃ j, (1 <= j)%nat ∧ (S j < length l)%nat ∧ keys l !! j = Some k).
  { intros k. rewrite K2. split.
    - intros [j Hj]%elem_of_list_lookup. destruct (decide (j = 0)%nat) as [->|H0].
      + left. right. simpl in Hj. by injection Hj.
      + assert (j < n)%nat. { apply lookup_lt_Some in Hj. unfold keys in Hj. by rewrite fmap_length in Hj. }
        destruct (decide (j = n - 1)%nat) as [->|H1].
        * left. left. rewrite (keys_lookup _ _ _ Hz) in Hj. by injection Hj.
        * right. exists j. fold n. split_and!; [lia|lia|done].
    - intros [[->| ->]|(j & _ & _ & Hj)].
      + apply elem_of_list_lookup. exists (n - 1)%nat. by apply keys_lookup.
      + by left.
      + apply elem_of_list_lookup. eauto. }
  fold n. destruct (decide (2 < n)%nat) as [H2|H2].
  - destruct (simple_inner_spec P l dd0) as (dd' & E & I1 & I2 & I3); try done.
    exists dd'. split; [exact E|]. split; [|exact I2]. split; [exact I1|]. intros k. by rewrite I3, Hk.
  - exists dd0. split; [reflexivity|]. split; [|exact V2]. split; [exact O2|]. intros k. rewrite Hk. split; [auto|].
    intros [?|(j & ? & ? & ?)]; [done|unfold n in *; lia].
Qed.

(** The condition on an interval under which the cubic is monotone. *)
Definition fc (s : R) (dd : rmap) (p q : R * R) : Prop :=
  ∃ u v, mget dd p.1 = Some u ∧ mget dd q.1 = Some v ∧ 0 <= s * u ∧ 0 <= s * v ∧
    u * u + v * v <= 9 * (slope p q * slope p q).
Definition shrunk (dd dd' : rmap) : Prop :=
  ∀ k v, mget dd k = Some v → ∃ c, 0 <= c <= 1 ∧ mget dd' k = Some (c * v).

Lemma shrunk_refl dd : shrunk dd dd.
Proof. intros k v H. exists 1. split; [lra|]. by rewrite Rmult_1_l. Qed.
Lemma shrunk_trans a b c : shrunk a b → shrunk b c → shrunk a c.
Proof.
  intros H1 H2 k v Hk. destruct (H1 k v Hk) as (x & Hx & E). destruct (H2 _ _ E) as (y & Hy & E').
  exists (y * x). split; [nra|]. rewrite E'. f_equal. lra.
Qed.
Lemma shrunk_fc s dd dd' p q : shrunk dd dd' → fc s dd p q → fc s dd' p q.
Proof.
  intros Hs (u & v & E1 & E2 & H1 & H2 & H3). destruct (Hs _ _ E1) as (x & Hx & F1). destruct (Hs _ _ E2) as (y & Hy & F2).
  exists (x * u), (y * v). split_and!; [done|done|nra|nra|].
  assert (x * u * (x * u) <= u * u). { assert (0 <= u * u) by nra. assert (x * x <= 1) by nra. nra. }
  assert (y * v * (y * v) <= v * v). { assert (0 <= v * v) by nra. assert (y * y <= 1) by nra. nra. }
  lra.
Qed.
Lemma shrunk_mset dd k v c : inorder (keys dd) → mget dd k = Some v → 0 <= c <= 1 → shrunk dd (mset dd k (c * v)).
Proof.
  intros Ho Hk Hc k' v' Hk'. rewrite mget_mset by done. destruct (Req_EM_T k' k) as [->|Hn].
  - rewrite Hk in Hk'. injection Hk' as <-. eauto.
  - exists 1. split; [lra|]. by rewrite Rmult_1_l.
Qed.

Lemma adjust_spec s d dd : (s = 1 ∨ s = -1) → inorder (keys d) → weak s d → inorder (keys dd) →
  (∀ k, k ∈ keys d → k ∈ keys dd) → values (λ v, 0 <= s * v) dd →
  ∃ dd', adjust d dd = Some dd' ∧ keys dd' = keys dd ∧ shrunk dd dd' ∧
    ∀ i p q, d !! i = Some p → d !! S i = Some q → fc s dd' p q.
Proof.
  intros Hs. revert dd. induction d as [|p d IH]; intros dd Ho Hw Hd Hk Hv.
  { exists dd. split_and!; [done|done|apply shrunk_refl|]. intros i p q Hp; done. }
  destruct d as [|q d].
  { exists dd. split_and!; [done|done|apply shrunk_refl|]. intros [|i] p' q' Hp Hq; done. }
  assert (Hpq : p.1 < q.1) by (by apply (Ho 0%nat)).
  rewrite adjust_cons, rdiv_Some by lra. cbn [mbind option_bind]. change ((q.2 - p.2) / (q.1 - p.1)) with (slope p q). set (delta := slope p q).
  assert (Kp : p.1 ∈ keys dd) by (apply Hk; by left). assert (Kq : q.1 ∈ keys dd) by (apply Hk; right; by left).
  destruct (proj2 (mget_elem dd p.1) Kp) as [u Eu]. destruct (proj2 (mget_elem dd q.1) Kq) as [v Ev].
  pose proof (Hv _ _ Eu) as Hu. pose proof (Hv _ _ Ev) as Hv'. cbn beta in Hu, Hv'.
  assert (Hsd : 0 <= s * delta).
  { apply weak_cons2 in Hw as [Hw _]. unfold delta, slope. replace (s * ((q.2 - p.2) / (q.1 - p.1))) with ((s * q.2 - s * p.2) / (q.1 - p.1)) by (field; lra).
    apply Rmult_le_pos; [lra|]. left. apply Rinv_0_lt_compat. lra. }
  assert (Hpq' : p.1 ≠ q.1) by lra.
  (* scaling both derivatives by c *)
  assert (Hc : ∀ c, 0 <= c <= 1 → c * u * (c * u) + c * v * (c * v) <= 9 * (delta * delta) →
    let dd1 := mset (mset dd p.1 (c * u)) q.1 (c * v) in
    keys dd1 = keys dd ∧ shrunk dd dd1 ∧ fc s dd1 p q).
  { intros c Hc0 Hc1 dd1. assert (O1 : inorder (keys (mset dd p.1 (c * u)))) by (by apply mset_inorder).
    assert (E1 : keys (mset dd p.1 (c * u)) = keys dd) by (by apply mset_same_keys).
    split_and!.
    - unfold dd1. rewrite mset_same_keys; [done|done|]. by rewrite E1.
    - apply shrunk_trans with (mset dd p.1 (c * u)); [by apply shrunk_mset|].
      apply shrunk_mset; [done| |done]. rewrite mget_mset by done. destruct (Req_EM_T q.1 p.1); [lra|done].
    - exists (c * u), (c * v). unfold dd1. rewrite !mget_mset by done.
      destruct (Req_EM_T p.1 q.1); [done|]. destruct (Req_EM_T p.1 p.1); [|done]. destruct (Req_EM_T q.1 q.1); [|done].
      split_and!; [done|done|nra|nra|done]. }
  assert (Hstep : ∃ dd1, (if Rlt_dec (Rabs delta) (/ 10 ^ 14) then Some (mset (mset dd p.1 0) q.1 0)
     else
       dp ← mget dd p.1; alpha ← rdiv dp delta;
       dq ← mget dd q.1; beta ← rdiv dq delta;
       if is_monotone_coeff alpha beta then Some dd
       else
         tau ← rdiv 3 (R_sqrt.sqrt (alpha*alpha + beta*beta));
         Some (mset (mset dd p.1 (tau*alpha*delta)) q.1 (tau*beta*delta))) = Some dd1 ∧
     keys dd1 = keys dd ∧ shrunk dd dd1 ∧ fc s dd1 p q).
  { destruct (Rlt_dec (Rabs delta) (/ 10 ^ 14)) as [Hsmall|Hbig].
    - eexists. split; [reflexivity|]. pose proof (Hc 0 ltac:(lra)) as HH. rewrite !Rmult_0_l in HH. apply HH. nra.
    - assert (Hd0 : delta ≠ 0).
      { intros E. apply Hbig. rewrite E, Rabs_R0. apply Rinv_0_lt_compat. apply pow_lt. lra. }
      rewrite Eu, Ev. cbn [mbind option_bind]. rewrite !rdiv_Some by done. cbn [mbind option_bind].
      set (al := u / delta). set (be := v / delta). unfold is_monotone_coeff.
      assert (Eal : u = al * delta) by (unfold al; field; done). assert (Ebe : v = be * delta) by (unfold be; field; done).
      destruct (Rle_dec (al * al + be * be) 9) as [H9|H9].
      + exists dd. split_and!; [done|done|apply shrunk_refl|]. exists u, v. split_and!; try done. fold delta.
        rewrite Eal, Ebe. assert (0 <= delta * delta) by nra. nra.
      + set (w := al * al + be * be) in *. pose proof (sqrt_sqrt w ltac:(lra)) as Hsq.
        assert (H3 : 3 < R_sqrt.sqrt w).
        { rewrite <- (sqrt_square 3) by lra. apply sqrt_lt_1; lra. }
        rewrite rdiv_Some by lra. cbn [mbind option_bind]. set (tau := 3 / R_sqrt.sqrt w).
        assert (Ht : tau * R_sqrt.sqrt w = 3) by (unfold tau; field; lra).
        assert (Ht1 : 0 <= tau <= 1).
        { split; [apply Rmult_le_pos; [lra|left; apply Rinv_0_lt_compat; lra]|].
          apply Rmult_le_reg_r with (R_sqrt.sqrt w); lra. }
        eexists. split; [reflexivity|].
        replace (tau * al * delta) with (tau * u) by (rewrite Eal; lra). replace (tau * be * delta) with (tau * v) by (rewrite Ebe; lra).
        apply Hc; [done|]. rewrite Eal, Ebe.
        replace (tau * (al * delta) * (tau * (al * delta)) + tau * (be * delta) * (tau * (be * delta)))
          with (tau * tau * w * (delta * delta)) by (unfold w; ring).
        replace (tau * tau * w) with 9; [lra|]. rewrite <- Hsq.
        replace (tau * tau * (R_sqrt.sqrt w * R_sqrt.sqrt w)) with ((tau * R_sqrt.sqrt w) * (tau * R_sqrt.sqrt w)) by ring. rewrite Ht. lra. }
  destruct Hstep as (dd1 & E1 & Hk1 & Hs1 & Hf1). rewrite E1. cbn [mbind option_bind].
  destruct (IH dd1) as (dd' & E & I1 & I2 & I3).
  - by eapply inorder_tail.
  - by eapply weak_tail.
  - by rewrite Hk1.
  - intros k Hk'. rewrite Hk1. apply Hk. by right.
  - intros k w Hw'. assert (k ∈ keys dd) as Hin by (rewrite <- Hk1; apply mget_elem; eauto).
    apply mget_elem in Hin as [w0 Hw0]. destruct (Hs1 _ _ Hw0) as (c & Hc' & Ec). rewrite Ec in Hw'. injection Hw' as <-.
    pose proof (Hv _ _ Hw0) as HH. cbn beta in HH. nra.
  - exists dd'. split_and!; [done|by rewrite I1|by eapply shrunk_trans|].
    intros [|i] a b Ha Hb; [|by eapply I3]. simpl in Ha, Hb. injection Ha as <-. injection Hb as <-. by eapply shrunk_fc.
Qed.

(** ** Evaluation *)
Definition hermite (p q : R * R) (u v x : R) : R :=
  let t := (x - p.1) / (q.1 - p.1) in
  p.2 * H00 t + u * H10 t * (q.1 - p.1) + q.2 * H01 t + v * H11 t * (q.1 - p.1).
Definition chord (p q : R * R) (x : R) : R := p.2 + slope p q * (x - p.1).

(** Monotone cubic on the unit interval: all coefficients in the box [0,3]. *)
Lemma cubic_mono F a b t u : 0 <= F → 0 <= a <= 3 * F → 0 <= b <= 3 * F → 0 <= t → t <= u → u <= 1 →
  F * H01 t + a * H10 t + b * H11 t <= F * H01 u + a * H10 u + b * H11 u.
Proof.
  intros HF Ha Hb Ht Htu Hu. destruct (Req_EM_T F 0) as [->|HF0].
  { assert (a = 0) as -> by lra. assert (b = 0) as -> by lra. lra. }
  set (al := a / (3 * F)). set (be := b / (3 * F)).
  assert (Ea : a = 3 * F * al) by (unfold al; field; done). assert (Eb : b = 3 * F * be) by (unfold be; field; done).
  assert (Hal : 0 <= al <= 1). { split; nra. } assert (Hbe : 0 <= be <= 1). { split; nra. }
  clearbody al be. subst a b.
  set (c00 := H01 u - H01 t). set (c10 := (1 - t) * (1 - t) * (1 - t) - (1 - u) * (1 - u) * (1 - u)).
  set (c01 := u * u * u - t * t * t).
  set (c11 := ((2 * u - 1) * (2 * u - 1) * (2 * u - 1) - (2 * t - 1) * (2 * t - 1) * (2 * t - 1)) / 2).
  assert (P00 : 0 <= c00).
  { unfold c00, H01. replace (-2 * u * u * u + 3 * u * u - (-2 * t * t * t + 3 * t * t))
      with ((u - t) * (3 * (u + t) - 2 * (u * u + u * t + t * t))) by ring.
    apply Rmult_le_pos; [lra|]. nra. }
  assert (Hcube : ∀ x y, x <= y → 0 <= y * y * y - x * x * x).
  { intros x y Hxy. replace (y * y * y - x * x * x) with ((y - x) * (y * y + y * x + x * x)) by ring.
    apply Rmult_le_pos; [lra|]. nra. }
  assert (P10 : 0 <= c10) by (unfold c10; apply Hcube; lra).
  assert (P01 : 0 <= c01) by (unfold c01; apply Hcube; lra).
  assert (P11 : 0 <= c11).
  { unfold c11. pose proof (Hcube (2 * t - 1) (2 * u - 1) ltac:(lra)). lra. }
  assert (E : F * H01 u + 3 * F * al * H10 u + 3 * F * be * H11 u - (F * H01 t + 3 * F * al * H10 t + 3 * F * be * H11 t)
    = F * ((1 - al) * (1 - be) * c00 + al * (1 - be) * c10 + (1 - al) * be * c01 + al * be * c11)).
  { unfold c00, c10, c01, c11, H01, H10, H11. field. }
  assert (0 <= F * ((1 - al) * (1 - be) * c00 + al * (1 - be) * c10 + (1 - al) * be * c01 + al * be * c11)); [|lra].
  apply Rmult_le_pos; [done|].
  assert (0 <= (1 - al) * (1 - be)) by nra. assert (0 <= al * (1 - be)) by nra. assert (0 <= (1 - al) * be) by nra. assert (0 <= al * be) by nra.
  pose proof (Rmult_le_pos ((1 - al) * (1 - be)) c00). pose proof (Rmult_le_pos (al * (1 - be)) c10).
  pose proof (Rmult_le_pos ((1 - al) * be) c01). pose proof (Rmult_le_pos (al * be) c11). lra.
Qed.

Lemma hermite_l p q u v : p.1 < q.1 → hermite p q u v p.1 = p.2.
Proof. intros H. unfold hermite. replace ((p.1 - p.1) / (q.1 - p.1)) with 0 by (field; lra). unfold H00, H10, H01, H11. lra. Qed.
Lemma hermite_r p q u v : p.1 < q.1 → hermite p q u v q.1 = q.2.
Proof. intros H. unfold hermite. replace ((q.1 - p.1) / (q.1 - p.1)) with 1 by (field; lra). unfold H00, H10, H01, H11. lra. Qed.
Lemma hermite_mono s p q u v x y : (s = 1 ∨ s = -1) → p.1 < q.1 → s * p.2 <= s * q.2 →
  0 <= s * u → 0 <= s * v → u * u + v * v <= 9 * (slope p q * slope p q) →
  p.1 <= x → x <= y → y <= q.1 → s * hermite p q u v x <= s * hermite p q u v y.
Proof.
  intros Hs Hpq Hf Hu Hv H9 Hx Hxy Hy. unfold hermite. set (h := q.1 - p.1). assert (Hh : 0 < h) by (unfold h; lra).
  assert (Hh' : 0 < / h) by (by apply Rinv_0_lt_compat).
  set (t := (x - p.1) / h). set (w := (y - p.1) / h).
  assert (Ht : 0 <= t) by (apply Rmult_le_pos; lra).
  assert (Htw : t <= w) by (apply Rmult_le_compat_r; lra).
  assert (Hw : w <= 1). { apply Rmult_le_reg_r with h; [done|]. unfold w, Rdiv. rewrite Rmult_assoc, Rinv_l by lra. unfold h. lra. }
  set (F := s * (q.2 - p.2)). set (sl := slope p q) in *.
  assert (EF : F = s * sl * h) by (unfold F, sl, slope, h; field; unfold h in *; lra).
  assert (HF : 0 <= F) by (unfold F; lra).
  assert (Hssl : 0 <= s * sl) by nra.
  assert (Hss : s * s = 1) by (destruct Hs; subst; lra).
  assert (Hu3 : s * u <= 3 * (s * sl)).
  { assert ((s * u) * (s * u) <= 9 * ((s * sl) * (s * sl))).
    { replace (s * u * (s * u)) with (s * s * (u * u)) by ring. replace (s * sl * (s * sl)) with (s * s * (sl * sl)) by ring. rewrite Hss. nra. }
    nra. }
  assert (Hv3 : s * v <= 3 * (s * sl)).
  { assert ((s * v) * (s * v) <= 9 * ((s * sl) * (s * sl))).
    { replace (s * v * (s * v)) with (s * s * (v * v)) by ring. replace (s * sl * (s * sl)) with (s * s * (sl * sl)) by ring. rewrite Hss. nra. }
    nra. }
  pose proof (cubic_mono F (s * u * h) (s * v * h) t w HF) as HM.
  assert (Hform : ∀ r, s * (p.2 * H00 r + u * H10 r * h + q.2 * H01 r + v * H11 r * h) =
     s * p.2 + (F * H01 r + s * u * h * H10 r + s * v * h * H11 r)).
  { intros r. unfold F, H00, H01, H10, H11. ring. }
  rewrite !Hform. apply Rplus_le_compat_l. apply HM; try done.
  - split; [nra|]. rewrite EF. nra.
  - split; [nra|]. rewrite EF. nra.
Qed.
Lemma chord_l p q : chord p q p.1 = p.2.
Proof. unfold chord. lra. Qed.
Lemma chord_r p q : p.1 < q.1 → chord p q q.1 = q.2.
Proof. intros H. unfold chord, slope. field. lra. Qed.
Lemma chord_mono s p q x y : p.1 < q.1 → s * p.2 <= s * q.2 → x <= y → s * chord p q x <= s * chord p q y.
Proof.
  intros Hpq Hf Hxy. unfold chord. assert (0 <= s * slope p q).
  { unfold slope. replace (s * ((q.2 - p.2) / (q.1 - p.1))) with ((s * q.2 - s * p.2) * / (q.1 - p.1)) by (field; lra).
    apply Rmult_le_pos; [lra|]. left. apply Rinv_0_lt_compat. lra. }
  nra.
Qed.

(** What evaluate computes, by the position of [x]. *)
Definition eval_inv (s : mci) : Prop :=
  inorder (keys (data s)) ∧
  ((2 <= length (data s))%nat → length (ddata s) = length (data s) →
    same_keys (data s) (ddata s) ∧
    ∀ t, (t = 1 ∨ t = -1) → weak t (data s) → ∀ i p q, data s !! i = Some p → data s !! S i = Some q → fc t (ddata s) p q).

Lemma eval_piece s x i p q : eval_inv s → data s !! i = Some p → data s !! S i = Some q → p.1 < x → x <= q.1 →
  ∃ g : R → R, evaluate s x = Some (g x) ∧ (∀ y, p.1 < y → y <= q.1 → evaluate s y = Some (g y)) ∧
    g p.1 = p.2 ∧ g q.1 = q.2 ∧
    (∀ t, (t = 1 ∨ t = -1) → weak t (data s) → ∀ y z, p.1 <= y → y <= z → z <= q.1 → t * g y <= t * g z).
Proof.
  intros [Ho Hi] Hp Hq Hpx Hxq.
  assert (Hpq : p.1 < q.1) by lra.
  assert (Hlow : ∀ y, p.1 < y → y <= q.1 → mlower (data s) y = S i).
  { intros y H1 H2. destruct (mlower_spec (data s) y Ho) as [_ HL].
    pose proof (HL _ _ Hp) as L1. pose proof (HL _ _ Hq) as L2.
    assert (i < mlower (data s) y)%nat by (by apply L1). assert (¬ (S i < mlower (data s) y)%nat) by (rewrite L2; lra). lia. }
  pose proof (lookup_lt_Some _ _ _ Hq) as Hlen.
  destruct (decide (length (ddata s) = length (data s))) as [El|El].
  - destruct (Hi ltac:(lia) El) as [[Hko Hk] Hfc].
    assert (∃ u, mget (ddata s) p.1 = Some u) as [u Eu].
    { apply mget_elem. rewrite Hk. apply elem_of_list_lookup. exists i. by apply keys_lookup. }
    assert (∃ v, mget (ddata s) q.1 = Some v) as [v Ev].
    { apply mget_elem. rewrite Hk. apply elem_of_list_lookup. exists (S i). by apply keys_lookup. }
    assert (HE : ∀ y, p.1 < y → y <= q.1 → evaluate s y = Some (hermite p q u v y)).
    { intros y H1 H2. unfold evaluate. rewrite (Hlow y H1 H2). rewrite decide_False by lia. rewrite decide_False by lia.
      rewrite Hq. cbn [pred]. rewrite Hp. cbn [mbind option_bind]. rewrite decide_True by done.
      rewrite rdiv_Some by lra. cbn [mbind option_bind]. rewrite Eu. cbn [mbind option_bind]. rewrite Ev. cbn [mbind option_bind]. done. }
    exists (hermite p q u v). split_and!; [by apply HE|done|by apply hermite_l|by apply hermite_r|].
    intros t Ht Hw y z H1 H2 H3. destruct (Hfc t Ht Hw i p q Hp Hq) as (u' & v' & Eu' & Ev' & F1 & F2 & F3).
    rewrite Eu in Eu'. injection Eu' as <-. rewrite Ev in Ev'. injection Ev' as <-.
    apply hermite_mono; try done. by eapply Hw.
  - assert (HE : ∀ y, p.1 < y → y <= q.1 → evaluate s y = Some (chord p q y)).
    { intros y H1 H2. unfold evaluate. rewrite (Hlow y H1 H2). rewrite decide_False by lia. rewrite decide_False by lia.
      rewrite Hq. cbn [pred]. rewrite Hp. cbn [mbind option_bind]. rewrite decide_False by done.
      rewrite rdiv_Some by lra. cbn [mbind option_bind]. done. }
    exists (chord p q). split_and!; [by apply HE|done|apply chord_l|by apply chord_r|].
    intros t Ht Hw y z H1 H2 H3. apply chord_mono; [done| |done]. by eapply Hw.
Qed.
Lemma eval_left s x p : inorder (keys (data s)) → data s !! 0%nat = Some p → x <= p.1 → evaluate s x = Some p.2.
Proof.
  intros Ho Hp Hx. unfold evaluate. destruct (mlower_spec (data s) x Ho) as [_ HL]. pose proof (HL _ _ Hp) as L.
  assert (mlower (data s) x = 0%nat) as E by (destruct (mlower (data s) x); [done|assert (p.1 < x) by (apply L; lia); lra]).
  rewrite E, decide_True by done. rewrite head_lookup, Hp. done.
Qed.
Lemma eval_right s x p : inorder (keys (data s)) → last (data s) = Some p → p.1 < x → evaluate s x = Some p.2.
Proof.
  intros Ho Hp Hx. unfold evaluate. destruct (mlower_spec (data s) x Ho) as [HL1 HL2].
  rewrite last_lookup in Hp. pose proof (HL2 _ _ Hp) as L. pose proof (lookup_lt_Some _ _ _ Hp).
  assert (mlower (data s) x = length (data s)) as E by (assert (pred (length (data s)) < mlower (data s) x)%nat by (by apply L); lia).
  rewrite E, decide_False by lia. rewrite decide_True by done. by rewrite last_lookup, Hp.
Qed.
(** Any argument is to the left, in an interval, or to the right. *)
Lemma where_is s x : inorder (keys (data s)) → data s ≠ [] →
  (∃ p, data s !! 0%nat = Some p ∧ x <= p.1 ∧ mlower (data s) x = 0%nat) ∨
  (∃ i p q, data s !! i = Some p ∧ data s !! S i = Some q ∧ p.1 < x ∧ x <= q.1 ∧ mlower (data s) x = S i) ∨
  (∃ p, last (data s) = Some p ∧ p.1 < x ∧ mlower (data s) x = length (data s)).
Proof.
  intros Ho Hne. destruct (mlower_spec (data s) x Ho) as [HL1 HL2].
  destruct (mlower (data s) x) as [|i] eqn:E.
  - left. destruct (data s) as [|p l] eqn:Ed; [done|]. exists p. split_and!; [done| |done].
    pose proof (HL2 0%nat p eq_refl) as H. destruct (Rle_dec x p.1); [done|]. assert (p.1 < x) as H' by lra. apply H in H'. lia.
  - right. destruct (decide (S i = length (data s))) as [El|El].
    + right. destruct (lookup_lt_is_Some_2 (data s) i) as [p Hp]; [lia|]. exists p. split_and!; [|by apply (HL2 i); [|lia]|done].
      rewrite last_lookup, <- El. done.
    + left. destruct (lookup_lt_is_Some_2 (data s) i) as [p Hp]; [lia|]. destruct (lookup_lt_is_Some_2 (data s) (S i)) as [q Hq]; [lia|].
      exists i, p, q. split_and!; [done|done|by apply (HL2 i); [|lia]| |done].
      pose proof (HL2 _ _ Hq) as H. destruct (Rle_dec x q.1); [done|]. assert (q.1 < x) as H' by lra. apply H in H'. lia.
Qed.

(** ** computeInternalFunctionData *)
Lemma slopes_weak t d : inorder (keys d) → weak t d → slopes (λ v, 0 <= t * v) d.
Proof.
  intros Ho Hw i p q Hp Hq. assert (p.1 < q.1) by (by apply (Ho i); apply keys_lookup).
  pose proof (Hw i p q Hp Hq). unfold slope. replace (t * ((q.2 - p.2) / (q.1 - p.1))) with ((t * q.2 - t * p.2) * / (q.1 - p.1)) by (field; lra).
  apply Rmult_le_pos; [lra|]. left. apply Rinv_0_lt_compat. lra.
Qed.

Lemma compute_spec s : inorder (keys (data s)) → (2 <= length (data s))%nat →
  ∃ s', compute s = Some s' ∧ data s' = data s ∧ sm_cached s' = true ∧ m_cached s' = true ∧
    flags_ok s' ∧ flags_weak s' ∧ length (ddata s') = length (data s') ∧ eval_inv s'.
Proof.
  intros Ho Hn. unfold compute. rewrite decide_False by lia.
  assert (Hne : data s ≠ []) by (intros E; rewrite E in Hn; simpl in Hn; lia).
  destruct (mono_flags_spec (data s) Hne) as (m & s_m & sd & si & de & ic & E & Hfl). rewrite E. cbn [mbind option_bind].
  destruct (simple_spec (λ _, True) (data s)) as (dd & Ed & [Hko Hk] & _); try done.
  rewrite Ed. cbn [mbind option_bind].
  assert (Hval : ∀ t, weak t (data s) → values (λ v, 0 <= t * v) dd).
  { intros t Hw. destruct (simple_spec (λ v, 0 <= t * v) (data s)) as (dd0 & Ed0 & _ & Hv); try done.
    - intros u v ? ?. lra.
    - by apply slopes_weak.
    - rewrite Ed in Ed0. injection Ed0 as <-. done. }
  destruct m.
  - assert (Hm : weak 1 (data s) ∨ weak (-1) (data s)).
    { destruct (Hfl [] true true) as [[HH _ _ _ _ _] _]. simpl in HH. tauto. }
    assert (Hex : ∃ t, (t = 1 ∨ t = -1) ∧ weak t (data s)) by (destruct Hm; eauto).
    destruct Hex as (t & Ht & Hwt).
    destruct (adjust_spec t (data s) dd Ht Ho Hwt Hko) as (dd' & Ea & Hk' & Hsh & Hfc); [intros; by apply Hk|by apply Hval|].
    rewrite Ea. cbn [mbind option_bind]. eexists. split; [reflexivity|].
    assert (Hsk : same_keys (data s) dd') by (split; rewrite Hk'; done).
    split_and!; try done; try apply Hfl.
    + simpl. apply same_keys_length; [apply Hsk|done|apply Hsk].
    + split; [done|]. simpl. intros _ _. split; [done|]. intros t' Ht' Hw'.
      destruct (adjust_spec t' (data s) dd Ht' Ho Hw' Hko) as (dd'' & Ea' & _ & _ & Hfc'); [intros; by apply Hk|by apply Hval|].
      rewrite Ea in Ea'. injection Ea' as <-. done.
  - cbn [mbind option_bind]. eexists. split; [reflexivity|]. split_and!; try done; try apply Hfl.
    + simpl. apply same_keys_length; [done|done|apply Hk].
    + split; [done|]. simpl. intros _ _. split; [done|]. intros t Ht Hw. exfalso.
      destruct (Hfl [] true true) as [[HH _ _ _ _ _] _]. simpl in HH. assert (weak 1 (data s) ∨ weak (-1) (data s)) as HH' by (destruct Ht; subst; auto).
      by apply HH in HH'.
Qed.
Lemma compute_small s : (length (data s) <= 1)%nat → compute s = Some s.
Proof. intros H. unfold compute. by rewrite decide_True. Qed.
