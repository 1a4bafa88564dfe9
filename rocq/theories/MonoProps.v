(** C30, C31, C50: the monotone cubic interpolator. *)
From Coq Require Import Reals Lra Psatz.
From Verif Require Import Base TableModel UTableProof MonoModel MonoProof.
Local Open Scope R_scope.

(** ** Specification *)
Definition nondecreasing (d : list (R * R)) : Prop := ∀ p q, p ∈ d → q ∈ d → p.1 < q.1 → p.2 <= q.2.
Definition nonincreasing (d : list (R * R)) : Prop := ∀ p q, p ∈ d → q ∈ d → p.1 < q.1 → q.2 <= p.2.
Definition increasing (d : list (R * R)) : Prop := ∀ p q, p ∈ d → q ∈ d → p.1 < q.1 → p.2 < q.2.
Definition decreasing (d : list (R * R)) : Prop := ∀ p q, p ∈ d → q ∈ d → p.1 < q.1 → q.2 < p.2.

Definition query (f : mci → option (bool * mci)) : Prop :=
  f = is_strictly_monotone ∨ f = is_monotone ∨ f = is_strictly_increasing ∨ f = is_monotone_increasing ∨
  f = is_strictly_decreasing ∨ f = is_monotone_decreasing.

(** The objects that the public functions can produce, when scaleData is only
    called with factors satisfying [okf]. *)
Inductive reachable (okf : R → Prop) : mci → Prop :=
  | r_empty junk : reachable okf (mci_empty junk)
  | r_new junk xs fs s : mci_new junk xs fs = Some s → reachable okf s
  | r_add s x f s' : reachable okf s → add_pair s x f = Some s' → reachable okf s'
  | r_scale s c : reachable okf s → okf c → reachable okf (scale_data s c)
  | r_chop s e s' : reachable okf s → chop_flat_endpoints s e = Some s' → reachable okf s'
  | r_shrink s e s' : reachable okf s → shrink_flat_areas s e = Some s' → reachable okf s'
  | r_query s f b s' : reachable okf s → query f → f s = Some (b, s') → reachable okf s'.
Definition anyf : R → Prop := λ _, True.
Definition posf : R → Prop := λ c, 0 < c.

(** ** Links between the specification and the lemmas *)
Section links.
  Context (d : list (R * R)) (Ho : inorder (keys d)).

  Lemma order_lookup p q : p ∈ d → q ∈ d → p.1 < q.1 → ∃ i j, (i < j)%nat ∧ d !! i = Some p ∧ d !! j = Some q.
  Proof using Ho.
    intros [i Hi]%elem_of_list_lookup [j Hj]%elem_of_list_lookup Hlt. exists i, j. split_and!; [|done..].
    destruct (decide (i < j)%nat) as [H|H]; [done|]. exfalso.
    destruct (decide (i = j)) as [->|Hn]; [rewrite Hi in Hj; injection Hj as ->; lra|].
    pose proof (inorder_lt _ j i _ _ Ho ltac:(lia) (keys_lookup _ _ _ Hj) (keys_lookup _ _ _ Hi)). lra.
  Qed.
  Lemma strict_lt t i j p q : strict t d → (i < j)%nat → d !! i = Some p → d !! j = Some q → t * p.2 < t * q.2.
  Proof using.
    intros Hs Hij Hp Hq. destruct (lookup_lt_is_Some_2 d (S i)) as [r Hr]; [apply lookup_lt_Some in Hq; lia|].
    apply Rlt_le_trans with (t * r.2); [by eapply Hs|]. eapply weak_le; [by apply strict_weak|..|done|done]. lia.
  Qed.
  Lemma next_lt i p q : d !! i = Some p → d !! S i = Some q → p.1 < q.1.
  Proof using Ho. intros Hp Hq. by apply (Ho i); apply keys_lookup. Qed.
  Lemma weak_up : weak 1 d ↔ nondecreasing d.
  Proof using Ho.
    split.
    - intros H p q Hp Hq Hlt. destruct (order_lookup p q Hp Hq Hlt) as (i & j & Hij & Hi & Hj).
      pose proof (weak_le 1 d i j p q H ltac:(lia) Hi Hj). lra.
    - intros H i p q Hp Hq. pose proof (H p q ltac:(by eapply elem_of_list_lookup_2) ltac:(by eapply elem_of_list_lookup_2) (next_lt _ _ _ Hp Hq)). lra.
  Qed.
  Lemma weak_down : weak (-1) d ↔ nonincreasing d.
  Proof using Ho.
    split.
    - intros H p q Hp Hq Hlt. destruct (order_lookup p q Hp Hq Hlt) as (i & j & Hij & Hi & Hj).
      pose proof (weak_le (-1) d i j p q H ltac:(lia) Hi Hj). lra.
    - intros H i p q Hp Hq. pose proof (H p q ltac:(by eapply elem_of_list_lookup_2) ltac:(by eapply elem_of_list_lookup_2) (next_lt _ _ _ Hp Hq)). lra.
  Qed.
  Lemma strict_up : strict 1 d ↔ increasing d.
  Proof using Ho.
    split.
    - intros H p q Hp Hq Hlt. destruct (order_lookup p q Hp Hq Hlt) as (i & j & Hij & Hi & Hj).
      pose proof (strict_lt 1 i j p q H ltac:(lia) Hi Hj). lra.
    - intros H i p q Hp Hq. pose proof (H p q ltac:(by eapply elem_of_list_lookup_2) ltac:(by eapply elem_of_list_lookup_2) (next_lt _ _ _ Hp Hq)). lra.
  Qed.
  Lemma strict_down : strict (-1) d ↔ decreasing d.
  Proof using Ho.
    split.
    - intros H p q Hp Hq Hlt. destruct (order_lookup p q Hp Hq Hlt) as (i & j & Hij & Hi & Hj).
      pose proof (strict_lt (-1) i j p q H ltac:(lia) Hi Hj). lra.
    - intros H i p q Hp Hq. pose proof (H p q ltac:(by eapply elem_of_list_lookup_2) ltac:(by eapply elem_of_list_lookup_2) (next_lt _ _ _ Hp Hq)). lra.
  Qed.
End links.

(** ** Invariants *)
Definition inv (s : mci) : Prop := eval_inv s ∧ ((2 <= length (data s))%nat → (length (data s) <= length (ddata s))%nat).
Definition flags_inv (s : mci) : Prop := (2 <= length (data s))%nat →
  flags_weak s ∧ (sm_cached s = true → flags_ok s) ∧ (m_cached s = true → flags_ok s).

Lemma compute_inv s : inorder (keys (data s)) →
  ∃ s', compute s = Some s' ∧ data s' = data s ∧
    ((2 <= length (data s))%nat → inv s' ∧ flags_inv s' ∧ flags_ok s' ∧ sm_cached s' = true ∧ m_cached s' = true) ∧
    ((length (data s) <= 1)%nat → s' = s).
Proof.
  intros Ho. destruct (decide (2 <= length (data s))%nat) as [Hn|Hn].
  - destruct (compute_spec s Ho Hn) as (s' & E & Hd & C1 & C2 & F1 & F2 & Hl & Hi). exists s'. split_and!; [done|done| |lia].
    intros _. split_and!; [split; [done|intros _; lia]|by intros _|done..].
  - exists s. split_and!; [apply compute_small; lia|done|lia|done].
Qed.

Lemma small_inv s : inorder (keys (data s)) → (length (data s) <= 1)%nat → inv s ∧ flags_inv s.
Proof. intros Ho Hn. split; [split; [split; [done|lia]|lia]|intros H; lia]. Qed.

Lemma compute_inv' s s' : inorder (keys (data s)) → compute s = Some s' → data s' = data s ∧ inv s' ∧ flags_inv s'.
Proof.
  intros Ho E. destruct (compute_inv s Ho) as (s1 & E1 & Hd & H2 & H1). rewrite E in E1. injection E1 as <-.
  split; [done|]. destruct (decide (2 <= length (data s))%nat) as [Hn|Hn].
  - destruct (H2 Hn) as (? & ? & _). done.
  - apply small_inv; rewrite Hd; [done|lia].
Qed.

Lemma set_all_inorder xs fs m : inorder (keys m) → inorder (keys (set_all xs fs m)).
Proof.
  revert fs m. induction xs as [|x xs IH]; intros [|f fs] m Hm; try done. simpl. apply IH. by apply mset_inorder.
Qed.

Lemma query_inv f s b s' : query f → inv s → flags_inv s → f s = Some (b, s') → inv s' ∧ flags_inv s' ∧ data s' = data s.
Proof.
  intros Hq Hi Hf E.
  assert (Hgen : ∀ (c : bool) (g : mci → bool), (if c then Some (g s, s) else s1 ← compute s; Some (g s1, s1)) = Some (b, s') →
    inv s' ∧ flags_inv s' ∧ data s' = data s).
  { intros [] g Eg; [by injection Eg as _ <-|]. destruct (compute s) as [s1|] eqn:E1; [|done]. injection Eg as _ <-.
    destruct (compute_inv' s s1 (proj1 (proj1 Hi)) E1) as (? & ? & ?). done. }
  destruct Hq as [->|[->|[->|[->|[->| ->]]]]].
  - by apply (Hgen (sm_cached s) sm).
  - by apply (Hgen (m_cached s) mono).
  - by apply (Hgen (sm_cached s) (λ s, sm s && sinc s)).
  - by apply (Hgen (m_cached s) (λ s, mono s && inc s)).
  - by apply (Hgen (sm_cached s) (λ s, sm s && sdec s)).
  - by apply (Hgen (m_cached s) (λ s, mono s && dec s)).
Qed.
(** The same without the flags. *)
Lemma query_inv0 f s b s' : query f → inv s → f s = Some (b, s') → inv s' ∧ data s' = data s.
Proof.
  intros Hq Hi E.
  assert (Hgen : ∀ (c : bool) (g : mci → bool), (if c then Some (g s, s) else s1 ← compute s; Some (g s1, s1)) = Some (b, s') →
    inv s' ∧ data s' = data s).
  { intros [] g Eg; [by injection Eg as _ <-|]. destruct (compute s) as [s1|] eqn:E1; [|done]. injection Eg as _ <-.
    destruct (compute_inv' s s1 (proj1 (proj1 Hi)) E1) as (? & ? & ?). done. }
  destruct Hq as [->|[->|[->|[->|[->| ->]]]]].
  - by apply (Hgen (sm_cached s) sm).
  - by apply (Hgen (m_cached s) mono).
  - by apply (Hgen (sm_cached s) (λ s, sm s && sinc s)).
  - by apply (Hgen (m_cached s) (λ s, mono s && inc s)).
  - by apply (Hgen (sm_cached s) (λ s, sm s && sdec s)).
  - by apply (Hgen (m_cached s) (λ s, mono s && dec s)).
Qed.

(** shrinkFlatAreas *)
Lemma shrink_spec e p l : inorder (keys (p :: l)) →
  inorder (keys (shrink e p l)) ∧ head (shrink e p l) = Some p ∧ (length (shrink e p l) <= S (length l))%nat ∧
  (length (shrink e p l) = S (length l) → shrink e p l = p :: l) ∧
  (∀ t, weak t (p :: l) → weak t (shrink e p l)) ∧
  (∀ q, q ∈ shrink e p l → q ∈ p :: l) ∧
  (∀ i a b, shrink e p l !! i = Some a → shrink e p l !! S i = Some b → e <= Rabs (a.2 - b.2)).
Proof.
  revert p. induction l as [|q l IH]; intros p Ho; simpl.
  { split_and!; try done; try lia; try (intros [|i] a b Ha Hb; done). }
  assert (Hpq : p.1 < q.1) by (by apply (Ho 0%nat)).
  assert (Hoq : inorder (keys (q :: l))) by (by eapply inorder_tail).
  destruct (Rlt_dec (Rabs (p.2 - q.2)) e) as [He|He].
  - destruct (IH p) as (I1 & I2 & I3 & I4 & I5 & I6 & I7).
    + change (inorder (p.1 :: keys l)). apply inorder_cons; [by eapply inorder_tail|]. intros y Hy.
      apply Rlt_trans with q.1; [done|]. apply (Hoq 0%nat); [done|]. rewrite head_lookup in Hy. done.
    + split_and!; [done|done|lia|lia| | |done].
      * intros t Hw. apply I5. apply weak_cons2 in Hw as [Hw1 Hw2]. destruct l as [|r l]; [apply weak_1|].
        apply weak_cons2 in Hw2 as [Hw2 Hw3]. apply weak_cons2. split; [lra|done].
      * intros r Hr. apply I6 in Hr. apply elem_of_cons in Hr as [->|Hr]; [by left|]. right. by right.
  - destruct (IH q Hoq) as (I1 & I2 & I3 & I4 & I5 & I6 & I7). split_and!.
    + change (inorder (p.1 :: keys (shrink e q l))). apply inorder_cons; [done|]. intros y Hy.
      rewrite head_lookup in Hy. rewrite head_lookup in I2. rewrite (keys_lookup _ _ _ I2) in Hy. by injection Hy as <-.
    + done.
    + simpl. lia.
    + simpl. intros E. f_equal. apply I4. lia.
    + intros t Hw. apply weak_cons2 in Hw as [Hw1 Hw2]. specialize (I5 t Hw2).
      destruct (shrink e q l) as [|r l'] eqn:Er; [apply weak_1|]. simpl in I2. injection I2 as ->. by apply weak_cons2.
    + intros r Hr. apply elem_of_cons in Hr as [->|Hr]; [by left|]. right. by apply I6.
    + intros [|i] a b Ha Hb; [|by eapply I7]. simpl in Ha, Hb. injection Ha as <-. rewrite head_lookup in I2. rewrite I2 in Hb. injection Hb as <-. lra.
Qed.

Lemma shrink_cases s e s' : inorder (keys (data s)) → shrink_flat_areas s e = Some s' → s' = s ∨
  (∃ b, is_strictly_monotone s = Some (b, s')) ∨
  (∃ b1 s1 b, is_strictly_monotone s = Some (b1, s1) ∧ is_monotone s1 = Some (b, s')) ∨
  (∃ s1 s2 p l, is_strictly_monotone s = Some (false, s1) ∧ is_monotone s1 = Some (true, s2) ∧
     data s2 = p :: l ∧ (2 <= length (data s))%nat ∧ s' = with_data (uncached s2) (shrink e p l)).
Proof.
  intros Ho. unfold shrink_flat_areas. case_decide as Hl; [intros [= <-]; by left|].
  destruct (is_strictly_monotone s) as [[b1 s1]|] eqn:E1; [|done]. cbn [mbind option_bind].
  destruct b1; [intros [= <-]; right; left; eauto|].
  destruct (is_monotone s1) as [[b2 s2]|] eqn:E2; [|done]. cbn [mbind option_bind].
  destruct b2; simpl; [|intros [= <-]; right; right; left; eauto 10].
  destruct (data s2) as [|p l] eqn:Ed; [done|]. intros [= <-]. right; right; right.
  exists s1, s2, p, l. split_and!; try done. lia.
Qed.

Lemma inv_shrunk s p l e : inv s → data s = p :: l → inv (with_data (uncached s) (shrink e p l)).
Proof.
  intros [[Ho Hi] Hl] Hd. rewrite Hd in Ho.
  destruct (shrink_spec e p l Ho) as (I1 & _ & I3 & I4 & _). simpl in *. rewrite Hd in Hi, Hl. simpl in Hi, Hl.
  split; [split|]; simpl; [done| |lia].
  intros H2 He. assert (E : length (shrink e p l) = S (length l)) by lia. rewrite (I4 E). simpl. apply Hi; [lia|]. lia.
Qed.

(** scaleData *)
Lemma scale_keys c m : keys (scale_map c m) = keys m.
Proof. unfold keys, scale_map. rewrite <- list_fmap_compose. by apply list_fmap_ext. Qed.
Lemma scale_lookup c m i p : scale_map c m !! i = Some p ↔ ∃ v, m !! i = Some (p.1, v) ∧ p.2 = v * c.
Proof.
  unfold scale_map. rewrite list_lookup_fmap. destruct (m !! i) as [[a b]|]; simpl.
  - split; [intros [= <-]; eauto|]. intros (v & Hv & E). injection Hv as E1 E2. destruct p; simpl in *; congruence.
  - split; [done|]. by intros (v & ? & _).
Qed.
Lemma scale_length c m : length (scale_map c m) = length m.
Proof. apply fmap_length. Qed.
Lemma scale_mget c m k : mget (scale_map c m) k = (λ v, v * c) <$> mget m k.
Proof. induction m as [|[a b] m IH]; [done|]. simpl. by destruct (Req_EM_T k a). Qed.
Lemma scale_weak c t m : weak t (scale_map c m) → (0 < c → weak t m) ∧ (c < 0 → weak (- t) m).
Proof.
  intros H.
  assert (Hg : ∀ i p q, m !! i = Some p → m !! S i = Some q → t * (p.2 * c) <= t * (q.2 * c)).
  { intros i p q Hp Hq. apply (H i (p.1, p.2 * c) (q.1, q.2 * c)); apply scale_lookup; simpl; [exists p.2|exists q.2]; split; try done; [by destruct p|by destruct q]. }
  split; intros Hc i p q Hp Hq; specialize (Hg i p q Hp Hq); nra.
Qed.
Lemma scale_weak_fwd c t m : 0 < c → weak t m → weak t (scale_map c m).
Proof.
  intros Hc H i p q (u & Hp & Eu)%scale_lookup (v & Hq & Ev)%scale_lookup. specialize (H _ _ _ Hp Hq). simpl in H. rewrite Eu, Ev. nra.
Qed.
Lemma scale_strict c t m : 0 < c → strict t (scale_map c m) ↔ strict t m.
Proof.
  intros Hc. split.
  - intros H i p q Hp Hq.
    assert (t * (p.2 * c) < t * (q.2 * c)); [|nra].
    apply (H i (p.1, p.2 * c) (q.1, q.2 * c)); apply scale_lookup; simpl; [exists p.2|exists q.2]; split; try done; [by destruct p|by destruct q].
  - intros H i p q (u & Hp & Eu)%scale_lookup (v & Hq & Ev)%scale_lookup. specialize (H _ _ _ Hp Hq). simpl in H. rewrite Eu, Ev. nra.
Qed.
Lemma inv_scale s c : inv s → inv (scale_data s c).
Proof.
  intros [[Ho Hi] Hl]. split; [split|]; simpl.
  - by rewrite scale_keys.
  - rewrite scale_length. intros H2 He. destruct (decide (length (data s) = length (ddata s))) as [E|E]; [|lia].
    destruct (Hi H2 ltac:(lia)) as [[K1 K2] Hfc]. split.
    + split; [by rewrite scale_keys|]. intros k. by rewrite !scale_keys.
    + intros t Ht Hw i p q (u & Hp & Eu)%scale_lookup (v & Hq & Ev)%scale_lookup.
      assert (Hpq : p.1 < q.1) by (apply (Ho i); [by apply (keys_lookup _ _ _ Hp)|by apply (keys_lookup _ _ _ Hq)]).
      assert (Hsl : slope p q = c * slope (p.1, u) (q.1, v)) by (unfold slope; simpl; rewrite Eu, Ev; field; lra).
      destruct (scale_weak c t (data s) Hw) as [Hw1 Hw2].
      destruct (Rlt_dec 0 c) as [Hc|Hc]; [|destruct (Rlt_dec c 0) as [Hc'|Hc']].
      * destruct (Hfc t Ht (Hw1 Hc) i _ _ Hp Hq) as (a & b & Ea & Eb & F1 & F2 & F3). simpl in Ea, Eb.
        exists (a * c), (b * c). rewrite !scale_mget, Ea, Eb, Hsl. split_and!; [done|done|nra|nra|].
        assert (0 <= c * c) by nra. nra.
      * destruct (Hfc (- t) ltac:(destruct Ht as [->| ->]; [right|left]; lra) (Hw2 Hc') i _ _ Hp Hq) as (a & b & Ea & Eb & F1 & F2 & F3). simpl in Ea, Eb.
        exists (a * c), (b * c). rewrite !scale_mget, Ea, Eb, Hsl. split_and!; [done|done|nra|nra|].
        assert (0 <= c * c) by nra. nra.
      * assert (c = 0) as -> by lra.
        assert (∃ a, mget (ddata s) p.1 = Some a) as [a Ea].
        { apply mget_elem, K2, elem_keys. eauto. }
        assert (∃ b, mget (ddata s) q.1 = Some b) as [b Eb].
        { apply mget_elem, K2, elem_keys. eauto. }
        exists (a * 0), (b * 0). rewrite !scale_mget, Ea, Eb. split_and!; [done|done|nra|nra|nra].
  - rewrite scale_length. intros H2. specialize (Hl H2). case_decide; [rewrite scale_length|]; lia.
Qed.
Lemma flags_scale s c : 0 < c → flags_inv s → flags_inv (scale_data s c).
Proof.
  intros Hc Hf H2. simpl in H2. rewrite scale_length in H2. destruct (Hf H2) as ([W1 W2] & F1 & F2).
  assert (W : ∀ t, weak t (scale_map c (data s)) ↔ weak t (data s)).
  { intros t. split; [intros H; by apply scale_weak in H as [H _]; apply H|by apply scale_weak_fwd]. }
  assert (Hok : flags_ok s → flags_ok (scale_data s c)).
  { intros [G1 G2 G3 G4 G5 G6]. split; simpl; rewrite ?W, ?scale_strict; done. }
  split_and!; [|by intros; apply Hok, F1|by intros; apply Hok, F2].
  split; simpl; rewrite W; done.
Qed.

Lemma chop_cases s e s' : chop_flat_endpoints s e = Some s' → s' = s ∨ compute (uncached s) = Some s'.
Proof.
  unfold chop_flat_endpoints. case_decide; [intros [= <-]; by left|].
  destruct (data s) as [|p [|q d]]; [done..|]. destruct (reverse (p :: q :: d)) as [|z [|y r]]; [done..|].
  destruct (Rlt_dec (Rabs (p.2 - q.2)) e); [done|]. destruct (Rlt_dec (Rabs (z.2 - y.2)) e); [done|]. by right.
Qed.

Lemma reachable_inv okf s : reachable okf s → inv s.
Proof.
  induction 1 as [junk|junk xs fs s E|s x f s' _ IH E|s c _ IH _|s e s' _ IH E|s e s' _ IH E|s f b s' _ IH Hq E].
  - destruct junk as [[[[? ?] [? ?]] [? ?]] [? ?]]. apply small_inv; simpl; [by intros [|i]|lia].
  - unfold mci_new in E. case_decide; [|done]. apply compute_inv' in E as (_ & ? & _); [done|].
    destruct junk as [[[[? ?] [? ?]] [? ?]] [? ?]]. simpl. apply set_all_inorder. by intros [|i].
  - apply compute_inv' in E as (_ & ? & _); [done|]. simpl. apply mset_inorder, IH.
  - by apply inv_scale.
  - apply chop_cases in E as [->|E]; [done|]. apply compute_inv' in E as (_ & ? & _); [done|]. apply IH.
  - apply shrink_cases in E as [->|[(b & E)|[(b1 & s1 & b & E1 & E)|(s1 & s2 & p & l & E1 & E & Ed & _ & ->)]]]; [done| | | |apply IH].
    + eapply query_inv0; [|exact IH|exact E]. by left.
    + eapply query_inv0 in E1 as [IH1 _]; [|by left|exact IH]. eapply query_inv0; [|exact IH1|exact E]. by right; left.
    + eapply query_inv0 in E1 as [IH1 _]; [|by left|exact IH]. eapply query_inv0 in E as [IH2 _]; [|by right; left|exact IH1].
      by apply inv_shrunk.
  - by eapply query_inv0.
Qed.
Lemma reachable_flags s : reachable posf s → inv s ∧ flags_inv s.
Proof.
  induction 1 as [junk|junk xs fs s E|s x f s' _ [IH IHf] E|s c _ [IH IHf] Hc|s e s' _ [IH IHf] E|s e s' _ [IH IHf] E|s f b s' _ [IH IHf] Hq E].
  - destruct junk as [[[[? ?] [? ?]] [? ?]] [? ?]]. apply small_inv; simpl; [by intros [|i]|lia].
  - unfold mci_new in E. case_decide; [|done]. apply compute_inv' in E as (_ & ? & ?); [done|].
    destruct junk as [[[[? ?] [? ?]] [? ?]] [? ?]]. simpl. apply set_all_inorder. by intros [|i].
  - apply compute_inv' in E as (_ & ? & ?); [done|]. simpl. apply mset_inorder, IH.
  - split; [by apply inv_scale|by apply flags_scale].
  - apply chop_cases in E as [->|E]; [done|]. apply compute_inv' in E as (_ & ? & ?); [done|]. apply IH.
  - apply shrink_cases in E as [->|[(b & E)|[(b1 & s1 & b & E1 & E)|(s1 & s2 & p & l & E1 & E & Ed & H2 & ->)]]]; [done| | | |apply IH].
    + destruct (query_inv _ _ _ _ (or_introl eq_refl) IH IHf E) as (? & ? & _). done.
    + destruct (query_inv _ _ _ _ (or_introl eq_refl) IH IHf E1) as (IH1 & IHf1 & _).
      destruct (query_inv _ _ _ _ (or_intror (or_introl eq_refl)) IH1 IHf1 E) as (? & ? & _). done.
    + destruct (query_inv _ _ _ _ (or_introl eq_refl) IH IHf E1) as (IH1 & IHf1 & D1).
      destruct (query_inv _ _ _ _ (or_intror (or_introl eq_refl)) IH1 IHf1 E) as (IH2 & IHf2 & D2).
      split; [by apply inv_shrunk|]. intros _. simpl.
      destruct (IHf2 ltac:(rewrite D2, D1; done)) as ([W1 W2] & _).
      assert (Ho : inorder (keys (p :: l))) by (rewrite <- Ed; apply IH2).
      destruct (shrink_spec e p l Ho) as (_ & _ & _ & _ & I5 & _). rewrite Ed in W1, W2.
      split_and!; [|done|done]. split; simpl; auto.
  - destruct (query_inv _ _ _ _ Hq IH IHf E) as (? & ? & _). done.
Qed.

(** ** C30 *)
(** The interpolant passes through the data, whatever the history. *)
Theorem C30_interpolates s x f : reachable anyf s → (x, f) ∈ data s → evaluate s x = Some f.
Proof.
  intros Hr [i Hi]%elem_of_list_lookup. destruct (reachable_inv _ _ Hr) as [Hinv _]. destruct i as [|i].
  - rewrite (eval_left s x (x, f)); [done|apply Hinv|done|simpl; lra].
  - destruct (lookup_lt_is_Some_2 (data s) i) as [p Hp]; [apply lookup_lt_Some in Hi; lia|].
    assert (p.1 < x). { apply (proj1 Hinv i); [by apply keys_lookup|by apply (keys_lookup _ _ _ Hi)]. }
    destruct (eval_piece s x i p (x, f) Hinv Hp Hi) as (g & E & _ & _ & Hg & _); [done|simpl; lra|].
    rewrite E. f_equal. exact Hg.
Qed.
(** It is constant outside of the data range. *)
Theorem C30_outside s x : reachable anyf s →
  (∀ p, p ∈ data s → (∀ q, q ∈ data s → p.1 <= q.1) → x <= p.1 → evaluate s x = Some p.2) ∧
  (∀ p, p ∈ data s → (∀ q, q ∈ data s → q.1 <= p.1) → p.1 <= x → evaluate s x = Some p.2).
Proof.
  intros Hr. destruct (reachable_inv _ _ Hr) as [Hinv _]. split; intros p [i Hi]%elem_of_list_lookup Hext Hx.
  - destruct (lookup_lt_is_Some_2 (data s) 0) as [q Hq]; [apply lookup_lt_Some in Hi; lia|].
    assert (i = 0%nat) as ->.
    { destruct i as [|i]; [done|]. pose proof (Hext q ltac:(by eapply elem_of_list_lookup_2)).
      pose proof (inorder_lt _ 0 (S i) _ _ (proj1 Hinv) ltac:(lia) (keys_lookup _ _ _ Hq) (keys_lookup _ _ _ Hi)). lra. }
    by apply eval_left; [apply Hinv|..].
  - destruct (Req_EM_T x p.1) as [->|Hne].
    { apply C30_interpolates; [done|]. destruct p. by eapply elem_of_list_lookup_2. }
    assert (Hl : last (data s) = Some p).
    { destruct (last (data s)) as [q|] eqn:El; [|apply last_None in El; rewrite El in Hi; done].
      rewrite last_lookup in El. pose proof (lookup_lt_Some _ _ _ Hi). f_equal.
      destruct (decide (i = pred (length (data s)))) as [->|Hn]; [rewrite Hi in El; by injection El|].
      pose proof (Hext q ltac:(by eapply elem_of_list_lookup_2)).
      pose proof (inorder_lt _ i (pred (length (data s))) _ _ (proj1 Hinv) ltac:(lia) (keys_lookup _ _ _ Hi) (keys_lookup _ _ _ El)). lra. }
    apply (eval_right s x p); [apply Hinv|done|lra].
Qed.
(** It is defined everywhere. *)
Theorem C30_total s x : reachable anyf s → data s ≠ [] → ∃ y, evaluate s x = Some y.
Proof.
  intros Hr Hne. destruct (reachable_inv _ _ Hr) as [Hinv _].
  destruct (where_is s x (proj1 Hinv) Hne) as [(p & Hp & Hx & _)|[(i & p & q & Hp & Hq & H1 & H2 & _)|(p & Hp & Hx & _)]].
  - exists p.2. by apply eval_left; [apply Hinv|..].
  - destruct (eval_piece s x i p q Hinv Hp Hq H1 H2) as (g & E & _). eauto.
  - exists p.2. by apply eval_right; [apply Hinv|..].
Qed.

Lemma eval_mono s t x y a b : inv s → data s ≠ [] → (t = 1 ∨ t = -1) → weak t (data s) → x <= y →
  evaluate s x = Some a → evaluate s y = Some b → t * a <= t * b.
Proof.
  intros [Hinv _] Hne Ht Hw Hxy Ea Eb. pose proof (proj1 Hinv) as Ho.
  pose proof (mlower_mono (data s) x y Ho Hxy) as Hm.
  (* bounds by the neighbouring data *)
  assert (Hup : ∀ z c q, evaluate s z = Some c → data s !! mlower (data s) z = Some q → t * c <= t * q.2).
  { intros z c q Ez Hq. destruct (where_is s z Ho Hne) as [(p & Hp & Hz & El)|[(i & p & q' & Hp & Hq' & H1 & H2 & El)|(p & Hp & Hz & El)]]; rewrite El in Hq.
    - rewrite (eval_left s z p Ho Hp Hz) in Ez. injection Ez as <-. rewrite Hp in Hq. injection Hq as <-. lra.
    - rewrite Hq' in Hq. injection Hq as <-. destruct (eval_piece s z i p q' Hinv Hp Hq' H1 H2) as (g & E & _ & _ & Hg & Hmono).
      rewrite E in Ez. injection Ez as <-. rewrite <- Hg. apply Hmono; try done; lra.
    - apply lookup_lt_Some in Hq. lia. }
  assert (Hdown : ∀ z c i p, evaluate s z = Some c → mlower (data s) z = S i → data s !! i = Some p → t * p.2 <= t * c).
  { intros z c i p Ez El' Hp. destruct (where_is s z Ho Hne) as [(p' & Hp' & Hz & El)|[(i' & p' & q' & Hp' & Hq' & H1 & H2 & El)|(p' & Hp' & Hz & El)]]; rewrite El in El'.
    - done.
    - injection El' as ->. rewrite Hp in Hp'. injection Hp' as <-. destruct (eval_piece s z i p q' Hinv Hp Hq' H1 H2) as (g & E & _ & Hg & _ & Hmono).
      rewrite E in Ez. injection Ez as <-. rewrite <- Hg. apply Hmono; try done; lra.
    - rewrite (eval_right s z p' Ho Hp' Hz) in Ez. injection Ez as <-. rewrite last_lookup, El' in Hp'. simpl in Hp'.
      rewrite Hp in Hp'. injection Hp' as <-. lra. }
  destruct (decide (mlower (data s) x = mlower (data s) y)) as [Eq|Hneq].
  - destruct (where_is s x Ho Hne) as [(p & Hp & Hx & Ex)|[(i & p & q & Hp & Hq & H1 & H2 & Ex)|(p & Hp & Hx & Ex)]];
    destruct (where_is s y Ho Hne) as [(p' & Hp' & Hy & Ey)|[(i' & p' & q' & Hp' & Hq' & H1' & H2' & Ey)|(p' & Hp' & Hy & Ey)]];
    rewrite Ex, Ey in Eq; try done.
    + rewrite (eval_left s x p Ho Hp Hx) in Ea. rewrite (eval_left s y p' Ho Hp' Hy) in Eb.
      rewrite Hp in Hp'. injection Hp' as <-. injection Ea as <-. injection Eb as <-. lra.
    + destruct (data s); done.
    + injection Eq as <-. rewrite Hp in Hp'. injection Hp' as <-. rewrite Hq in Hq'. injection Hq' as <-.
      destruct (eval_piece s x i p q Hinv Hp Hq H1 H2) as (g & _ & Hg & _ & _ & Hmono).
      rewrite (Hg x H1 H2) in Ea. rewrite (Hg y H1' H2') in Eb. injection Ea as <-. injection Eb as <-. apply Hmono; try done; lra.
    + apply lookup_lt_Some in Hq. lia.
    + destruct (data s); done.
    + apply lookup_lt_Some in Hq'. lia.
    + rewrite (eval_right s x p Ho Hp Hx) in Ea. rewrite (eval_right s y p' Ho Hp' Hy) in Eb.
      rewrite Hp in Hp'. injection Hp' as <-. injection Ea as <-. injection Eb as <-. lra.
  - destruct (mlower_spec (data s) y Ho) as [Hy1 _].
    destruct (mlower (data s) y) as [|j] eqn:Ey; [lia|].
    destruct (lookup_lt_is_Some_2 (data s) (mlower (data s) x)) as [q Hq]; [lia|].
    destruct (lookup_lt_is_Some_2 (data s) j) as [p Hp]; [lia|].
    pose proof (Hup x a q Ea Hq). pose proof (Hdown y b j p Eb Ey Hp).
    pose proof (weak_le t (data s) (mlower (data s) x) j q p Hw ltac:(lia) Hq Hp). lra.
Qed.

(** It is monotone if the data are. *)
Theorem C30_monotone s x y a b : reachable anyf s → data s ≠ [] → x <= y →
  evaluate s x = Some a → evaluate s y = Some b →
  (nondecreasing (data s) → a <= b) ∧ (nonincreasing (data s) → b <= a).
Proof.
  intros Hr Hne Hxy Ea Eb. pose proof (reachable_inv _ _ Hr) as Hinv. pose proof (proj1 (proj1 Hinv)) as Ho. split; intros Hm.
  - pose proof (eval_mono s 1 x y a b Hinv Hne ltac:(by left) (proj2 (weak_up _ Ho) Hm) Hxy Ea Eb). lra.
  - pose proof (eval_mono s (-1) x y a b Hinv Hne ltac:(by right) (proj2 (weak_down _ Ho) Hm) Hxy Ea Eb). lra.
Qed.

(** The object built from two vectors holds the pairs given. *)
Lemma set_all_keeps xs : ∀ fs m k v, inorder (keys m) → k ∉ xs → mget m k = Some v → mget (set_all xs fs m) k = Some v.
Proof.
  induction xs as [|x xs IH]; intros [|f fs] m k v Hm Hk Hv; try done. simpl. rewrite elem_of_cons in Hk.
  apply IH; [by apply mset_inorder|tauto|]. rewrite mget_mset by done. destruct (Req_EM_T k x); [tauto|done].
Qed.
Lemma set_all_has xs : ∀ fs m i x f, inorder (keys m) → NoDup xs → xs !! i = Some x → fs !! i = Some f → mget (set_all xs fs m) x = Some f.
Proof.
  induction xs as [|x xs IH]; intros [|f fs] m i x' f' Hm Hn Hx Hf; try done. apply NoDup_cons in Hn as [Hn1 Hn2]. simpl.
  destruct i as [|i]; simpl in Hx, Hf.
  - injection Hx as <-. injection Hf as <-. apply set_all_keeps; [by apply mset_inorder|done|].
    rewrite mget_mset by done. by destruct (Req_EM_T x x).
  - eapply IH; [by apply mset_inorder|done|done|done].
Qed.
Lemma mget_in m k v : mget m k = Some v → (k, v) ∈ m.
Proof.
  induction m as [|[a b] m IH]; [done|]. simpl. destruct (Req_EM_T k a) as [->|]; [intros [= ->]; by left|]. intros H. right. auto.
Qed.
Theorem C30_new junk xs fs : length xs = length fs → NoDup xs →
  ∃ s, mci_new junk xs fs = Some s ∧ ∀ i x f, xs !! i = Some x → fs !! i = Some f → evaluate s x = Some f.
Proof.
  intros Hl Hn. unfold mci_new. rewrite decide_True by done.
  set (d := set_all xs fs []). assert (Ho : inorder (keys d)) by (apply set_all_inorder; by intros [|i]).
  destruct (compute_inv (with_data (mci_empty junk) d)) as (s & E & Hd & _); [done|].
  exists s. split; [done|]. intros i x f Hx Hf. apply C30_interpolates.
  - apply (r_new _ junk xs fs). unfold mci_new. by rewrite decide_True.
  - rewrite Hd. apply mget_in. eapply set_all_has; [by intros [|?]|done..].
Qed.

(** The functions that have no stated precondition never fail. *)
Theorem C30_no_failure s : reachable anyf s →
  (∀ x f, ∃ s', add_pair s x f = Some s' ∧ (x, f) ∈ data s' ∧ ∀ p, p.1 ≠ x → p ∈ data s ↔ p ∈ data s') ∧
  (∀ f, query f → ∃ b s', f s = Some (b, s')) ∧
  (∀ e, ∃ s', shrink_flat_areas s e = Some s').
Proof.
  intros Hr. pose proof (reachable_inv _ _ Hr) as Hinv. pose proof (proj1 (proj1 Hinv)) as Ho. split_and!.
  - intros x f. assert (Ho' : inorder (keys (mset (data s) x f))) by (by apply mset_inorder).
    destruct (compute_inv (with_data s (mset (data s) x f)) Ho') as (s' & E & Hd & _). exists s'. split; [done|]. rewrite Hd. simpl.
    split; [apply mget_in; rewrite mget_mset by done; by destruct (Req_EM_T x x)|].
    assert (Hin : ∀ (m : list (R * R)) p, inorder (keys m) → p ∈ m ↔ mget m p.1 = Some p.2).
    { intros m [k v] Hm. split; [|apply mget_in]. intros [i Hi]%elem_of_list_lookup. by eapply mget_lookup. }
    intros p Hp. rewrite !Hin by done. rewrite mget_mset by done. by destruct (Req_EM_T p.1 x).
  - intros f Hq.
    assert (Hgen : ∀ (c : bool) (g : mci → bool), ∃ b s', (if c then Some (g s, s) else s1 ← compute s; Some (g s1, s1)) = Some (b, s')).
    { intros [] g; [eauto|]. destruct (compute_inv s Ho) as (s1 & E1 & _). rewrite E1. simpl. eauto. }
    destruct Hq as [->|[->|[->|[->|[->| ->]]]]].
    + apply (Hgen (sm_cached s) sm).
    + apply (Hgen (m_cached s) mono).
    + apply (Hgen (sm_cached s) (λ s, sm s && sinc s)).
    + apply (Hgen (m_cached s) (λ s, mono s && inc s)).
    + apply (Hgen (sm_cached s) (λ s, sm s && sdec s)).
    + apply (Hgen (m_cached s) (λ s, mono s && dec s)).
  - intros e. unfold shrink_flat_areas. case_decide as Hl; [eauto|].
    assert (Hs1 : ∃ b s1, is_strictly_monotone s = Some (b, s1)).
    { unfold is_strictly_monotone. destruct (sm_cached s); [eauto|]. destruct (compute_inv s Ho) as (s1 & E1 & _). rewrite E1. simpl. eauto. }
    destruct Hs1 as (b & s1 & E1). rewrite E1. cbn [mbind option_bind]. destruct b; [eauto|].
    destruct (query_inv0 is_strictly_monotone s false s1 (or_introl eq_refl) Hinv E1) as [Hinv1 D1].
    assert (Hs2 : ∃ b s2, is_monotone s1 = Some (b, s2)).
    { unfold is_monotone. destruct (m_cached s1); [eauto|]. destruct (compute_inv s1 (proj1 (proj1 Hinv1))) as (s2 & E2 & _). rewrite E2. simpl. eauto. }
    destruct Hs2 as (b & s2 & E2). rewrite E2. cbn [mbind option_bind]. destruct b; simpl; [|eauto].
    destruct (query_inv0 is_monotone s1 true s2 (or_intror (or_introl eq_refl)) Hinv1 E2) as [_ D2].
    rewrite D2, D1. destruct (data s); [simpl in Hl; lia|]. eauto.
Qed.

(** Data on a (not too flat) straight line are reproduced exactly. *)
Lemma adjust_affine a b d dd : inorder (keys d) → (∀ p, p ∈ d → p.2 = a * p.1 + b) → / 10 ^ 14 <= Rabs a →
  (∀ k, k ∈ keys d → mget dd k = Some a) → adjust d dd = Some dd.
Proof.
  intros Ho Hl Ha. revert Ho Hl. induction d as [|p d IH]; intros Ho Hl Hk; [done|]. destruct d as [|q d]; [done|].
  assert (Hpq : p.1 < q.1) by (by apply (Ho 0%nat)). rewrite adjust_cons, rdiv_Some by lra. cbn [mbind option_bind].
  assert (E : (q.2 - p.2) / (q.1 - p.1) = a).
  { rewrite (Hl p), (Hl q) by (by repeat constructor). field. lra. }
  rewrite E. destruct (Rlt_dec (Rabs a) (/ 10 ^ 14)); [lra|].
  assert (a ≠ 0). { intros ->. rewrite Rabs_R0 in *. pose proof (Rinv_0_lt_compat (10 ^ 14) ltac:(apply pow_lt; lra)). lra. }
  rewrite !Hk by (by repeat constructor). cbn [mbind option_bind]. rewrite !rdiv_Some by done. cbn [mbind option_bind].
  unfold is_monotone_coeff. replace (a / a) with 1 by (field; done). destruct (Rle_dec (1 * 1 + 1 * 1) 9); [|lra]. cbn [mbind option_bind].
  apply IH; [by eapply inorder_tail|intros w Hw; apply Hl; by right|intros k Hk'; apply Hk; by right].
Qed.
Lemma compute_affine s s' a b x : inorder (keys (data s)) → compute s = Some s' →
  (∀ p, p ∈ data s → p.2 = a * p.1 + b) → / 10 ^ 14 <= Rabs a →
  (∃ p q, p ∈ data s ∧ q ∈ data s ∧ p.1 <= x <= q.1) → evaluate s' x = Some (a * x + b).
Proof.
  intros Ho E Hl Ha (p0 & q0 & Hp0 & Hq0 & Hx).
  destruct (compute_inv' s s' Ho E) as (Hd & [Hinv Hlen] & _).
  assert (Hne : data s' ≠ []) by (rewrite Hd; intros E'; rewrite E' in Hp0; by apply elem_of_nil in Hp0).
  assert (Ho' : inorder (keys (data s'))) by (by rewrite Hd).
  assert (Hmin : ∀ p, data s' !! 0%nat = Some p → p.1 <= p0.1).
  { intros p Hp. rewrite Hd in Hp. apply elem_of_list_lookup in Hp0 as [[|i] Hi]; [rewrite Hp in Hi; injection Hi as <-; lra|].
    pose proof (inorder_lt _ 0 (S i) _ _ Ho ltac:(lia) (keys_lookup _ _ _ Hp) (keys_lookup _ _ _ Hi)). lra. }
  assert (Hmax : ∀ p, last (data s') = Some p → q0.1 <= p.1).
  { intros p Hp. rewrite Hd, last_lookup in Hp. apply elem_of_list_lookup in Hq0 as [i Hi].
    destruct (decide (i = pred (length (data s)))) as [->|Hn]; [rewrite Hp in Hi; injection Hi as <-; lra|].
    pose proof (lookup_lt_Some _ _ _ Hi).
    pose proof (inorder_lt _ i (pred (length (data s))) _ _ Ho ltac:(lia) (keys_lookup _ _ _ Hi) (keys_lookup _ _ _ Hp)). lra. }
  destruct (where_is s' x Ho' Hne) as [(p & Hp & Hxp & _)|[(i & p & q & Hp & Hq & H1 & H2 & El)|(p & Hp & Hxp & _)]].
  - rewrite (eval_left s' x p Ho' Hp Hxp). specialize (Hmin p Hp). assert (x = p.1) as -> by lra. f_equal. apply Hl.
    rewrite <- Hd. by eapply elem_of_list_lookup_2.
  - pose proof (lookup_lt_Some _ _ _ Hq) as Hlt. rewrite Hd in Hlt.
    assert (Hda : length (ddata s') = length (data s') ∧ ∀ k, k ∈ keys (data s) → mget (ddata s') k = Some a).
    { unfold compute in E. rewrite decide_False in E by lia. destruct (mono_flags (data s)) as [[[[[[m ?] ?] ?] ?] ?]|]; [|done]. cbn [mbind option_bind] in E.
      destruct (simple_spec (λ v, v = a) (data s)) as (dd & Ed & [K1 K2] & Hv).
      + intros u v -> ->. lra.
      + done.
      + intros j u v Hu Hv. pose proof (Hl u ltac:(by eapply elem_of_list_lookup_2)) as Eu. pose proof (Hl v ltac:(by eapply elem_of_list_lookup_2)) as Ev.
        assert (u.1 < v.1) by (by apply (Ho j); apply keys_lookup). unfold slope. rewrite Eu, Ev. field. lra.
      + lia.
      + rewrite Ed in E. cbn [mbind option_bind] in E.
        assert (Hk : ∀ k, k ∈ keys (data s) → mget dd k = Some a).
        { intros k Hk. apply K2 in Hk. apply mget_elem in Hk as [v Hv']. by rewrite Hv', (Hv _ _ Hv'). }
        rewrite (adjust_affine a b (data s) dd Ho Hl Ha Hk) in E. destruct m; cbn [mbind option_bind] in E; injection E as <-; simpl.
        all: split; [apply same_keys_length; [done|done|apply K2]|done]. }
    destruct Hda as [HL Hk]. unfold evaluate. rewrite El. rewrite decide_False by lia. rewrite decide_False by (rewrite Hd; lia).
    rewrite Hq. cbn [pred]. rewrite Hp. cbn [mbind option_bind]. rewrite decide_True by done.
    rewrite rdiv_Some by lra. cbn [mbind option_bind].
    rewrite !Hk by (rewrite <- Hd; apply elem_of_list_lookup; eexists; by apply keys_lookup). cbn [mbind option_bind]. f_equal.
    rewrite (Hl p), (Hl q) by (rewrite <- Hd; by eapply elem_of_list_lookup_2). unfold H00, H10, H01, H11. field. lra.
  - specialize (Hmax p Hp). lra.
Qed.
Theorem C30_affine s x0 f0 s' a b x : reachable anyf s → add_pair s x0 f0 = Some s' →
  (∀ p, p ∈ data s' → p.2 = a * p.1 + b) → / 10 ^ 14 <= Rabs a →
  (∃ p q, p ∈ data s' ∧ q ∈ data s' ∧ p.1 <= x <= q.1) → evaluate s' x = Some (a * x + b).
Proof.
  intros Hr E Hl Ha Hx. pose proof (proj1 (proj1 (reachable_inv _ _ Hr))) as Ho.
  assert (Ho' : inorder (keys (mset (data s) x0 f0))) by (by apply mset_inorder).
  destruct (compute_inv' (with_data s (mset (data s) x0 f0)) s' Ho' E) as (Hd & _). simpl in Hd. rewrite Hd in Hl, Hx. by eapply (compute_affine (with_data s (mset (data s) x0 f0))).
Qed.

(** ** C31 *)
(** The six queries agree with the data after any history in which the values
    were only scaled by positive factors. *)
Theorem C31_queries s : reachable posf s → (2 <= length (data s))%nat →
  (∀ b s', is_strictly_monotone s = Some (b, s') → b = true ↔ increasing (data s) ∨ decreasing (data s)) ∧
  (∀ b s', is_monotone s = Some (b, s') → b = true ↔ nondecreasing (data s) ∨ nonincreasing (data s)) ∧
  (∀ b s', is_strictly_increasing s = Some (b, s') → b = true ↔ increasing (data s)) ∧
  (∀ b s', is_monotone_increasing s = Some (b, s') → b = true ↔ nondecreasing (data s)) ∧
  (∀ b s', is_strictly_decreasing s = Some (b, s') → b = true ↔ decreasing (data s)) ∧
  (∀ b s', is_monotone_decreasing s = Some (b, s') → b = true ↔ nonincreasing (data s)).
Proof.
  intros Hr Hn. destruct (reachable_flags s Hr) as [Hinv Hf]. pose proof (proj1 (proj1 Hinv)) as Ho.
  destruct (Hf Hn) as (_ & F1 & F2).
  assert (Hgen : ∀ (c : bool) (g : mci → bool) (Q : Prop), (c = true → flags_ok s) →
    (∀ s1, data s1 = data s → flags_ok s1 → g s1 = true ↔ Q) →
    ∀ b s', (if c then Some (g s, s) else s1 ← compute s; Some (g s1, s1)) = Some (b, s') → b = true ↔ Q).
  { intros [] g Q Hc Hg b s' E.
    - injection E as <- <-. apply Hg; [done|auto].
    - destruct (compute_inv s Ho) as (s1 & E1 & Hd & H2 & _). rewrite E1 in E. cbn [mbind option_bind] in E. injection E as <- <-.
      apply Hg; [done|]. by destruct (H2 Hn) as (_ & _ & ? & _). }
  split_and!.
  - apply (Hgen (sm_cached s) sm); [done|]. intros s1 Hs1 F. rewrite <- ?(strict_up _ Ho), <- ?(strict_down _ Ho), <- ?(weak_up _ Ho), <- ?(weak_down _ Ho), <- Hs1. apply F.
  - apply (Hgen (m_cached s) mono); [done|]. intros s1 Hs1 F. rewrite <- ?(strict_up _ Ho), <- ?(strict_down _ Ho), <- ?(weak_up _ Ho), <- ?(weak_down _ Ho), <- Hs1. apply F.
  - apply (Hgen (sm_cached s) (λ s, sm s && sinc s)); [done|]. intros s1 Hs1 F. rewrite <- ?(strict_up _ Ho), <- ?(strict_down _ Ho), <- ?(weak_up _ Ho), <- ?(weak_down _ Ho), <- Hs1. apply F.
  - apply (Hgen (m_cached s) (λ s, mono s && inc s)); [done|]. intros s1 Hs1 F. rewrite <- ?(strict_up _ Ho), <- ?(strict_down _ Ho), <- ?(weak_up _ Ho), <- ?(weak_down _ Ho), <- Hs1. apply F.
  - apply (Hgen (sm_cached s) (λ s, sm s && sdec s)); [done|]. intros s1 Hs1 F. rewrite <- ?(strict_up _ Ho), <- ?(strict_down _ Ho), <- ?(weak_up _ Ho), <- ?(weak_down _ Ho), <- Hs1. apply F.
  - apply (Hgen (m_cached s) (λ s, mono s && dec s)); [done|]. intros s1 Hs1 F. rewrite <- ?(strict_up _ Ho), <- ?(strict_down _ Ho), <- ?(weak_up _ Ho), <- ?(weak_down _ Ho), <- Hs1. apply F.
Qed.

Lemma fold_max (l : list (R * R)) z : let m := foldl (λ maxf p, if Rgt_dec p.2 maxf.2 then p else maxf) z l in
  (m = z ∨ m ∈ l) ∧ z.2 <= m.2 ∧ ∀ q, q ∈ l → q.2 <= m.2.
Proof.
  revert z. induction l as [|p l IH]; intros z; simpl.
  - split_and!; [by left|lra|intros q Hq; by apply elem_of_nil in Hq].
  - destruct (Rgt_dec p.2 z.2) as [H|H].
    + destruct (IH p) as (I1 & I2 & I3). split_and!.
      * destruct I1 as [->|I1]; [right; by left|right; by right].
      * lra.
      * intros q [->|Hq]%elem_of_cons; [done|auto].
    + destruct (IH z) as (I1 & I2 & I3). split_and!.
      * destruct I1 as [->|I1]; [by left|right; by right].
      * lra.
      * intros q [->|Hq]%elem_of_cons; [lra|auto].
Qed.
Lemma fold_min (l : list (R * R)) z : let m := foldl (λ minf p, if Rlt_dec p.2 minf.2 then p else minf) z l in
  (m = z ∨ m ∈ l) ∧ m.2 <= z.2 ∧ ∀ q, q ∈ l → m.2 <= q.2.
Proof.
  revert z. induction l as [|p l IH]; intros z; simpl.
  - split_and!; [by left|lra|intros q Hq; by apply elem_of_nil in Hq].
  - destruct (Rlt_dec p.2 z.2) as [H|H].
    + destruct (IH p) as (I1 & I2 & I3). split_and!.
      * destruct I1 as [->|I1]; [right; by left|right; by right].
      * lra.
      * intros q [->|Hq]%elem_of_cons; [done|auto].
    + destruct (IH z) as (I1 & I2 & I3). split_and!.
      * destruct I1 as [->|I1]; [by left|right; by right].
      * lra.
      * intros q [->|Hq]%elem_of_cons; [lra|auto].
Qed.
Lemma ends t d : weak t d → d ≠ [] → ∃ p q, head d = Some p ∧ last d = Some q ∧ p ∈ d ∧ q ∈ d ∧
  ∀ r, r ∈ d → t * p.2 <= t * r.2 ∧ t * r.2 <= t * q.2.
Proof.
  intros Hw Hne. destruct d as [|p l] eqn:E; [done|]. rewrite <- E in *. destruct (last d) as [q|] eqn:El; [|apply last_None in El; by subst].
  exists p, q. rewrite last_lookup in El. assert (Hp : d !! 0%nat = Some p) by (by rewrite E).
  split; [by rewrite E|]. split; [done|]. split; [by eapply elem_of_list_lookup_2|]. split; [by eapply elem_of_list_lookup_2|].
  intros r [i Hi]%elem_of_list_lookup. split; [by eapply (weak_le t d 0 i); [|lia|..]|].
  pose proof (lookup_lt_Some _ _ _ Hi). by eapply (weak_le t d i (pred (length d))); [|lia|..].
Qed.

(** getMaximumF and getMinimumF return an extremal data point. *)
Theorem C31_extremes s : reachable posf s → (2 <= length (data s))%nat →
  (∃ p, get_maximum_f s = Some p ∧ p ∈ data s ∧ ∀ q, q ∈ data s → q.2 <= p.2) ∧
  (∃ p, get_minimum_f s = Some p ∧ p ∈ data s ∧ ∀ q, q ∈ data s → p.2 <= q.2).
Proof.
  intros Hr Hn. destruct (reachable_flags s Hr) as [Hinv Hf]. destruct (Hf Hn) as ([W1 W2] & _ & _).
  assert (Hne : data s ≠ []) by (intros E; rewrite E in Hn; simpl in Hn; lia).
  unfold get_maximum_f, get_minimum_f. rewrite !decide_False by lia.
  destruct (sinc s); [|destruct (sdec s)].
  - destruct (ends 1 (data s) (W1 eq_refl) Hne) as (p & q & Ep & Eq & Hp & Hq & Hall). split.
    + exists q. split_and!; [done..|]. intros r Hr'. specialize (Hall r Hr'). lra.
    + exists p. split_and!; [done..|]. intros r Hr'. specialize (Hall r Hr'). lra.
  - destruct (ends (-1) (data s) (W2 eq_refl) Hne) as (p & q & Ep & Eq & Hp & Hq & Hall). split.
    + exists p. split_and!; [done..|]. intros r Hr'. specialize (Hall r Hr'). lra.
    + exists q. split_and!; [done..|]. intros r Hr'. specialize (Hall r Hr'). lra.
  - destruct (last (data s)) as [z|] eqn:Ez; [|apply last_None in Ez; done]. cbn [mbind option_bind].
    assert (z ∈ data s) by (rewrite last_lookup in Ez; by eapply elem_of_list_lookup_2). split.
    + destruct (fold_max (data s) z) as (I1 & I2 & I3). eexists. split_and!; [reflexivity| |done]. destruct I1 as [->|]; done.
    + destruct (fold_min (data s) z) as (I1 & I2 & I3). eexists. split_and!; [reflexivity| |done]. destruct I1 as [->|]; done.
Qed.

(** shrinkFlatAreas makes monotone data strictly monotone by removing points,
    and leaves other data alone. *)
Theorem C31_shrink s e s' : reachable posf s → 0 < e → (2 <= length (data s))%nat → shrink_flat_areas s e = Some s' →
  (∀ p, p ∈ data s' → p ∈ data s) ∧
  (nondecreasing (data s) → increasing (data s')) ∧
  (nonincreasing (data s) → decreasing (data s')) ∧
  (¬ nondecreasing (data s) → ¬ nonincreasing (data s) → data s' = data s).
Proof.
  intros Hr He Hn E. destruct (reachable_flags s Hr) as [Hinv Hf]. pose proof (proj1 (proj1 Hinv)) as Ho.
  rewrite <- (weak_up _ Ho), <- (weak_down _ Ho).
  unfold shrink_flat_areas in E. rewrite decide_False in E by lia.
  destruct (is_strictly_monotone s) as [[b1 s1]|] eqn:E1; [|done]. cbn [mbind option_bind] in E.
  destruct (query_inv _ _ _ _ (or_introl eq_refl) Hinv Hf E1) as (Hinv1 & Hf1 & D1).
  destruct (C31_queries s Hr Hn) as (Q1 & _). specialize (Q1 _ _ E1). rewrite <- (strict_up _ Ho), <- (strict_down _ Ho) in Q1.
  assert (Hboth : weak 1 (data s) → weak (-1) (data s) → (∀ p q, p ∈ data s → q ∈ data s → p.2 = q.2)).
  { intros H1 H2 p q [i Hi]%elem_of_list_lookup [j Hj]%elem_of_list_lookup.
    destruct (decide (i <= j)%nat) as [Hij|Hij].
    - pose proof (weak_le 1 _ i j _ _ H1 Hij Hi Hj). pose proof (weak_le (-1) _ i j _ _ H2 Hij Hi Hj). lra.
    - pose proof (weak_le 1 _ j i _ _ H1 ltac:(lia) Hj Hi). pose proof (weak_le (-1) _ j i _ _ H2 ltac:(lia) Hj Hi). lra. }
  destruct (lookup_lt_is_Some_2 (data s) 0) as [p0 Hp0]; [lia|]. destruct (lookup_lt_is_Some_2 (data s) 1) as [p1 Hp1]; [lia|].
  destruct b1.
  - injection E as <-. rewrite D1. rewrite <- (strict_up _ Ho), <- (strict_down _ Ho). split_and!; [done| | |done].
    + intros Hw. destruct Q1 as [[H|H] _]; [done|done|]. exfalso.
      pose proof (H 0%nat p0 p1 Hp0 Hp1). pose proof (Hw 0%nat p0 p1 Hp0 Hp1). lra.
    + intros Hw. destruct Q1 as [[H|H] _]; [done| |done]. exfalso.
      pose proof (H 0%nat p0 p1 Hp0 Hp1). pose proof (Hw 0%nat p0 p1 Hp0 Hp1). lra.
  - destruct (is_monotone s1) as [[b2 s2]|] eqn:E2; [|done]. cbn [mbind option_bind] in E.
    destruct (query_inv _ _ _ _ (or_intror (or_introl eq_refl)) Hinv1 Hf1 E2) as (Hinv2 & Hf2 & D2).
    assert (Q2 : b2 = true ↔ weak 1 (data s) ∨ weak (-1) (data s)).
    { rewrite <- D1. assert (Hr1 : reachable posf s1) by (eapply r_query; [exact Hr| |exact E1]; by left).
      destruct (C31_queries s1 Hr1 ltac:(by rewrite D1)) as (_ & Q & _). specialize (Q _ _ E2).
      rewrite <- (weak_up _ (proj1 (proj1 Hinv1))), <- (weak_down _ (proj1 (proj1 Hinv1))) in Q. done. }
    destruct b2; simpl in E.
    + destruct (data s2) as [|p l] eqn:Ed; [done|]. injection E as <-. simpl.
      assert (Es : data s = p :: l) by congruence. rewrite Es in *.
      destruct (shrink_spec e p l Ho) as (I1 & I2 & I3 & I4 & I5 & I6 & I7). split_and!.
      * done.
      * intros Hw. apply (strict_up _ I1). intros i a b Ha Hb. pose proof (I5 1 Hw i a b Ha Hb). pose proof (I7 i a b Ha Hb).
        destruct (Req_EM_T a.2 b.2) as [Eab|]; [|lra]. rewrite Eab, Rminus_diag_eq, Rabs_R0 in H0 by done. lra.
      * intros Hw. apply (strict_down _ I1). intros i a b Ha Hb. pose proof (I5 (-1) Hw i a b Ha Hb). pose proof (I7 i a b Ha Hb).
        destruct (Req_EM_T a.2 b.2) as [Eab|]; [|lra]. rewrite Eab, Rminus_diag_eq, Rabs_R0 in H0 by done. lra.
      * intros N1 N2. exfalso. destruct Q2 as [[?|?] _]; done.
    + injection E as <-. rewrite D2, D1. split_and!; [done| | |done]; intros Hw; exfalso; destruct Q2 as [_ Q2]; assert (false = true) by auto; done.
Qed.

(** chopFlatEndpoints: whenever it has something to remove, its behaviour is
    undefined; when it is defined the data are unchanged. *)
Theorem C31_chop s e : reachable anyf s → (3 <= length (data s))%nat →
  (∀ s', chop_flat_endpoints s e = Some s' → data s' = data s) ∧
  (chop_flat_endpoints s e = None ↔
    (∃ p q, data s !! 0%nat = Some p ∧ data s !! 1%nat = Some q ∧ Rabs (p.2 - q.2) < e) ∨
    (∃ p q, data s !! (length (data s) - 2)%nat = Some p ∧ data s !! (length (data s) - 1)%nat = Some q ∧ Rabs (q.2 - p.2) < e)).
Proof.
  intros Hr Hn. pose proof (proj1 (proj1 (reachable_inv _ _ Hr))) as Ho. split.
  - intros s' E. apply chop_cases in E as [->|E]; [done|]. by apply compute_inv' in E as [? _].
  - unfold chop_flat_endpoints. rewrite decide_False by lia.
    destruct (data s) as [|p [|q d]] eqn:Ed; [simpl in Hn; lia..|].
    destruct (reverse (p :: q :: d)) as [|z [|y r]] eqn:Er.
    1,2: (apply (f_equal length) in Er; rewrite reverse_length in Er; simpl in Er; lia).
    destruct (last_two _ z y r Er) as [Hy Hz].
    destruct (Rlt_dec (Rabs (p.2 - q.2)) e) as [H1|H1]; [|destruct (Rlt_dec (Rabs (z.2 - y.2)) e) as [H2|H2]].
    + split; [|done]. intros _. left. by exists p, q.
    + split; [|done]. intros _. right. by exists y, z.
    + destruct (compute_inv (uncached s)) as (s' & E & _); [simpl; by rewrite Ed|]. rewrite E. split; [done|].
      intros [(a & b & Ha & Hb & Hab)|(a & b & Ha & Hb & Hab)].
      * simpl in Ha, Hb. injection Ha as <-. injection Hb as <-. done.
      * rewrite Hy in Ha. rewrite Hz in Hb. injection Ha as <-. injection Hb as <-. done.
Qed.

Ltac rdecide := repeat (simpl; match goal with
  | |- context [Rlt_dec ?a ?b] => destruct (Rlt_dec a b); try (exfalso; simpl in *; lra)
  | |- context [Req_EM_T ?a ?b] => destruct (Req_EM_T a b); try (exfalso; simpl in *; lra)
  end); simpl.
Definition some_junk : bool * bool * (bool * bool) * (bool * bool) * (bool * bool) :=
  (false, false, (false, false), (false, false), (false, false)).
Lemma new_data junk xs fs s : mci_new junk xs fs = Some s → data s = set_all xs fs [] ∧
  ((2 <= length (data s))%nat → flags_ok s ∧ sm_cached s = true ∧ m_cached s = true).
Proof.
  unfold mci_new. case_decide; [|done]. intros E.
  assert (Ho : inorder (keys (data (with_data (mci_empty junk) (set_all xs fs []))))) by (simpl; apply set_all_inorder; by intros [|?]).
  destruct (compute_inv _ Ho) as (s' & E' & Hd & H2 & _). rewrite E in E'. injection E' as <-. simpl in Hd.
  split; [done|]. intros Hl. rewrite Hd in Hl. destruct (H2 Hl) as (_ & _ & ? & ? & ?). done.
Qed.

(** The documented use of chopFlatEndpoints is undefined behaviour. *)
Theorem C31_chop_refuted : ∃ s, reachable posf s ∧ data s = [(1, 3); (2, 3); (3, 4)] ∧ chop_flat_endpoints s (/ 10 ^ 14) = None.
Proof.
  destruct (C30_new some_junk [1; 2; 3] [3; 3; 4]) as (s & E & _); [done| |].
  { repeat (apply NoDup_cons; split; [intros H; repeat (apply elem_of_cons in H as [H|H]; [lra|]); by apply elem_of_nil in H|]). constructor. }
  destruct (new_data _ _ _ _ E) as [Hd _].
  assert (Hd' : data s = [(1, 3); (2, 3); (3, 4)]).
  { rewrite Hd. simpl. rdecide. done. }
  assert (Hr : ∀ okf, reachable okf s) by (intros; by apply (r_new _ _ _ _ _ E)).
  exists s. split_and!; [done|done|]. apply C31_chop; [done|rewrite Hd'; simpl; lia|]. left. rewrite Hd'.
  exists (1, 3), (2, 3). split_and!; [done..|]. simpl. rewrite Rminus_diag_eq, Rabs_R0 by done. apply Rinv_0_lt_compat. lra.
Qed.

(** After scaling with a negative factor the cached flags are wrong: increasing
    data that became decreasing are still called increasing, and getMaximumF
    returns the minimum. *)
Theorem C31_scale_refuted : ∃ s p q s', reachable anyf s ∧ (2 <= length (data s))%nat ∧
  get_maximum_f s = Some p ∧ q ∈ data s ∧ p.2 < q.2 ∧
  is_strictly_increasing s = Some (true, s') ∧ decreasing (data s).
Proof.
  destruct (C30_new some_junk [0; 1] [0; 1]) as (s & E & _); [done| |].
  { repeat (apply NoDup_cons; split; [intros H; repeat (apply elem_of_cons in H as [H|H]; [lra|]); by apply elem_of_nil in H|]). constructor. }
  destruct (new_data _ _ _ _ E) as [Hd Hf].
  assert (Hd' : data s = [(0, 0); (1, 1)]).
  { rewrite Hd. simpl. rdecide. done. }
  rewrite Hd' in Hf. destruct (Hf ltac:(simpl; lia)) as (F & C1 & C2).
  assert (Hs : strict 1 (data s)).
  { rewrite Hd'. apply strict_cons2. split; [simpl; lra|apply strict_1]. }
  apply (fl_sinc _ F) in Hs. pose proof Hs as Hs'. apply andb_prop in Hs' as [S1 S2].
  exists (scale_data s (-1)), (1, 1 * -1), (0, 0 * -1), (scale_data s (-1)).
  assert (Hd2 : data (scale_data s (-1)) = [(0, 0 * -1); (1, 1 * -1)]) by (simpl; by rewrite Hd').
  split_and!.
  - apply r_scale; [by apply (r_new _ _ _ _ _ E)|done].
  - rewrite Hd2. simpl. lia.
  - unfold get_maximum_f. rewrite Hd2. simpl. by rewrite S2.
  - rewrite Hd2. by left.
  - simpl. lra.
  - unfold is_strictly_increasing. simpl. by rewrite C1, S1, S2.
  - rewrite Hd2. intros p q Hp Hq. repeat (apply elem_of_cons in Hp as [->|Hp]); try (by apply elem_of_nil in Hp);
      repeat (apply elem_of_cons in Hq as [->|Hq]); try (by apply elem_of_nil in Hq); simpl; lra.
Qed.

(** With a single point the flags were never set: any answer is possible. *)
Theorem C31_single_refuted (b : bool) : ∃ junk s s', mci_new junk [0] [0] = Some s ∧ is_monotone s = Some (b, s').
Proof.
  exists (true, true, (b, b), (b, b), (b, b)). eexists _, _. split; [reflexivity|]. unfold is_monotone. simpl. done.
Qed.

(** ** C50 *)
Lemma missing_cons i p q d best m : missing_loop i (p :: q :: d) best m =
  if Rgt_dec (Rabs (q.2 - p.2)) m then missing_loop (S i) (q :: d) i (Rabs (q.2 - p.2)) else missing_loop (S i) (q :: d) best m.
Proof. done. Qed.
Lemma missing_spec (d0 : list (R * R)) : ∀ d i best m, (∀ j, d !! j = d0 !! (i + j)%nat) →
  let '(b', m') := missing_loop i d best m in
  (b' = best ∧ m' = m ∨ ∃ p q, d0 !! b' = Some p ∧ d0 !! S b' = Some q ∧ m' = Rabs (q.2 - p.2)) ∧ m <= m' ∧
  ∀ j p q, d !! j = Some p → d !! S j = Some q → Rabs (q.2 - p.2) <= m'.
Proof.
  induction d as [|p d IH]; intros i best m Hd; [split_and!; [by left|lra|done]|].
  destruct d as [|q d]; [split_and!; [by left|lra|intros [|j] ? ? Hp Hq; done]|].
  rewrite missing_cons. set (a := Rabs (q.2 - p.2)).
  assert (Hd' : ∀ j, (q :: d) !! j = d0 !! (S i + j)%nat).
  { intros j. replace (S i + j)%nat with (i + S j)%nat by lia. rewrite <- Hd. done. }
  pose proof (Hd 0%nat) as H0. pose proof (Hd 1%nat) as H1. simpl in H0, H1. rewrite Nat.add_0_r in H0. rewrite Nat.add_1_r in H1.
  destruct (Rgt_dec a m) as [Ha|Ha].
  - specialize (IH (S i) i a Hd'). destruct (missing_loop (S i) (q :: d) i a) as [b' m']. destruct IH as (I1 & I2 & I3).
    split_and!.
    + right. destruct I1 as [[-> ->]|?]; [|done]. exists p, q. done.
    + lra.
    + intros [|j] u v Hu Hv; [|by eapply I3]. simpl in Hu, Hv. injection Hu as <-. injection Hv as <-. done.
  - specialize (IH (S i) best m Hd'). destruct (missing_loop (S i) (q :: d) best m) as [b' m']. destruct IH as (I1 & I2 & I3).
    split_and!; [done|done|].
    intros [|j] u v Hu Hv; [|by eapply I3]. simpl in Hu, Hv. injection Hu as <-. injection Hv as <-. fold a. lra.
Qed.
(** getMissingX: the largest jump and (if the operands are evaluated left to
    right) the middle of its interval. *)
Theorem C50_missing lf s x m : reachable anyf s → get_missing_x lf s = Some (x, m) →
  ∃ i p q, data s !! i = Some p ∧ data s !! S i = Some q ∧ m = Rabs (q.2 - p.2) ∧
    (∀ j u v, data s !! j = Some u → data s !! S j = Some v → Rabs (v.2 - u.2) <= m) ∧
    (lf = true → x = (p.1 + q.1) / 2 ∧ p.1 < x < q.1).
Proof.
  intros Hr. pose proof (proj1 (proj1 (reachable_inv _ _ Hr))) as Ho. unfold get_missing_x. case_decide as Hn; [done|].
  pose proof (missing_spec (data s) (data s) 0 0 0 ltac:(done)) as HM.
  destruct (missing_loop 0 (data s) 0 0) as [best md]. destruct HM as (H1 & H2 & H3).
  destruct (data s !! best) as [p|] eqn:Ep; [|done]. destruct (data s !! S best) as [q|] eqn:Eq; [|done]. cbn [mbind option_bind].
  intros E. assert (Hmd : md = m) by (destruct lf; by injection E). subst md.
  exists best, p, q. split_and!; try done.
  - destruct H1 as [[-> ->]|(p' & q' & Ep' & Eq' & ->)].
    + pose proof (H3 0%nat p q Ep Eq). pose proof (Rabs_pos (q.2 - p.2)). lra.
    + congruence.
  - intros ->. injection E as <-. assert (p.1 < q.1) by (by apply (Ho best); apply keys_lookup). lra.
Qed.
Theorem C50_total lf s : (2 <= length (data s))%nat → ∃ r, get_missing_x lf s = Some r.
Proof.
  intros Hn. unfold get_missing_x. rewrite decide_False by lia.
  pose proof (missing_spec (data s) (data s) 0 0 0 ltac:(done)) as HM.
  destruct (missing_loop 0 (data s) 0 0) as [best md]. destruct HM as ([[-> ->]|(p & q & Ep & Eq & _)] & _ & _).
  - destruct (lookup_lt_is_Some_2 (data s) 0) as [p Hp]; [lia|]. destruct (lookup_lt_is_Some_2 (data s) 1) as [q Hq]; [lia|].
    rewrite Hp, Hq. simpl. eauto.
  - rewrite Ep, Eq. simpl. eauto.
Qed.
(** With the other order of evaluation (which the standard allows) the point
    returned is already in the data. *)
Theorem C50_order_refuted s x m : reachable anyf s → get_missing_x false s = Some (x, m) → ∃ f, (x, f) ∈ data s.
Proof.
  intros Hr. unfold get_missing_x. case_decide as Hn; [done|].
  destruct (missing_loop 0 (data s) 0 0) as [best md].
  destruct (data s !! best) as [p|] eqn:Ep; [|done]. destruct (data s !! S best) as [q|] eqn:Eq; [|done]. cbn [mbind option_bind].
  intros [= <- _]. exists q.2. replace ((q.1 + q.1) / 2) with q.1 by lra. destruct q. by eapply elem_of_list_lookup_2.
Qed.

(** ** Non-vacuity: three points on a monotone, not strictly monotone curve. *)
Example C30_example : ∃ s, reachable posf s ∧ data s = [(0, 0); (1, 0); (2, 5)] ∧ nondecreasing (data s) ∧ ¬ increasing (data s) ∧
  evaluate s 1 = Some 0 ∧ evaluate s 2 = Some 5 ∧ evaluate s 7 = Some 5.
Proof.
  destruct (C30_new some_junk [0; 2; 1] [0; 5; 0]) as (s & E & He); [done| |].
  { repeat (apply NoDup_cons; split; [intros H; repeat (apply elem_of_cons in H as [H|H]; [lra|]); by apply elem_of_nil in H|]). constructor. }
  destruct (new_data _ _ _ _ E) as [Hd _].
  assert (Hd' : data s = [(0, 0); (1, 0); (2, 5)]).
  { rewrite Hd. simpl. rdecide. done. }
  assert (Hr : ∀ okf, reachable okf s) by (intros; by apply (r_new _ _ _ _ _ E)).
  assert (Ho : inorder (keys (data s))) by (apply (reachable_inv anyf); done).
  exists s. split_and!; [done|done| | |by apply (He 2%nat)|by apply (He 1%nat)|].
  - apply weak_up; [done|]. rewrite Hd'. apply weak_cons2. split; [simpl; lra|]. apply weak_cons2. split; [simpl; lra|apply weak_1].
  - intros H. specialize (H (0, 0) (1, 0)). simpl in H. assert (0 < 0); [|lra]. apply H; [rewrite Hd'; by left|rewrite Hd'; right; by left|lra].
  - apply (proj2 (C30_outside s 7 (Hr _)) (2, 5)); [rewrite Hd'; right; right; by left| |simpl; lra].
    intros q Hq. rewrite Hd' in Hq. repeat (apply elem_of_cons in Hq as [->|Hq]); try (by apply elem_of_nil in Hq); simpl; lra.
Qed.

Print Assumptions C30_interpolates.
Print Assumptions C30_outside.
Print Assumptions C30_total.
Print Assumptions C30_monotone.
Print Assumptions C30_new.
Print Assumptions C30_no_failure.
Print Assumptions C30_affine.
Print Assumptions C31_queries.
Print Assumptions C31_extremes.
Print Assumptions C31_shrink.
Print Assumptions C31_chop.
Print Assumptions C31_chop_refuted.
Print Assumptions C31_scale_refuted.
Print Assumptions C31_single_refuted.
Print Assumptions C50_missing.
Print Assumptions C50_total.
Print Assumptions C50_order_refuted.
