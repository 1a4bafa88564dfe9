(** Lemmas for C65. *)
From Coq Require Import Reals Lra Psatz.
From Verif Require Import Base LoopModel LoopProof TableModel TofSpec MiscSpec UTableProof NTableProof NTableProps PhaseModel KrModel KrSpec KrProof KrProps PvtModel PvtSpec.
Local Open Scope R_scope.
Unset Default Proof Using.

(** ** Loops *)
Lemma each_ok n f v out : (n ≤ length out)%nat → (∀ i, (i < n)%nat → f i = Some (v i)) →
  ∃ out', each n f out = Some out' ∧ length out' = length out ∧ (∀ i, (i < n)%nat → out' !! i = Some (v i)) ∧ ∀ i, (n ≤ i)%nat → out' !! i = out !! i.
Proof.
  intros Hn Hf. unfold each.
  destruct (for_loop_inv (λ k o, length o = length out ∧ (∀ i, (i < k)%nat → o !! i = Some (v i)) ∧ ∀ i, (k ≤ i)%nat → o !! i = out !! i) n 0 (λ i out, v ← f i; upd out i v) out) as (o & E & H).
  - split; [done|]. split; [intros; lia|done].
  - intros i o Hi (H1 & H2 & H3). rewrite Hf by lia. cbn [mbind option_bind]. rewrite upd_Some by lia. eexists. split; [done|]. split; [by rewrite insert_length|]. split.
    + intros j Hj. destruct (decide (j = i)) as [->|]; [by rewrite list_lookup_insert by lia|]. rewrite list_lookup_insert_ne by done. apply H2. lia.
    + intros j Hj. rewrite list_lookup_insert_ne by lia. apply H3. lia.
  - exists o. split; [done|]. exact H.
Qed.
Lemma each2_ok n f v w o1 o2 : (n ≤ length o1)%nat → (n ≤ length o2)%nat → (∀ i, (i < n)%nat → f i = Some (v i, w i)) →
  ∃ r1 r2, each2 n f o1 o2 = Some (r1, r2) ∧
    (length r1 = length o1 ∧ (∀ i, (i < n)%nat → r1 !! i = Some (v i)) ∧ ∀ i, (n ≤ i)%nat → r1 !! i = o1 !! i) ∧
    (length r2 = length o2 ∧ (∀ i, (i < n)%nat → r2 !! i = Some (w i)) ∧ ∀ i, (n ≤ i)%nat → r2 !! i = o2 !! i).
Proof.
  intros Hn1 Hn2 Hf. unfold each2.
  set (Q := λ (k : nat) (v : nat → R) (o out : list R), length o = length out ∧ (∀ i, (i < k)%nat → o !! i = Some (v i)) ∧ ∀ i, (k ≤ i)%nat → o !! i = out !! i).
  assert (HQ : ∀ i v o out, (i < length out)%nat → Q i v o out → Q (i + 1)%nat v (<[i:=v i]> o) out).
  { intros i u o out Hi (H1 & H2 & H3). split; [by rewrite insert_length|]. split.
    + intros j Hj. destruct (decide (j = i)) as [->|]; [by rewrite list_lookup_insert by lia|]. rewrite list_lookup_insert_ne by done. apply H2. lia.
    + intros j Hj. rewrite list_lookup_insert_ne by lia. apply H3. lia. }
  destruct (for_loop_inv (λ k st, Q k v st.1 o1 ∧ Q k w st.2 o2) n 0 (λ i '(o1, o2), '(v, w) ← f i; o1 ← upd o1 i v; o2 ← upd o2 i w; Some (o1, o2)) (o1, o2)) as ([r1 r2] & E & H1 & H2).
  - split; (split; [done|]; split; [intros; lia|done]).
  - intros i [a b] Hi [HA HB]. cbn [fst snd] in *. rewrite Hf by lia. cbn [mbind option_bind]. destruct HA as [LA HA]. destruct HB as [LB HB]. rewrite upd_Some by lia. cbn [mbind option_bind]. rewrite upd_Some by lia. cbn [mbind option_bind].
    eexists. split; [done|]. cbn [fst snd]. split; apply HQ; try lia; (split; [done|]); done.
  - exists r1, r2. split; [done|]. cbn [fst snd] in *. split; [exact H1|exact H2].
Qed.

(** ** Rates *)
Lemma dl_local f g x v δ : 0 < δ → derivable_pt_lim f x v → (∀ t, Rabs (t - x) < δ → f t = g t) → derivable_pt_lim g x v.
Proof.
  intros Hδ Hf Hg eps Heps. destruct (Hf eps Heps) as [d Hd]. assert (Hm : 0 < Rmin δ d) by (apply Rmin_glb_lt; [done|apply d]).
  exists (mkposreal _ Hm). intros h Hh Hlt. cbn in Hlt. rewrite <- (Hg (x + h)), <- (Hg x).
  - apply Hd; [done|]. eapply Rlt_le_trans; [exact Hlt|apply Rmin_r].
  - replace (x - x) with 0 by lra. by rewrite Rabs_R0.
  - replace (x + h - x) with h by lra. eapply Rlt_le_trans; [exact Hlt|apply Rmin_l].
Qed.
Lemma value_rate_local f g x v d δ : 0 < δ → value_rate f x v d → (∀ t, Rabs (t - x) < δ → f t = g t) → value_rate g x v d.
Proof.
  intros Hδ (H1 & (δ' & Hδ' & H2) & H3) Hg. assert (H0 : Rabs (x - x) < δ) by (replace (x - x) with 0 by lra; by rewrite Rabs_R0). split; [by rewrite <- Hg|]. split.
  - exists (Rmin δ δ'). split; [by apply Rmin_glb_lt|]. intros t Ht. rewrite <- Hg; [apply H2|]; (eapply Rlt_le_trans; [exact Ht|]); [apply Rmin_r|apply Rmin_l].
  - eapply (dl_local _ _ _ _ δ Hδ H3). intros t Ht. cbn. by rewrite Hg.
Qed.
Lemma lin_defined σ xs ys x : ordered σ xs → (2 ≤ length xs)%nat → length ys = length xs → linear_interpolation (length xs) xs ys x = Some (through xs ys x).
Proof.
  intros O Hl Hy. destruct (table_index_spec σ xs x (length xs) O ltac:(lia) (le_n _)) as (i & Ei & Hi & _).
  destruct (lookup_lt_is_Some_2 xs i) as [x0 X0]; [lia|]. destruct (lookup_lt_is_Some_2 xs (S i)) as [x1 X1]; [lia|]. destruct (lookup_lt_is_Some_2 ys i) as [y0 Y0]; [lia|]. destruct (lookup_lt_is_Some_2 ys (S i)) as [y1 Y1]; [lia|].
  destruct (linear_of_index (length xs) xs ys x i x0 x1 y0 y1 Ei X0 X1 Y0 Y1 (ordered_ne σ xs i (S i) _ _ O ltac:(lia) X0 X1)) as [E _]. unfold through. by rewrite E.
Qed.
Lemma lin_rate σ xs ys x : ordered σ xs → (2 ≤ length xs)%nat → length ys = length xs → x ∉ xs →
  ∃ d, linear_derivative (length xs) xs ys x = Some d ∧ derivable_pt_lim (through xs ys) x d.
Proof. intros O Hl Hy Hx. destruct (C28_derivative σ xs ys (length xs) x O) as (d & E & H); [lia|done|done|done|]. exists d. done. Qed.
(** A sum with a weight. *)
Lemma dl_blend f g x w a b : derivable_pt_lim f x a → derivable_pt_lim g x b → derivable_pt_lim (λ t, f t + w * (g t - f t)) x (a + w * (b - a)).
Proof. intros Hf Hg. apply (derivable_pt_lim_plus f (λ t, w * (g t - f t))); [done|]. apply (derivable_pt_lim_scal (λ t, g t - f t) w). apply (derivable_pt_lim_minus g f); done. Qed.
(** A reciprocal. *)
Lemma dl_inv f x a : derivable_pt_lim f x a → f x ≠ 0 → derivable_pt_lim (λ t, 1 / f t) x (- (1 / f x) * (1 / f x) * a).
Proof.
  intros Hf H0. eapply dl_ext; [eapply dl_eq; [apply (derivable_pt_lim_div (fct_cte 1) f x 0 a); [apply derivable_pt_lim_const|exact Hf|exact H0]|]|].
  - unfold fct_cte, Rsqr. field. done.
  - intros t. unfold div_fct, fct_cte. done.
Qed.
Lemma value_rate_inv f x v d : value_rate f x v d → v ≠ 0 → value_rate (λ t, y ← f t; rdiv 1 y) x (1 / v) (- (1 / v) * (1 / v) * d).
Proof.
  intros (H1 & (δ & Hδ & H2) & H3) Hv. assert (E0 : default 0 (f x) = v) by by rewrite H1.
  destruct (dl_cont _ _ _ H3 (Rabs v)) as (δ2 & Hδ2 & Hc); [by apply Rabs_pos_lt|]. 
  assert (HN : ∀ t, Rabs (t - x) < Rmin δ δ2 → ∃ y, f t = Some y ∧ y ≠ 0).
  { intros t Ht. destruct (H2 t) as [y Hy]; [eapply Rlt_le_trans; [exact Ht|apply Rmin_l]|]. exists y. split; [done|]. intros ->.
    specialize (Hc t ltac:(eapply Rlt_le_trans; [exact Ht|apply Rmin_r])). rewrite E0, Hy in Hc. cbn in Hc. replace (0 - v) with (- v) in Hc by lra. rewrite Rabs_Ropp in Hc. lra. }
  split; [rewrite H1; cbn; by rewrite rdiv_Some|]. split.
  - exists (Rmin δ δ2). split; [by apply Rmin_glb_lt|]. intros t Ht. destruct (HN t Ht) as (y & -> & Hy). cbn. rewrite rdiv_Some by done. eauto.
  - pose proof (dl_inv (λ t, default 0 (f t)) x d H3 ltac:(cbn; by rewrite E0)) as HI. cbn beta in HI. rewrite E0 in HI. eapply (dl_local _ _ _ _ (Rmin δ δ2)); [by apply Rmin_glb_lt|exact HI|].
    intros t Ht. destruct (HN t Ht) as (y & -> & Hy). cbn. by rewrite rdiv_Some.
Qed.
(** Below a bound near a point. *)
Lemma below xs ys x d c : derivable_pt_lim (through xs ys) x d → through xs ys x < c → ∃ δ, 0 < δ ∧ ∀ t, Rabs (t - x) < δ → through xs ys t < c.
Proof.
  intros Hd Hc. destruct (dl_cont _ _ _ Hd (c - through xs ys x)) as (δ & Hδ & H); [lra|]. exists δ. split; [done|]. intros t Ht. specialize (H t Ht). apply Rabs_def2 in H. lra.
Qed.
Lemma above xs ys x d c : derivable_pt_lim (through xs ys) x d → c < through xs ys x → ∃ δ, 0 < δ ∧ ∀ t, Rabs (t - x) < δ → c < through xs ys t.
Proof.
  intros Hd Hc. destruct (dl_cont _ _ _ Hd (through xs ys x - c)) as (δ & Hδ & H); [lra|]. exists δ. split; [done|]. intros t Ht. specialize (H t Ht). apply Rabs_def2 in H. lra.
Qed.
