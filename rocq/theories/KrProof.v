(** Lemmas about saturation functions. *)
From Coq Require Import Reals Lra Psatz.
From Verif Require Import Base LoopModel TableModel TofSpec MiscSpec PhaseModel PhaseProps KrModel KrSpec.
Local Open Scope R_scope.
Unset Default Proof Using.

Lemma phases_cases F w g : phases F w g → 
  (w = true ∧ g = true ∧ sf_pu F = PhaseUsage 3 [1; 1; 1]%nat [0; 1; 2]%nat) ∨
  (w = true ∧ g = false ∧ sf_pu F = PhaseUsage 2 [1; 1; 0]%nat [0; 1; 2]%nat) ∨
  (w = false ∧ g = true ∧ sf_pu F = PhaseUsage 2 [0; 1; 1]%nat [0; 0; 1]%nat).
Proof.
  intros (ju & jp & has & Hu & Hp & E & <- & <-). destruct ju as [|u0 [|u1 [|u2 [|]]]]; try done. destruct jp as [|p0 [|p1 [|p2 [|]]]]; try done.
  revert E. unfold phase_usage_from_deck. destruct (has WATER) eqn:EW, (has OIL) eqn:EO, (has GAS) eqn:EG; cbn; intros E; try discriminate E; injection E as <-; [left|right; left|right; right]; done.
Qed.
Lemma defined_tab t x : defined t → tv t x = Some (tab t x).
Proof. intros H. destruct (H x) as [v E]. unfold tab. by rewrite E. Qed.
Lemma list3 {X} (l : list X) : (3 ≤ length l)%nat → ∃ a b c r, l = a :: b :: c :: r.
Proof. destruct l as [|a [|b [|c r]]]; cbn; try lia. repeat eexists. Qed.
Lemma list2 {X} (l : list X) : (2 ≤ length l)%nat → ∃ a b r, l = a :: b :: r.
Proof. destruct l as [|a [|b r]]; cbn; try lia. repeat eexists. Qed.
Lemma list4 {X} (l : list X) : (4 ≤ length l)%nat → ∃ a b c d r, l = a :: b :: c :: d :: r.
Proof. destruct l as [|a [|b [|c [|d r]]]]; cbn; try lia. repeat eexists. Qed.
Lemma list9 {X} (l : list X) : (9 ≤ length l)%nat → ∃ a b c d e f g h i r, l = a :: b :: c :: d :: e :: f :: g :: h :: i :: r.
Proof. destruct l as [|a [|b [|c [|d [|e [|f [|g [|h [|i r]]]]]]]]]; cbn; try lia. repeat eexists. Qed.

(** ** Calculus *)
Lemma dl_eq f x v v' : derivable_pt_lim f x v → v = v' → derivable_pt_lim f x v'.
Proof. by intros ? <-. Qed.
Lemma dl_ext f g x v : derivable_pt_lim f x v → (∀ t, f t = g t) → derivable_pt_lim g x v.
Proof. intros H E eps Heps. destruct (H eps Heps) as [δ Hδ]. exists δ. intros h H0 Hh. rewrite <- !E. by apply Hδ. Qed.
Lemma dl_lin a b x : derivable_pt_lim (λ t, a + t * b) x b.
Proof.
  eapply dl_eq. { apply (derivable_pt_lim_plus (fct_cte a) (λ t, t * b)); [apply derivable_pt_lim_const|]. apply (derivable_pt_lim_mult id (fct_cte b)); [apply derivable_pt_lim_id|apply derivable_pt_lim_const]. }
  unfold fct_cte, id. lra.
Qed.
(** A table along a line. *)
Lemma dl_tab f x b v : derivable_pt_lim f x v → derivable_pt_lim (λ t, f (x + t * b)) 0 (v * b).
Proof.
  intros H. apply (derivable_pt_lim_comp (λ t, x + t * b) f); [apply dl_lin|]. by replace (x + 0 * b) with x by lra.
Qed.
Lemma dl_cont f x v : derivable_pt_lim f x v → ∀ eps, 0 < eps → ∃ δ, 0 < δ ∧ ∀ t, Rabs (t - x) < δ → Rabs (f t - f x) < eps.
Proof.
  intros H eps Heps. assert (Hc : continuity_pt f x) by (apply derivable_continuous_pt; by exists v).
  destruct (Hc eps Heps) as (δ & Hδ & Hc'). exists δ. split; [lra|]. intros t Ht. destruct (Req_dec t x) as [->|Hne]; [rewrite Rminus_diag_eq, Rabs_R0; lra|].
  specialize (Hc' t). cbn in Hc'. unfold R_dist in Hc'. apply Hc'. split; [|lra]. split; [done|]. by apply not_eq_sym.
Qed.
Lemma dl_pos f v : derivable_pt_lim f 0 v → 0 < f 0 → ∃ δ, 0 < δ ∧ ∀ t, Rabs t < δ → 0 < f t.
Proof.
  intros H Hp. destruct (dl_cont f 0 v H (f 0) Hp) as (δ & Hδ & Hc). exists δ. split; [done|]. intros t Ht.
  specialize (Hc t). rewrite Rminus_0_r in Hc. apply Hc in Ht. apply Rabs_def2 in Ht. lra.
Qed.
Lemma lin_pos a b : 0 < a → ∃ δ, 0 < δ ∧ ∀ t, Rabs t < δ → 0 < a + t * b.
Proof. intros H. apply (dl_pos (λ t, a + t * b) b); [apply dl_lin|lra]. Qed.
