(** C32, C33: the root finders. *)
From Coq Require Import Reals Lra Psatz.
From Verif Require Import Base RootModel.
Local Open Scope R_scope.

(** ** Specification *)
(** [x] lies in the closed interval with end points [h]. *)
Definition hull (h : R * R) (x : R) : Prop := Rmin h.1 h.2 <= x <= Rmax h.1 h.2.
Definition width (h : R * R) : R := Rabs (h.2 - h.1).
(** The end points enclose a sign change. *)
Definition bracket (f : R → R) (h : R * R) : Prop := f h.1 * f h.2 < 0.
(** The next interval is contained in the previous one and shorter. *)
Definition shrinks (h h' : R * R) : Prop := hull h h'.1 ∧ hull h h'.2 ∧ width h' < width h.

(** What may be said of a run that starts with the interval [h0]. *)
Record good_run (f : R → R) (h0 : R * R) (eps epsF : R) (max_iter : Z) (r : rf_run) : Prop := {
  (** all evaluations are in the interval *)
  gr_evals : Forall (hull h0) r.2;
  (** every interval of the loop is a bracket inside the first *)
  gr_brackets : Forall (λ h, bracket f h ∧ hull h0 h.1 ∧ hull h0 h.2) r.1.2;
  (** they shrink *)
  gr_shrink : ∀ i h h', r.1.2 !! i = Some h → r.1.2 !! S i = Some h' → shrinks h h';
  (** the result *)
  gr_result : match r.1.1.1 with
    | Root x => hull h0 x ∧
        (Rabs (f x) < epsF ∨
         ∃ h, last r.1.2 = Some h ∧ width h < / 1000000000 * eps ∧ x = (h.1 + h.2) / 2 ∧ hull h x)
    | TooManyIterations u v m => last r.1.2 = Some (u, v) ∧ m = max_iter ∧ (max_iter < r.1.1.2)%Z
    | BracketingFailure _ _ _ _ => False
    end;
  (** the number of iterations is limited, and so are the evaluations *)
  gr_iters : (Z.of_nat (length r.2) <= Z.max max_iter 0 + 3)%Z }.

(** ** Lemmas *)
Lemma hull_l h : hull h h.1.
Proof. split; [apply Rmin_l|apply Rmax_l]. Qed.
Lemma hull_r h : hull h h.2.
Proof. split; [apply Rmin_r|apply Rmax_r]. Qed.
Lemma hull_trans h h' x : hull h h'.1 → hull h h'.2 → hull h' x → hull h x.
Proof. unfold hull, Rmin, Rmax. repeat destruct (Rle_dec _ _); lra. Qed.

Lemma step_inside x0 x1 f0 f1 : f0 * f1 < 0 → x0 ≠ x1 → ∃ x, regula_falsi_step x0 x1 f0 f1 = Some x ∧
  hull (x0, x1) x ∧ Rabs (x - x0) < Rabs (x1 - x0) ∧ Rabs (x - x1) < Rabs (x1 - x0).
Proof.
  intros Hf Hx. unfold regula_falsi_step. destruct (Rlt_dec (f0 * f1) 0) as [_|?]; [|done].
  eexists. split; [done|]. set (q := f0 / (f0 - f1)).
  assert (f0 - f1 ≠ 0) by nra.
  assert (0 < q < 1) as [Hq1 Hq2].
  { unfold q. destruct (Rlt_dec 0 f0) as [Hp|Hp].
    - assert (f1 < 0) by nra. split; [apply Rdiv_lt_0_compat; lra|].
      apply Rmult_lt_reg_r with (f0 - f1); [lra|]. unfold Rdiv. rewrite Rmult_assoc, Rinv_l by lra. lra.
    - assert (f0 < 0) by nra. assert (0 < f1) by nra.
      replace (f0 / (f0 - f1)) with ((- f0) / (f1 - f0)) by (field; lra). split; [apply Rdiv_lt_0_compat; lra|].
      apply Rmult_lt_reg_r with (f1 - f0); [lra|]. unfold Rdiv. rewrite Rmult_assoc, Rinv_l by lra. lra. }
  replace ((x1 * f0 - x0 * f1) / (f0 - f1)) with (x0 + (x1 - x0) * q) by (unfold q; field; lra).
  replace (x0 + (x1 - x0) * q - x0) with ((x1 - x0) * q) by lra.
  replace (x0 + (x1 - x0) * q - x1) with (- ((x1 - x0) * (1 - q))) by lra.
  rewrite Rabs_Ropp, !Rabs_mult, (Rabs_right q), (Rabs_right (1 - q)) by lra.
  assert (0 < Rabs (x1 - x0)) by (apply Rabs_pos_lt; lra).
  split_and!; [|nra|nra]. unfold hull. simpl. unfold Rmin, Rmax. repeat destruct (Rle_dec _ _); nra.
Qed.

Lemma loop_good f max_iter eps epsF fuel x0 x1 f0 f1 it :
  0 < eps → 0 < epsF → (Z.max 0 (max_iter - it) < Z.of_nat fuel)%Z →
  f1 = f x1 → 0 < f0 * f x0 → f0 * f1 < 0 → (0 <= it)%Z →
  ∃ res it' hs es, rf_loop f max_iter fuel eps epsF x0 x1 f0 f1 it = Some (res, it', (x0, x1) :: hs, es) ∧
    good_run f (x0, x1) eps epsF max_iter (res, it', (x0, x1) :: hs, es) ∧
    (Z.of_nat (length es) + it <= Z.max max_iter it + 1)%Z.
Proof.
  intros Heps HepsF. revert x0 x1 f0 f1 it.
  induction fuel as [|fuel IH]; intros x0 x1 f0 f1 it Hfuel E1 Hs0 Hs Hit; [lia|].
  assert (Hbr : bracket f (x0, x1)). { unfold bracket. simpl. subst f1. nra. }
  assert (Hself : hull (x0, x1) x0 ∧ hull (x0, x1) x1) by (split; [apply (hull_l (x0, x1))|apply (hull_r (x0, x1))]).
  cbn [rf_loop]. destruct (Rge_dec (Rabs (x1 - x0)) (/ 1000000000 * eps)) as [Hw|Hw].
  - assert (Hne : x0 ≠ x1).
    { intros ->. rewrite Rminus_diag_eq, Rabs_R0 in Hw by done. lra. }
    destruct (step_inside x0 x1 f0 f1 Hs Hne) as (xnew & Ex & Hin & Hw0 & Hw1). rewrite Ex. cbn [mbind option_bind].
    case_decide as Hmax.
    { eexists _, _, _, _. split; [reflexivity|]. split.
      - split; cbn [fst snd].
        + by constructor.
        + constructor; [|done]. done.
        + intros [|i] h h' _ HH; done.
        + split_and!; [done|done|lia].
        + cbn [length]. lia.
      - cbn [length]. lia. }
    destruct (Rlt_dec (Rabs (f xnew)) epsF) as [Hsmall|Hbig].
    { eexists _, _, _, _. split; [reflexivity|]. split.
      - split; cbn [fst snd].
        + by constructor.
        + constructor; [|done]. done.
        + intros [|i] h h' _ HH; done.
        + split; [done|by left].
        + cbn [length]. lia.
      - cbn [length]. lia. }
    assert (Hfn : f xnew ≠ 0). { intros HH. apply Hbig. rewrite HH, Rabs_R0. done. }
    assert (f0 ≠ 0) by nra. assert (f1 ≠ 0) by nra.
    (* both replacements continue with a bracket inside the old one *)
    assert (Hcont : ∀ y0 g0, hull (x0, x1) y0 → Rabs (xnew - y0) < Rabs (x1 - x0) → 0 < g0 * f y0 → g0 * f xnew < 0 →
      ∃ res it' hs es,
        add_head (x0, x1) <$> (add_eval xnew <$> rf_loop f max_iter fuel eps epsF y0 xnew g0 (f xnew) (it + 1)) =
          Some (res, it', (x0, x1) :: hs, es) ∧
        good_run f (x0, x1) eps epsF max_iter (res, it', (x0, x1) :: hs, es) ∧
        (Z.of_nat (length es) + it <= Z.max max_iter it + 1)%Z).
    { intros y0 g0 Hy0 Hwid Hg Hg'.
      destruct (IH y0 xnew g0 (f xnew) (it + 1)%Z) as (res & it' & hs & es & E & G & Hlen); [lia|done..|lia|].
      rewrite E. cbn [fmap option_fmap option_map add_eval add_head].
      eexists _, _, _, _. split; [reflexivity|]. destruct G as [G1 G2 G3 G4 G5]. cbn [fst snd] in *.
      assert (HT : ∀ x, hull (y0, xnew) x → hull (x0, x1) x) by (intros x; by apply hull_trans).
      split; [split; cbn [fst snd]|].
      - constructor; [done|]. eapply Forall_impl; [exact G1|]. intros x. apply HT.
      - constructor; [done|]. eapply Forall_impl; [exact G2|]. intros h (? & ? & ?). auto.
      - intros [|i] h h' Hh Hh'; [|by eapply (G3 i)]. cbn in Hh, Hh'. injection Hh as <-. injection Hh' as <-.
        unfold shrinks, width. simpl. split_and!; [done|done|done].
      - destruct res as [x|? ? ? ?|u v m]; [|done|].
        + destruct G4 as [Gx G4]. split; [by apply HT|]. destruct G4 as [?|(h & Hh & ?)]; [by left|right].
          exists h. split; [|done]. rewrite last_cons. by rewrite Hh.
        + destruct G4 as (Hl & ? & ?). split; [|done]. rewrite last_cons. by rewrite Hl.
      - cbn [length]. lia.
      - cbn [length]. lia. }
    case_bool_decide as Hb.
    + (* same sign as f0: replace x0 *)
      apply Hcont; [apply Hself|done| |].
      * subst f1. nra.
      * destruct (Rgt_dec (f xnew) 0), (Rgt_dec f0 0); try done; nra.
    + assert (Hsame : 0 < f1 * f xnew).
      { destruct (Rgt_dec (f xnew) 0), (Rgt_dec f0 0); try done; nra. }
      assert (Hg : 0 < f1 / (f1 + f xnew)).
      { assert (f1 + f xnew ≠ 0) by nra. replace (f1 / (f1 + f xnew)) with ((f1 * (f1 + f xnew)) / ((f1 + f xnew) * (f1 + f xnew))) by (field; done).
        apply Rdiv_lt_0_compat; nra. }
      set (ga := f1 / (f1 + f xnew)) in *. apply Hcont; [apply Hself|done| |].
      * replace (f0 * ga * f x0) with ((f0 * f x0) * ga) by lra. nra.
      * assert (f0 * f xnew < 0) by (destruct (Rgt_dec (f xnew) 0), (Rgt_dec f0 0); try done; nra).
        replace (f0 * ga * f xnew) with ((f0 * f xnew) * ga) by lra. nra.
  - cbn [fmap option_fmap option_map add_head]. eexists _, _, _, _. split; [reflexivity|].
    assert (Hmid : hull (x0, x1) (1 / 2 * (x0 + x1))).
    { unfold hull. simpl. unfold Rmin, Rmax. repeat destruct (Rle_dec _ _); lra. }
    split; [split; cbn [fst snd]|cbn [length]; lia].
    + done.
    + by constructor.
    + intros [|i] h h' _ HH; done.
    + split; [done|]. right. exists (x0, x1). split_and!; [done|unfold width; simpl; lra|simpl; lra|done].
    + cbn [length]. lia.
Qed.

Lemma macheps_pos : 0 < macheps.
Proof. unfold macheps. apply Rinv_0_lt_compat. apply pow_lt. lra. Qed.
Lemma eps_pos tol v : 0 <= tol → 0 < tol + macheps * Rmax v 1.
Proof.
  intros Ht. pose proof macheps_pos. pose proof (Rmax_r v 1). assert (0 < macheps * Rmax v 1) by nra. lra.
Qed.

(** A longer list of evaluations in front. *)
Lemma good_more f h h0 eps epsF max_iter r it hs es es' :
  good_run f h eps epsF max_iter (r, it, hs, es) → hull h0 h.1 → hull h0 h.2 → Forall (hull h0) es' →
  (Z.of_nat (length (es' ++ es)) <= Z.max max_iter 0 + 4)%Z → (length es' <= 3)%nat →
  Forall (hull h0) (es' ++ es) ∧
  Forall (λ h', bracket f h' ∧ hull h0 h'.1 ∧ hull h0 h'.2) hs.
Proof.
  intros [G1 G2 G3 G4 G5] H1 H2 HF HL _. cbn [fst snd] in *. split.
  - apply Forall_app. split; [done|]. eapply Forall_impl; [exact G1|]. intros x. by apply hull_trans.
  - eapply Forall_impl; [exact G2|]. intros h' (? & ? & ?). split_and!; [done| |]; by eapply hull_trans.
Qed.

Ltac evs := solve [repeat (apply Forall_cons; split; [done|]); first [done|constructor]].

(** ** C32 *)
Theorem C32_solve (f : R → R) (a b tol : R) (max_iter it0 : Z) (fuel : nat) :
  0 <= tol → f a * f b < 0 → (Z.max max_iter 0 < Z.of_nat fuel)%Z →
  let eps := tol + macheps * Rmax (Rmax (Rabs a) (Rabs b)) 1 in
  let epsF := tol + macheps * Rmax (Rabs (f a)) 1 in
  ∃ r, rf_solve f max_iter fuel a b tol it0 = Some r ∧ good_run f (a, b) eps epsF max_iter r.
Proof.
  intros Ht Hab Hf eps epsF. unfold rf_solve. fold eps epsF.
  assert (0 < eps) as He by (by apply eps_pos). assert (0 < epsF) as HeF by (by apply eps_pos).
  assert (HA : hull (a, b) a) by apply (hull_l (a, b)). assert (HB : hull (a, b) b) by apply (hull_r (a, b)).
  destruct (Rlt_dec (Rabs (f a)) epsF) as [Hsa|Hsa].
  { cbn [fmap option_fmap option_map add_eval]. eexists. split; [reflexivity|]. split; cbn [fst snd].
    - by constructor.
    - constructor.
    - intros i h h' HH; done.
    - split; [done|by left].
    - cbn [length]. lia. }
  destruct (Rlt_dec (Rabs (f b)) epsF) as [Hsb|Hsb].
  { cbn [fmap option_fmap option_map add_eval]. eexists. split; [reflexivity|]. split; cbn [fst snd].
    - evs.
    - constructor.
    - intros i h h' HH; done.
    - split; [done|by left].
    - cbn [length]. lia. }
  destruct (Rgt_dec (f a * f b) 0) as [?|_]; [lra|].
  destruct (loop_good f max_iter eps epsF fuel a b (f a) (f b) 0) as (res & it' & hs & es & E & G & HL); try done; try nra; try lia.
  rewrite E. cbn [fmap option_fmap option_map add_eval]. eexists. split; [reflexivity|]. destruct G as [G1 G2 G3 G4 G5]. cbn [fst snd] in *.
  split; cbn [fst snd]; try done.
  - evs.
  - cbn [length]. lia.
Qed.

(** With an initial guess inside of the interval. *)
Theorem C32_solve_guess (f : R → R) (g a b tol : R) (max_iter it0 : Z) (fuel : nat) :
  0 <= tol → f a * f b < 0 → hull (a, b) g → (Z.max max_iter 0 < Z.of_nat fuel)%Z →
  let eps := tol + macheps * Rmax (Rmax (Rabs a) (Rabs b)) 1 in
  let epsF := tol + macheps * Rmax (Rabs (f g)) 1 in
  ∃ res it hs es, rf_solve_guess f max_iter fuel g a b tol it0 = Some (res, it, hs, es) ∧
    Forall (hull (a, b)) es ∧
    Forall (λ h, bracket f h ∧ hull (a, b) h.1 ∧ hull (a, b) h.2) hs ∧
    (∀ i h h', hs !! i = Some h → hs !! S i = Some h' → shrinks h h') ∧
    match res with
    | Root x => hull (a, b) x ∧ (Rabs (f x) < epsF ∨
         ∃ h, last hs = Some h ∧ width h < / 1000000000 * eps ∧ x = (h.1 + h.2) / 2 ∧ hull h x)
    | TooManyIterations u v m => last hs = Some (u, v) ∧ m = max_iter ∧ (max_iter < it)%Z
    | BracketingFailure _ _ _ _ => False
    end ∧
    (Z.of_nat (length es) <= Z.max max_iter 0 + 4)%Z.
Proof.
  intros Ht Hab Hg Hf eps epsF. unfold rf_solve_guess. fold eps epsF.
  assert (0 < eps) as He by (by apply eps_pos). assert (0 < epsF) as HeF by (by apply eps_pos).
  assert (HA : hull (a, b) a) by apply (hull_l (a, b)). assert (HB : hull (a, b) b) by apply (hull_r (a, b)).
  destruct (Rlt_dec (Rabs (f g)) epsF) as [Hsg|Hsg].
  { cbn [fmap option_fmap option_map add_eval]. eexists _, _, _, _. split; [reflexivity|]. split_and!; try done; try evs; try (cbn [length]; lia).
    by left. }
  assert (Hg0 : f g ≠ 0). { intros HH. apply Hsg. by rewrite HH, Rabs_R0. }
  set (rest1 := rf_guess_rest f max_iter fuel eps epsF g (f g) a b it0).
  (* the loop part *)
  assert (HR : ∃ res it hs es, rest1 (f a) (f b) = Some (res, it, hs, es) ∧
    Forall (hull (a, b)) es ∧
    Forall (λ h, bracket f h ∧ hull (a, b) h.1 ∧ hull (a, b) h.2) hs ∧
    (∀ i h h', hs !! i = Some h → hs !! S i = Some h' → shrinks h h') ∧
    match res with
    | Root x => hull (a, b) x ∧ (Rabs (f x) < epsF ∨
         ∃ h, last hs = Some h ∧ width h < / 1000000000 * eps ∧ x = (h.1 + h.2) / 2 ∧ hull h x)
    | TooManyIterations u v m => last hs = Some (u, v) ∧ m = max_iter ∧ (max_iter < it)%Z
    | BracketingFailure _ _ _ _ => False
    end ∧
    (Z.of_nat (length es) <= Z.max max_iter 0 + 1)%Z).
  { assert (Hgen : ∀ u v, hull (a, b) u → hull (a, b) v → f u * f v < 0 → ∃ res it hs es,
      (if Rgt_dec (f u * f v) 0 then Some (BracketingFailure a b (f u) (f v), it0, [], []) else
       rf_loop f max_iter fuel eps epsF u v (f u) (f v) 0) = Some (res, it, hs, es) ∧
      Forall (hull (a, b)) es ∧
      Forall (λ h, bracket f h ∧ hull (a, b) h.1 ∧ hull (a, b) h.2) hs ∧
      (∀ i h h', hs !! i = Some h → hs !! S i = Some h' → shrinks h h') ∧
      match res with
      | Root x => hull (a, b) x ∧ (Rabs (f x) < epsF ∨
           ∃ h, last hs = Some h ∧ width h < / 1000000000 * eps ∧ x = (h.1 + h.2) / 2 ∧ hull h x)
      | TooManyIterations u v m => last hs = Some (u, v) ∧ m = max_iter ∧ (max_iter < it)%Z
      | BracketingFailure _ _ _ _ => False
      end ∧ (Z.of_nat (length es) <= Z.max max_iter 0 + 1)%Z).
    { intros u v Hu Hv Huv. destruct (Rgt_dec (f u * f v) 0) as [?|_]; [lra|].
      destruct (loop_good f max_iter eps epsF fuel u v (f u) (f v) 0) as (res & it' & hs & es & E & G & HL); try done; try nra; try lia.
      rewrite E. cbn [fmap option_fmap option_map add_eval]. eexists _, _, _, _. split; [reflexivity|]. destruct G as [G1 G2 G3 G4 G5]. cbn [fst snd] in *.
      split_and!.
      - eapply Forall_impl; [exact G1|]. intros x. by apply hull_trans.
      - eapply Forall_impl; [exact G2|]. intros h' (? & ? & ?). split_and!; [done| |]; by eapply (hull_trans _ (u, v)).
      - done.
      - destruct res as [x|? ? ? ?|? ? ?]; [|done|done]. destruct G4 as [? ?]. split; [by eapply (hull_trans _ (u, v))|done].
      - lia. }
    unfold rest1, rf_guess_rest. destruct (Rlt_dec (f a * f g) 0) as [Hag|Hag].
    - apply (Hgen a g); done.
    - apply (Hgen g b); try done. assert (f a * f g ≠ 0) by (apply Rmult_integral_contrapositive; split; [nra|done]). nra. }
  destruct HR as (res & it & hs & es & E & HR1 & HR2 & HR3 & HR4 & HR5).
  clearbody rest1.
  destruct (Req_EM_T a g) as [Eag|Eag].
  - (* a is the guess *)
    destruct (Req_EM_T b g) as [Ebg|Ebg]; [subst; nra|].
    destruct (Rlt_dec (Rabs (f b)) epsF) as [Hsb|Hsb].
    { cbn [fmap option_fmap option_map add_eval]. eexists _, _, _, _. split; [reflexivity|]. split_and!; try done; try evs; try (cbn [length]; lia).
      by left. }
    rewrite <- Eag, E. cbn [fmap option_fmap option_map add_eval]. eexists _, _, _, _. split; [reflexivity|]. split_and!; try done; try evs.
    cbn [length]. lia.
  - destruct (Rlt_dec (Rabs (f a)) epsF) as [Hsa|Hsa].
    { cbn [fmap option_fmap option_map add_eval]. eexists _, _, _, _. split; [reflexivity|]. split_and!; try done; try evs; try (cbn [length]; lia).
      by left. }
    destruct (Req_EM_T b g) as [Ebg|Ebg].
    + rewrite <- Ebg, E. cbn [fmap option_fmap option_map add_eval]. eexists _, _, _, _. split; [reflexivity|]. rewrite <- Ebg in Hg.
      split_and!; try done; try evs. cbn [length]. lia.
    + destruct (Rlt_dec (Rabs (f b)) epsF) as [Hsb|Hsb].
      { cbn [fmap option_fmap option_map add_eval]. eexists _, _, _, _. split; [reflexivity|]. split_and!; try done; try evs; try (cbn [length]; lia).
        by left. }
      rewrite E. cbn [fmap option_fmap option_map add_eval]. eexists _, _, _, _. split; [reflexivity|]. split_and!; try done; try evs.
      cbn [length]. lia.
Qed.

(** Without a sign change (and no small residual at the ends) the bracketing
    handler is called. *)
Theorem C32_rejects (f : R → R) (a b tol : R) (max_iter it0 : Z) (fuel : nat) :
  let epsF := tol + macheps * Rmax (Rabs (f a)) 1 in
  0 < f a * f b → epsF <= Rabs (f a) → epsF <= Rabs (f b) →
  rf_solve f max_iter fuel a b tol it0 = Some (BracketingFailure a b (f a) (f b), it0, [], [a; b]).
Proof.
  intros epsF Hab Ha Hb. unfold rf_solve. fold epsF. destruct (Rlt_dec (Rabs (f a)) epsF); [lra|].
  destruct (Rlt_dec (Rabs (f b)) epsF); [lra|]. destruct (Rgt_dec (f a * f b) 0); [done|lra].
Qed.

(** The values returned by the policies stay in the interval. *)
Theorem C32_policies (f : R → R) (a b tol : R) (max_iter it0 : Z) (fuel : nat) r :
  0 <= tol → f a * f b < 0 → (Z.max max_iter 0 < Z.of_nat fuel)%Z →
  rf_solve f max_iter fuel a b tol it0 = Some r →
  (∀ x, throw_on_error r.1.1.1 = Some x → hull (a, b) x) ∧
  (∃ x, continue_on_error r.1.1.1 = Some x ∧ hull (a, b) x).
Proof.
  intros Ht Hab Hf E. destruct (C32_solve f a b tol max_iter it0 fuel Ht Hab Hf) as (r' & E' & G).
  rewrite E in E'. injection E' as <-. destruct G as [_ G2 _ G4 _]. destruct r as [[[res it] hs] es]. cbn [fst snd] in *.
  destruct res as [x|? ? ? ?|u v m]; [|done|].
  - destruct G4 as [Hx _]. simpl. split; [by intros ? [= <-]|by exists x].
  - destruct G4 as (Hl & _ & _). split; [done|]. eexists. split; [reflexivity|].
    apply last_Some in Hl as [hs' ->]. apply Forall_app in G2 as [_ G2]. apply Forall_singleton in G2 as (_ & Hu & Hv).
    simpl in Hu, Hv. revert Hu Hv. unfold hull. simpl. unfold Rmin, Rmax. repeat destruct (Rle_dec _ _); lra.
Qed.

(** iterations_used is only set when the loop is entered: if an end point
    already has a small residual the caller's value is left in place. *)
Theorem C32_iterations_refuted : ∃ (f : R → R) a b tol max_iter it0 x,
  f a * f b <= 0 ∧ 0 <= tol ∧
  rf_solve f max_iter 0 a b tol it0 = Some (Root x, it0, [], [a]) ∧ it0 ≠ 0%Z.
Proof.
  exists (λ x, x), 0, 1, 0, 10%Z, 77%Z, 0. split_and!; try lra; try done.
  unfold rf_solve. rewrite Rabs_R0. destruct (Rlt_dec 0 (0 + macheps * Rmax 0 1)) as [_|HH]; [done|].
  exfalso. apply HH. apply eps_pos. lra.
Qed.

(** ** C33 *)
Lemma bz_loop_spec f x0 n i cur r : bz_loop f n x0 (f x0) i cur = Some r →
  ∃ k, (k < n)%nat ∧ r = ((i + k)%nat, (-2) ^ k * cur) ∧ f x0 * f (x0 + (-2) ^ k * cur) <= 0 ∧
    ∀ m, (m < k)%nat → 0 < f x0 * f (x0 + (-2) ^ m * cur).
Proof.
  revert i cur. induction n as [|n IH]; intros i cur H; [done|]. cbn [bz_loop] in H.
  destruct (Rle_dec (f x0 * f (x0 + cur)) 0) as [Hle|Hgt].
  - injection H as <-. exists 0%nat. split_and!; [lia|f_equal; [lia|simpl; lra]|by rewrite pow_O, Rmult_1_l|lia].
  - destruct (IH _ _ H) as (k & Hk & -> & Hle & Hm). exists (S k). split_and!.
    + lia.
    + f_equal; [lia|]. simpl. lra.
    + replace ((-2) ^ S k * cur) with ((-2) ^ k * (-2 * cur)) by (simpl; lra). done.
    + intros [|m] Hlt; [rewrite pow_O, Rmult_1_l; lra|].
      replace ((-2) ^ S m * cur) with ((-2) ^ m * (-2 * cur)) by (simpl; lra). apply Hm. lia.
Qed.
Lemma bz_loop_fails f x0 n i cur : bz_loop f n x0 (f x0) i cur = None →
  ∀ m, (m < n)%nat → 0 < f x0 * f (x0 + (-2) ^ m * cur).
Proof.
  revert i cur. induction n as [|n IH]; intros i cur H m Hm; [lia|]. cbn [bz_loop] in H.
  destruct (Rle_dec (f x0 * f (x0 + cur)) 0) as [Hle|Hgt]; [done|].
  destruct m as [|m]; [rewrite pow_O, Rmult_1_l; lra|].
  replace ((-2) ^ S m * cur) with ((-2) ^ m * (-2 * cur)) by (simpl; lra). apply (IH _ _ H). lia.
Qed.

(** A normal return gives an ordered interval with a sign change. *)
Theorem C33_bracket (f : R → R) (x0 dx a b : R) : bracket_zero f x0 dx = Some (a, b) →
  f a * f b <= 0 ∧ a <= b ∧ (dx ≠ 0 → a < b).
Proof.
  unfold bracket_zero. destruct (bz_loop f 100 x0 (f x0) 0 dx) as [[i cur]|] eqn:E; [|done]. cbn [mbind option_bind].
  destruct (bz_loop_spec _ _ _ _ _ _ E) as (k & Hk & [= -> ->] & Hle & Hm). simpl (0 + k)%nat. clear E.
  set (cur := (-2) ^ k * dx) in *.
  assert (Hdx : dx ≠ 0 → cur ≠ 0).
  { intros Hd. unfold cur. apply Rmult_integral_contrapositive. split; [apply pow_nonzero; lra|done]. }
  assert (Hprev : (2 <= k)%nat → f (x0 + 1 / 4 * cur) * f (x0 + cur) <= 0).
  { intros H2. pose proof (Hm (k - 2)%nat ltac:(lia)) as HH.
    replace ((-2) ^ (k - 2) * dx) with (1 / 4 * cur) in HH.
    - destruct (Rle_dec (f (x0 + 1 / 4 * cur) * f (x0 + cur)) 0); [done|]. exfalso.
      assert (0 < f x0 * f (x0 + 1 / 4 * cur) * (f (x0 + 1 / 4 * cur) * f (x0 + cur))) by nra.
      assert (0 <= f (x0 + 1 / 4 * cur) * f (x0 + 1 / 4 * cur)) by nra.
      assert (0 < f x0 * f (x0 + cur)); [|lra].
      destruct (Rlt_dec 0 (f x0)); [assert (0 < f (x0 + 1 / 4 * cur)) by nra|assert (f (x0 + 1 / 4 * cur) < 0) by nra]; nra.
    - unfold cur. destruct k as [|[|m]]; [lia|lia|]. replace (S (S m) - 2)%nat with m by lia. rewrite <- !tech_pow_Rmult. lra. }
  destruct (Rlt_dec cur 0) as [Hneg|Hpos]; intros [= <- <-].
  - destruct (decide (k < 2)%nat) as [Hk2|Hk2].
    + split_and!; [lra|lra|intros; lra].
    + pose proof (Hprev ltac:(lia)). split_and!; [lra|lra|intros; lra].
  - destruct (decide (k < 2)%nat) as [Hk2|Hk2].
    + split_and!; [done|lra|intros Hd; specialize (Hdx Hd); lra].
    + pose proof (Hprev ltac:(lia)). split_and!; [done|lra|intros Hd; specialize (Hdx Hd); lra].
Qed.

(** It throws exactly if none of the 100 points tried gives a sign change. *)
Theorem C33_throws (f : R → R) (x0 dx : R) : bracket_zero f x0 dx = None ↔
  ∀ m, (m < 100)%nat → 0 < f x0 * f (x0 + (-2) ^ m * dx).
Proof.
  unfold bracket_zero. destruct (bz_loop f 100 x0 (f x0) 0 dx) as [[i cur]|] eqn:E; cbn [mbind option_bind].
  - split; [destruct (Rlt_dec cur 0); done|]. intros H.
    destruct (bz_loop_spec _ _ _ _ _ _ E) as (k & Hk & _ & Hle & _). specialize (H k Hk). lra.
  - split; [|done]. intros _. by eapply bz_loop_fails.
Qed.

(** ** Non-vacuity *)
Example C32_example : ∃ r, rf_solve (λ x, x * x - 2) 30 31 0 2 0 0 = Some r ∧
  good_run (λ x, x * x - 2) (0, 2) (0 + macheps * Rmax (Rmax (Rabs 0) (Rabs 2)) 1)
    (0 + macheps * Rmax (Rabs (0 * 0 - 2)) 1) 30 r.
Proof. apply (C32_solve (λ x, x * x - 2) 0 2 0 30 0 31); [lra|lra|lia]. Qed.
Example C33_example : bracket_zero (λ x, x - 3) 0 1 = Some (1, 4).
Proof.
  unfold bracket_zero. cbn [bz_loop].
  do 2 (match goal with |- context [Rle_dec ?a ?b] => destruct (Rle_dec a b); [lra|] end).
  match goal with |- context [Rle_dec ?a ?b] => destruct (Rle_dec a b); [|lra] end.
  cbn [mbind option_bind]. match goal with |- context [Rlt_dec ?a ?b] => destruct (Rlt_dec a b); [lra|] end.
  rewrite decide_False by lia. f_equal. f_equal; lra.
Qed.

Print Assumptions C32_solve.
Print Assumptions C32_solve_guess.
Print Assumptions C32_rejects.
Print Assumptions C32_policies.
Print Assumptions C32_iterations_refuted.
Print Assumptions C33_bracket.
Print Assumptions C33_throws.
