(** Rock compressibility (C48). *)
From Coq Require Import Reals Lra Psatz.
From Verif Require Import Base TableModel UTableProof NTableProof NTableProps RockModel.
Local Open Scope R_scope.
Unset Default Proof Using.

(** The derivative of [f] at [x] divided by its (positive) value is [d]: the
    "(d poro / d p) * (1 / poro)" of RockCompressibility.hpp:53. *)
Definition log_derivative (f : R → R) (x d : R) : Prop := 0 < f x ∧ ∃ v, derivable_pt_lim f x v ∧ d = v / f x.

Lemma log_derivative_of f x v : 0 < f x → derivable_pt_lim f x v → log_derivative f x (v / f x).
Proof. intros Hp Hd. split; [done|]. by exists v. Qed.

(** A table of positive multipliers is positive between its ends. *)
Lemma interp_pos s xv yv fuel x x0 xn : ordered s xv → (1 < length xv)%nat → length yv = length xv → (length xv <= fuel)%nat →
  Forall (Rlt 0) yv → head xv = Some x0 → last xv = Some xn → s * x0 <= s * x <= s * xn →
  ∃ m, linear_interpolation fuel xv yv x = Some m ∧ 0 < m.
Proof.
  intros O H1 Hl Hf Hpos E0 En Hx. destruct (C28_index s xv x x0 xn fuel) as (i & a & b & _ & Ea & Eb & Hab & _); try done.
  specialize (Hab Hx).
  assert (S i < length xv)%nat by (by eapply lookup_lt_Some).
  assert (is_Some (yv !! i)) as [ya Eya] by (apply lookup_lt_is_Some; lia).
  assert (is_Some (yv !! S i)) as [yb Eyb] by (apply lookup_lt_is_Some; lia).
  eexists. split; [by eapply (C28_interpolant s xv yv fuel x i a b ya yb)|].
  assert (0 < ya /\ 0 < yb) as [Pa Pb].
  { rewrite Forall_forall in Hpos. split; apply Hpos; eapply elem_of_list_lookup_2; eauto. }
  assert (Hlt := proj2 O i (S i) a b ltac:(lia) Ea Eb).
  assert (Hr : 0 <= (x - a) / (b - a) <= 1).
  { replace ((x - a) / (b - a)) with ((s * x - s * a) / (s * b - s * a)).
    - assert (0 < s * b - s * a) by lra. split.
      + apply Rmult_le_pos; [lra|]. left. by apply Rinv_0_lt_compat.
      + apply (Rmult_le_reg_r (s * b - s * a)); [done|]. unfold Rdiv. rewrite Rmult_assoc, Rinv_l by lra. lra.
    - destruct O as [[-> | ->] _]; field; lra. }
  set (t := (x - a) / (b - a)) in *. nra.
Qed.

Lemma interp_total fuel xv yv x v : linear_derivative fuel xv yv x = Some v → ∃ m, linear_interpolation fuel xv yv x = Some m.
Proof.
  unfold linear_derivative, linear_interpolation. intros E.
  destruct (table_index fuel xv x) as [i|]; [|done]. cbn [mbind option_bind] in *.
  destruct (yv !! (i + 1)%nat); [|done]. cbn [mbind option_bind] in *.
  destruct (yv !! i); [|done]. cbn [mbind option_bind] in *.
  destruct (xv !! (i + 1)%nat); [|done]. cbn [mbind option_bind] in *.
  destruct (xv !! i); [|done]. cbn [mbind option_bind] in *. rewrite E. by eexists.
Qed.

(** ** C48, tables: at every pressure that is not one of the table's, where the
    multiplier is positive, [rockComp] is the logarithmic derivative of
    [poroMult]; for positive tables that is everywhere between the ends. *)
Theorem C48_table (fuel : nat) (r : rock) (s x : R) :
  ordered s (rk_p r) → (1 < length (rk_p r))%nat → length (rk_mult r) = length (rk_p r) → (length (rk_p r) <= fuel)%nat →
  x ∉ rk_p r →
  ∃ m, poro_mult fuel r x = Some m ∧
    (0 < m → ∃ v, rock_comp fuel r x = Some v ∧ log_derivative (λ z, default 0 (poro_mult fuel r z)) x v) ∧
    (∀ x0 xn, head (rk_p r) = Some x0 → last (rk_p r) = Some xn → s * x0 <= s * x <= s * xn → Forall (Rlt 0) (rk_mult r) → 0 < m).
Proof.
  intros O H1 Hl Hf Hx. destruct (C28_derivative s (rk_p r) (rk_mult r) fuel x O H1 Hl Hf Hx) as (v & Ev & Hd).
  destruct (interp_total _ _ _ _ _ Ev) as (m & Em).
  assert (Hpm : ∀ z, poro_mult fuel r z = linear_interpolation fuel (rk_p r) (rk_mult r) z).
  { intros z. unfold poro_mult. destruct (rk_p r); [cbn in H1; lia|done]. }
  exists m. split; [by rewrite Hpm|]. split.
  - intros Hm. exists (v / m). split.
    + unfold rock_comp. destruct (rk_p r) eqn:Er; [cbn in H1; lia|]. rewrite Em. cbn [mbind option_bind]. rewrite Ev.
      cbn [mbind option_bind]. unfold rdiv. destruct (Req_EM_T m 0); [lra|done].
    + set (f := λ z, default 0 (linear_interpolation fuel (rk_p r) (rk_mult r) z)) in *.
      assert (Ef : f x = m) by (unfold f; by rewrite Em).
      split; [rewrite Hpm, Em; exact Hm|]. exists v. split; [|by rewrite Hpm, Em].
      intros eps He. destruct (Hd eps He) as [del L3]. exists del. intros h Hh1 Hh2.
      rewrite !Hpm. by apply L3.
  - intros x0 xn E0 En Hb Hpos. destruct (interp_pos s (rk_p r) (rk_mult r) fuel x x0 xn) as (m' & Em' & Hm'); try done.
    rewrite Em in Em'. by injection Em' as ->.
Qed.
Print Assumptions C48_table.

(** Without a table the multiplier is 1 at the reference pressure and positive
    everywhere; its logarithmic derivative is not the compressibility but less
    by the part of second order. *)
Theorem C48_constant (fuel : nat) (pref comp x : R) :
  let r := Rock [] [] pref comp in
  let f z := default 0 (poro_mult fuel r z) in
  let y := comp * (x - pref) in
  rock_comp fuel r x = Some comp ∧ poro_mult fuel r pref = Some 1 ∧
  log_derivative f x (comp - comp * (y * y / 2) / f x) ∧
  (x = pref → log_derivative f x comp) ∧
  (0 <= y → Rabs (comp - (comp - comp * (y * y / 2) / f x)) <= Rabs comp * (y * y / 2)).
Proof.
  intros r f y. unfold rock_comp, poro_mult, r. cbn [rk_p rk_comp rk_pref].
  assert (Ef : ∀ z, f z = 1 + comp * (z - pref) + 1 / 2 * (comp * (z - pref)) * (comp * (z - pref))) by done.
  assert (Pf : ∀ z, 0 < f z).
  { intros z. rewrite Ef. set (w := comp * (z - pref)). nra. }
  assert (Hd : derivable_pt_lim f x (comp + comp * y)).
  { assert (Hp := derivable_pt_lim_id x).
    assert (H1 : derivable_pt_lim (fun z => z - pref) x 1).
    { replace 1 with (1 - 0) by lra. apply derivable_pt_lim_minus; [done|apply derivable_pt_lim_const]. }
    assert (H2 : derivable_pt_lim (fun z => comp * (z - pref)) x comp).
    { pose proof (derivable_pt_lim_scal (fun z => z - pref) comp x 1 H1) as H2. by rewrite Rmult_1_r in H2. }
    pose proof (derivable_pt_lim_mult _ _ x _ _ H2 H2) as H3.
    pose proof (derivable_pt_lim_scal _ (1 / 2) x _ H3) as H4.
    pose proof (derivable_pt_lim_plus _ _ x _ _ (derivable_pt_lim_plus _ _ x _ _ (derivable_pt_lim_const 1 x) H2) H4) as H5.
    intros eps He. destruct (H5 eps He) as [del H6]. exists del. intros h Hh1 Hh2. specialize (H6 h Hh1 Hh2).
    unfold plus_fct, mult_real_fct, mult_fct, fct_cte in H6. rewrite !Ef.
    match goal with H : Rabs ?a < eps |- Rabs ?b < eps => replace b with a; [exact H|] end.
    unfold y. field. done. }
  pose proof (log_derivative_of f x _ (Pf x) Hd) as HL.
  assert (HE : (comp + comp * y) / f x = comp - comp * (y * y / 2) / f x).
  { pose proof (Pf x). apply (Rmult_eq_reg_r (f x)); [|lra].
    replace ((comp + comp * y) / f x * f x) with (comp + comp * y) by (field; lra).
    replace ((comp - comp * (y * y / 2) / f x) * f x) with (comp * f x - comp * (y * y / 2)) by (field; lra).
    rewrite (Ef x). fold y. lra. }
  rewrite HE in HL. split_and!; try done.
  - do 2 f_equal. unfold Rdiv. replace (pref - pref) with 0 by lra. lra.
  - intros Hx. assert (Ey : y = 0) by (unfold y; rewrite Hx; lra).
    assert (E : comp - comp * (y * y / 2) / f x = comp) by (rewrite Ey; unfold Rdiv; lra). by rewrite E in HL.
  - intros Hy. replace (comp - (comp - comp * (y * y / 2) / f x)) with (comp * (y * y / 2 / f x)) by (unfold Rdiv; lra).
    rewrite Rabs_mult. apply Rmult_le_compat_l; [apply Rabs_pos|].
    assert (1 <= f x) by (rewrite Ef; fold y; nra). assert (0 <= y * y / 2) by nra.
    rewrite Rabs_right.
    + apply (Rmult_le_reg_r (f x)); [lra|]. unfold Rdiv at 1. rewrite Rmult_assoc, Rinv_l by lra. nra.
    + apply Rle_ge. apply Rmult_le_pos; [lra|]. left. apply Rinv_0_lt_compat. lra.
Qed.
Print Assumptions C48_constant.

(** So [rockComp] without a table is not the logarithmic derivative. *)
Theorem C48_constant_refuted : ∃ r x v, (∀ fuel, rock_comp fuel r x = Some v) ∧
  ∀ fuel, ¬ log_derivative (λ z, default 0 (poro_mult fuel r z)) x v.
Proof.
  exists (Rock [] [] 0 1), 1, 1. split; [done|]. intros fuel (_ & v & H & E).
  destruct (C48_constant fuel 0 1 1) as (_ & _ & (_ & v' & H' & E') & _).
  assert (v = v') as -> by (eapply uniqueness_limite; [exact H|exact H']). rewrite <- E in E'.
  cbn [default from_option poro_mult rk_p rk_comp rk_pref] in E'. unfold Datatypes.id in E'. lra.
Qed.
Print Assumptions C48_constant_refuted.

(** Outside of a table of positive multipliers the extrapolated multiplier
    can be zero, and the division fails. *)
Theorem C48_extrapolation_refuted : ∃ r x, ordered 1 (rk_p r) ∧ (1 < length (rk_p r))%nat ∧ length (rk_mult r) = length (rk_p r) ∧
  Forall (Rlt 0) (rk_mult r) ∧ ∀ fuel, rock_comp fuel r x = None.
Proof.
  exists (Rock [1; 2] [1; 2] 0 0), 0. split_and!; try done; cbn [rk_p rk_mult].
  - split; [by left|]. intros [|[|i]] [|[|j]] a b Hij Ha Hb; simplify_eq/=; try lia; lra.
  - cbn; lia.
  - repeat constructor; lra.
  - intros fuel. unfold rock_comp, linear_interpolation, table_index. cbn [rk_p rk_mult length].
    rewrite decide_True by (cbn; lia). cbn [mbind option_bind lookup list_lookup Nat.add].
    unfold linear_derivative, table_index. cbn [length]. rewrite decide_True by (cbn; lia). cbn [mbind option_bind lookup list_lookup Nat.add].
    unfold rdiv. destruct (Req_EM_T (2 - 1) 0); [lra|]. cbn [mbind option_bind].
    destruct (Req_EM_T _ 0) as [|Hn]; [done|]. exfalso. apply Hn. field.
Qed.
Print Assumptions C48_extrapolation_refuted.

(** ** The constructors *)
(** From a deck: the first region's table, or the first record of ROCK, the
    table taking precedence; nothing is active without either. *)
Theorem C48_from_deck (rocktab : option (list (list (list R)))) (rck : option (list (list R))) :
  match rocktab with
  | Some rt => ∀ p m rest more, rt = (p :: m :: rest) :: more → length m = length p →
      rock_from_deck rocktab rck = Some (Rock p m 0 0) ∧ (p ≠ [] → is_active (Rock p m 0 0) = true)
  | None =>
    match rck with
    | Some r => ∀ pref c rest more, r = (pref :: c :: rest) :: more →
        rock_from_deck rocktab rck = Some (Rock [] [] pref c) ∧ (is_active (Rock [] [] pref c) = true ↔ c ≠ 0)
    | None => ∃ r, rock_from_deck rocktab rck = Some r ∧ is_active r = false ∧ ∀ fuel x, poro_mult fuel r x = Some 1
    end
  end.
Proof.
  destruct rocktab as [rt|]; [|destruct rck as [r|]].
  - intros p m rest more -> Hl. unfold rock_from_deck, copy_rocktab. cbn [mbind option_bind lookup list_lookup].
    assert (Hm : ∀ (l : list R) n, n = length l → mapM (λ i, l !! i) (seq 0 n) = Some l).
    { intros l n ->. apply mapM_Some. apply Forall2_same_length_lookup. split; [by rewrite seq_length|].
      intros i a b Ha Hb. apply lookup_seq in Ha as [-> _]. done. }
    rewrite Hm by done. cbn [mbind option_bind]. rewrite Hm by done. cbn [mbind option_bind]. split; [done|].
    intros Hp. unfold is_active. cbn. by destruct p.
  - intros pref c rest more ->. split; [done|]. unfold is_active. cbn. destruct (Req_EM_T c 0); split; naive_solver.
  - exists (Rock [] [] 0 0). split_and!; [done| |].
    + unfold is_active. cbn. destruct (Req_EM_T 0 0); [done|lra].
    + intros fuel x. cbn. f_equal. lra.
Qed.
Print Assumptions C48_from_deck.
Theorem C48_from_param (barsa : R) (pref comp : option R) (fuel : nat) (x : R) : 0 < barsa →
  let r := rock_from_param barsa pref comp in
  poro_mult fuel r (default 100 pref * barsa) = Some 1 ∧
  (is_active r = true ↔ ∃ c, comp = Some c ∧ c ≠ 0) ∧
  rock_comp fuel r x = Some (default 0 comp / barsa).
Proof.
  intros Hb r. unfold r, rock_from_param. split_and!; [| |done].
  - by apply (C48_constant fuel).
  - unfold is_active. cbn [rk_p rk_comp]. destruct comp as [c|]; cbn [default from_option]; unfold Datatypes.id.
    + destruct (Req_EM_T (c / barsa) 0) as [E|E]; split; try done.
      * intros (c' & [= <-] & Hc). exfalso. apply Hc. apply (Rmult_eq_reg_r (/ barsa)); [unfold Rdiv in E; lra|]. apply Rinv_neq_0_compat. lra.
      * intros _. exists c. split; [done|]. intros ->. apply E. unfold Rdiv. lra.
    + destruct (Req_EM_T (0 / barsa) 0) as [E|E]; split; try done; [naive_solver|]. exfalso. apply E. unfold Rdiv. lra.
Qed.
Print Assumptions C48_from_param.

(** A table meeting the hypotheses of [C48_table]. *)
Example C48_example : let r := Rock [100; 200; 300] [0.9; 1; 1.2] 0 0 in
  ordered 1 (rk_p r) ∧ Forall (Rlt 0) (rk_mult r) ∧ 150 ∉ rk_p r.
Proof.
  cbn. split_and!.
  - split; [by left|]. intros [|[|[|i]]] [|[|[|j]]] a b Hij Ha Hb; simplify_eq/=; try lia; lra.
  - repeat constructor; lra.
  - rewrite !elem_of_cons, elem_of_nil. intros [?|[?|[?|?]]]; try done; lra.
Qed.
