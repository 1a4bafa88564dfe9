(** C28, C29: nonuniform tables. *)
From Coq Require Import Reals Lra Psatz.
From Verif Require Import Base TableModel UTableProof NTableProof.
Local Open Scope R_scope.

(** ** C28: tableIndex and linearInterpolation *)
(** tableIndex finds an interval of the table.  It contains the argument if the
    table does; otherwise it is the first or the last one. *)
Theorem C28_index (s : R) (table : list R) (x t0 tn : R) (fuel : nat) :
  ordered s table → (1 < length table)%nat → (length table <= fuel)%nat →
  head table = Some t0 → last table = Some tn →
  ∃ i a b, table_index fuel table x = Some i ∧ table !! i = Some a ∧ table !! S i = Some b ∧
    (s * t0 <= s * x <= s * tn → s * a <= s * x <= s * b) ∧
    (s * x < s * t0 → i = 0%nat) ∧ (s * tn < s * x → S (S i) = length table).
Proof.
  intros O Hl Hf H0 Hn. destruct (table_index_spec s table x fuel O Hl Hf) as (i & E & Hi & HL & HU).
  assert (is_Some (table !! i)) as [a Ea] by (apply lookup_lt_is_Some; lia).
  assert (is_Some (table !! S i)) as [b Eb] by (apply lookup_lt_is_Some; lia).
  rewrite head_lookup in H0. rewrite last_lookup in Hn. exists i, a, b. split_and!; try done.
  - intros Hx. split.
    + destruct HL as [->|(t & Et & HL)]; simplify_eq; lra.
    + destruct HU as [HU|(t & Et & HU)]; [|simplify_eq; lra]. replace (pred (length table)) with (S i) in Hn by lia.
      simplify_eq. lra.
  - intros Hx. destruct HL as [->|(t & Et & HL)]; [done|]. exfalso. rewrite Ea in Et. injection Et as <-.
    pose proof (ordered_le s table 0 i t0 a O ltac:(lia) H0 Ea). lra.
  - intros Hx. destruct HU as [HU|(t & Et & HU)]; [done|]. exfalso. rewrite Eb in Et. injection Et as <-.
    pose proof (ordered_le s table (S i) (pred (length table)) b tn O ltac:(lia) Eb Hn). lra.
Qed.

(** The interpolant on every closed interval of the table. *)
Theorem C28_interpolant (s : R) (xv yv : list R) (fuel : nat) (x : R) i x0 x1 y0 y1 :
  ordered s xv → length yv = length xv → (length xv <= fuel)%nat →
  xv !! i = Some x0 → xv !! S i = Some x1 → yv !! i = Some y0 → yv !! S i = Some y1 →
  s * x0 <= s * x <= s * x1 →
  linear_interpolation fuel xv yv x = Some (y0 + (y1 - y0) * ((x - x0) / (x1 - x0))).
Proof. intros. by eapply interp_closed. Qed.

Theorem C28_nodes (s : R) (xv yv : list R) (fuel : nat) i xi yi :
  ordered s xv → (1 < length xv)%nat → length yv = length xv → (length xv <= fuel)%nat →
  xv !! i = Some xi → yv !! i = Some yi → linear_interpolation fuel xv yv xi = Some yi.
Proof.
  intros O Hl Hlen Hf Hx Hy. apply lookup_lt_Some in Hx as Hi. destruct (decide (S i < length xv)%nat) as [Hs|Hs].
  - assert (is_Some (xv !! S i)) as [b Eb] by (apply lookup_lt_is_Some; lia).
    assert (is_Some (yv !! S i)) as [yb Eyb] by (apply lookup_lt_is_Some; lia).
    rewrite (C28_interpolant s xv yv fuel xi i xi b yi yb); try done.
    + f_equal. pose proof (ordered_ne s xv i (S i) xi b O ltac:(lia) Hx Eb). field. lra.
    + pose proof (ordered_le s xv i (S i) xi b O ltac:(lia) Hx Eb). lra.
  - destruct i as [|i]; [lia|].
    assert (is_Some (xv !! i)) as [b Eb] by (apply lookup_lt_is_Some; lia).
    assert (is_Some (yv !! i)) as [yb Eyb] by (apply lookup_lt_is_Some; lia).
    rewrite (C28_interpolant s xv yv fuel xi i b xi yb yi); try done.
    + f_equal. pose proof (ordered_ne s xv i (S i) b xi O ltac:(lia) Eb Hx). field. lra.
    + pose proof (ordered_le s xv i (S i) b xi O ltac:(lia) Eb Hx). lra.
Qed.

(** Outside of the table: linear extrapolation of the first or last interval. *)
Theorem C28_extrapolate (s : R) (xv yv : list R) (fuel : nat) (x : R) i x0 x1 y0 y1 :
  ordered s xv → length yv = length xv → (length xv <= fuel)%nat →
  xv !! i = Some x0 → xv !! S i = Some x1 → yv !! i = Some y0 → yv !! S i = Some y1 →
  (i = 0%nat ∧ s * x <= s * x0) ∨ (S (S i) = length xv ∧ s * x1 <= s * x) →
  linear_interpolation fuel xv yv x = Some (y0 + (y1 - y0) * ((x - x0) / (x1 - x0))).
Proof.
  intros O Hlen Hf Ex0 Ex1 Ey0 Ey1 Hout. pose proof O as [Hs _].
  assert (S i < length xv)%nat as Hi by (by eapply lookup_lt_Some).
  destruct (table_index_spec s xv x fuel O ltac:(lia) Hf) as (j & E & Hj & HL & HU).
  assert (Hne : x0 ≠ x1) by (eapply (ordered_ne s xv i (S i)); eauto).
  destruct (decide (j = i)) as [->|Hji]; [by eapply linear_of_index|].
  pose proof (ordered_le s xv i (S i) x0 x1 O ltac:(lia) Ex0 Ex1).
  destruct Hout as [[-> Hx]|[HS Hx]].
  - destruct HL as [->|(t & Et & HL)]; [done|]. pose proof (ordered_le s xv 1 j x1 t O ltac:(lia) Ex1 Et).
    apply (C28_interpolant s xv yv fuel x 0 x0 x1 y0 y1); try done. lra.
  - destruct HU as [HU|(t & Et & HU)]; [lia|]. pose proof (ordered_le s xv (S j) i t x0 O ltac:(lia) Et Ex0).
    apply (C28_interpolant s xv yv fuel x i x0 x1 y0 y1); try done. lra.
Qed.

(** Total, and monotone for monotone data (also when extrapolating). *)
Theorem C28_monotone (s s' : R) (xv yv : list R) (fuel : nat) (x z : R) :
  ordered s xv → (1 < length xv)%nat → length yv = length xv → (length xv <= fuel)%nat → weakly s' yv →
  s * x <= s * z →
  ∃ u v, linear_interpolation fuel xv yv x = Some u ∧ linear_interpolation fuel xv yv z = Some v ∧ s' * u <= s' * v.
Proof.
  intros O Hl Hlen Hf [Hs' W] Hxz. pose proof O as [Hs _].
  destruct (table_index_spec s xv x fuel O Hl Hf) as (i & Ei & Hi & HLi & HUi).
  destruct (table_index_spec s xv z fuel O Hl Hf) as (j & Ej & Hj & HLj & HUj).
  assert (is_Some (xv !! i)) as [a Ea] by (apply lookup_lt_is_Some; lia).
  assert (is_Some (xv !! S i)) as [b Eb] by (apply lookup_lt_is_Some; lia).
  assert (is_Some (yv !! i)) as [ya Eya] by (apply lookup_lt_is_Some; lia).
  assert (is_Some (yv !! S i)) as [yb Eyb] by (apply lookup_lt_is_Some; lia).
  assert (is_Some (xv !! j)) as [c Ec] by (apply lookup_lt_is_Some; lia).
  assert (is_Some (xv !! S j)) as [d Ed] by (apply lookup_lt_is_Some; lia).
  assert (is_Some (yv !! j)) as [yc Eyc] by (apply lookup_lt_is_Some; lia).
  assert (is_Some (yv !! S j)) as [yd Eyd] by (apply lookup_lt_is_Some; lia).
  assert (Hab := proj2 O i (S i) a b ltac:(lia) Ea Eb).
  assert (Hcd := proj2 O j (S j) c d ltac:(lia) Ec Ed).
  assert (a ≠ b) by (intros ->; lra). assert (c ≠ d) by (intros ->; lra).
  exists (line a ya b yb x), (line c yc d yd z). split; [by eapply linear_of_index|]. split; [by eapply linear_of_index|].
  assert (Hyab := W i (S i) ya yb ltac:(lia) Eya Eyb). assert (Hycd := W j (S j) yc yd ltac:(lia) Eyc Eyd).
  assert (Hline : ∀ x0 y0 x1 y1 u, x0 ≠ x1 → s' * line x0 y0 x1 y1 u =
     s' * y0 + (s' * y1 - s' * y0) * ((s * u - s * x0) * / (s * x1 - s * x0))).
  { intros x0 y0 x1 y1 u Hne. unfold line. destruct Hs as [->| ->]; field; lra. }
  rewrite !Hline by done. clear Hline.
  assert (Hinv1 : 0 < / (s * b - s * a)) by (apply Rinv_0_lt_compat; lra).
  assert (Hinv2 : 0 < / (s * d - s * c)) by (apply Rinv_0_lt_compat; lra).
  destruct (decide (i = j)) as [<-|Hij].
  - rewrite Ea in Ec. rewrite Eb in Ed. rewrite Eya in Eyc. rewrite Eyb in Eyd.
    injection Ec as <-. injection Ed as <-. injection Eyc as <-. injection Eyd as <-.
    assert (0 <= (s' * yb - s' * ya) * ((s * z - s * x) * / (s * b - s * a))).
    { apply Rmult_le_pos; [lra|]. apply Rmult_le_pos; lra. }
    lra.
  - (* value at x is at most that at the upper node, value at z at least that at the lower node *)
    assert (Hup : s * x <= s * b → s' * ya + (s' * yb - s' * ya) * ((s * x - s * a) * / (s * b - s * a)) <= s' * yb).
    { intros Hxb. assert ((s * x - s * a) * / (s * b - s * a) <= 1) as Hq.
      { apply Rmult_le_reg_r with (s * b - s * a); [lra|]. rewrite Rmult_assoc, Rinv_l by lra. lra. }
      set (q := (s * x - s * a) * / (s * b - s * a)) in *. nra. }
    assert (Hlo : s * c <= s * z → s' * yc <= s' * yc + (s' * yd - s' * yc) * ((s * z - s * c) * / (s * d - s * c))).
    { intros Hzc. assert (0 <= (s * z - s * c) * / (s * d - s * c)) as Hq by (apply Rmult_le_pos; lra).
      set (q := (s * z - s * c) * / (s * d - s * c)) in *. nra. }
    destruct (decide (i < j)%nat) as [Hlt|Hge].
    + assert (s * x <= s * b) as Hxb.
      { destruct HUi as [?|(t & Et & HU)]; [lia|]. rewrite Eb in Et. by injection Et as <-. }
      assert (s * c <= s * z) as Hzc.
      { destruct HLj as [->|(t & Et & HL)]; [lia|]. rewrite Ec in Et. by injection Et as <-. }
      pose proof (W (S i) j yb yc ltac:(lia) Eyb Eyc). specialize (Hup Hxb). specialize (Hlo Hzc). lra.
    + assert (s * a <= s * x) as Hax.
      { destruct HLi as [->|(t & Et & HL)]; [lia|]. rewrite Ea in Et. by injection Et as <-. }
      assert (s * z <= s * d) as Hzd.
      { destruct HUj as [?|(t & Et & HU)]; [lia|]. rewrite Ed in Et. by injection Et as <-. }
      pose proof (ordered_le s xv (S j) i d a O ltac:(lia) Ed Ea).
      assert (S j = i) as <-.
      { destruct (decide (S j = i)); [done|]. pose proof (proj2 O (S j) i d a ltac:(lia) Ed Ea). lra. }
      rewrite Ea in Ed. rewrite Eya in Eyd. injection Ed as <-. injection Eyd as <-.
      replace (s * x) with (s * a) by lra. replace (s * z) with (s * a) by lra.
      replace ((s * a - s * a) * / (s * b - s * a)) with 0 by (field; lra).
      replace ((s * a - s * c) * / (s * a - s * c)) with 1 by (field; lra). lra.
Qed.

(** linearInterpolationDerivative is the derivative of the interpolant off the
    nodes. *)
Theorem C28_derivative (s : R) (xv yv : list R) (fuel : nat) (x : R) :
  ordered s xv → (1 < length xv)%nat → length yv = length xv → (length xv <= fuel)%nat → x ∉ xv →
  ∃ v, linear_derivative fuel xv yv x = Some v ∧
    derivable_pt_lim (λ z, default 0 (linear_interpolation fuel xv yv z)) x v.
Proof.
  intros O Hl Hlen Hf Hx. pose proof O as [Hs _].
  destruct (table_index_spec s xv x fuel O Hl Hf) as (i & Ei & Hi & HL & HU).
  assert (is_Some (xv !! i)) as [a Ea] by (apply lookup_lt_is_Some; lia).
  assert (is_Some (xv !! S i)) as [b Eb] by (apply lookup_lt_is_Some; lia).
  assert (is_Some (yv !! i)) as [ya Eya] by (apply lookup_lt_is_Some; lia).
  assert (is_Some (yv !! S i)) as [yb Eyb] by (apply lookup_lt_is_Some; lia).
  assert (Hab : a ≠ b) by (eapply (ordered_ne s xv i (S i)); eauto).
  assert (Hlt := proj2 O i (S i) a b ltac:(lia) Ea Eb).
  assert (x ≠ a) by (intros ->; apply Hx; by eapply elem_of_list_lookup_2).
  assert (x ≠ b) by (intros ->; apply Hx; by eapply elem_of_list_lookup_2).
  exists ((yb - ya) / (b - a)). split; [by eapply linear_of_index|].
  assert (Hloc : ∀ del, 0 < del → (∀ z, Rabs (z - x) < del →
      linear_interpolation fuel xv yv z = Some (ya + (yb - ya) * ((z - a) / (b - a)))) →
    derivable_pt_lim (λ z, default 0 (linear_interpolation fuel xv yv z)) x ((yb - ya) / (b - a))).
  { intros del Hdel Hf' eps Heps. exists (mkposreal _ Hdel). intros h Hh Hh'. simpl in Hh'.
    rewrite (Hf' x), (Hf' (x + h)).
    - cbn [default from_option Datatypes.id].
      replace ((ya + (yb - ya) * ((x + h - a) / (b - a)) - (ya + (yb - ya) * ((x - a) / (b - a)))) / h - (yb - ya) / (b - a))
        with 0 by (field; split; lra). rewrite Rabs_R0. done.
    - replace (x + h - x) with h by lra. done.
    - rewrite Rminus_diag_eq by done. by rewrite Rabs_R0. }
  assert (Hsx : ∀ u, u ≠ x → s * u ≠ s * x) by (intros u Hu HH; apply Hu; by eapply sign_inj).
  pose proof (Hsx a ltac:(done)) as Ha. pose proof (Hsx b ltac:(done)) as Hb.
  (* the argument is strictly inside the interval or beyond an end *)
  destruct (Rlt_dec (s * x) (s * a)) as [Hxa|Hxa]; [|destruct (Rlt_dec (s * b) (s * x)) as [Hxb|Hxb]].
  - destruct HL as [->|(t & Et & HL)]; [|exfalso; rewrite Ea in Et; injection Et as <-; lra].
    apply (Hloc (s * a - s * x)); [lra|]. intros z Hz. apply (C28_extrapolate s xv yv fuel z 0 a b ya yb); try done.
    left. split; [done|]. apply Rabs_def2 in Hz. destruct Hs as [->| ->]; lra.
  - destruct HU as [HU|(t & Et & HU)]; [|exfalso; rewrite Eb in Et; injection Et as <-; lra].
    apply (Hloc (s * x - s * b)); [lra|]. intros z Hz. apply (C28_extrapolate s xv yv fuel z i a b ya yb); try done.
    right. split; [done|]. apply Rabs_def2 in Hz. destruct Hs as [->| ->]; lra.
  - assert (0 < Rmin (s * x - s * a) (s * b - s * x)) as Hdel by (apply Rmin_pos; lra).
    apply (Hloc _ Hdel). intros z Hz. apply (C28_interpolant s xv yv fuel z i a b ya yb); try done.
    pose proof (Rmin_l (s * x - s * a) (s * b - s * x)). pose proof (Rmin_r (s * x - s * a) (s * b - s * x)).
    apply Rabs_def2 in Hz. destruct Hs as [->| ->]; lra.
Qed.

(** The constructor of NonuniformTableLinear only asks for nondecreasing
    abscissae.  That is not enough: at the end of such a table the code divides
    by zero. *)
Theorem C28_nondecreasing_refuted : ∃ xv yv t x, nt_make xv yv = Some t ∧ length yv = length xv ∧ last xv = Some x ∧
  ∀ fuel, (3 <= fuel)%nat → ∃ i, table_index fuel (nt_x t) x = Some i ∧ nt_x t !! i = nt_x t !! S i ∧
    nt_eval fuel t x = None.
Proof.
  exists [0; 1; 1], [0; 1; 1], (NTable [0; 1; 1] [0; 1; 1] [] []), 1. split_and!.
  - unfold nt_make. simpl. destruct (Rlt_dec 1 0); [lra|]. destruct (Rlt_dec 1 1); [lra|]. done.
  - done.
  - done.
  - intros fuel Hf. assert (E : table_index fuel [0; 1; 1] 1 = Some 1%nat).
    { unfold table_index. rewrite decide_False by (simpl; lia). cbn [length Nat.sub lookup list_lookup mbind option_bind].
      destruct fuel as [|[|fuel]]; [lia..|]. destruct (Rgt_dec 1 0); [|lra].
      cbn [index_loop]. rewrite decide_True by lia. change ((2 + 0) / 2)%nat with 1%nat.
      cbn [lookup list_lookup mbind option_bind]. destruct (Rge_dec 1 1); [|lra]. by rewrite decide_False by lia. }
    exists 1%nat. split_and!; [exact E|done|]. unfold nt_eval, linear_interpolation. cbn [nt_x nt_y]. rewrite E.
    cbn [mbind option_bind Nat.add lookup list_lookup]. unfold rdiv. destruct (Req_EM_T (1 - 1) 0); [done|lra].
Qed.

(** ** C29: the inverse table *)
(** Calls that change the table. *)
Inductive nt_op := Rescale (c d : R) | Inverse (y : R).
Definition nt_do (fuel : nat) (t : ntable) (o : nt_op) : option ntable :=
  match o with
  | Rescale c d => nt_rescale t (c, d)
  | Inverse y => snd <$> nt_inverse fuel t y
  end.
Fixpoint nt_run (fuel : nat) (t : ntable) (os : list nt_op) : option ntable :=
  match os with [] => Some t | o :: os => t' ← nt_do fuel t o; nt_run fuel t' os end.
(** Domains are not degenerate. *)
Definition op_ok (o : nt_op) : Prop := match o with Rescale c d => c ≠ d | Inverse _ => True end.

Lemma rescale_spec s t c d : ordered s (nt_x t) → (1 < length (nt_x t))%nat → c ≠ d →
  ∃ t' s', nt_rescale t (c, d) = Some t' ∧ ordered s' (nt_x t') ∧ length (nt_x t') = length (nt_x t) ∧
    nt_y t' = nt_y t ∧ nt_xrev t' = nt_xrev t ∧ nt_yrev t' = nt_yrev t ∧
    head (nt_x t') = Some c ∧ last (nt_x t') = Some d.
Proof.
  intros O Hl Hcd. unfold nt_rescale.
  assert (is_Some (nt_x t !! 0%nat)) as [a Ea] by (apply lookup_lt_is_Some; lia).
  assert (is_Some (nt_x t !! (length (nt_x t) - 1)%nat)) as [b Eb] by (apply lookup_lt_is_Some; lia).
  rewrite Ea. cbn [mbind option_bind]. rewrite last_lookup.
  replace (pred (length (nt_x t))) with (length (nt_x t) - 1)%nat by lia. rewrite Eb. cbn [mbind option_bind].
  assert (Hab := proj2 O 0%nat (length (nt_x t) - 1)%nat a b ltac:(lia) Ea Eb).
  assert (Hne : b - a ≠ 0) by (intros HH; assert (b = a) as -> by lra; lra).
  set (h := λ xi, (xi - a) * (d - c) / (b - a) + c).
  assert (mapM (λ xi, q ← rdiv ((xi - a) * (d - c)) (b - a); Some (q + c)) (nt_x t) = Some (h <$> nt_x t)) as ->.
  { generalize (nt_x t). intros l. induction l as [|x l IH]; [done|]. cbn [mapM]. rewrite rdiv_Some by done.
    cbn [mbind option_bind]. rewrite IH. done. }
  cbn [mbind option_bind]. destruct O as [Hs O].
  assert (Hh : ∀ x y, h x - h y = (x - y) * ((d - c) / (b - a))) by (intros; unfold h; field; done).
  set (q := (d - c) / (b - a)) in *.
  assert (Hq : q ≠ 0).
  { unfold q. intros HH. apply (f_equal (λ z, z * (b - a))) in HH. unfold Rdiv in HH.
    rewrite Rmult_assoc, Rinv_l in HH by done. lra. }
  eexists _, (if Rlt_dec 0 (s * q) then 1 else -1). split; [done|]. cbn [nt_x nt_y nt_xrev nt_yrev]. split_and!; try done.
  - split; [destruct (Rlt_dec _ _); auto|]. intros i j u v Hij. rewrite !list_lookup_fmap.
    destruct (nt_x t !! i) as [x|] eqn:Ex; [|done]. destruct (nt_x t !! j) as [y|] eqn:Ey; [|done].
    cbn [fmap option_fmap option_map]. intros [= <-] [= <-]. pose proof (O i j x y Hij Ex Ey) as Hxy.
    pose proof (Hh y x) as Hhxy. destruct (Rlt_dec 0 (s * q)) as [Hp|Hp].
    + assert (0 < h y - h x); [|lra]. rewrite Hhxy. destruct Hs as [->| ->]; nra.
    + assert (h y - h x < 0); [|lra]. rewrite Hhxy. assert (s * q ≠ 0) by (destruct Hs as [->| ->]; lra).
      destruct Hs as [->| ->]; nra.
  - by rewrite fmap_length.
  - rewrite head_lookup, list_lookup_fmap, Ea. cbn [fmap option_fmap option_map]. f_equal. unfold h. field. done.
  - rewrite last_lookup, list_lookup_fmap, fmap_length.
    replace (pred (length (nt_x t))) with (length (nt_x t) - 1)%nat by lia. rewrite Eb.
    cbn [fmap option_fmap option_map]. f_equal. unfold h. field. lra.
Qed.

(** Interpolating the swapped table gives a point whose value is the argument. *)
Lemma invert s s' xv yv fuel v y0 yn : ordered s xv → ordered s' yv → length yv = length xv → (1 < length xv)%nat →
  (length xv <= fuel)%nat → head yv = Some y0 → last yv = Some yn → s' * y0 <= s' * v <= s' * yn →
  ∃ r i x0 x1, linear_interpolation fuel yv xv v = Some r ∧ xv !! i = Some x0 ∧ xv !! S i = Some x1 ∧
    s * x0 <= s * r <= s * x1 ∧ linear_interpolation fuel xv yv r = Some v.
Proof.
  intros O O' Hlen Hl Hf H0 Hn Hv.
  destruct (interval_of s' yv v y0 yn O' ltac:(lia) H0 Hn Hv) as (i & a & b & Ea & Eb & Hab).
  pose proof (lookup_lt_Some _ _ _ Eb) as Hi.
  assert (is_Some (xv !! i)) as [x0 Ex0] by (apply lookup_lt_is_Some; lia).
  assert (is_Some (xv !! S i)) as [x1 Ex1] by (apply lookup_lt_is_Some; lia).
  assert (Hx := proj2 O i (S i) x0 x1 ltac:(lia) Ex0 Ex1). assert (Hy := proj2 O' i (S i) a b ltac:(lia) Ea Eb).
  assert (x0 ≠ x1) by (intros ->; lra). assert (a ≠ b) by (intros ->; lra).
  exists (line a x0 b x1 v), i, x0, x1. split; [apply (interp_closed s' yv xv fuel v i); (done || lia)|]. split_and!; try done.
  - unfold line. assert (0 <= (v - a) / (b - a)) as Hq.
    { replace ((v - a) / (b - a)) with ((s' * v - s' * a) / (s' * b - s' * a)) by (destruct O' as [[->| ->] _]; field; lra).
      apply Rmult_le_pos; [lra|]. apply Rlt_le, Rinv_0_lt_compat. lra. }
    set (q := (v - a) / (b - a)) in *. rewrite Rmult_plus_distr_l, <- Rmult_assoc, Rmult_minus_distr_l.
    assert (0 <= (s * x1 - s * x0) * q) by (apply Rmult_le_pos; lra). lra.
  - unfold line. assert ((v - a) / (b - a) <= 1) as Hq.
    { replace ((v - a) / (b - a)) with ((s' * v - s' * a) / (s' * b - s' * a)) by (destruct O' as [[->| ->] _]; field; lra).
      apply Rmult_le_reg_r with (s' * b - s' * a); [lra|]. unfold Rdiv. rewrite Rmult_assoc, Rinv_l by lra. lra. }
    set (q := (v - a) / (b - a)) in *. rewrite Rmult_plus_distr_l, <- Rmult_assoc, Rmult_minus_distr_l.
    assert ((s * x1 - s * x0) * q <= s * x1 - s * x0) by nra. lra.
  - rewrite (interp_closed s xv yv fuel _ i x0 x1 a b); try done.
    + f_equal. unfold line. field. split; lra.
    + unfold line. assert (0 <= (v - a) / (b - a) <= 1) as Hq.
      { replace ((v - a) / (b - a)) with ((s' * v - s' * a) / (s' * b - s' * a)) by (destruct O' as [[->| ->] _]; field; lra).
        split.
        - apply Rmult_le_pos; [lra|]. apply Rlt_le, Rinv_0_lt_compat. lra.
        - apply Rmult_le_reg_r with (s' * b - s' * a); [lra|]. unfold Rdiv. rewrite Rmult_assoc, Rinv_l by lra. lra. }
      set (q := (v - a) / (b - a)) in *.
      replace (s * (x0 + (x1 - x0) * q)) with (s * x0 + (s * x1 - s * x0) * q) by lra. nra.
Qed.

(** Swapping to the reversed lists does not change the interpolant. *)
Lemma interp_reverse s xv yv fuel i x0 x1 r v : ordered s xv → length yv = length xv → (1 < length xv)%nat →
  (length xv <= fuel)%nat →
  reverse xv !! i = Some x0 → reverse xv !! S i = Some x1 → (- s) * x0 <= (- s) * r <= (- s) * x1 →
  linear_interpolation fuel (reverse xv) (reverse yv) r = Some v →
  linear_interpolation fuel xv yv r = Some v.
Proof.
  intros O Hlen Hl Hf Ex0 Ex1 Hr. pose proof (lookup_lt_Some _ _ _ Ex1) as Hi. rewrite reverse_length in Hi.
  assert (is_Some (reverse yv !! i)) as [y0 Ey0] by (apply lookup_lt_is_Some; rewrite reverse_length; lia).
  assert (is_Some (reverse yv !! S i)) as [y1 Ey1] by (apply lookup_lt_is_Some; rewrite reverse_length; lia).
  rewrite (interp_closed (- s) (reverse xv) (reverse yv) fuel r i x0 x1 y0 y1);
    [|by apply ordered_reverse|by rewrite !reverse_length|by rewrite reverse_length|done..].
  rewrite reverse_lookup in Ex0, Ex1, Ey0, Ey1 by lia.
  set (k := (length xv - S (S i))%nat) in *.
  replace (length xv - S i)%nat with (S k) in Ex0 by lia.
  replace (length yv - S i)%nat with (S k) in Ey0 by lia.
  replace (length yv - S (S i))%nat with k in Ey1 by lia.
  rewrite (interp_closed s xv yv fuel r k x1 x0 y1 y0); try done; [|lra].
  intros [= <-]. f_equal. pose proof (ordered_ne s xv k (S k) x1 x0 O ltac:(lia) Ex1 Ex0). unfold line. field. lra.
Qed.

Lemma increasing_front s l a b : ordered s l → (1 < length l)%nat → head l = Some a → last l = Some b → (a < b ↔ s = 1).
Proof.
  intros [Hs O] Hl Ha Hb. rewrite head_lookup in Ha. rewrite last_lookup in Hb.
  pose proof (O 0%nat (pred (length l)) a b ltac:(lia) Ha Hb). destruct Hs as [->| ->]; split; intros; lra.
Qed.

(** Increasing values: after every history of rescaleDomain and inverse calls,
    inverse returns a point of the domain where the table has the value. *)
Theorem C29_increasing (s : R) (xv yv : list R) (fuel : nat) (os : list nt_op) (t0 : ntable) :
  ordered s xv → ordered 1 yv → length yv = length xv → (1 < length xv)%nat → (length xv <= fuel)%nat →
  nt_make xv yv = Some t0 → Forall op_ok os →
  ∃ t, nt_run fuel t0 os = Some t ∧
    ∀ v y0 yn, head yv = Some y0 → last yv = Some yn → y0 <= v <= yn →
    ∃ r t', nt_inverse fuel t v = Some (r, t') ∧ nt_eval fuel t' r = Some v.
Proof.
  intros O O' Hlen Hl Hf Hmk Hops. unfold nt_make in Hmk. destruct (is_nondecreasing xv); [|done]. injection Hmk as <-.
  assert (H : ∀ t s1, nt_y t = yv → ordered s1 (nt_x t) → length (nt_x t) = length xv →
    (∃ t', nt_run fuel t os = Some t' ∧ nt_y t' = yv ∧ length (nt_x t') = length xv ∧ ∃ s2, ordered s2 (nt_x t')) ∧
    (∀ v, ∃ r, nt_inverse fuel t v = Some (r, t))).
  { assert (Hinv : ∀ t s1, nt_y t = yv → ordered s1 (nt_x t) → length (nt_x t) = length xv →
      ∀ v, ∃ r, nt_inverse fuel t v = Some (r, t)).
    { intros t s1 Hy Ox Hx v. unfold nt_inverse. rewrite Hy.
      assert (is_Some (head yv)) as [f Ef] by (destruct yv; [simpl in *; lia|by eexists]).
      assert (is_Some (last yv)) as [b Eb] by (rewrite last_is_Some; intros ->; simpl in *; lia).
      rewrite Ef, Eb. cbn [mbind option_bind]. destruct (Rlt_dec f b) as [_|Hn].
      2:{ exfalso. apply Hn. by apply (increasing_front 1 yv f b O' ltac:(lia) Ef Eb). }
      destruct (table_index_spec 1 yv v fuel O' ltac:(lia) ltac:(lia)) as (i & Ei & Hi & _).
      assert (is_Some (yv !! i)) as [c Ec] by (apply lookup_lt_is_Some; lia).
      assert (is_Some (yv !! S i)) as [d Ed] by (apply lookup_lt_is_Some; lia).
      assert (is_Some (nt_x t !! i)) as [xc Exc] by (apply lookup_lt_is_Some; lia).
      assert (is_Some (nt_x t !! S i)) as [xd Exd] by (apply lookup_lt_is_Some; lia).
      assert (c ≠ d) by (eapply (ordered_ne 1 yv i (S i)); eauto).
      destruct (linear_of_index fuel yv (nt_x t) v i c d xc xd Ei Ec Ed Exc Exd ltac:(done)) as [-> _].
      by eexists. }
    intros t s1 Hy Ox Hx. split; [|by eapply Hinv]. revert t s1 Hy Ox Hx.
    induction os as [|o os IH]; intros t s1 Hy Ox Hx.
    - exists t. split_and!; [done|done|done|]. by exists s1.
    - apply Forall_cons in Hops as [Ho Hops]. cbn [nt_run]. destruct o as [c d|y]; cbn [nt_do op_ok] in *.
      + destruct (rescale_spec s1 t c d Ox ltac:(lia) Ho) as (t' & s2 & E & Ox' & Hx' & Hy' & _).
        rewrite E. cbn [mbind option_bind]. apply (IH Hops t' s2); congruence || done.
      + destruct (Hinv t s1 Hy Ox Hx y) as [r Er]. rewrite Er. cbn [fmap option_fmap option_map mbind option_bind snd].
        by apply (IH Hops t s1). }
  destruct (H (NTable xv yv [] []) s eq_refl O eq_refl) as [(t & E & Hy & Hx & s2 & Ox) _].
  exists t. split; [done|]. intros v y0 yn H0 Hn Hv.
  destruct (H t s2 Hy Ox Hx) as [_ Hi]. destruct (Hi v) as [r Er]. exists r, t. split; [done|].
  unfold nt_inverse in Er. rewrite Hy, H0, Hn in Er. cbn [mbind option_bind] in Er. unfold nt_eval. rewrite Hy.
  destruct (Rlt_dec y0 yn) as [_|HH].
  2:{ exfalso. apply HH. by apply (increasing_front 1 yv y0 yn O' ltac:(lia) H0 Hn). }
  destruct (invert s2 1 (nt_x t) yv fuel v y0 yn Ox O' ltac:(lia) ltac:(lia) ltac:(lia) H0 Hn ltac:(lra))
    as (r' & i & x0 & x1 & E1 & _ & _ & _ & E2).
  rewrite E1 in Er. cbn [mbind option_bind] in Er. by injection Er as <-.
Qed.

(** Decreasing values: the same if no rescaleDomain follows the first call of
    inverse ... *)
Theorem C29_decreasing_partial (s : R) (xv yv : list R) (fuel : nat) (rs ys : list nt_op) (t0 : ntable) :
  ordered s xv → ordered (-1) yv → length yv = length xv → (1 < length xv)%nat → (length xv <= fuel)%nat →
  nt_make xv yv = Some t0 → Forall op_ok rs → Forall (λ o, ∃ c d, o = Rescale c d) rs → Forall (λ o, ∃ y, o = Inverse y) ys →
  ∃ t, nt_run fuel t0 (rs ++ ys) = Some t ∧
    ∀ v y0 yn, head yv = Some y0 → last yv = Some yn → yn <= v <= y0 →
    ∃ r t', nt_inverse fuel t v = Some (r, t') ∧ nt_eval fuel t' r = Some v.
Proof.
  intros O O' Hlen Hl Hf Hmk Hok Hrs Hys. unfold nt_make in Hmk. destruct (is_nondecreasing xv); [|done]. injection Hmk as <-.
  assert (HR : ∀ t s1, nt_y t = yv → ordered s1 (nt_x t) → length (nt_x t) = length xv → nt_yrev t = [] →
    ∃ t' s2, nt_run fuel t (rs ++ ys) = nt_run fuel t' ys ∧ nt_y t' = yv ∧ ordered s2 (nt_x t') ∧
      length (nt_x t') = length xv ∧ nt_yrev t' = []).
  { induction rs as [|o rs IH]; intros t s1 Hy Ox Hx Hr.
    - by exists t, s1.
    - apply Forall_cons in Hok as [Ho Hok]. apply Forall_cons in Hrs as [(c & d & ->) Hrs]. cbn [app nt_run nt_do].
      destruct (rescale_spec s1 t c d Ox ltac:(lia) Ho) as (t' & s2 & E & Ox' & Hx' & Hy' & _ & Hr' & _).
      rewrite E. cbn [mbind option_bind]. apply (IH Hok Hrs t' s2); congruence || done. }
  destruct (HR (NTable xv yv [] []) s eq_refl O eq_refl eq_refl) as (t1 & s1 & E1 & Hy1 & O1 & Hx1 & Hr1).
  rewrite E1. clear HR E1. set (t2 := NTable (nt_x t1) yv (reverse (nt_x t1)) (reverse yv)).
  pose proof (ordered_reverse _ _ O') as Or. replace (- (-1)) with 1 in Or by lra.
  assert (Hne : reverse yv ≠ []).
  { intros HH. apply (f_equal length) in HH. rewrite reverse_length in HH. simpl in HH. lia. }
  assert (is_Some (head yv)) as [f Ef] by (destruct yv; [simpl in *; lia|by eexists]).
  assert (is_Some (last yv)) as [b Eb] by (rewrite last_is_Some; intros ->; simpl in *; lia).
  assert (Hfb : ¬ f < b).
  { rewrite (increasing_front (-1) yv f b O' ltac:(lia) Ef Eb). lra. }
  assert (Hinv : ∀ t v, t = t1 ∨ t = t2 → ∃ r, nt_inverse fuel t v = Some (r, t2) ∧
     linear_interpolation fuel (reverse yv) (reverse (nt_x t1)) v = Some r).
  { intros t v Ht. unfold nt_inverse. replace (nt_y t) with yv by (by destruct Ht as [->| ->]).
    rewrite Ef, Eb. cbn [mbind option_bind]. destruct (Rlt_dec f b) as [?|_]; [done|].
    assert ((match nt_yrev t with
         | [] => if is_nondecreasing (reverse yv) then Some (NTable (nt_x t) yv (reverse (nt_x t)) (reverse yv)) else None
         | _ => Some t end) = Some t2) as ->.
    { destruct Ht as [->| ->].
      - rewrite Hr1. rewrite (proj2 (is_nondecreasing_spec (reverse yv))); [done|]. by apply ordered_weakly.
      - cbn [nt_yrev t2]. destruct (reverse yv); done. }
    cbn [mbind option_bind]. cbn [nt_yrev nt_xrev t2].
    destruct (table_index_spec 1 (reverse yv) v fuel Or) as (i & Ei & Hi & _); [rewrite reverse_length; lia..|].
    rewrite reverse_length in Hi.
    assert (is_Some (reverse yv !! i)) as [c Ec] by (apply lookup_lt_is_Some; rewrite reverse_length; lia).
    assert (is_Some (reverse yv !! S i)) as [d Ed] by (apply lookup_lt_is_Some; rewrite reverse_length; lia).
    assert (is_Some (reverse (nt_x t1) !! i)) as [xc Exc] by (apply lookup_lt_is_Some; rewrite reverse_length; lia).
    assert (is_Some (reverse (nt_x t1) !! S i)) as [xd Exd] by (apply lookup_lt_is_Some; rewrite reverse_length; lia).
    assert (c ≠ d) by (eapply (ordered_ne 1 (reverse yv) i (S i)); eauto).
    destruct (linear_of_index fuel (reverse yv) (reverse (nt_x t1)) v i c d xc xd Ei Ec Ed Exc Exd ltac:(done)) as [-> _].
    by eexists. }
  assert (HY : ∀ t, t = t1 ∨ t = t2 → ∃ t', nt_run fuel t ys = Some t' ∧ (t' = t1 ∨ t' = t2)).
  { induction ys as [|o ys IH]; intros t Ht; [by exists t|]. apply Forall_cons in Hys as [(y & ->) Hys].
    cbn [nt_run nt_do]. destruct (Hinv t y Ht) as (r & Er & _). rewrite Er.
    cbn [fmap option_fmap option_map mbind option_bind snd]. apply IH; auto. }
  destruct (HY t1 (or_introl eq_refl)) as (t & E & Ht). exists t. split; [done|].
  intros v y0 yn H0 Hn Hv. destruct (Hinv t v Ht) as (r & Er & El). exists r, t2. split; [done|].
  unfold nt_eval, t2. cbn [nt_x nt_y].
  pose proof (ordered_reverse _ _ O1) as Oxr.
  destruct (invert (- s1) 1 (reverse (nt_x t1)) (reverse yv) fuel v yn y0 Oxr Or) as (r' & i & x0 & x1 & F1 & F2 & F3 & F4 & F5).
  - rewrite !reverse_length. lia.
  - rewrite reverse_length. lia.
  - rewrite reverse_length. lia.
  - by rewrite head_reverse.
  - by rewrite last_reverse.
  - lra.
  - rewrite F1 in El. injection El as ->.
    eapply (interp_reverse s1 (nt_x t1) yv fuel i x0 x1); try done; lia.
Qed.

(** ... but not in general: the reversed abscissae are computed once and not
    updated by rescaleDomain. *)
Theorem C29_inverse_refuted : ∃ xv yv t0 os t v r t', ordered 1 xv ∧ ordered (-1) yv ∧ length yv = length xv ∧
  (1 < length xv)%nat ∧ nt_make xv yv = Some t0 ∧ Forall op_ok os ∧ nt_run 2 t0 os = Some t ∧
  head yv = Some 1 ∧ last yv = Some 0 ∧ 0 <= v <= 1 ∧
  nt_inverse 2 t v = Some (r, t') ∧ nt_eval 2 t' r ≠ Some v.
Proof.
  assert (O1 : ordered 1 [0; 1]).
  { split; [by left|]. intros [|[|i]] [|[|j]] a b Hij Ha Hb; simplify_eq/=; try lia; lra. }
  assert (O2 : ordered (-1) [1; 0]).
  { split; [by right|]. intros [|[|i]] [|[|j]] a b Hij Ha Hb; simplify_eq/=; try lia; lra. }
  exists [0; 1], [1; 0], (NTable [0; 1] [1; 0] [] []), [Inverse 0; Rescale 0 2],
    (NTable [0; 2] [1; 0] [1; 0] [0; 1]), 0, 1, (NTable [0; 2] [1; 0] [1; 0] [0; 1]).
  split_and!; try done; try lra.
  - simpl. lia.
  - unfold nt_make. simpl. destruct (Rlt_dec 1 0); [lra|done].
  - repeat constructor; simpl; lra.
  - cbn [nt_run nt_do]. unfold nt_inverse. cbn [nt_y head last mbind option_bind nt_yrev].
    destruct (Rlt_dec 1 0); [lra|]. change (reverse [1; 0]) with [0; 1]. cbn [is_nondecreasing].
    destruct (Rlt_dec 1 0); [lra|]. cbn [mbind option_bind nt_yrev nt_xrev nt_x].
    change (reverse [0; 1]) with [1; 0]. unfold linear_interpolation, table_index.
    rewrite decide_True by (simpl; lia). cbn [mbind option_bind Nat.add lookup list_lookup]. unfold rdiv at 1.
    destruct (Req_EM_T (1 - 0) 0); [lra|]. cbn [mbind option_bind fmap option_fmap option_map snd].
    unfold nt_rescale. cbn [nt_x nt_y nt_xrev nt_yrev lookup list_lookup last mbind option_bind mapM].
    rewrite !rdiv_Some by lra. cbn [mbind option_bind mret option_ret]. do 2 f_equal. f_equal; [lra|]. f_equal. lra.
  - unfold nt_inverse. cbn [nt_y nt_yrev nt_xrev head last mbind option_bind]. destruct (Rlt_dec 1 0); [lra|].
    cbn [mbind option_bind nt_yrev nt_xrev]. unfold linear_interpolation, table_index.
    rewrite decide_True by (simpl; lia). cbn [mbind option_bind Nat.add lookup list_lookup]. rewrite rdiv_Some by lra.
    cbn [mbind option_bind]. do 2 f_equal. lra.
  - unfold nt_eval, linear_interpolation, table_index. cbn [nt_x nt_y].
    rewrite decide_True by (simpl; lia). cbn [mbind option_bind Nat.add lookup list_lookup]. rewrite rdiv_Some by lra.
    cbn [mbind option_bind]. intros [= HH]. lra.
Qed.

(** ** Non-vacuity *)
Example C28_example : ordered 1 [0; 1; 3] ∧ ordered (-1) [3; 1; 0] ∧
  linear_interpolation 3 [0; 1; 3] [5; 7; 3] 2 = Some 5 ∧ linear_interpolation 3 [3; 1; 0] [3; 7; 5] 2 = Some 5 ∧
  linear_interpolation 3 [0; 1; 3] [5; 7; 3] 4 = Some 1.
Proof.
  assert (O1 : ordered 1 [0; 1; 3]).
  { split; [by left|]. intros [|[|[|i]]] [|[|[|j]]] a b Hij Ha Hb; simplify_eq/=; try lia; lra. }
  assert (O2 : ordered (-1) [3; 1; 0]).
  { split; [by right|]. intros [|[|[|i]]] [|[|[|j]]] a b Hij Ha Hb; simplify_eq/=; try lia; lra. }
  split_and!; [done|done|..].
  - rewrite (C28_interpolant 1 [0; 1; 3] [5; 7; 3] 3 2 1 1 3 7 3); try done; try (simpl; lia); try lra; f_equal; lra.
  - rewrite (C28_interpolant (-1) [3; 1; 0] [3; 7; 5] 3 2 0 3 1 3 7); try done; try (simpl; lia); try lra; f_equal; lra.
  - rewrite (C28_extrapolate 1 [0; 1; 3] [5; 7; 3] 3 4 1 1 3 7 3); try done; try (simpl; lia); [f_equal; lra|].
    right. split; [done|lra].
Qed.
Example C29_example : ∃ t0, nt_make [0; 1; 3] [5; 7; 8] = Some t0 ∧ Forall op_ok [Rescale 1 2; Inverse 6; Rescale 3 0] ∧
  ordered 1 [0; 1; 3] ∧ ordered 1 [5; 7; 8].
Proof.
  eexists. split_and!.
  - unfold nt_make. simpl. destruct (Rlt_dec 1 0); [lra|]. destruct (Rlt_dec 3 1); [lra|done].
  - repeat constructor; simpl; lra.
  - split; [by left|]. intros [|[|[|i]]] [|[|[|j]]] a b Hij Ha Hb; simplify_eq/=; try lia; lra.
  - split; [by left|]. intros [|[|[|i]]] [|[|[|j]]] a b Hij Ha Hb; simplify_eq/=; try lia; lra.
Qed.

Print Assumptions C28_index.
Print Assumptions C28_interpolant.
Print Assumptions C28_nodes.
Print Assumptions C28_extrapolate.
Print Assumptions C28_monotone.
Print Assumptions C28_derivative.
Print Assumptions C28_nondecreasing_refuted.
Print Assumptions C29_increasing.
Print Assumptions C29_decreasing_partial.
Print Assumptions C29_inverse_refuted.
