(** C34: explicit two-phase transport. *)
From Coq Require Import Reals Lra Psatz.
From Verif Require Import Base GridModel GridSpec LoopModel LoopProof TableModel TofSpec TofProof
  UTableProof AccModel AccProof SpuModel.
Local Open Scope R_scope.

(** ** Specification *)
(** The source of water in a cell with total source [q]: injection is water
    only, production is in proportion to the mobilities [w], [o]. *)
Definition water_source (q w o : R) : R := if Rlt_dec 0 q then q else q * (w / (w + o)).

(** [fw] is a water flux over a face with total flux [d] and gravity flux [gf]
    belonging to some pair of mobilities: each phase [λ_α] moves with
    [λ_α/λ (d ± λ_other gf)]. *)
Definition phase_fluxes (d gf m1 m2 fw fo : R) : Prop :=
  0 < m1 + m2 ∧ fw = m1 / (m1 + m2) * (d + m2 * gf) ∧ fo = m2 / (m1 + m2) * (d - m1 * gf).
(** [m] is the mobility of the cell the phase flux [f] comes from; [l], [r] the
    mobilities of the phase in the first and the second cell of the face. *)
Definition from_upstream (f l r m : R) : Prop := (0 < f → m = l) ∧ (f < 0 → m = r) ∧ (m = l ∨ m = r).

(** What the caller has to provide. *)
Record spu_input (g : ugrid) (s0 mob dflux gflux src s : list R) : Prop := {
  si_s0 : length s0 = u_nc g; si_s : length s = u_nc g; si_src : length src = u_nc g;
  si_mob : length mob = (2 * u_nc g)%nat;
  si_df : length dflux = u_nf g; si_gf : length gflux = u_nf g;
  si_fc : length (u_facecells g) = (2 * u_nf g)%nat;
  si_range : ∀ f a b, face_between g f a b →
    (-1 <= a < Z.of_nat (u_nc g) ∧ -1 <= b < Z.of_nat (u_nc g))%Z;
  si_nonneg : ∀ m, m ∈ mob → 0 <= m;
  si_total : ∀ c w o, mob !! (2 * c)%nat = Some w → mob !! (2 * c + 1)%nat = Some o → 0 < w + o }.

(** Flux of water out of cell [c] over face [f] when [fw] is the flux from the
    first to the second cell of the face. *)
Definition leaving (g : ugrid) (fw : nat → R) (c f : nat) : R :=
  match u_facecells g !! (2 * f)%nat, u_facecells g !! (2 * f + 1)%nat with
  | Some a, Some b =>
    if decide (a = -1 ∨ b = -1)%Z then 0
    else (if decide (a = Z.of_nat c) then fw f else 0) - (if decide (b = Z.of_nat c) then fw f else 0)
  | _, _ => 0
  end.

Section proof.
Variable g : ugrid.
Variables s0 mob dflux gflux src s : list R.
Variable dt : R.
Hypothesis H : spu_input g s0 mob dflux gflux src s.

Lemma mob_pair c : (c < u_nc g)%nat → ∃ w o, mob !! (2 * c)%nat = Some w ∧ mob !! (2 * c + 1)%nat = Some o ∧
  0 <= w ∧ 0 <= o ∧ 0 < w + o.
Proof using H.
  intros Hc. pose proof (si_mob _ _ _ _ _ _ _ H) as Hl.
  destruct (lookup_lt_is_Some_2 mob (2 * c)) as [w Hw]; [lia|].
  destruct (lookup_lt_is_Some_2 mob (2 * c + 1)) as [o Ho]; [lia|].
  exists w, o. split_and!; [done|done|..].
  - eapply (si_nonneg _ _ _ _ _ _ _ H). by eapply elem_of_list_lookup_2.
  - eapply (si_nonneg _ _ _ _ _ _ _ H). by eapply elem_of_list_lookup_2.
  - by eapply (si_total _ _ _ _ _ _ _ H).
Qed.

(** The source loop. *)
Lemma spu_cells : ∃ s1, for_loop (u_nc g) 0 (spu_cell s0 mob src dt) s = Some s1 ∧ length s1 = u_nc g ∧
  ∀ c, (c < u_nc g)%nat → ∃ x q w o, s0 !! c = Some x ∧ src !! c = Some q ∧
    mob !! (2 * c)%nat = Some w ∧ mob !! (2 * c + 1)%nat = Some o ∧
    s1 !! c = Some (x + dt * water_source q w o).
Proof using H.
  destruct (for_loop_inv (λ i s1, length s1 = u_nc g ∧ ∀ c, (c < i)%nat → ∃ x q w o, s0 !! c = Some x ∧ src !! c = Some q ∧
    mob !! (2 * c)%nat = Some w ∧ mob !! (2 * c + 1)%nat = Some o ∧
    s1 !! c = Some (x + dt * water_source q w o)) (u_nc g) 0 (spu_cell s0 mob src dt) s) as (s1 & E & Hl & Hv).
  - split; [apply H|]. intros c Hc. lia.
  - intros i t Hi [Hl Hv]. destruct (mob_pair i) as (w & o & Ew & Eo & Hw & Ho & Hwo); [lia|].
    destruct (lookup_lt_is_Some_2 s0 i) as [x Ex]; [rewrite (si_s0 _ _ _ _ _ _ _ H); lia|].
    destruct (lookup_lt_is_Some_2 src i) as [q Eq]; [rewrite (si_src _ _ _ _ _ _ _ H); lia|].
    exists (<[i:=x + dt * water_source q w o]> t). split.
    + unfold spu_cell. rewrite Ex. cbn [mbind option_bind]. rewrite upd_Some by lia.
      cbn [mbind option_bind]. rewrite Eq. cbn [mbind option_bind]. unfold water_source.
      destruct (Rlt_dec 0 q).
      * rewrite (addto_Some _ _ _ x) by (rewrite list_lookup_insert; [done|lia]).
        by rewrite list_insert_insert.
      * rewrite Ew, Eo. cbn [mbind option_bind]. rewrite rdiv_Some by lra. cbn [mbind option_bind].
        rewrite (addto_Some _ _ _ x) by (rewrite list_lookup_insert; [done|lia]).
        rewrite list_insert_insert. do 2 f_equal. field. lra.
    + split; [by rewrite insert_length|]. intros c Hc. destruct (decide (c = i)) as [->|Hn].
      * exists x, q, w, o. rewrite list_lookup_insert by lia. done.
      * destruct (Hv c) as (x' & q' & w' & o' & ?); [lia|]. exists x', q', w', o'.
        rewrite list_lookup_insert_ne by done. done.
  - exists s1. split; [done|]. split; [done|]. intros c Hc. apply Hv. lia.
Qed.

(** The mobilities chosen at a face; the assertion m1 + m2 > 0 holds. *)
Lemma spu_mob_ok c1 c2 d gf w1 o1 w2 o2 :
  mob !! (2 * c1)%nat = Some w1 → mob !! (2 * c1 + 1)%nat = Some o1 →
  mob !! (2 * c2)%nat = Some w2 → mob !! (2 * c2 + 1)%nat = Some o2 →
  0 <= w1 → 0 <= o1 → 0 <= w2 → 0 <= o2 → 0 < w1 + o1 → 0 < w2 + o2 →
  ∃ m1 m2, spu_mob mob c1 c2 d gf = Some (m1, m2) ∧ 0 < m1 + m2 ∧
    let fw := m1 / (m1 + m2) * (d + m2 * gf) in
    let fo := m2 / (m1 + m2) * (d - m1 * gf) in
    from_upstream fw w1 w2 m1 ∧ (m2 = o1 ∨ m2 = o2) ∧
    (d ≠ 0 ∨ 0 <= gf → from_upstream fo o1 o2 m2).
Proof using Type.
  intros E1 E2 E3 E4 Hw1 Ho1 Hw2 Ho2 H1 H2.
  assert (P : ∀ m M x, 0 < M → 0 <= m → 0 < m / M * x → 0 < x).
  { intros m M x HM Hm Hx. assert (0 <= m / M) by (apply Rmult_le_pos; [done|]; apply Rlt_le, Rinv_0_lt_compat; lra).
    destruct (Rlt_dec 0 x); [done|]. exfalso. nra. }
  assert (N : ∀ m M x, 0 < M → 0 <= m → m / M * x < 0 → x < 0).
  { intros m M x HM Hm Hx. assert (0 <= m / M) by (apply Rmult_le_pos; [done|]; apply Rlt_le, Rinv_0_lt_compat; lra).
    destruct (Rlt_dec x 0); [done|]. exfalso. nra. }
  unfold spu_mob, from_upstream.
  destruct (Rlt_dec 0 d) as [Hd|Hd]; [destruct (Rlt_dec 0 gf) as [Hg|Hg]|destruct (Rlt_dec d 0) as [Hd'|Hd']; [destruct (Rlt_dec gf 0) as [Hg|Hg]|]].
  - cbn [orb]. rewrite E1. cbn [mbind option_bind]. destruct (Rlt_dec 0 (d - w1 * gf)) as [Hx|Hx].
    + rewrite E2. cbn [mbind option_bind]. exists w1, o1. split; [done|]. split; [done|]. cbv zeta.
      split_and!; auto; try (intros HH; exfalso; apply N in HH; [nra|lra|lra]).
      intros _. split_and!; auto. intros HH; exfalso; apply N in HH; [nra|lra|lra].
    + rewrite E4. cbn [mbind option_bind]. exists w1, o2. split; [done|].
      assert (0 < w1) by nra. split; [lra|]. cbv zeta.
      split_and!; auto; try (intros HH; exfalso; apply N in HH; [nra|lra|lra]).
      intros _. split_and!; auto. intros HH; exfalso; apply P in HH; [nra|lra|lra].
  - destruct (Rlt_dec d 0) as [Hd'|Hd']; [lra|]. cbn [orb]. rewrite E2. cbn [mbind option_bind].
    destruct (Rlt_dec 0 (d + o1 * gf)) as [Hx|Hx].
    + rewrite E1. cbn [mbind option_bind]. exists w1, o1. split; [done|]. split; [done|]. cbv zeta.
      split_and!; auto; try (intros HH; exfalso; apply N in HH; [nra|lra|lra]).
      intros _. split_and!; auto. intros HH; exfalso; apply N in HH; [nra|lra|lra].
    + rewrite E3. cbn [mbind option_bind]. exists w2, o1. split; [done|].
      assert (0 < o1) by nra. split; [lra|]. cbv zeta.
      split_and!; auto; try (intros HH; exfalso; apply P in HH; [nra|lra|lra]).
      intros _. split_and!; auto. intros HH; exfalso; apply N in HH; [nra|lra|lra].
  - cbn [orb]. rewrite E3. cbn [mbind option_bind]. destruct (Rlt_dec 0 (d - w2 * gf)) as [Hx|Hx].
    + rewrite E2. cbn [mbind option_bind]. exists w2, o1. split; [done|].
      assert (0 < w2) by nra. split; [lra|]. cbv zeta.
      split_and!; auto; try (intros HH; exfalso; apply P in HH; [nra|lra|lra]).
      intros _. split_and!; auto. intros HH; exfalso; apply N in HH; [nra|lra|lra].
    + rewrite E4. cbn [mbind option_bind]. exists w2, o2. split; [done|]. split; [done|]. cbv zeta.
      split_and!; auto; try (intros HH; exfalso; apply P in HH; [nra|lra|lra]).
      intros _. split_and!; auto. intros HH; exfalso; apply P in HH; [nra|lra|lra].
  - cbn [orb]. rewrite E4. cbn [mbind option_bind]. destruct (Rlt_dec 0 (d + o2 * gf)) as [Hx|Hx].
    + rewrite E1. cbn [mbind option_bind]. exists w1, o2. split; [done|].
      assert (0 < o2) by nra. split; [lra|]. cbv zeta.
      split_and!; auto; try (intros HH; exfalso; apply N in HH; [nra|lra|lra]).
      intros _. split_and!; auto. intros HH; exfalso; apply P in HH; [nra|lra|lra].
    + rewrite E3. cbn [mbind option_bind]. exists w2, o2. split; [done|]. split; [done|]. cbv zeta.
      split_and!; auto; try (intros HH; exfalso; apply P in HH; [nra|lra|lra]).
      intros _. split_and!; auto. intros HH; exfalso; apply P in HH; [nra|lra|lra].
  - assert (d = 0) as -> by lra. cbn [orb]. rewrite E4. cbn [mbind option_bind].
    destruct (Rlt_dec 0 (0 + o2 * gf)) as [Hx|Hx].
    + rewrite E1. cbn [mbind option_bind]. exists w1, o2. split; [done|].
      assert (o2 ≠ 0) by (intros ->; lra). split; [lra|]. cbv zeta.
      split_and!; auto; try (intros HH; exfalso; apply N in HH; [nra|lra|lra]).
      intros [?|Hg]; [lra|]. split_and!; auto. intros HH; exfalso; apply P in HH; [nra|lra|lra].
    + rewrite E3. cbn [mbind option_bind]. exists w2, o2. split; [done|]. split; [done|]. cbv zeta.
      split_and!; auto; try (intros HH; exfalso; apply P in HH; [nra|lra|lra]).
      intros [?|Hg]; [lra|]. split_and!; auto. intros HH; exfalso; apply P in HH; [nra|lra|lra].
Qed.

(** The water flux over a face. *)
Definition fw (f : nat) : R :=
  match u_facecells g !! (2 * f)%nat, u_facecells g !! (2 * f + 1)%nat, dflux !! f, gflux !! f with
  | Some a, Some b, Some d, Some gf =>
    match spu_mob mob (Z.to_nat a) (Z.to_nat b) d gf with
    | Some (m1, m2) => m1 / (m1 + m2) * (d + m2 * gf)
    | None => 0
    end
  | _, _, _, _ => 0
  end.
Definition face_kv (f : nat) : list (nat * R) :=
  match u_facecells g !! (2 * f)%nat, u_facecells g !! (2 * f + 1)%nat with
  | Some a, Some b =>
    if decide (a = -1 ∨ b = -1)%Z then [] else [(Z.to_nat a, - (fw f * dt)); (Z.to_nat b, fw f * dt)]
  | _, _ => []
  end.
Lemma spu_face_data f : (f < u_nf g)%nat → ∃ a b d gf, face_between g f a b ∧ dflux !! f = Some d ∧ gflux !! f = Some gf ∧
  (-1 <= a < Z.of_nat (u_nc g) ∧ -1 <= b < Z.of_nat (u_nc g))%Z.
Proof using H.
  intros Hf.
  destruct (lookup_lt_is_Some_2 (u_facecells g) (2 * f)) as [a Ea]; [rewrite (si_fc _ _ _ _ _ _ _ H); lia|].
  destruct (lookup_lt_is_Some_2 (u_facecells g) (2 * f + 1)) as [b Eb]; [rewrite (si_fc _ _ _ _ _ _ _ H); lia|].
  destruct (lookup_lt_is_Some_2 dflux f) as [d Ed]; [rewrite (si_df _ _ _ _ _ _ _ H); lia|].
  destruct (lookup_lt_is_Some_2 gflux f) as [gf Eg]; [rewrite (si_gf _ _ _ _ _ _ _ H); lia|].
  exists a, b, d, gf. pose proof (si_range _ _ _ _ _ _ _ H f a b (conj Ea Eb)). repeat split; auto; lia.
Qed.
Lemma spu_face_acc f t : (f < u_nf g)%nat → spu_face g mob dflux gflux dt f t = accs t (face_kv f).
Proof using H.
  intros Hf. destruct (spu_face_data f Hf) as (a & b & d & gf & [Ea Eb] & Ed & Eg & Ha & Hb).
  unfold spu_face, face_kv, fw. rewrite Ea, Eb. cbn [mbind option_bind].
  destruct (decide (a = -1 ∨ b = -1)%Z) as [Hab|Hab].
  { destruct Hab as [-> | ->]; simpl; [done|]. by rewrite andb_false_r. }
  rewrite !bool_decide_true by lia. cbn [andb]. rewrite Ed, Eg. cbn [mbind option_bind].
  rewrite !decide_True by lia.
  destruct (mob_pair (Z.to_nat a)) as (w1 & o1 & E1 & E2 & ?); [lia|].
  destruct (mob_pair (Z.to_nat b)) as (w2 & o2 & E3 & E4 & ?); [lia|].
  destruct (spu_mob_ok _ _ d gf _ _ _ _ E1 E2 E3 E4) as (m1 & m2 & Em & Hm & _); try lra.
  rewrite Em. cbn [mbind option_bind]. destruct (Rlt_dec 0 (m1 + m2)); [|done].
  cbn [accs fst snd]. destruct (addto t (Z.to_nat a) _) as [t1|]; [|done]. cbn [mbind option_bind].
  by destruct (addto t1 _ _).
Qed.
Lemma face_kv_tally f c : (f < u_nf g)%nat → tally (face_kv f) c = - dt * leaving g fw c f.
Proof using H.
  intros Hf. destruct (spu_face_data f Hf) as (a & b & d & gf & [Ea Eb] & Ed & Eg & Ha & Hb).
  unfold face_kv, leaving. rewrite Ea, Eb.
  destruct (decide (a = -1 ∨ b = -1)%Z); [rewrite tally_nil; lra|].
  rewrite !tally_cons, tally_nil.
  rewrite (decide_ext (Z.to_nat a = c) (a = Z.of_nat c) ) by lia.
  rewrite (decide_ext (Z.to_nat b = c) (b = Z.of_nat c) ) by lia.
  destruct (decide (a = Z.of_nat c)), (decide (b = Z.of_nat c)); lra.
Qed.
Lemma face_kv_sum f : rsum snd (face_kv f) = 0.
Proof using Type.
  unfold face_kv. destruct (u_facecells g !! (2 * f)%nat), (u_facecells g !! (2 * f + 1)%nat); try done.
  destruct (decide _); simpl; lra.
Qed.
End proof.

(** ** C34.  The run never fails its assertion, divides by zero or leaves its
    arrays; each cell changes by its sources and by the water fluxes over its
    internal faces; each of these fluxes is taken with the mobilities of
    upstream cells; and the total changes by the sources alone.

    The oil mobility is the upstream one unless dflux[f] is zero and gflux[f]
    negative, see [C34_oil_upstream_refuted]. *)
Theorem C34_spu_explicit g s0 mob dflux gflux src s dt :
  spu_input g s0 mob dflux gflux src s →
  ∃ s' F, spu_explicit g s0 mob dflux gflux src dt s = Some s' ∧ length s' = u_nc g ∧
    (∀ c, (c < u_nc g)%nat → ∃ x q w o, s0 !! c = Some x ∧ src !! c = Some q ∧
       mob !! (2 * c)%nat = Some w ∧ mob !! (2 * c + 1)%nat = Some o ∧
       s' !! c = Some (x + dt * (water_source q w o - rsum (leaving g F c) (seq 0 (u_nf g))))) ∧
    (∀ f a b d gf w1 o1 w2 o2, face_between g f (Z.of_nat a) (Z.of_nat b) →
       dflux !! f = Some d → gflux !! f = Some gf →
       mob !! (2 * a)%nat = Some w1 → mob !! (2 * a + 1)%nat = Some o1 →
       mob !! (2 * b)%nat = Some w2 → mob !! (2 * b + 1)%nat = Some o2 →
       ∃ m1 m2 Fo, phase_fluxes d gf m1 m2 (F f) Fo ∧ F f + Fo = d ∧
         from_upstream (F f) w1 w2 m1 ∧ (m2 = o1 ∨ m2 = o2) ∧
         (d ≠ 0 ∨ 0 <= gf → from_upstream Fo o1 o2 m2)) ∧
    rsum (λ x, x) s' = rsum (λ x, x) s0 + dt * rsum (λ c,
      water_source (default 0 (src !! c)) (default 0 (mob !! (2 * c)%nat)) (default 0 (mob !! (2 * c + 1)%nat)))
      (seq 0 (u_nc g)).
Proof.
  intros H. destruct (spu_cells _ _ _ _ _ _ _ dt H) as (s1 & E1 & Hl1 & Hv1).
  assert (Eacc : ∀ t, for_loop (u_nf g) 0 (spu_face g mob dflux gflux dt) t
    = accs t (concat (map (face_kv g mob dflux gflux dt) (seq 0 (u_nf g))))).
  { intros t. rewrite for_loop_run. apply run_accs. intros f u Hf. apply elem_of_seq in Hf.
    eapply spu_face_acc; [done|lia]. }
  destruct (accs_ok s1 (concat (map (face_kv g mob dflux gflux dt) (seq 0 (u_nf g))))) as [s2 E2].
  { intros k v Hk. apply elem_of_list_In, in_concat in Hk as (l & Hl & Hk).
    apply in_map_iff in Hl as (f & <- & Hf). apply in_seq in Hf.
    destruct (spu_face_data _ _ _ _ _ _ _ H f) as (a & b & d & gf & [Ea Eb] & Ed & Eg & Ha & Hb); [lia|].
    unfold face_kv in Hk. rewrite Ea, Eb in Hk. destruct (decide _); [done|].
    rewrite Hl1. simpl in Hk. destruct Hk as [[= <- <-]|[[= <- <-]|[]]]; lia. }
  exists s2, (fw g mob dflux gflux).
  assert (Erun : spu_explicit g s0 mob dflux gflux src dt s = Some s2).
  { unfold spu_explicit. rewrite E1. cbn [mbind option_bind]. by rewrite Eacc. }
  pose proof (accs_inv _ _ _ E2) as [Hl2 Hv2]. split; [done|]. split; [lia|]. split_and!.
  - intros c Hc. destruct (Hv1 c Hc) as (x & q & w & o & Ex & Eq & Ew & Eo & Es).
    exists x, q, w, o. split_and!; try done. rewrite Hv2, Es. cbn [fmap option_fmap option_map]. f_equal.
    rewrite tally_concat. rewrite (rsum_ext _ (λ f, - dt * leaving g (fw g mob dflux gflux) c f)).
    + rewrite rsum_scale. lra.
    + intros f Hf. apply elem_of_seq in Hf. eapply face_kv_tally; [done|lia].
  - intros f a b d gf w1 o1 w2 o2 [Ea Eb] Ed Eg Ew1 Eo1 Ew2 Eo2.
    assert (G : ∀ c w o, mob !! (2 * c)%nat = Some w → mob !! (2 * c + 1)%nat = Some o → 0 <= w ∧ 0 <= o ∧ 0 < w + o).
    { intros c w o Hw Ho. split_and!.
      - eapply (si_nonneg _ _ _ _ _ _ _ H). by eapply elem_of_list_lookup_2.
      - eapply (si_nonneg _ _ _ _ _ _ _ H). by eapply elem_of_list_lookup_2.
      - by eapply (si_total _ _ _ _ _ _ _ H). }
    pose proof (G _ _ _ Ew1 Eo1) as (? & ? & ?). pose proof (G _ _ _ Ew2 Eo2) as (? & ? & ?).
    destruct (spu_mob_ok mob a b d gf w1 o1 w2 o2) as (m1 & m2 & Em & Hm & Hw & Hom & Ho); try done.
    unfold fw. rewrite Ea, Eb, Ed, Eg, !Nat2Z.id, Em.
    exists m1, m2, (m2 / (m1 + m2) * (d - m1 * gf)). split_and!; try done.
    field. lra.
  - rewrite (accs_total _ _ _ E2). rewrite rsum_concat, rsum_map.
    rewrite (rsum_zero (λ f, rsum snd (face_kv g mob dflux gflux dt f))) by (intros f _; apply face_kv_sum).
    rewrite Rplus_0_r, !rsum_seq_list, Hl1, (si_s0 _ _ _ _ _ _ _ H), <- rsum_scale, <- rsum_plus.
    apply rsum_ext. intros c Hc. apply elem_of_seq in Hc.
    destruct (Hv1 c) as (x & q & w & o & Ex & Eq & Ew & Eo & Es); [lia|].
    rewrite Es, Ex, Eq, Ew, Eo. done.
Qed.
Print Assumptions C34_spu_explicit.

(** A three-cell row with internal faces 1 and 2, flow through face 1 against
    gravity; all hypotheses hold. *)
Definition row3 : ugrid := UGrid 3 4 [0; 2; 4; 6]%nat [0; 1; 1; 2; 2; 3]%nat [-1; 0; 0; 1; 1; 2; 2; -1]%Z.
Definition row3_mob : list R := [1; 0; 2; 3; 0; 4].
Lemma row3_input : spu_input row3 [1; 0; 1 / 2] row3_mob [0; 5; 1; 0] [0; -1; 3; 0] [2; 0; -1] [7; 7; 7].
Proof.
  split; try done.
  - intros f a b [Ha Hb]. do 4 (destruct f as [|f]; [cbn in Ha, Hb; simplify_eq; cbn; lia|]).
    apply lookup_lt_Some in Ha. simpl in Ha. lia.
  - intros m Hm. unfold row3_mob in Hm. repeat (apply elem_of_cons in Hm as [->|Hm]; [lra|]). by apply elem_of_nil in Hm.
  - intros c w o Hw Ho. do 3 (destruct c as [|c]; [cbn in Hw, Ho; injection Hw as <-; injection Ho as <-; lra|]).
    apply lookup_lt_Some in Hw. simpl in Hw. lia.
Qed.
Example row3_run : ∃ s', spu_explicit row3 [1; 0; 1 / 2] row3_mob [0; 5; 1; 0] [0; -1; 3; 0] [2; 0; -1] 1 [7; 7; 7] = Some s' ∧
  rsum (λ x, x) s' = 1 + 0 + 1 / 2 + 2.
Proof.
  destruct (C34_spu_explicit _ _ _ _ _ _ _ 1 row3_input) as (s' & F & E & _ & _ & _ & Hs).
  exists s'. split; [done|]. rewrite Hs. unfold water_source. simpl.
  repeat destruct (Rlt_dec _ _); lra.
Qed.

(** *** The total flux zero: the oil mobility is taken from the wrong side. *)
Theorem C34_oil_upstream_refuted :
  ∃ mob d gf m1 m2 w1 o1 w2 o2,
    mob !! 0%nat = Some w1 ∧ mob !! 1%nat = Some o1 ∧ mob !! 2%nat = Some w2 ∧ mob !! 3%nat = Some o2 ∧
    (∀ m : R, m ∈ mob → 0 < m) ∧
    spu_mob mob 0 1 d gf = Some (m1, m2) ∧
    0 < m2 / (m1 + m2) * (d - m1 * gf) ∧ m2 ≠ o1.
Proof.
  exists [1; 1; 1; 2], 0, (-1), 1, 2, 1, 1, 1, 2. split_and!; try done.
  - intros m Hm. repeat (apply elem_of_cons in Hm as [->|Hm]; [lra|]). by apply elem_of_nil in Hm.
  - unfold spu_mob. destruct (Rlt_dec 0 0); [lra|]. cbn [orb]. simpl.
    destruct (Rlt_dec 0 (0 + 2 * -1)); [lra|]. done.
  - lra.
  - lra.
Qed.
Print Assumptions C34_oil_upstream_refuted.
