(** C60: the grid of create_grid_cornerpoint. *)
From Coq Require Import Reals Lra Psatz.
From Verif Require Import Base LoopModel LoopProof TableModel UniqModel UniqSpec UniqProps PillarModel PrepModel HorizSpec HorizProps VertModel VertSpec VertGeom VertSlots VertLoop VertProc VertLink VertProps GrdModel GrdSpec GrdProps GrdNodes GrdEnd GrdCases CsrModel GridModel GridSpec CartGeomProof TofSpec PolyModel PolySpec PolyProof PolyProps PolyCell PolyCellProps TopoModel TopoProps.
Unset Default Proof Using.

(** ** Node numbers and neighbours of the faces *)
Section faces.
Variables (nx ny nz : nat) (coord zc : list R) (act : list Z) (tol : R) (interp : list R → R → R * R).
Hypothesis Hin : input_sizes nx ny nz coord zc act.
Variables (u : upoints (V := R)) (P : list (list R)) (zp : nat → Z → R).
Hypothesis HP : right_numbering Rlt (λ z, (z + tol)%R) interp nx ny nz coord zc act P u.
Hypothesis Hnum : (Z.of_nat (u_num u) ≤ int_max)%Z.
Hypothesis Hzp : ∀ q p p', (p < p')%Z → (zp q p < zp q p')%R.
Hypothesis Hx : 0 < nx.
Hypothesis Hy : 0 < ny.
Notation is_node v := (0 ≤ v < Z.of_nat (u_num u))%Z.

Lemma live_corner i j k a b c v : live nx ny nz (u_plist u) i j k → a < 2 → b < 2 → c < 2 → number nx nz (u_plist u) (2 * i + a) (2 * j + b) (2 * k + c) v → is_node v.
Proof using Hin HP.
  clear Hnum Hzp Hx Hy. intros Hl Ha Hb Hc Hv. pose proof (proj1 Hl) as Hg. pose proof Hg as (Hi & Hj & Hk).
  assert (Hcor : ∀ a b c, a < 2 → b < 2 → c < 2 → corner nx ny nz (2 * i + a) (2 * j + b) (2 * k + c)) by (intros; split_and!; lia).
  assert (Hact : active nx nz act (2 * i + 0) (2 * j + 0) (2 * k + 0)).
  { destruct (active_dec nx ny nz coord zc act Hin _ _ _ (Hcor 0 0 0 ltac:(lia) ltac:(lia) ltac:(lia))) as [H|H]; [done|]. exfalso. revert Hl. rewrite !Nat.add_0_r in H. by eapply C38_inactive. }
  assert (Hh : ∀ a n, a < 2 → (2 * n + a) / 2 = n) by (clear; intros a n Ha; rewrite (Nat.mul_comm 2), Nat.div_add_l, Nat.div_small; lia).
  assert (Hact' : active nx nz act (2 * i + a) (2 * j + b) (2 * k + c)) by (unfold active in *; rewrite !Hh in * by lia; done).
  pose proof (Hcor a b c Ha Hb Hc) as Hc'. destruct (depth_some nx ny nz coord zc act Hin _ _ _ Hc') as [z Hz].
  destruct (rn_active _ _ _ _ _ _ _ _ _ _ _ HP _ _ _ z Hc' Hact' Hz) as (L & w & n & HL & Hw & -> & (k' & z' & _ & _ & _ & ((y & Hy' & _) & _)) & _).
  unfold number in *. rewrite Hv in Hw. injection Hw as ->. rewrite (rn_num _ _ _ _ _ _ _ _ _ _ _ HP).
  assert (length (concat (take (pillar nx (2 * i + a) (2 * j + b)) P)) + n < length (concat P)). { rewrite <- (take_drop_middle P _ L HL) at 2. rewrite concat_app, app_length. cbn [concat]. rewrite app_length. apply lookup_lt_Some in Hy'. lia. } split; [lia|]. by apply Nat2Z.inj_lt.
Qed.
Lemma quad_range i j k c q v : live nx ny nz (u_plist u) i j k → c < 2 → quad nx nz (u_plist u) i j (2 * k + c) q → v ∈ q → is_node v.
Proof using Hin HP.
  clear Hnum Hzp Hx Hy. intros Hl Hc (v0 & v1 & v2 & v3 & H0 & H1 & H2 & H3 & ->) Hv. rewrite <- (Nat.add_0_r (2 * i)), <- (Nat.add_0_r (2 * j)) in H0. rewrite <- (Nat.add_0_r (2 * j)) in H1. rewrite <- (Nat.add_0_r (2 * i)) in H3.
  apply elem_of_list_In in Hv as [<-|[<-|[<-|[<-|[]]]]].
  - apply (live_corner i j k 0 0 c); [done|lia..|exact H0].
  - apply (live_corner i j k 1 0 c); [done|lia..|exact H1].
  - apply (live_corner i j k 1 1 c); [done|lia..|exact H2].
  - apply (live_corner i j k 0 1 c); [done|lia..|exact H3].
Qed.
Lemma filter_only {A} (Q : A → Prop) (HQd : ∀ x, Decision (Q x)) (l : list A) x y : filter Q l = [y] → x ∈ l → Q x → x = y.
Proof using. clear. intros E Hl HQ. assert (x ∈ filter Q l) as Hf by (by apply elem_of_list_filter). rewrite E in Hf. by apply elem_of_list_singleton in Hf. Qed.
Lemma horizontal_range F x : right_horizontal nx ny nz (u_plist u) F → x ∈ F → (∀ v, v ∈ fc_nodes x → is_node v) ∧ (fc_a x = fc_b x → fc_a x = (-1)%Z).
Proof using Hin HP.
  clear Hnum Hzp Hx Hy. intros HR HxF. split.
  - intros v Hv. destruct (rh_some _ _ _ _ _ HR x HxF) as [Ha|Hb].
    + destruct (rh_above _ _ _ _ _ HR x HxF) as [?|(i & j & k & Hl & E)]; [done|]. destruct (rh_bottom _ _ _ _ _ HR i j k Hl) as (y & Ey & Hq). assert (x = y) as <- by (by eapply (filter_only _ _ _ _ _ Ey)).
      by apply (quad_range i j k 1 (fc_nodes x)); [|lia| |].
    + destruct (rh_below _ _ _ _ _ HR x HxF) as [?|(i & j & k & Hl & E)]; [done|]. destruct (rh_top _ _ _ _ _ HR i j k Hl) as (y & Ey & Hq). assert (x = y) as <- by (by eapply (filter_only _ _ _ _ _ Ey)).
      apply (quad_range i j k 0 (fc_nodes x)); [done|lia| |done]. by rewrite Nat.add_0_r.
  - intros E. destruct (rh_above _ _ _ _ _ HR x HxF) as [?|(i & j & k & Hl & Ea)]; [done|]. exfalso.
    assert (∃ y, y ∈ F ∧ fc_a y = cid nx ny i j k ∧ fc_b y = cid nx ny i j k) as H by (exists x; by rewrite <- E).
    apply (rh_shared _ _ _ _ _ HR i j k i j k Hl Hl) in H as (_ & _ & H & _). lia.
Qed.

Lemma zp_lt q p p' : (zp q p < zp q p')%R → (p < p')%Z.
Proof using Hzp. clear Hin HP Hnum Hx Hy. intros H. destruct (Z.lt_trichotomy p p') as [?|[->|Hgt]]; [done|lra|]. apply (Hzp q) in Hgt. lra. Qed.
Lemma zp_le' q p p' : (zp q p <= zp q p')%R → (p ≤ p')%Z.
Proof using Hzp. clear Hin HP Hnum Hx Hy. intros H. destruct (Z.le_gt_cases p p') as [?|Hgt]; [done|]. apply (Hzp q) in Hgt. lra. Qed.

Lemma strip_range (D1 D2 : nat → Z) q1 q2 k t z : column_ok (2 * nz + 2) D1 D2 → (∀ k, k ≤ 2 * nz → (D1 k = int_min ∨ is_node (D1 k)) ∧ (D2 k = int_min ∨ is_node (D2 k))) →
  k mod 2 = 1 → k + 1 < 2 * nz + 2 → (0 < t < 1)%R → (line (zp q1) (zp q2) (D1 k) (D2 k) t < z)%R → (z < line (zp q1) (zp q2) (D1 (k + 1)%nat) (D2 (k + 1)%nat) t)%R →
  (0 ≤ D1 k)%Z ∧ (D1 (k + 1)%nat < Z.of_nat (u_num u))%Z ∧ (0 ≤ D2 k)%Z ∧ (D2 (k + 1)%nat < Z.of_nat (u_num u))%Z.
Proof.
  clear Hin HP Hnum Hzp Hx Hy. intros HD Hr Hodd Hk Ht H1 H2.
  assert (Hev : k + 1 ≤ 2 * nz). { pose proof (Nat.div_mod k 2 ltac:(lia)). lia. }
  destruct (Hr k ltac:(lia)) as [R1 R2]. destruct (Hr (k + 1) Hev) as [R3 R4].
  assert (Hn : D1 k ≠ int_min).
  { intros E. pose proof (co_cell _ _ _ HD k Hk Hodd E) as E'. pose proof (proj1 (co_both _ _ _ HD k ltac:(lia)) E) as E2. pose proof (proj1 (co_both _ _ _ HD (k + 1) ltac:(lia)) E') as E2'. rewrite E, E2 in H1. rewrite E', E2' in H2. lra. }
  pose proof (co_both _ _ _ HD k ltac:(lia)) as Hb. pose proof (co_both _ _ _ HD (k + 1) ltac:(lia)) as Hb'. pose proof (co_mono1 _ _ _ HD k Hk). pose proof (co_mono2 _ _ _ HD k Hk).
  assert (D2 k ≠ int_min) by (intros E; apply Hn, Hb, E). destruct R1 as [?|R1]; [done|]. destruct R2 as [?|R2]; [done|].
  destruct R3 as [E|R3]; [unfold int_min in *; lia|]. destruct R4 as [E|R4]; [unfold int_min in *; lia|]. lia.
Qed.
Lemma meeting_range dir i j k : dir < 2 → i < nx + (1 - dir) → j < ny + dir → k ≤ 2 * nz → let M := meeting nx ny nz (u_plist u) dir i j in
  ((A1 M k = int_min ∨ is_node (A1 M k)) ∧ (A2 M k = int_min ∨ is_node (A2 M k))) ∧ ((B1 M k = int_min ∨ is_node (B1 M k)) ∧ (B2 M k = int_min ∨ is_node (B2 M k))).
Proof using Hin HP Hx Hy.
  clear Hnum Hzp. intros Hd Hi Hj Hk M. subst M. unfold meeting. destruct (decide (dir = 0)) as [->|]; cbn [A1 A2 B1 B2]; (split; split; match goal with |- lev _ _ _ ?a ?b ?c = _ ∨ _ => destruct (lev_range _ _ _ nx ny nz coord zc act Hin u P HP a b c ltac:(lia) ltac:(lia) ltac:(lia)) as [[? _]|[? _]]; [by left|by right] end).
Qed.
Lemma vertical_range dir i j base F I x v : dir < 2 → i < nx + (1 - dir) → j < ny + dir → right_plane nx ny nz (u_plist u) zp dir i j base F I → x ∈ F → v ∈ fc_nodes x →
  is_node v ∨ ∃ m, m < length I ∧ v = Z.of_nat (base + m).
Proof using Hin HP Hnum Hzp Hx Hy.
  intros Hd Hi Hj (K & [C1 C2 C3 C4 C5]) [m Hm]%elem_of_list_lookup Hv. destruct (Forall2_lookup_r _ _ _ _ _ C3 Hm) as ([s s'] & HK & _ & _ & vs & Hpo & Hvs).
  apply elem_of_list_lookup_2, C1 in HK as (Hs & Hs' & Hodd & (t & z & Ht & L1 & L2 & L3 & L4)).
  apply elem_of_list_lookup in Hv as [k Hk]. destruct (Forall2_lookup_r _ _ _ _ _ Hvs Hk) as (w & Hw & Hnw). apply elem_of_list_lookup_2 in Hw.
  destruct (meeting_ok nx ny nz (u_plist u) dir (C39_levels _ _ _ _ _ _ _ _ _ _ _ Hin HP Hnum) Hd Hx Hy i j Hi Hj) as [HA HB].
  assert (HR : ∀ k, k ≤ 2 * nz → _) by (intros k0; exact (meeting_range dir i j k0 Hd Hi Hj)).
  set (M := meeting nx ny nz (u_plist u) dir i j) in *. set (q1 := pillar1 nx dir i j) in *. set (q2 := pillar2 nx dir i j) in *.
  assert (HS : ∃ lo1 hi1 lo2 hi2, (0 ≤ lo1)%Z ∧ (hi1 < Z.of_nat (u_num u))%Z ∧ (0 ≤ lo2)%Z ∧ (hi2 < Z.of_nat (u_num u))%Z ∧ ∀ t z, common (zp q1) (zp q2) M s s' t z → (line (zp q1) (zp q2) lo1 lo2 t <= z <= line (zp q1) (zp q2) hi1 hi2 t)%R).
  { destruct Hodd as [Hodd|Hodd].
    - destruct (strip_range (A1 M) (A2 M) q1 q2 s t z HA ltac:(intros k0 Hk0; apply (HR k0 Hk0)) Hodd Hs Ht L1 L3) as (? & ? & ? & ?).
      exists (A1 M s), (A1 M (s + 1)), (A2 M s), (A2 M (s + 1)). do 4 (split; [done|]). intros t' z' (_ & U1 & _ & U2 & _). unfold lineA in *. lra.
    - destruct (strip_range (B1 M) (B2 M) q1 q2 s' t z HB ltac:(intros k0 Hk0; apply (HR k0 Hk0)) Hodd Hs' Ht L2 L4) as (? & ? & ? & ?).
      exists (B1 M s'), (B1 M (s' + 1)), (B2 M s'), (B2 M (s' + 1)). do 4 (split; [done|]). intros t' z' (_ & _ & U1 & _ & U2). unfold lineB in *. lra. }
  destruct HS as (lo1 & hi1 & lo2 & hi2 & G1 & G2 & G3 & G4 & HS).
  destruct (po_at _ _ _ _ _ _ Hpo w Hw) as (tw & zw & Hat). pose proof (HS tw zw (proj1 (po_hull _ _ _ _ _ _ Hpo tw zw) (hull_vertex _ _ _ w tw zw Hw Hat))) as [U1 U2].
  destruct w as [p|p|p1 p2 p3 p4]; cbn [numbered_as] in Hnw; cbn [at_vertex] in Hat.
  - left. subst v. destruct Hat as [-> ->]. unfold line in U1, U2. assert (lo1 ≤ p)%Z by (apply (zp_le' q1); lra). assert (p ≤ hi1)%Z by (apply (zp_le' q1); lra). lia.
  - left. subst v. destruct Hat as [-> ->]. unfold line in U1, U2. assert (lo2 ≤ p)%Z by (apply (zp_le' q2); lra). assert (p ≤ hi2)%Z by (apply (zp_le' q2); lra). lia.
  - right. destruct Hnw as (m' & Hm' & ->). exists m'. split; [by eapply lookup_lt_Some|done].
Qed.
Lemma vertical_distinct dir i j base F I x : dir < 2 → i < nx + (1 - dir) → j < ny + dir → right_plane nx ny nz (u_plist u) zp dir i j base F I → x ∈ F → fc_a x = fc_b x → fc_a x = (-1)%Z.
Proof.
  clear Hin HP Hnum Hzp Hx Hy. intros Hd Hi Hj (K & [C1 C2 C3 C4 C5]) [m Hm]%elem_of_list_lookup E. destruct (Forall2_lookup_r _ _ _ _ _ C3 Hm) as ([s s'] & _ & Ha & Hb & _).
  destruct Ha as [([G1 G2] & k & -> & Ea)|[_ Ea]]; [|done]. exfalso. destruct Hb as [([H1 H2] & k' & -> & Eb)|[_ Eb]]; [|rewrite Ea, Eb in E; unfold cid in E; lia].
  rewrite Ea, Eb in E. apply cid_inj in E as (E1 & E2 & _); lia.
Qed.
(** All faces of one direction. *)
Lemma planes_range dir c0 Fs Is x : dir < 2 → all_planes nx ny nz (u_plist u) zp dir c0 Fs Is (u_num u) → x ∈ concat Fs →
  (∀ v, v ∈ fc_nodes x → (0 ≤ v < Z.of_nat (u_num u + c0 + length (concat Is)))%Z) ∧ (fc_a x = fc_b x → fc_a x = (-1)%Z).
Proof using Hin HP Hnum Hzp Hx Hy.
  intros Hd (L1 & L2 & HA) Hel. destruct (plane_of (nx + (1 - dir)) (ny + dir) Fs _ _ ltac:(lia) L1 Hel eq_refl) as (i & j & F & Hi & Hj & HF & HxF).
  destruct (lookup_lt_is_Some_2 Is (i + (nx + (1 - dir)) * j)) as [I HI]; [apply lookup_lt_Some in HF; lia|]. pose proof (HA i j F I Hi Hj HF HI) as HR. split.
  - intros v Hv. destruct (vertical_range dir i j _ F I x v Hd Hi Hj HR HxF Hv) as [?|(m & Hm & ->)]; [lia|].
    assert (length (concat (take (i + (nx + (1 - dir)) * j) Is)) + m < length (concat Is)). { rewrite <- (take_drop_middle Is _ I HI) at 2. rewrite concat_app, app_length. cbn [concat]. rewrite app_length. lia. } lia.
  - by apply (vertical_distinct dir i j _ F I x Hd Hi Hj HR HxF).
Qed.
End faces.

(** ** The arrays of the faces *)
Lemma concat_pairs (F : list face) (r : list Z) f x : F !! f = Some x → (concat ((λ x, [fc_a x; fc_b x]) <$> F) ++ r) !! (2 * f) = Some (fc_a x) ∧ (concat ((λ x, [fc_a x; fc_b x]) <$> F) ++ r) !! (2 * f + 1) = Some (fc_b x).
Proof.
  revert f. induction F as [|y F IH]; intros f Hf; [done|]. destruct f as [|f]; [injection Hf as ->; done|]. cbn [fmap list_fmap concat]. replace (2 * S f) with (S (S (2 * f))) by lia. replace (S (S (2 * f)) + 1) with (S (S (2 * f + 1))) by lia. cbn [app lookup list_lookup]. by apply IH.
Qed.
Lemma face_slice {A} (L : list (list A)) r f x : L !! f = Some x → slice (concat L ++ r) (length (concat (take f L))) (length x) = Some x.
Proof.
  intros Hf. rewrite <- (take_drop_middle L f x Hf) at 1. rewrite concat_app. cbn [concat]. rewrite <- !app_assoc. rewrite slice_Some by (rewrite !app_length; lia). rewrite drop_app, take_app. done.
Qed.
Lemma slice_map {A B} (h : A → B) l a n r : slice l a n = Some r → slice (h <$> l) a n = Some (h <$> r).
Proof.
  intros H. pose proof (slice_length _ _ _ _ H) as HL. apply slice_pointwise; [by rewrite fmap_length|]. intros i Hi. by rewrite !list_lookup_fmap, (slice_lookup _ _ _ _ i H).
Qed.

(** What a grid is before its geometry: face [f] has the nodes [nodes f]. *)
Definition solid (g : ugrid) (cf : list (list nat)) (nodes : nat → list nat) (pt : nat → vec) : Prop :=
  (∀ f, f < u_nf g → (0 < fan_area (map pt (nodes f)))%R ∧ aligned (map pt (nodes f))) ∧
  ∀ c row, cf !! c = Some row → closed (map (λ f, (side g c f, nodes f)) row) ∧ body_volume (0, 0, 0)%R (cell_sides g (λ f, map pt (nodes f)) c row) ≠ 0%R.

Section grid.
Variables (nx ny nz : nat) (coord zc : list R) (act : list Z) (tol : R).
Hypothesis Hin : input_sizes nx ny nz coord zc act.
Variables (u : upoints (V := R)) (P : list (list R)) (zp : nat → Z → R).
Hypothesis HP : right_numbering Rlt (λ z, (z + tol)%R) interpolate_pillar nx ny nz coord zc act P u.
Hypothesis Hnum : (Z.of_nat (u_num u) ≤ int_max)%Z.
Hypothesis Hzp : depths_of P zp.
Hypothesis Hx : 0 < nx.
Hypothesis Hy : 0 < ny.
Variables (s : Z) (rv : bool) (Fs0 Fs1 : list (list face)) (Is0 Is1 : list (list (Z * Z * Z * Z))) (Fh F : list face) (cell : list Z) (out : processed).
Hypothesis Hg : grid_of nx ny nz coord u P zp s rv Fs0 Fs1 Is0 Is1 Fh F cell out.
Notation g := (o_g out).

Lemma before_range x : x ∈ concat Fs0 ++ concat Fs1 ++ Fh → (∀ v, v ∈ fc_nodes x → (0 ≤ v < Z.of_nat (g_nn g))%Z) ∧ (fc_a x = fc_b x → fc_a x = (-1)%Z) ∧ fc_nodes x ≠ [].
Proof using Hin HP Hnum Hzp Hx Hy Hg.
  destruct Hg as [G1 G2 G3 _ _ _ _ [G4 _] _ _]. rewrite G4, app_length. intros Hel. apply elem_of_app in Hel as [Hel|Hel]; [|apply elem_of_app in Hel as [Hel|Hel]].
  - destruct (planes_range nx ny nz coord zc act tol interpolate_pillar Hin u P zp HP Hnum (proj1 Hzp) Hx Hy 0 0 Fs0 Is0 x ltac:(lia) G1 Hel) as [H1 H2]. split; [|split; [done|by eapply (vertical_nodes nx ny nz (u_plist u) zp 0); [lia| | |exact G1|]]].
    intros v Hv. specialize (H1 v Hv). lia.
  - destruct (planes_range nx ny nz coord zc act tol interpolate_pillar Hin u P zp HP Hnum (proj1 Hzp) Hx Hy 1 _ Fs1 Is1 x ltac:(lia) G2 Hel) as [H1 H2]. split; [|split; [done|by eapply (vertical_nodes nx ny nz (u_plist u) zp 1); [lia| | |exact G2|]]].
    intros v Hv. specialize (H1 v Hv). lia.
  - destruct (horizontal_range nx ny nz coord zc act tol interpolate_pillar Hin u P HP Fh x G3 Hel) as [H1 H2]. split; [|split; [done|by eapply horizontal_nodes]]. intros v Hv. specialize (H1 v Hv). lia.
Qed.
(** C60: neighbours and nodes of the faces are cells and nodes of the grid. *)
Theorem C60_faces : 2 * g_nf g ≤ length (g_nbr g) ∧ g_nf g ≤ length (g_tag g) ∧ length (o_coords out) = 3 * g_nn g ∧
  (∀ f a b, f < g_nf g → g_nbr g !! (2 * f) = Some a → g_nbr g !! (2 * f + 1) = Some b → (-1 ≤ a < Z.of_nat (o_cells out) ∧ -1 ≤ b < Z.of_nat (o_cells out) ∧ (a = b → a = -1))%Z) ∧
  ∃ nodes, (∀ f, f < g_nf g → corners (g_ptr g) (Z.to_nat <$> g_nodes g) f (nodes f) ∧ nodes f ≠ [] ∧ Forall (λ n, n < g_nn g) (nodes f)) ∧
    ∀ f x, F !! f = Some x → Z.of_nat <$> nodes f = if rv then rev (fc_nodes x) else fc_nodes x.
Proof using Hin HP Hnum Hzp Hx Hy Hg.
  pose proof before_range as HB. destruct Hg as [_ _ _ G1 G2 G3 _ [_ G4] _ _]. clear Hin HP Hnum Hzp Hx Hy. set (F' := if rv then reversed <$> F else F) in *.
  assert (HF' : length F' = length F) by (unfold F'; destruct rv; by rewrite ?fmap_length).
  assert (Hf : ∀ f, f < g_nf g → ∃ x y, F !! f = Some x ∧ y ∈ concat Fs0 ++ concat Fs1 ++ Fh ∧ relabelled (o_cells out) (o_gci out) y x ∧ F' !! f = Some (if rv then reversed x else x)).
  { intros f Hlt. rewrite (ho_nf _ _ G3), HF' in Hlt. destruct (lookup_lt_is_Some_2 F f Hlt) as [x Hx']. destruct (Forall2_lookup_r _ _ _ _ _ G2 Hx') as (y & Hy' & Hr). exists x, y. split; [done|]. split; [by eapply elem_of_list_lookup_2|]. split; [done|].
    unfold F'. destruct rv; [by rewrite list_lookup_fmap, Hx'|done]. }
  assert (Hnr : ∀ v w, local_of (o_cells out) (o_gci out) v w → (-1 ≤ w < Z.of_nat (o_cells out))%Z ∧ (w ≠ -1 → 0 ≤ v)%Z).
  { intros v w [[-> ->]|(k & Hk & -> & Hk')]; [lia|]. split; [lia|]. intros _. destruct (nu_onto _ _ _ _ _ _ (en_numbered _ _ _ _ _ _ _ G1) k Hk) as (i & j & l & Hl & Hc). rewrite (en_gci _ _ _ _ _ _ _ G1 i j l k Hl Hc) in Hk'. injection Hk' as <-. unfold cid. lia. }
  split; [pose proof (ho_lnbr _ _ G3); pose proof (ho_nf_m _ _ G3); rewrite (ho_nf _ _ G3); lia|]. split; [rewrite (ho_ltag _ _ G3), (ho_nf _ _ G3); apply (ho_nf_m _ _ G3)|]. split; [done|]. split.
  - intros f a b Hlt Ha Hb. destruct (Hf f Hlt) as (x & y & _ & Hy' & (R1 & R2 & _) & HF'x). destruct (ho_nbr _ _ G3) as [r Hr]. rewrite Hr in Ha, Hb. destruct (concat_pairs F' r f _ HF'x) as [E1 E2]. rewrite E1 in Ha. rewrite E2 in Hb. injection Ha as <-. injection Hb as <-.
    assert (fc_a (if rv then reversed x else x) = fc_a x ∧ fc_b (if rv then reversed x else x) = fc_b x) as [-> ->] by (by destruct rv).
    destruct (Hnr _ _ R1) as [Ra Ra'], (Hnr _ _ R2) as [Rb Rb']. split; [done|]. split; [done|]. intros E. destruct (decide (fc_a x = (-1)%Z)) as [|Hne]; [done|]. exfalso. specialize (Ra' Hne).
    destruct (HB y Hy') as (_ & Hd & _). assert (fc_a y = fc_b y); [|specialize (Hd H); lia]. rewrite <- E in R2. destruct R1 as [[_ ?]|(k & _ & E1' & K1)]; [done|]. destruct R2 as [[_ ?]|(k' & _ & E2' & K2)]; [done|]. assert (k = k') as -> by lia. congruence.
  - exists (λ f, from_option (λ x, Z.to_nat <$> fc_nodes x) [] (F' !! f)). split.
    + intros f Hlt. destruct (Hf f Hlt) as (x & y & _ & Hy' & (_ & _ & R3) & HF'x). rewrite HF'x. cbn [from_option]. destruct (HB y Hy') as (Hv & _ & Hne). set (x' := if rv then reversed x else x) in *.
      assert (Hin' : ∀ v, v ∈ fc_nodes x' → v ∈ fc_nodes y) by (intros v; unfold x'; rewrite R3; destruct rv; [cbn; by rewrite elem_of_list_In, <- in_rev, <- elem_of_list_In|done]).
      assert (fc_nodes x' ≠ []) as Hne'. { unfold x'. rewrite R3 in Hne. destruct rv; [|done]. cbn. intros E. apply Hne. rewrite <- (rev_involutive (fc_nodes x)), E. done. }
      split; [|split].
      * destruct (ho_nodes _ _ G3) as [r Hr]. exists (length (concat (fc_nodes <$> take f F'))), (length (concat (fc_nodes <$> take (S f) F'))). rewrite (ho_nf _ _ G3) in Hlt.
        split; [apply (ho_ptr _ _ G3); lia|]. split; [apply (ho_ptr _ _ G3); lia|]. rewrite (take_S_r _ _ _ HF'x), fmap_app, concat_app, app_length. cbn [fmap list_fmap concat]. rewrite app_nil_r. split; [lia|].
        rewrite Nat.add_comm, Nat.add_sub. apply slice_map. rewrite Hr, fmap_take. apply face_slice. by rewrite list_lookup_fmap, HF'x.
      * intros E. apply Hne'. by apply fmap_nil_inv in E.
      * apply Forall_fmap, Forall_forall. intros v Hv'. cbn. specialize (Hv v (Hin' v Hv')). lia.
    + intros f x Hfx. assert (f < g_nf g) as Hlt by (rewrite (ho_nf _ _ G3), HF'; by eapply lookup_lt_Some). destruct (Hf f Hlt) as (x0 & y & Hfx' & Hy' & (_ & _ & R3) & HF'x). rewrite Hfx in Hfx'. injection Hfx' as <-. rewrite HF'x. cbn [from_option].
      destruct (HB y Hy') as (Hv & _). rewrite <- list_fmap_compose. transitivity (fc_nodes (if rv then reversed x else x)); [|by destruct rv].
      rewrite <- (list_fmap_id (fc_nodes (if rv then reversed x else x))) at 2. apply list_fmap_ext. intros k v Hk. cbn. apply Z2Nat.id. apply Hv. rewrite R3. apply elem_of_list_lookup_2 in Hk. destruct rv; [|done]. cbn in Hk. by rewrite elem_of_list_In, <- in_rev, <- elem_of_list_In in Hk.
Qed.
End grid.
Print Assumptions C60_faces.

(** ** create_grid_cornerpoint *)
Lemma alloc_in o b o' : next_alloc o = (b, o') → (b = false → false ∈ o) ∧ ∀ x, x ∈ o' → x ∈ o.
Proof. intros H. destruct o as [|x l]; cbn in H; simplify_eq; [done|]. split; [intros ->; by left|]. intros y Hy. by right. Qed.
Lemma allocate_in o b o' : allocate_geometry o = (b, o') → b = false → false ∈ o.
Proof.
  unfold allocate_geometry. destruct (next_alloc o) as [b1 o1] eqn:E1, (next_alloc o1) as [b2 o2] eqn:E2, (next_alloc o2) as [b3 o3] eqn:E3, (next_alloc o3) as [b4 o4] eqn:E4, (next_alloc o4) as [b5 o5] eqn:E5.
  intros [= <- _] Hb. apply alloc_in in E1 as [F1 G1], E2 as [F2 G2], E3 as [F3 G3], E4 as [F4 G4], E5 as [F5 G5]. rewrite !andb_false_iff in Hb. destruct Hb as [[[[?|?]|?]|?]|?]; auto 8.
Qed.
(** The point of node [n]. *)
Definition node_at (coords : list R) (n : nat) : vec := (default 0%R (coords !! (3 * n)), default 0%R (coords !! (3 * n + 1)), default 0%R (coords !! (3 * n + 2))).
Lemma node_at3 coords nn n : length coords = 3 * nn → n < nn → at3 coords n (node_at coords n).
Proof.
  intros HL Hn. unfold at3. apply slice_pointwise; [done|]. intros i Hi. unfold node_at. cbn [fst snd].
  destruct (lookup_lt_is_Some_2 coords (3 * n)) as [x Ex]; [lia|]. destruct (lookup_lt_is_Some_2 coords (3 * n + 1)) as [y Ey]; [lia|]. destruct (lookup_lt_is_Some_2 coords (3 * n + 2)) as [z Ez]; [lia|]. rewrite Ex, Ey, Ez.
  destruct i as [|[|[|i]]]; [by rewrite Nat.add_0_r| | |lia]; done.
Qed.

(** C60: memory runs out, or there are too many crossings, or the grid is that
    of process_grdecl, each cell has the faces that have it as neighbour, in
    ascending order, the tags tell direction and side; and if faces and cells
    are not degenerate then create_grid_cornerpoint returns it, with the
    geometry of its faces and cells. *)
Theorem C60_create qsort junk junkn junkr nx ny nz coord zcorn actnum tol o s d :
  0 < nx → 0 < ny → length coord = 6 * ((nx + 1) * (ny + 1)) → length zcorn = 8 * (nx * ny * nz) → (∀ a, actnum = Some a → length a = nx * ny * nz) →
  (0 <= tol)%R → sorts Rlt qsort → (Z.of_nat (8 * (nx * ny * nz)) ≤ int_max)%Z → oriented nx ny nz coord zcorn actnum s d →
  let result := create_grid_cornerpoint qsort junk junkn junkr nx ny nz coord zcorn actnum tol o in
  ∃ act zc u P zp, arranged nx ny nz actnum zcorn s act zc ∧ right_numbering Rlt (λ z, (z + tol)%R) interpolate_pillar nx ny nz coord zc act P u ∧ depths_of P zp ∧ u_num u ≤ 8 * (nx * ny * nz) ∧
  ((∃ o', result = Some (None, o') ∧ false ∈ o) ∨ (result = None ∧ many_crossings nx ny nz (u_plist u) zp) ∨
   ∃ rv out Fs0 Fs1 Is0 Is1 Fh F cell, process_grdecl qsort junk junkr nx ny nz coord zcorn actnum tol = Some out ∧ (rv = true ↔ (d < 0)%R) ∧ grid_of nx ny nz coord u P zp s rv Fs0 Fs1 Is0 Is1 Fh F cell out ∧
   ∃ pos faces tags cf nodes, let g := to_grid out pos faces in let pt := node_at (o_coords out) in
     grid_ok g cf ∧ (∀ c row, cf !! c = Some row → Sorted lt row) ∧
     (∀ c b e i f t, pos !! c = Some b → pos !! S c = Some e → b ≤ i < e → faces !! i = Some f → g_tag (o_g out) !! f = Some t → tags !! i = Some (match t with LEFT => 0 | BACK => 2 | TOP => 4 end + if side g c f then 1 else 0)) ∧
     (∀ f, f < u_nf g → corners (g_ptr (o_g out)) (Z.to_nat <$> g_nodes (o_g out)) f (nodes f) ∧ ∀ n, n ∈ nodes f → n < g_nn (o_g out) ∧ at3 (o_coords out) n (pt n)) ∧
     (∀ f x, F !! f = Some x → Z.of_nat <$> nodes f = if rv then rev (fc_nodes x) else fc_nodes x) ∧
     (solid g cf nodes pt → ∃ N C A cc cv o', result = Some (Some (CpGrid g tags (g_ptr (o_g out)) (Z.to_nat <$> g_nodes (o_g out)) (o_coords out) (g_nn (o_g out)) N C A cc cv (nx, ny, nz) (o_gci out)), o') ∧
        (∀ f, f < u_nf g → at3 N f (area_vector (map pt (nodes f))) ∧ A !! f = Some (fan_area (map pt (nodes f)))) ∧
        ∀ c row, cf !! c = Some row → ∃ V m, cv !! c = Some V ∧ at3 cc c m ∧
          ∀ o, V = body_volume o (cell_sides g (λ f, map pt (nodes f)) c row) ∧ vscale V m = body_moment o (cell_sides g (λ f, map pt (nodes f)) c row))).
Proof.
  intros Hx Hy Hcoord Hzcorn Hact Htol Hsort Hsmall Hor result.
  destruct (C54_grid qsort junk junkr nx ny nz coord zcorn actnum tol Hx Hy Hcoord Hzcorn Hact Htol Hsort Hsmall s d Hor) as (act & zc & u & P & zp & Harr & HP & Hzp & Hu & HC).
  exists act, zc, u, P, zp. split; [done|]. split; [done|]. split; [done|]. split; [done|]. unfold result, create_grid_cornerpoint. clear result.
  destruct (next_alloc o) as [ok o1] eqn:Eo. destruct (alloc_in _ _ _ Eo) as [F1 G1]. destruct ok; [|left; eexists; split; [done|by apply F1]].
  destruct HC as [(rv & out & Fs0 & Fs1 & Is0 & Is1 & Fh & F & cell & E & Hrv & Hg)|[-> Hm]]; [|right; by left]. rewrite E. cbn [mbind option_bind].
  assert (Hin : input_sizes nx ny nz coord zc act). { destruct Harr as [[La _] [Lz _]]. split; [lia|done| |done]. rewrite Lz. clear. lia. }
  assert (Hnum : (Z.of_nat (u_num u) ≤ int_max)%Z) by lia.
  destruct (C60_faces nx ny nz coord zc act tol Hin u P zp HP Hnum Hzp Hx Hy s rv Fs0 Fs1 Is0 Is1 Fh F cell out Hg) as (L1 & L2 & L3 & HR & nodes & HN & HNF).
  set (tag := tag_number <$> g_tag (o_g out)). assert (L2' : g_nf (o_g out) ≤ length tag) by (unfold tag; by rewrite fmap_length).
  destruct (C60_topology (g_nbr (o_g out)) tag (o_cells out) (g_nf (o_g out)) L1 L2' HR junkn o1) as (r & o2 & -> & Hnone & Ho2 & Hsome). cbn [mbind option_bind].
  destruct r as [[[pos faces] tags]|]; [|left; eexists; split; [done|by apply G1, Hnone]]. destruct (Hsome pos faces tags eq_refl) as (Hok & Hlt & Hso & Htg). clear Hsome Hnone.
  destruct (allocate_geometry o2) as [ok o3] eqn:Ea.
  destruct ok; [|left; eexists; split; [done|]; apply G1, Ho2; by eapply allocate_in]. right. right.
  exists rv, out, Fs0, Fs1, Is0, Is1, Fh, F, cell. split; [done|]. split; [done|]. split; [done|]. fold (to_grid out pos faces) in Hok.
  match type of Hok with grid_ok _ ?c => set (cf := c) in * end. exists pos, faces, tags, cf, nodes. cbv zeta.
  assert (Hcor : ∀ f, f < u_nf (to_grid out pos faces) → corners (g_ptr (o_g out)) (Z.to_nat <$> g_nodes (o_g out)) f (nodes f)) by (intros f Hf; by apply HN).
  assert (Hpt : ∀ f n, f < u_nf (to_grid out pos faces) → n ∈ nodes f → at3 (o_coords out) n (node_at (o_coords out) n)).
  { intros f n Hf Hn. eapply node_at3; [exact L3|]. destruct (HN f Hf) as (_ & _ & HF'). rewrite Forall_forall in HF'. by apply HF'. }
  split; [exact Hok|]. split; [exact Hso|]. split; [|split; [|split; [exact HNF|]]].
  - intros c b e i f t Hb He Hi Hf Ht. rewrite (Htg c b e i f (tag_number t) Hb He Hi Hf) by (unfold tag; by rewrite list_lookup_fmap, Ht). f_equal. assert (match t with LEFT => 0 | BACK => 2 | TOP => 4 end = 2 * tag_number t) as -> by (by destruct t). unfold side. cbn [u_facecells to_grid].
    assert (f < g_nf (o_g out)) as Hfl. { destruct (lookup_lt_is_Some_2 cf c) as [row Hrow]; [apply lookup_lt_Some in He; pose proof (proj1 (ok_rows _ _ Hok)) as HL; change (u_facepos (to_grid out pos faces)) with pos in HL; lia|].
      apply (row_lt _ _ Hok c row f Hrow). destruct (proj2 (proj2 (proj2 (ok_rows _ _ Hok))) c row Hrow) as (b' & e' & Hb' & He' & Hle & Hs). cbn in Hb', He', Hs. rewrite Hb in Hb'. rewrite He in He'. injection Hb' as <-. injection He' as <-.
      apply (elem_of_list_lookup_2 _ (i - b)). rewrite <- (slice_lookup _ _ _ _ (i - b) Hs) by lia. by replace (b + (i - b)) with i by lia. }
    rewrite lookup_take by lia. case_decide as Hd; [rewrite bool_decide_true by done; done|]. rewrite bool_decide_false by done. lia.
  - intros f Hf. split; [by apply Hcor|]. intros n Hn. split; [|by eapply Hpt]. destruct (HN f Hf) as (_ & _ & HF'). rewrite Forall_forall in HF'. by apply HF'.
  - intros [S1 S2]. set (g := to_grid out pos faces) in *. set (pt := node_at (o_coords out)) in *.
    destruct (C59_geometry (o_coords out) (g_ptr (o_g out)) (Z.to_nat <$> g_nodes (o_g out)) g cf Hok nodes pt Hcor Hpt (λ f Hf, proj1 (S1 f Hf)) (λ f Hf, proj2 (S1 f Hf)) (λ c row Hr, proj1 (S2 c row Hr)) (λ c row Hr, proj2 (S2 c row Hr))
      (replicate (3 * g_nf (o_g out)) junkr) (replicate (3 * g_nf (o_g out)) junkr) (replicate (g_nf (o_g out)) junkr) (replicate (3 * o_cells out) junkr) (replicate (o_cells out) junkr))
      as (N & C & A & cc & cv & EG & EF & _ & _ & HV); [apply replicate_length..|]. rewrite EG. cbn [mbind option_bind].
    exists N, C, A, cc, cv, o3. split; [done|]. split; [|exact HV]. intros f Hf.
    destruct (C58_faces (o_coords out) (g_ptr (o_g out)) (Z.to_nat <$> g_nodes (o_g out)) (u_nf g) (λ f, map pt (nodes f)) ltac:(intros; by eapply poly_ok) (λ f Hf, proj1 (S1 f Hf)) (replicate (3 * g_nf (o_g out)) junkr) (replicate (3 * g_nf (o_g out)) junkr) (replicate (g_nf (o_g out)) junkr)) as (N' & C' & A' & EF' & _ & _ & _ & HF'); [apply replicate_length..|].
    rewrite EF in EF'. injection EF' as <- <- <-. destruct (HF' f Hf) as (? & ? & _). done.
Qed.
Print Assumptions C60_create.
