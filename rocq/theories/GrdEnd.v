(** C54: process_grdecl from end to end. *)
From Coq Require Import Reals Lra Psatz.
From Verif Require Import Base LoopModel LoopProof TableModel UniqModel UniqSpec UniqProps PillarModel PrepModel HorizSpec HorizProps VertModel VertSpec VertGeom VertSlots VertLoop VertProc VertLink VertProps GrdModel GrdSpec GrdProps GrdNodes.
Unset Default Proof Using.

(** ** The array of crossings while horizontal faces are added *)
Lemma for_loop_keeps {S} (P : S → Prop) n lo (f : nat → S → option S) s s' : (∀ i s s', P s → f i s = Some s' → P s') → P s → for_loop n lo f s = Some s' → P s'.
Proof.
  intros Hf. revert lo s. induction n as [|n IH]; intros lo s Hs E; cbn [for_loop] in E; [by simplify_eq|].
  destruct (f lo s) as [s1|] eqn:E1; [|done]. cbn [mbind option_bind] in E. eapply IH; [|exact E]. by eapply Hf.
Qed.
Definition its_kept (l : list Z) (g : pgrid) : Prop := length (g_its g) ≤ 4 * g_m g ∧ ∃ r, g_its g = l ++ r.
Lemma put_face_kept l g f c a b ns g' : its_kept l g → put_face g f c a b ns = Some g' → its_kept l g'.
Proof. intros H E. unfold put_face in E. destruct (memcpy (g_nbr g) c [a; b]); [|done]. destruct (memcpy (g_nodes g) f ns); [|done]. destruct (upd (g_ptr g) (g_nf g + 1) (f + length ns)); [|done]. cbn [mbind option_bind] in E. simplify_eq. exact H. Qed.
Lemma put_tag_kept l g k t g' : its_kept l g → put_tag g k t = Some g' → its_kept l g'.
Proof. intros H E. unfold put_tag in E. destruct (upd (g_tag g) k t); [|done]. cbn [mbind option_bind] in E. simplify_eq. exact H. Qed.
Lemma checkmemory_kept l junk nz g g' : its_kept l g → checkmemory junk nz g = Some g' → its_kept l g'.
Proof.
  intros [H1 [r H2]] E. unfold checkmemory in E. destruct (g_ptr g !! g_nf g) as [p|]; [|done]. cbn [mbind option_bind] in E. simplify_eq.
  set (m := grow (g_m g) _ _). set (n := grow (g_n g) _ _).
  assert (Hk : its_kept l (if decide (m = g_m g) then g else PGrid m (g_n g) (realloc_arr junk (2 * m) (g_nbr g)) (g_nodes g) (realloc_arr 0 (m + 1) (g_ptr g)) (realloc_arr LEFT m (g_tag g))
      (g_nf g) (realloc_arr junk (4 * m) (g_its g)) (g_nn g) (g_np g))).
  { destruct (decide (m = g_m g)) as [|Hm]; [split; [done|by exists r]|]. split; cbn [g_its g_m]; [by rewrite realloc_arr_length|].
    assert (g_m g ≤ m). { clear. unfold m, grow. destruct (decide _); lia. }
    unfold realloc_arr. rewrite take_ge by lia. rewrite H2, <- app_assoc. by eexists. }
  match goal with |- its_kept l (if decide (n = g_n ?G) then _ else _) => revert Hk; generalize G end. intros G Hk. destruct (decide (n = g_n G)); [exact Hk|]. destruct Hk as [K1 K2]. split; [exact K1|exact K2].
Qed.
Lemma horizontal_kept l junk nx ny nz plist g cell g' cell' n : its_kept l g → process_horizontal_faces junk nx ny nz plist g cell = Some (g', cell', n) → its_kept l g'.
Proof.
  intros H E. unfold process_horizontal_faces in E.
  apply (for_loop_keeps (λ s : pgrid * list Z * nat, its_kept l s.1.1)) in E; [exact E| |exact H]. clear. intros j s s' H E.
  refine (for_loop_keeps (λ s : pgrid * list Z * nat, its_kept l s.1.1) _ _ _ _ _ _ H E). clear. intros i [[g cell] no] s' H E. cbn [fst] in H.
  unfold horizontal_column in E. destruct (checkmemory junk nz g) as [g1|] eqn:E1; [|done]. cbn [mbind option_bind] in E. destruct (g_ptr g1 !! g_nf g1) as [f|]; [|done]. cbn [mbind option_bind] in E.
  match type of E with context [for_loop ?a ?b ?c ?d] => destruct (for_loop a b c d) as [s1|] eqn:E2 end; [|done]. cbn [mbind option_bind] in E. simplify_eq. cbn [fst].
  apply (for_loop_keeps (λ s, its_kept l (h_g s))) in E2; [exact E2| |cbn [h_g]; by eapply checkmemory_kept]. clear. intros k s s' H E. unfold horizontal_step in E.
  destruct (level plist _ k) as [q|]; [|done]. cbn [mbind option_bind] in E. destruct (level plist _ (k + 1)) as [q'|]; [|done]. cbn [mbind option_bind] in E.
  case_decide; [case_decide; [|by simplify_eq]|case_decide; [|case_decide; [by simplify_eq|]]].
  - destruct (linearindex _ _ _ _ _ _); [|done]. cbn [mbind option_bind] in E. destruct (upd _ _ _); [|done]. cbn [mbind option_bind] in E. by simplify_eq.
  - destruct (linearindex _ _ _ _ _ _) as [idx|]; [|done]. cbn [mbind option_bind] in E. destruct (put_tag _ _ _) as [g1|] eqn:E1; [|done]. cbn [mbind option_bind] in E.
    destruct (put_face _ _ _ _ _ _) as [g2|] eqn:E2; [|done]. cbn [mbind option_bind] in E. destruct (upd _ _ _); [|done]. cbn [mbind option_bind] in E. simplify_eq. cbn [h_g]. eapply put_face_kept; [|exact E2]. by eapply put_tag_kept.
  - destruct (put_tag _ _ _) as [g1|] eqn:E1; [|done]. cbn [mbind option_bind] in E.
    destruct (put_face _ _ _ _ _ _) as [g2|] eqn:E2; [|done]. cbn [mbind option_bind] in E. simplify_eq. cbn [h_g]. eapply put_face_kept; [|exact E2]. by eapply put_tag_kept.
Qed.

(** ** Faces have nodes *)
Lemma hull_nil z1 z2 t z : ¬ hull z1 z2 [] t z.
Proof. intros H. induction H as [v t z Hv _| ]; [by apply elem_of_nil in Hv|done]. Qed.
Lemma vertical_nodes nx ny nz plist zp dir c0 Fs Is np x : dir < 2 → 0 < nx → 0 < ny → all_planes nx ny nz plist zp dir c0 Fs Is np → x ∈ concat Fs → fc_nodes x ≠ [].
Proof.
  intros Hd Hx Hy (L1 & L2 & HP) Hin. apply elem_of_list_In, in_concat in Hin as (F & G1 & G2). apply elem_of_list_In, elem_of_list_lookup in G1 as [q Hq]. apply elem_of_list_In in G2. set (W := nx + (1 - dir)) in *.
  assert (Hq' : q < W * (ny + dir)) by (rewrite <- L1; by eapply lookup_lt_Some). pose proof (Nat.div_mod q W ltac:(lia)) as Ed. pose proof (Nat.mod_upper_bound q W ltac:(lia)) as Em.
  assert (Hj' : q / W < ny + dir) by (apply Nat.div_lt_upper_bound; lia). destruct (lookup_lt_is_Some_2 Is q) as [I' HI']; [lia|]. rewrite Nat.add_comm in Ed. rewrite Ed in Hq, HI'.
  destruct (HP _ _ F I' Em Hj' Hq HI') as (K & [R1 R2 R3 R4 R5]). apply elem_of_list_lookup in G2 as [m Hm]. destruct (Forall2_lookup_r _ _ _ _ _ R3 Hm) as ([i j] & HK & _ & _ & vs & Hpo & Hvs).
  destruct (proj1 (R1 i j)) as (_ & _ & _ & t & z & ? & ? & ? & ? & ?); [by eapply elem_of_list_lookup_2|].
  assert (Hh : hull (zp (pillar1 nx dir (q mod W) (q / W))) (zp (pillar2 nx dir (q mod W) (q / W))) vs t z). { apply (po_hull _ _ _ _ _ _ Hpo). unfold common. repeat split; lra. }
  destruct vs as [|v vs]; [by apply hull_nil in Hh|]. intros E. rewrite E in Hvs. inversion Hvs.
Qed.
Lemma horizontal_nodes nx ny nz plist F x : right_horizontal nx ny nz plist F → x ∈ F → fc_nodes x ≠ [].
Proof.
  intros HR Hx. assert (HQ : ∀ i j k, quad nx nz plist i j k (fc_nodes x) → fc_nodes x ≠ []) by (intros i j k (? & ? & ? & ? & _ & _ & _ & _ & ->); done).
  destruct (rh_some _ _ _ _ _ HR x Hx) as [Ha|Hb].
  - destruct (rh_above _ _ _ _ _ HR x Hx) as [?|(i & j & k & Hl & E)]; [done|]. destruct (rh_bottom _ _ _ _ _ HR i j k Hl) as (y & Ey & Hq).
    assert (x ∈ filter (λ y, fc_a y = cid nx ny i j k) F) as Hf by (by apply elem_of_list_filter). rewrite Ey in Hf. apply elem_of_list_singleton in Hf as ->. by eapply HQ.
  - destruct (rh_below _ _ _ _ _ HR x Hx) as [?|(i & j & k & Hl & E)]; [done|]. destruct (rh_top _ _ _ _ _ HR i j k Hl) as (y & Ey & Hq).
    assert (x ∈ filter (λ y, fc_b y = cid nx ny i j k) F) as Hf by (by apply elem_of_list_filter). rewrite Ey in Hf. apply elem_of_list_singleton in Hf as ->. by eapply HQ.
Qed.

(** ** Reflections *)
Lemma zip_alter (g : R → R → R) (f : R → R) d p q : (∀ x y, g (f x) (f y) = f (g x y)) → zip_with g (alter f d p) (alter f d q) = alter f d (zip_with g p q).
Proof. intros Hg. revert d q. induction p as [|x p IH]; intros d q; [by destruct d|]. destruct q as [|y q]; [by destruct d|]. destruct d as [|d]; cbn; [by rewrite Hg|]. f_equal. apply IH. Qed.
Lemma alter_twice {A} (f : A → A) (d : nat) (l : list A) : (∀ x, f (f x) = x) → alter f d (alter f d l) = l.
Proof. intros Hf. revert d. induction l as [|x l IH]; intros d; [done|]. destruct d as [|d]; cbn; [by rewrite Hf|]. f_equal. apply IH. Qed.
Lemma crosses_reflect d (f : R → R) A B C D x : (∀ a u v : R, ((1 - a) * f u + a * f v = f ((1 - a) * u + a * v))%R) → crosses A B C D x → crosses (alter f d A) (alter f d B) (alter f d C) (alter f d D) (alter f d x).
Proof.
  intros Hf (a & b & c & Ha & E & E1 & E2 & E3 & E4). assert (HB : ∀ a p q, between a (alter f d p) (alter f d q) = alter f d (between a p q)) by (intros; apply zip_alter; intros; apply Hf).
  exists a, b, c. rewrite !HB. split; [done|]. split; [by rewrite <- E|].
  assert (HL : ∀ p q : list R, p !! 2 = q !! 2 → alter f d p !! 2 = alter f d q !! 2). { intros p q Hpq. destruct (decide (d = 2)) as [->|]; [by rewrite !list_lookup_alter, Hpq|by rewrite !list_lookup_alter_ne]. }
  repeat split; by apply HL.
Qed.
Lemma reflect_ok (b : bool) d n f coords : d < 3 → 3 * n ≤ length coords → ∃ coords', (if b then each_coord d n f coords else Some coords) = Some coords' ∧ length coords' = length coords ∧
  ∀ v p, v < n → slice coords (3 * v) 3 = Some p → slice coords' (3 * v) 3 = Some (if b then alter f d p else p).
Proof.
  intros Hd Hl. destruct b; [|by exists coords]. destruct (C54_each d n f coords Hd Hl) as (c' & E & L & H1 & H2). exists c'. split; [done|]. split; [done|]. intros v p Hv Hp.
  apply slice_pointwise; [by rewrite alter_length, (slice_length _ _ _ _ Hp)|]. intros i Hi. pose proof (slice_lookup _ _ _ _ i Hp Hi) as Hpi. destruct (decide (i = d)) as [->|].
  - rewrite list_lookup_alter, <- Hpi. destruct (lookup_lt_is_Some_2 coords (3 * v + d)) as [y Hy]; [lia|]. rewrite Hy. by apply H1.
  - rewrite list_lookup_alter_ne by done. rewrite <- Hpi. apply H2; [done|by right].
Qed.

(** ** Points *)
Lemma concat_locate {A} (P : list (list A)) p : p < length (concat P) → ∃ q L n z, P !! q = Some L ∧ L !! n = Some z ∧ p = length (concat (take q P)) + n.
Proof.
  revert p. induction P as [|L P IH]; intros p Hp; [cbn in Hp; lia|]. cbn [concat] in Hp. rewrite app_length in Hp. destruct (decide (p < length L)) as [Hl|Hl].
  - destruct (lookup_lt_is_Some_2 L p Hl) as [z Hz]. by exists 0, L, p, z.
  - destruct (IH (p - length L)) as (q & M & n & z & H1 & H2 & H3); [lia|]. exists (S q), M, n, z. split; [done|]. split; [done|]. cbn [take concat]. rewrite app_length. lia.
Qed.

(** ** What process_grdecl makes *)
(** The input of the phases: ACTNUM, and ZCORN times [s], column by column. *)
Definition arranged (nx ny nz : nat) (actnum : option (list Z)) (zcorn : list R) (s : Z) (act : list Z) (zc : list R) : Prop :=
  by_columns nx ny nz (default (replicate (nx * ny * nz) 1%Z) actnum) act ∧
  by_columns (2 * nx) (2 * ny) (2 * nz) (map (Rmult (IZR s)) zcorn) zc.
(** [zp q p] is the depth of point [p] of pillar [q]. *)
Definition depths_of (P : list (list R)) (zp : nat → Z → R) : Prop :=
  (∀ q p p', (p < p')%Z → (zp q p < zp q p')%R) ∧
  ∀ q L m z, P !! q = Some L → L !! m = Some z → zp q (Z.of_nat (length (concat (take q P)) + m)) = z.
(** The output: [Fs0], [Fs1] and [Fh] are the faces of the three directions in
    terms of Cartesian cells, [F] in terms of the cells kept; [Is0] and [Is1]
    are the crossings; [rv] tells whether faces are reversed. *)
Record grid_of (nx ny nz : nat) (coord : list R) (u : upoints (V := R)) (P : list (list R)) (zp : nat → Z → R) (s : Z) (rv : bool)
    (Fs0 Fs1 : list (list face)) (Is0 Is1 : list (list (Z * Z * Z * Z))) (Fh F : list face) (cell : list Z) (out : processed) : Prop := {
  go_left : all_planes nx ny nz (u_plist u) zp 0 0 Fs0 Is0 (u_num u);
  go_back : all_planes nx ny nz (u_plist u) zp 1 (length (concat Is0)) Fs1 Is1 (u_num u);
  go_top : right_horizontal nx ny nz (u_plist u) Fh;
  go_cells : enumerated nx ny nz (u_plist u) cell (o_gci out) (o_cells out);
  go_local : Forall2 (relabelled (o_cells out) (o_gci out)) (concat Fs0 ++ concat Fs1 ++ Fh) F;
  go_faces : holds (o_g out) (if rv then reversed <$> F else F);
  go_tags : ∃ r, g_tag (o_g out) = replicate (length (concat Fs0)) LEFT ++ replicate (length (concat Fs1)) BACK ++ replicate (length Fh) TOP ++ r;
  go_nodes : g_nn (o_g out) = u_num u + length (concat Is0 ++ concat Is1) ∧ length (o_coords out) = 3 * g_nn (o_g out);
  go_points : ∀ q L n z, P !! q = Some L → L !! n = Some z → ∃ c x y, slice coord (6 * q) 6 = Some c ∧ interpolate_pillar c z = (x, y) ∧
    slice (o_coords out) (3 * (length (concat (take q P)) + n)) 3 = Some [x; y; if decide (s = (-1)%Z) then (- z)%R else z];
  go_crossings : ∀ m p1 p2 q1 q2, (concat Is0 ++ concat Is1) !! m = Some (p1, p2, q1, q2) → ∃ A B C D x,
    slice (o_coords out) (3 * Z.to_nat p1) 3 = Some A ∧ slice (o_coords out) (3 * Z.to_nat p2) 3 = Some B ∧
    slice (o_coords out) (3 * Z.to_nat q1) 3 = Some C ∧ slice (o_coords out) (3 * Z.to_nat q2) 3 = Some D ∧
    slice (o_coords out) (3 * (u_num u + m)) 3 = Some x ∧ crosses A B C D x }.
(** There are more crossings than the array has room for at first. *)
Definition many_crossings (nx ny nz : nat) (plist : list Z) (zp : nat → Z → R) : Prop :=
  ∃ Is0 Is1 : list (list (Z * Z * Z * Z)), length Is0 ≤ (nx + 1) * ny ∧ length Is1 ≤ nx * (ny + 1) ∧
    (∀ i j I, i < nx + 1 → j < ny → Is0 !! (i + (nx + 1) * j) = Some I → crossings_of nx ny nz plist zp 0 i j I) ∧
    (∀ i j I, i < nx → j < ny + 1 → Is1 !! (i + nx * j) = Some I → crossings_of nx ny nz plist zp 1 i j I) ∧
    16 < length (concat Is0 ++ concat Is1).

(** ** Crossings are between points of the pillars *)
Section points.
Variables (nx ny nz : nat) (coord zc : list R) (act : list Z) (tol : R) (interp : list R → R → R * R).
Hypothesis Hin : input_sizes nx ny nz coord zc act.
Variables (u : upoints (V := R)) (P : list (list R)) (zp : nat → Z → R).
Hypothesis HP : right_numbering Rlt (λ z, (z + tol)%R) interp nx ny nz coord zc act P u.
Hypothesis Hnum : (Z.of_nat (u_num u) ≤ int_max)%Z.
Hypothesis Hzp : depths_of P zp.
Hypothesis Hx : 0 < nx.
Hypothesis Hy : 0 < ny.
Notation lv i j := (lev nx nz (u_plist u) i j).

(** A point of pillar [q]. *)
Definition is_point (q : nat) (p : Z) : Prop := ∃ L m z, P !! q = Some L ∧ L !! m = Some z ∧ p = Z.of_nat (length (concat (take q P)) + m).
Lemma lev_point i j k : i < 2 * nx → j < 2 * ny → k ≤ 2 * nz → lv i j k = int_min ∨ is_point (pillar nx i j) (lv i j k).
Proof using Hin HP.
  clear Hnum Hzp Hx Hy. intros Hi Hj. induction k as [|k IH]; intros Hk. { left. by eapply lev_first. }
  assert (Hc : corner nx ny nz i j k) by (split_and!; [done|done|lia]). rewrite <- Nat.add_1_r. destruct (active_dec nx ny nz coord zc act Hin i j k Hc) as [Ha|Ha].
  - right. destruct (depth_some nx ny nz coord zc act Hin i j k Hc) as [z Hz].
    destruct (rn_active _ _ _ _ _ _ _ _ _ _ _ HP i j k z Hc Ha Hz) as (L & v & n & HL & Hv & -> & (k' & z' & _ & _ & _ & ((y & Hy' & _) & _)) & _). erewrite lev_number by exact Hv. by exists L, n, y.
  - destruct (rn_inactive _ _ _ _ _ _ _ _ _ _ _ HP i j k Hc Ha) as (v & Hv & Hv'). assert (E : lv i j (k + 1) = lv i j k) by (erewrite lev_number by exact Hv; unfold lev; by rewrite Hv'). rewrite E. apply IH. lia.
Qed.
Lemma lev_point' i j k : i < 2 * nx → j < 2 * ny → k < 2 * nz + 2 → lv i j k = int_min ∨ lv i j k = int_max ∨ is_point (pillar nx i j) (lv i j k).
Proof using Hin HP.
  clear Hnum Hzp Hx Hy. intros Hi Hj Hk. destruct (decide (k ≤ 2 * nz)) as [H|H]; [destruct (lev_point i j k Hi Hj H); auto|]. right. left. replace k with (2 * nz + 1) by lia. by eapply lev_last.
Qed.
Lemma zp_le q p p' : (p ≤ p')%Z → (zp q p <= zp q p')%R.
Proof using Hzp. clear Hin HP Hnum Hx Hy. intros H. destruct (decide (p = p')) as [->|]; [lra|]. apply Rlt_le, (proj1 Hzp). lia. Qed.
(** The four points of a crossing. *)
Lemma crossing_points dir i j I p1 p2 q1 q2 : dir < 2 → i < nx + (1 - dir) → j < ny + dir → crossings_of nx ny nz (u_plist u) zp dir i j I → (p1, p2, q1, q2) ∈ I →
  is_point (pillar1 nx dir i j) p1 ∧ is_point (pillar2 nx dir i j) p2 ∧ is_point (pillar1 nx dir i j) q1 ∧ is_point (pillar2 nx dir i j) q2 ∧
  crossing (zp (pillar1 nx dir i j)) (zp (pillar2 nx dir i j)) p1 p2 q1 q2.
Proof using Hin HP Hnum Hzp Hx Hy.
  intros Hd Hi Hj [_ HI] Hel. destruct (HI _ _ _ _ Hel) as (k & l & Hk & Hl & -> & -> & -> & -> & Hc).
  destruct (meeting_ok nx ny nz (u_plist u) dir (C39_levels _ _ _ _ _ _ _ _ _ _ _ Hin HP Hnum) Hd Hx Hy i j Hi Hj) as [HA HB].
  set (M := meeting nx ny nz (u_plist u) dir i j) in *.
  pose proof (min_le (2 * nz + 2) _ _ k HA Hk) as [a1 a2]. pose proof (max_ge (2 * nz + 2) _ _ k HA Hk) as [a3 a4]. pose proof (min_le (2 * nz + 2) _ _ l HB Hl) as [b1 b2]. pose proof (max_ge (2 * nz + 2) _ _ l HB Hl) as [b3 b4].
  assert (Hopp : ((A1 M k < B1 M l ∧ B2 M l < A2 M k) ∨ (B1 M l < A1 M k ∧ A2 M k < B2 M l))%Z).
  { unfold crossing in Hc. destruct (Z.lt_trichotomy (A1 M k) (B1 M l)) as [H1|[H1|H1]].
    - destruct (Z.lt_ge_cases (B2 M l) (A2 M k)) as [H2|H2]; [by left|]. exfalso. pose proof (proj1 Hzp (pillar1 nx dir i j) _ _ H1). pose proof (zp_le (pillar2 nx dir i j) _ _ H2). nra.
    - exfalso. rewrite H1 in Hc. rewrite Rminus_diag_eq in Hc by done. lra.
    - destruct (Z.lt_ge_cases (A2 M k) (B2 M l)) as [H2|H2]; [by right|]. exfalso. pose proof (proj1 Hzp (pillar1 nx dir i j) _ _ H1). pose proof (zp_le (pillar2 nx dir i j) _ _ H2). nra. }
  assert (Hmm : ∀ (D1 D2 : nat → Z) k, column_ok (2 * nz + 2) D1 D2 → k < 2 * nz + 2 → (D1 k = int_min ↔ D2 k = int_min) ∧ (D1 k = int_max ↔ D2 k = int_max)).
  { clear. intros D1 D2 k HD Hk. split; [by apply (co_both _ _ _ HD)|]. destruct (decide (k = 2 * nz + 2 - 1)) as [->|]; [destruct (co_last _ _ _ HD) as [-> ->]; done|]. destruct (co_below _ _ _ HD k ltac:(lia)). lia. }
  destruct (Hmm _ _ k HA Hk) as [A3 A4], (Hmm _ _ l HB Hl) as [B3 B4].
  pose proof (C39_pillars nx ny dir i j Hx Hy Hd Hi Hj) as HQ.
  assert (HPT : (A1 M k = int_min ∨ A1 M k = int_max ∨ is_point (pillar1 nx dir i j) (A1 M k)) ∧ (A2 M k = int_min ∨ A2 M k = int_max ∨ is_point (pillar2 nx dir i j) (A2 M k)) ∧
    (B1 M l = int_min ∨ B1 M l = int_max ∨ is_point (pillar1 nx dir i j) (B1 M l)) ∧ (B2 M l = int_min ∨ B2 M l = int_max ∨ is_point (pillar2 nx dir i j) (B2 M l))).
  { clear - Hi Hj Hk Hl Hd Hin HP HQ Hx Hy. subst M. unfold meeting in *. destruct (decide (dir = 0)) as [->|]; cbn [A1 A2 B1 B2 fst snd] in *; destruct HQ as (<- & E2 & <- & E4).
    - rewrite <- E2 at 2. rewrite <- E4 at 2. split_and!; apply lev_point'; lia.
    - rewrite <- E2 at 2. rewrite <- E4 at 2. split_and!; apply lev_point'; lia. }
  clear - a1 a2 a3 a4 b1 b2 b3 b4 Hopp A3 A4 B3 B4 HPT Hc. destruct HPT as (H1 & H2 & H3 & H4).
  split_and!; [destruct H1 as [H|[H|H]]|destruct H2 as [H|[H|H]]|destruct H3 as [H|[H|H]]|destruct H4 as [H|[H|H]]|exact Hc]; try exact H; exfalso.
  - pose proof (proj1 A3 H). lia.
  - pose proof (proj1 A4 H). lia.
  - pose proof (proj2 A3 H). lia.
  - pose proof (proj2 A4 H). lia.
  - pose proof (proj1 B3 H). lia.
  - pose proof (proj1 B4 H). lia.
  - pose proof (proj2 B3 H). lia.
  - pose proof (proj2 B4 H). lia.
Qed.
(** The node of a point has its depth. *)
Lemma point_node q p : is_point q p → (0 ≤ p < Z.of_nat (u_num u))%Z ∧ ∃ A, slice (u_nodes u) (3 * Z.to_nat p) 3 = Some A ∧ A !! 2 = Some (zp q p).
Proof using HP Hzp.
  clear Hin Hnum Hx Hy. intros (L & m & z & HL & Hm & ->). split.
  - rewrite (rn_num _ _ _ _ _ _ _ _ _ _ _ HP). assert (length (concat (take q P)) + m < length (concat P)). { rewrite <- (take_drop_middle P _ L HL) at 2. rewrite concat_app, app_length. cbn [concat]. rewrite app_length. apply lookup_lt_Some in Hm. lia. } lia.
  - destruct (rn_nodes _ _ _ _ _ _ _ _ _ _ _ HP q L m z HL Hm) as (c & x & y & _ & _ & HS). rewrite Nat2Z.id. exists [x; y; z]. split; [exact HS|]. by rewrite (proj2 Hzp q L m z HL Hm).
Qed.
End points.

(** ** All phases *)
Lemma num_bound nx ny nz coord zc act tol interp P (u : upoints (V := R)) :
  right_numbering Rlt (λ z, (z + tol)%R) interp nx ny nz coord zc act P u → length (u_nodes u) = 24 * (nx * ny * nz) → 3 * u_num u ≤ 24 * (nx * ny * nz).
Proof.
  intros HP HL. destruct (decide (u_num u = 0)) as [->|Hn]; [lia|]. rewrite (rn_num _ _ _ _ _ _ _ _ _ _ _ HP) in *.
  destruct (concat_locate P (length (concat P) - 1)) as (q & L & n & z & H1 & H2 & H3); [lia|].
  destruct (rn_nodes _ _ _ _ _ _ _ _ _ _ _ HP q L n z H1 H2) as (c & x & y & _ & _ & HS). pose proof (slice_lookup _ _ _ _ 2 HS ltac:(lia)) as Hl. cbn in Hl. apply lookup_lt_Some in Hl. lia.
Qed.
Lemma work_ok n junk : for_loop n 0 (λ i work, upd work i (-1)%Z) (replicate n junk) = Some (replicate n (-1)%Z).
Proof.
  destruct (for_loop_inv (λ k w, w = replicate k (-1)%Z ++ replicate (n - k) junk) n 0 (λ i work, upd work i (-1)%Z) (replicate n junk)) as (w & E & Hw).
  - by rewrite Nat.sub_0_r.
  - intros i w Hi ->. rewrite upd_Some by (rewrite app_length, !replicate_length; lia). eexists. split; [done|].
    replace i with (length (replicate i (-1)%Z) + 0) at 1 by (rewrite replicate_length; lia). rewrite insert_app_r. replace (n - i) with (S (n - (i + 1))) by lia. cbn [replicate insert list_insert].
    rewrite Nat.add_1_r. rewrite (replicate_S_end i), <- app_assoc. done.
  - rewrite E, Hw, Nat.add_0_l, Nat.sub_diag. cbn. by rewrite app_nil_r.
Qed.
Lemma plane_of {A} (W H : nat) (Is : list (list A)) I x : 0 < W → length Is = W * H → x ∈ concat Is → I = concat Is → ∃ i j J, i < W ∧ j < H ∧ Is !! (i + W * j) = Some J ∧ x ∈ J.
Proof.
  intros HW HL Hx _. apply elem_of_list_In, in_concat in Hx as (J & H1 & H2). apply elem_of_list_In, elem_of_list_lookup in H1 as [q Hq]. apply elem_of_list_In in H2.
  assert (Hq' : q < W * H) by (rewrite <- HL; by eapply lookup_lt_Some). pose proof (Nat.div_mod q W ltac:(lia)) as Ed. pose proof (Nat.mod_upper_bound q W ltac:(lia)) as Em.
  exists (q mod W), (q / W), J. split; [done|]. split; [apply Nat.div_lt_upper_bound; lia|]. split; [|done]. rewrite <- Hq. f_equal. lia.
Qed.

Section whole.
Variables (qsort : list R → list R) (junk : Z) (junkr : R) (nx ny nz : nat) (coord zcorn : list R) (actnum : option (list Z)) (tol : R).
Hypothesis Hx : 0 < nx.
Hypothesis Hy : 0 < ny.
Hypothesis Hcoord : length coord = 6 * ((nx + 1) * (ny + 1)).
Hypothesis Hzcorn : length zcorn = 8 * (nx * ny * nz).
Hypothesis Hact : ∀ a, actnum = Some a → nx * ny * nz ≤ length a.
Hypothesis Htol : (0 <= tol)%R.
Hypothesis Hsort : sorts Rlt qsort.
Hypothesis Hsmall : (Z.of_nat (8 * (nx * ny * nz)) ≤ int_max)%Z.

Lemma grid_core s e lh : get_zcorn_sign nx ny nz actnum zcorn = Some (s, e) → is_lefthanded nx ny nz actnum coord zcorn = Some lh →
  ∃ act zc u P zp, arranged nx ny nz actnum zcorn s act zc ∧ right_numbering Rlt (λ z, (z + tol)%R) interpolate_pillar nx ny nz coord zc act P u ∧ depths_of P zp ∧ u_num u ≤ 8 * (nx * ny * nz) ∧
    ((∃ out Fs0 Fs1 Is0 Is1 Fh F cell, process_grdecl qsort junk junkr nx ny nz coord zcorn actnum tol = Some out ∧
        grid_of nx ny nz coord u P zp s (xorb lh (bool_decide (s = (-1)%Z))) Fs0 Fs1 Is0 Is1 Fh F cell out) ∨
     (process_grdecl qsort junk junkr nx ny nz coord zcorn actnum tol = None ∧ many_crossings nx ny nz (u_plist u) zp)).
Proof using Hx Hy Hcoord Hzcorn Hact Htol Hsort Hsmall.
  intros Es Elh. unfold process_grdecl. set (nc := nx * ny * nz) in *.
  destruct (C51_actnum nx ny nz actnum (replicate nc junk)) as (act & -> & Hba); [by rewrite replicate_length|done|]. cbn [mbind option_bind]. rewrite Es. cbn [mbind option_bind].
  unfold copy_and_permute_zcorn. destruct (permute_ok (2 * nx) (2 * ny) (2 * nz) (map (Rmult (IZR s)) zcorn)) with (out := replicate (nc * 8) junkr) as (zc & -> & Hbz); [rewrite map_length; lia|rewrite replicate_length; unfold nc; lia|]. cbn [mbind option_bind].
  assert (Hin : input_sizes nx ny nz coord zc act). { split; [lia|done| |exact (proj1 Hba)]. rewrite (proj1 Hbz). clear. lia. }
  destruct (C37_numbering Rlt (λ z, (z + tol)%R) qsort interpolate_pillar (real_laws tol Htol) Hsort junkr nx ny nz coord zc act Hin (replicate (8 * (nc + nx * ny)) junk)) as (u & P & -> & _ & Hlp & Hln & HP); [by rewrite replicate_length|]. cbn [mbind option_bind].
  rewrite replicate_length in Hlp. fold nc in Hlp, Hln. rewrite Elh. cbn [mbind option_bind].
  destruct (C39_depths tol interpolate_pillar nx ny nz coord zc act u P Htol HP) as (zp & Hzp1 & Hzp2). assert (Hzp : depths_of P zp) by done.
  exists act, zc, u, P, zp. split; [done|]. split; [done|]. split; [done|].
  pose proof (num_bound _ _ _ _ _ _ _ _ _ _ HP Hln) as Hnb. fold nc in Hnb. split; [lia|].
  assert (Hnum : (Z.of_nat (u_num u) ≤ int_max)%Z) by lia.
  assert (Hok : columns_ok nx ny nz (u_plist u)) by (by eapply C39_levels). assert (Hpad : padded nx ny nz (u_plist u)) by (by eapply C38_padded).
  destruct (reflect_ok lh 1 (u_num u) Ropp (u_nodes u)) as (c1 & -> & Lc1 & Hc1); [lia|lia|]. cbn [mbind option_bind].
  unfold start_grid. rewrite upd_Some by (rewrite replicate_length; lia). cbn [mbind option_bind].
  set (g0 := PGrid 21 64 (replicate 64 junk) (replicate 64 junk) (<[0:=0]> (replicate 22 0)) (replicate 21 LEFT) 0 (replicate 64 junk) (u_num u) (u_num u)).
  replace (4 * (nz + 1)) with (2 * (2 * nz + 2)) by lia. rewrite work_ok. cbn [mbind option_bind].
  assert (Hg0 : holds g0 []). { split; unfold g0; cbn [g_nf g_nbr g_nodes g_ptr g_m g_n g_tag]; try (by eexists); try done; [intros k Hk; replace k with 0 by (cbn in Hk; lia); done|cbn; lia|cbn; lia]. }
  (* vertical faces *)
  destruct (C39_vertical nx ny nz (u_plist u) zp Hx Hy Hlp Hok Hzp1 junk 0 g0 [] [] [] (replicate 21 LEFT) (replicate 64 junk)) as [(g1 & Fs0 & Is0 & R0 & r0 & -> & HA0 & Hh0 & Ht0 & Hnp0 & Hnn0 & Hits0 & Hl0 & Hm0)|[-> (Is0 & HL0 & HC0 & Hov)]]; [lia|done|done|done|cbn; lia|done|cbn; lia| |].
  2:{ right. split; [done|]. exists Is0, []. split; [lia|]. split; [cbn; lia|]. split.
    { intros i j I Hi Hj. replace (nx + 1) with (nx + (1 - 0)) by lia. apply HC0; lia. }
    split; [intros i j I _ _ Hc; by rewrite lookup_nil in Hc|]. cbn [concat]. rewrite app_nil_r. cbn [app] in Hov. cbn [g_its g0] in Hov. rewrite replicate_length in Hov. lia. }
  cbn [mbind option_bind]. cbn [app] in Hh0, Hits0, Hnn0. rewrite app_nil_l in Ht0. change (if decide (0 = 0) then LEFT else BACK) with LEFT in Ht0. change (g_np g0) with (u_num u) in *.
  destruct (C39_vertical nx ny nz (u_plist u) zp Hx Hy Hlp Hok Hzp1 junk 1 g1 (concat Fs0) (replicate (length (concat Fs0)) LEFT) (concat Is0) R0 r0) as [(g2 & Fs1 & Is1 & R1 & r1 & -> & HA1 & Hh1 & Ht1 & Hnp1 & Hnn1 & Hits1 & Hl1 & Hm1)|[-> (Is1 & HL1 & HC1 & Hov)]];
    [lia|done|done|by rewrite replicate_length|by rewrite Hnp0|done|done| |].
  2:{ right. split; [done|]. exists Is0, Is1. destruct HA0 as (LF & LI & HA0). split; [lia|]. split; [lia|]. split.
    { intros i j I Hi Hj HI. replace (nx + 1) with (nx + (1 - 0)) in * by lia. destruct (lookup_lt_is_Some_2 Fs0 (i + (nx + (1 - 0)) * j)) as [F HF]; [apply lookup_lt_Some in HI; lia|].
      destruct (HA0 i j F I Hi ltac:(lia) HF HI) as (K & [_ _ _ C4 C5]). split; [done|]. intros ? ? ? ? Hin'. by apply C4. }
    split. { intros i j I Hi Hj HI. apply HC1; [lia|lia|]. by replace (nx + (1 - 1)) with nx by lia. }
    assert (64 ≤ length (g_its g1)) by (change (g_its g0) with (replicate 64 junk) in Hl0; rewrite replicate_length in Hl0; exact Hl0). lia. }
  cbn [mbind option_bind]. rewrite Hnp0 in Hnp1, Hnn1, HA1. change (if decide (1 = 0) then LEFT else BACK) with BACK in Ht1.
  (* horizontal faces *)
  destruct (C38_horizontal nx ny nz (u_plist u) Hpad junk g2 (concat Fs0 ++ concat Fs1) (replicate (length (concat Fs0)) LEFT ++ replicate (length (concat Fs1)) BACK) (replicate nc junk)) as (g3 & cell & n & Fh & E3 & Hh2 & [R2 Ht2] & Hnn2 & Hnp2 & HFh & Hcell);
    [done|exists R1; by rewrite Ht1, <- app_assoc|by rewrite !app_length, !replicate_length|by rewrite replicate_length|].
  rewrite E3. cbn [mbind option_bind].
  destruct (horizontal_kept (quads (concat Is0 ++ concat Is1)) _ _ _ _ _ _ _ _ _ _ (conj Hm1 (ex_intro _ _ Hits1)) E3) as [_ [r2 Hits2]].
  (* nodes at crossings *)
  set (I := concat Is0 ++ concat Is1) in *. rewrite Hits2, Hnn2, Hnp2, Hnn1, Hnp1.
  assert (Hcr : ∀ p1 p2 q1 q2, (p1, p2, q1, q2) ∈ I → ∃ a b, is_point P a p1 ∧ is_point P b p2 ∧ is_point P a q1 ∧ is_point P b q2 ∧ crossing (zp a) (zp b) p1 p2 q1 q2).
  { intros p1 p2 q1 q2 Hel. apply elem_of_app in Hel as [Hel|Hel].
    - destruct HA0 as (LF & LI & HA0). destruct (plane_of (nx + (1 - 0)) (ny + 0) Is0 _ _ ltac:(lia) LI Hel eq_refl) as (i & j & J & Hi & Hj & HJ & Hel').
      destruct (lookup_lt_is_Some_2 Fs0 (i + (nx + (1 - 0)) * j)) as [F HF]; [apply lookup_lt_Some in HJ; lia|]. destruct (HA0 i j F J Hi Hj HF HJ) as (K & [_ _ _ C4 C5]).
      eexists _, _. eapply (crossing_points nx ny nz coord zc act tol interpolate_pillar Hin u P zp HP Hnum Hzp Hx Hy 0 i j J); [lia|done|done| |done]. split; [done|]. intros ? ? ? ? Hin'. by apply C4.
    - destruct HA1 as (LF & LI & HA1). destruct (plane_of (nx + (1 - 1)) (ny + 1) Is1 _ _ ltac:(lia) LI Hel eq_refl) as (i & j & J & Hi & Hj & HJ & Hel').
      destruct (lookup_lt_is_Some_2 Fs1 (i + (nx + (1 - 1)) * j)) as [F HF]; [apply lookup_lt_Some in HJ; lia|]. destruct (HA1 i j F J Hi Hj HF HJ) as (K & [_ _ _ C4 C5]).
      eexists _, _. eapply (crossing_points nx ny nz coord zc act tol interpolate_pillar Hin u P zp HP Hnum Hzp Hx Hy 1 i j J); [lia|done|done| |done]. split; [done|]. intros ? ? ? ? Hin'. by apply C4. }
  assert (Hdep : ∀ q p, is_point P q p → (0 ≤ p < Z.of_nat (u_num u))%Z ∧ c1 !! (3 * Z.to_nat p + 2) = Some (zp q p)).
  { intros q p Hp. destruct (point_node nx ny nz coord zc act tol interpolate_pillar u P zp HP Hzp q p Hp) as (Hr & A & HS & HA2). split; [done|].
    pose proof (Hc1 (Z.to_nat p) A ltac:(lia) HS) as HS'. rewrite (slice_lookup _ _ _ _ 2 HS') by lia. destruct lh; [rewrite list_lookup_alter_ne by lia|]; done. }
  destruct (C53_nodes junkr (u_num u + length I) (u_num u) I r2 c1) as (c2 & -> & Lc2 & Hc2 & Hx2); [done|lia| |].
  { intros p1 p2 q1 q2 Hel. destruct (Hcr _ _ _ _ Hel) as (a & b & P1 & P2 & P3 & P4 & Hc). destruct (Hdep _ _ P1) as [G1 D1], (Hdep _ _ P2) as [G2 D2], (Hdep _ _ P3) as [G3 D3], (Hdep _ _ P4) as [G4 D4].
    split; [done|]. eexists _, _, _, _. split; [exact D1|]. split; [exact D2|]. split; [exact D3|]. split; [exact D4|]. exact Hc. }
  cbn [mbind option_bind].
  (* cells *)
  destruct (C38_renumber nx ny nz (u_plist u) Hpad cell (replicate nc junk) n Hcell) as (cell' & gci & Een & Hen); [by rewrite replicate_length|]. fold nc in Een. rewrite Een. cbn [mbind option_bind].
  destruct (C38_neighbours nx ny nz (u_plist u) cell' gci n g3 ((concat Fs0 ++ concat Fs1) ++ Fh) Hen Hh2) as (nbr & F & -> & HF & Hrel).
  { intros x Hin'. apply elem_of_app in Hin' as [Hin'|Hin']; [apply elem_of_app in Hin' as [Hin'|Hin']|].
    - by eapply (C39_live nx ny nz (u_plist u) zp 0); [| | | |exact HA0|]; [done|lia|done|done|].
    - by eapply (C39_live nx ny nz (u_plist u) zp 1); [| | | |exact HA1|]; [done|lia|done|done|].
    - split; [by apply (rh_above _ _ _ _ _ HFh)|by apply (rh_below _ _ _ _ _ HFh)]. }
  cbn [mbind option_bind].
  (* reflections *)
  destruct (reflect_ok lh 1 (u_num u + length I) Ropp c2) as (c3 & -> & Lc3 & Hc3); [lia|lia|]. cbn [mbind option_bind].
  assert (Hsg : ∃ c4, (if decide (s = (-1)%Z) then each_coord 2 (u_num u + length I) (λ x, (x * IZR s)%R) c3 else Some c3) = Some c4 ∧ length c4 = length c3 ∧
    ∀ v p, v < u_num u + length I → slice c3 (3 * v) 3 = Some p → slice c4 (3 * v) 3 = Some (if decide (s = (-1)%Z) then alter Ropp 2 p else p)).
  { destruct (decide (s = (-1)%Z)) as [->|]; [|by exists c3]. destruct (reflect_ok true 2 (u_num u + length I) (λ x, (x * -1)%R) c3) as (c4 & E4 & L4 & H4); [lia|lia|]. exists c4. split; [done|]. split; [done|]. intros v p Hv Hp. rewrite (H4 v p Hv Hp). f_equal. apply list_alter_ext; [intros; ring|done]. }
  destruct Hsg as (c4 & -> & Lc4 & Hc4). cbn [mbind option_bind].
  assert (Hne : ∀ x, x ∈ F → fc_nodes x ≠ []).
  { intros x Hel. apply elem_of_list_lookup in Hel as [m Hm]. destruct (Forall2_lookup_r _ _ _ _ _ Hrel Hm) as (x' & Hx' & _ & _ & <-). apply elem_of_list_lookup_2 in Hx'.
    apply elem_of_app in Hx' as [Hx'|Hx']; [apply elem_of_app in Hx' as [Hx'|Hx']|].
    - by eapply (vertical_nodes nx ny nz (u_plist u) zp 0); [| | |exact HA0|]; [lia|done|done|].
    - by eapply (vertical_nodes nx ny nz (u_plist u) zp 1); [| | |exact HA1|]; [lia|done|done|].
    - by eapply horizontal_nodes. }
  assert (Hrv : ∃ nodes, (if xorb lh (bool_decide (s = (-1)%Z)) then reverse_face_nodes (g_nf g3) (g_ptr g3) (g_nodes g3) else Some (g_nodes g3)) = Some nodes ∧
    holds (PGrid (g_m g3) (g_n g3) nbr nodes (g_ptr g3) (g_tag g3) (g_nf g3) (g_its g3) (g_nn g3) (g_np g3)) (if xorb lh (bool_decide (s = (-1)%Z)) then reversed <$> F else F)).
  { destruct (xorb lh (bool_decide (s = (-1)%Z))); [|by exists (g_nodes g3)]. destruct (C54_reverse _ F HF Hne) as (nodes & En & Hn). exists nodes. done. }
  destruct Hrv as (nodes & -> & Hrv). cbn [mbind option_bind]. rewrite Hits2, Hnn2, Hnp2, Hnn1, Hnp1 in Hrv.
  (* the nodes in the end *)
  assert (Hfin : ∀ v A, v < u_num u + length I → slice c2 (3 * v) 3 = Some (if lh then alter Ropp 1 A else A) → slice c4 (3 * v) 3 = Some (if decide (s = (-1)%Z) then alter Ropp 2 A else A)).
  { intros v A Hv HA. apply (Hc4 v _ Hv). rewrite (Hc3 v _ Hv HA). f_equal. destruct lh; [|done]. apply alter_twice. intros; ring. }
  assert (Hpt : ∀ v A, v < u_num u → slice (u_nodes u) (3 * v) 3 = Some A → slice c4 (3 * v) 3 = Some (if decide (s = (-1)%Z) then alter Ropp 2 A else A)).
  { intros v A Hv HA. apply Hfin; [lia|]. rewrite (Hc2 v Hv). by apply Hc1. }
  left. eexists _, Fs0, Fs1, Is0, Is1, Fh, F, cell'. split; [done|]. split; cbn [o_g o_coords o_cells o_gci g_tag g_nn].
  - exact HA0.
  - exact HA1.
  - exact HFh.
  - exact Hen.
  - by rewrite app_assoc.
  - exact Hrv.
  - exists R2. by rewrite Ht2, <- app_assoc.
  - split; [done|]. lia.
  - intros q L m z HL Hm. destruct (rn_nodes _ _ _ _ _ _ _ _ _ _ _ HP q L m z HL Hm) as (c & x & y & H1 & H2 & HS). exists c, x, y. split; [done|]. split; [done|].
    assert (Hlt : length (concat (take q P)) + m < u_num u). { rewrite (rn_num _ _ _ _ _ _ _ _ _ _ _ HP). rewrite <- (take_drop_middle P _ L HL) at 2. rewrite concat_app, app_length. cbn [concat]. rewrite app_length. apply lookup_lt_Some in Hm. lia. }
    rewrite (Hpt _ _ Hlt HS). f_equal. destruct (decide (s = (-1)%Z)); done.
  - intros m p1 p2 q1 q2 Hm. destruct (Hx2 m p1 p2 q1 q2 Hm) as (A & B & C & D & x & SA & SB & SC & SD & Sx & Hc).
    destruct (Hcr p1 p2 q1 q2) as (a & b & P1 & P2 & P3 & P4 & _); [by eapply elem_of_list_lookup_2|].
    assert (Hun : ∀ q p A, is_point P q p → slice c1 (3 * Z.to_nat p) 3 = Some A → slice c4 (3 * Z.to_nat p) 3 = Some (if decide (s = (-1)%Z) then alter Ropp 2 (if lh then alter Ropp 1 A else A) else (if lh then alter Ropp 1 A else A))).
    { clear - Hdep Hpt Hc1 Hfin Hc2. intros q p A Hp HA. destruct (Hdep q p Hp) as [Hr _]. apply Hfin; [lia|]. rewrite Hc2 by lia. rewrite HA. f_equal. destruct lh; [|done]. symmetry. apply alter_twice. intros; ring. }
    assert (Hmn : m < length I) by (by eapply lookup_lt_Some).
    eexists _, _, _, _, _. split; [by eapply Hun|]. split; [by eapply Hun|]. split; [by eapply Hun|]. split; [by eapply Hun|]. split.
    + apply (Hfin (u_num u + m) (if lh then alter Ropp 1 x else x)); [lia|]. rewrite Sx. f_equal. destruct lh; [|done]. symmetry. apply alter_twice. intros; ring.
    + assert (Hc' : crosses (if lh then alter Ropp 1 A else A) (if lh then alter Ropp 1 B else B) (if lh then alter Ropp 1 C else C) (if lh then alter Ropp 1 D else D) (if lh then alter Ropp 1 x else x)).
      { destruct lh; [|done]. apply crosses_reflect; [intros; ring|done]. }
      destruct (decide (s = (-1)%Z)); [|done]. apply crosses_reflect; [intros; ring|done].
Qed.
End whole.
