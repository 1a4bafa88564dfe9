(** C54: the theorems on process_grdecl, cases, and what it does to slanted
    pillars and to input without orientation. *)
From Coq Require Import Reals Lra Psatz.
From Verif Require Import Base LoopModel LoopProof TableModel UniqModel UniqSpec UniqProps PillarModel PrepModel HorizSpec HorizProps VertModel VertSpec VertGeom VertSlots VertLoop VertProc VertLink VertProps GrdModel GrdSpec GrdProps GrdNodes GrdEnd.
Unset Default Proof Using.

Section grid.
Variables (qsort : list R → list R) (junk : Z) (junkr : R) (nx ny nz : nat) (coord zcorn : list R) (actnum : option (list Z)) (tol : R).
Hypothesis Hx : 0 < nx.
Hypothesis Hy : 0 < ny.
Hypothesis Hcoord : length coord = 6 * ((nx + 1) * (ny + 1)).
Hypothesis Hzcorn : length zcorn = 8 * (nx * ny * nz).
Hypothesis Hact : ∀ a, actnum = Some a → length a = nx * ny * nz.
Hypothesis Htol : (0 <= tol)%R.
Hypothesis Hsort : sorts Rlt qsort.
Hypothesis Hsmall : (Z.of_nat (8 * (nx * ny * nz)) ≤ int_max)%Z.
Notation result := (process_grdecl qsort junk junkr nx ny nz coord zcorn actnum tol).
(** The input has an orientation: [s] is that of the depths, [d] that of the
    sides; and it has some volume. *)
Definition oriented (s : Z) (d : R) : Prop :=
  (s = 1%Z ∧ descending nx ny nz actnum zcorn 1 ∨ s = (-1)%Z ∧ ¬ descending nx ny nz actnum zcorn 1 ∧ descending nx ny nz actnum zcorn (-1)) ∧
  (∃ i j k a b z, i < nx ∧ j < ny ∧ k < nz ∧ in_use actnum (i + nx * (j + ny * k)) ∧ a < 2 ∧ b < 2 ∧ edge nx ny zcorn i j k a b z ∧ z ≠ 0%R) ∧
  turn nx ny coord d ∧ d ≠ 0%R.

(** C54: process_grdecl makes the grid, with the faces reversed exactly if the
    sides turn clockwise; it fails only if the array of crossings is exceeded. *)
Theorem C54_grid s d : oriented s d →
  ∃ act zc u P zp, arranged nx ny nz actnum zcorn s act zc ∧ right_numbering Rlt (λ z, (z + tol)%R) interpolate_pillar nx ny nz coord zc act P u ∧ depths_of P zp ∧ u_num u ≤ 8 * (nx * ny * nz) ∧
    ((∃ rv out Fs0 Fs1 Is0 Is1 Fh F cell, result = Some out ∧ (rv = true ↔ (d < 0)%R) ∧ grid_of nx ny nz coord u P zp s rv Fs0 Fs1 Is0 Is1 Fh F cell out) ∨
     (result = None ∧ many_crossings nx ny nz (u_plist u) zp)).
Proof using Hx Hy Hcoord Hzcorn Hact Htol Hsort Hsmall.
  intros (Hs & Hv & Ht & Hd). assert (Hle : ∀ a, actnum = Some a → nx * ny * nz ≤ length a) by (intros a Ea; by rewrite (Hact a Ea)).
  assert (Hs' : (s = 1%Z ∨ s = (-1)%Z) ∧ descending nx ny nz actnum zcorn (IZR s)) by (destruct Hs as [[-> ?]|[-> [? ?]]]; auto). destruct Hs' as [Hs1 Hs2].
  destruct (C54_handed nx ny nz actnum coord zcorn Hx Hy Hzcorn Hle s d Hcoord Hs1 Hs2 Hv Ht Hd) as (lh & Elh & Hlh).
  assert (Es : ∃ e, get_zcorn_sign nx ny nz actnum zcorn = Some (s, e)).
  { destruct (C52_sign nx ny nz actnum zcorn Hact Hzcorn) as (s' & e & E & HE). exists e. rewrite E. f_equal. f_equal. clear - Hs HE. destruct Hs as [[-> ?]|[-> [? ?]]]; naive_solver. }
  destruct Es as [e Es].
  destruct (grid_core qsort junk junkr nx ny nz coord zcorn actnum tol Hx Hy Hcoord Hzcorn Hle Htol Hsort Hsmall s e lh Es Elh) as (act & zc & u & P & zp & H1 & H2 & H3 & Hb & [(out & Fs0 & Fs1 & Is0 & Is1 & Fh & F & cell & E & Hg)|H4]).
  - exists act, zc, u, P, zp. split; [done|]. split; [done|]. split; [done|]. split; [done|]. left. by exists (xorb lh (bool_decide (s = (-1)%Z))), out, Fs0, Fs1, Is0, Is1, Fh, F, cell.
  - exists act, zc, u, P, zp. split; [done|]. split; [done|]. split; [done|]. split; [done|]. by right.
Qed.
End grid.
Print Assumptions C54_grid.

(** The nodes of the pillars are at depths of active corners of ZCORN. *)
Theorem C54_depths nx ny nz coord actnum zcorn s act zc tol u P zp rv Fs0 Fs1 Is0 Is1 Fh F cell out q L n z : s = 1%Z ∨ s = (-1)%Z → arranged nx ny nz actnum zcorn s act zc →
  right_numbering Rlt (λ z, (z + tol)%R) interpolate_pillar nx ny nz coord zc act P u → grid_of nx ny nz coord u P zp s rv Fs0 Fs1 Is0 Is1 Fh F cell out → P !! q = Some L → L !! n = Some z →
  ∃ x y w i j k, slice (o_coords out) (3 * (length (concat (take q P)) + n)) 3 = Some [x; y; w] ∧ i < 2 * nx ∧ j < 2 * ny ∧ k < 2 * nz ∧ pillar nx i j = q ∧
    zcorn !! (i + 2 * nx * (j + 2 * ny * k)) = Some w ∧ in_use actnum (i / 2 + nx * (j / 2 + ny * (k / 2))).
Proof.
  intros Hs [[La Ha] [Lz Hz]] HP Hg HL Hn. destruct (go_points _ _ _ _ _ _ _ _ _ _ _ _ _ _ _ _ _ Hg q L n z HL Hn) as (c & x & y & _ & _ & HS).
  destruct (rp_from _ _ _ _ _ _ _ _ _ (rn_points _ _ _ _ _ _ _ _ _ _ _ HP q L HL) z) as (i & j & k & (Hi & Hj & Hk) & Hq & (a & Haa & Hane) & Hd); [by eapply elem_of_list_lookup_2|].
  unfold depth in Hd. rewrite (Hz i j k Hi Hj Hk), list_lookup_fmap in Hd. destruct (zcorn !! (i + 2 * nx * (j + 2 * ny * k))) as [w|] eqn:Ew; [|done]. cbn in Hd. injection Hd as <-.
  exists x, y, w, i, j, k. split.
  - rewrite HS. f_equal. f_equal. f_equal. f_equal. destruct Hs as [-> | ->]; [rewrite decide_False by done|rewrite decide_True by done]; ring.
  - do 4 (split; [done|]). split; [done|]. intros aa ->. cbn in Ha. exists a. split; [|done].
    assert (i / 2 < nx) by (apply Nat.div_lt_upper_bound; lia). assert (j / 2 < ny) by (apply Nat.div_lt_upper_bound; lia). assert (k / 2 < nz) by (apply Nat.div_lt_upper_bound; lia). by rewrite <- Ha.
Qed.
Print Assumptions C54_depths.

(** With depths that increase downwards, the nodes are on the pillars; with
    depths that decrease, they are if the pillars are vertical. *)
Theorem C54_on_pillars nx ny nz coord u P zp s rv Fs0 Fs1 Is0 Is1 Fh F cell out q L n z c : grid_of nx ny nz coord u P zp s rv Fs0 Fs1 Is0 Is1 Fh F cell out → P !! q = Some L → L !! n = Some z →
  slice coord (6 * q) 6 = Some c → c !! 2 ≠ c !! 5 → s ≠ (-1)%Z ∨ (c !! 0 = c !! 3 ∧ c !! 1 = c !! 4) →
  ∃ p, slice (o_coords out) (3 * (length (concat (take q P)) + n)) 3 = Some p ∧ on_line c p.
Proof.
  intros Hg HL Hz Hc Hne Hs. destruct (go_points _ _ _ _ _ _ _ _ _ _ _ _ _ _ _ _ _ Hg q L n z HL Hz) as (c' & x & y & Hc' & Hi & HS). rewrite Hc in Hc'. injection Hc' as <-. eexists. split; [exact HS|].
  assert (length c = 6) as Hl by (by eapply slice_length). destruct c as [|x0 [|y0 [|z0 [|x1 [|y1 [|z1 [|? ?]]]]]]]; try done. unfold interpolate_pillar in Hi. cbn in Hi. cbn in Hne.
  assert (z1 - z0 ≠ 0)%R as Hd. { intros ?. apply Hne. f_equal. lra. } destruct (Rlt_dec 0 (Rabs (z1 - z0))) as [_|Hno]; [|destruct Hno; by apply Rabs_pos_lt].
  injection Hi as <- <-. set (w := if decide (s = (-1)%Z) then (- z)%R else z). exists x0, y0, z0, x1, y1, z1, ((w - z0) / (z1 - z0))%R. split; [done|]. assert (Ez : (w = z0 + (w - z0) / (z1 - z0) * (z1 - z0))%R) by (field; done). rewrite <- Ez.
  destruct Hs as [Hs|[E1 E2]].
  - assert (w = z) as -> by (subst w; by rewrite decide_False). f_equal; [ring|]. f_equal. ring.
  - cbn in E1, E2. injection E1 as <-. injection E2 as <-. f_equal; [ring|]. f_equal. ring.
Qed.
Print Assumptions C54_on_pillars.

(** ** Without crossings there is nothing to fail *)
Lemma no_crossings nx ny nz plist zp : 0 < nx → 0 < ny →
  (∀ dir i j k l, dir < 2 → i < nx + (1 - dir) → j < ny + dir → k < 2 * nz + 2 → l < 2 * nz + 2 → let C := meeting nx ny nz plist dir i j in ¬ crossing (zp (pillar1 nx dir i j)) (zp (pillar2 nx dir i j)) (A1 C k) (A2 C k) (B1 C l) (B2 C l)) →
  ¬ many_crossings nx ny nz plist zp.
Proof.
  intros Hx Hy Hno (Is0 & Is1 & L0 & L1 & H0 & H1 & Hov).
  assert (Hnil : ∀ dir i j I, dir < 2 → i < nx + (1 - dir) → j < ny + dir → crossings_of nx ny nz plist zp dir i j I → I = []).
  { intros dir i j [|[[[a b] c] d] I] Hd Hi Hj [_ HC]; [done|]. destruct (HC a b c d) as (k & l & ? & ? & -> & -> & -> & -> & Hc); [apply elem_of_cons; by left|]. exfalso. by apply (Hno dir i j k l). }
  assert (Hcat : ∀ (W H : nat) (Is : list (list (Z * Z * Z * Z))), 0 < W → length Is ≤ W * H → (∀ i j I, i < W → j < H → Is !! (i + W * j) = Some I → I = []) → concat Is = []).
  { clear. intros W H Is HW HL HI. destruct (concat Is) as [|x l] eqn:E; [done|]. exfalso. assert (Hin : x ∈ concat Is) by (rewrite E; apply elem_of_cons; by left). apply elem_of_list_In, in_concat in Hin as (J & H1 & H2). apply elem_of_list_In, elem_of_list_lookup in H1 as [q Hq].
    assert (Hq' : q < length Is) by (by eapply lookup_lt_Some). pose proof (Nat.div_mod q W ltac:(lia)) as Ed. pose proof (Nat.mod_upper_bound q W ltac:(lia)) as Em.
    assert (Hj : q / W < H) by (apply Nat.div_lt_upper_bound; lia). rewrite (HI (q mod W) (q / W) J) in H2; [done|done|done|]. rewrite <- Hq. f_equal. lia. }
  rewrite (Hcat (nx + 1) ny Is0), (Hcat nx (ny + 1) Is1) in Hov; [cbn in Hov; lia|lia|done| |lia|done|].
  - intros i j I Hi Hj HI. apply (Hnil 1 i j I); [lia|lia|lia|]. by apply H1.
  - intros i j I Hi Hj HI. apply (Hnil 0 i j I); [lia|lia|lia|]. by apply H0.
Qed.
(** A single column of cells has no crossings, so it is never refused. *)
Theorem C54_column nz plist zp : columns_ok 1 1 nz plist → (∀ q p p', (p < p')%Z → (zp q p < zp q p')%R) → ¬ many_crossings 1 1 nz plist zp.
Proof.
  intros Hok Hzp. apply no_crossings; [lia|lia|]. intros dir i j k l Hd Hi Hj Hk Hl C Hc.
  assert (HAB : A1 C = B1 C ∧ A2 C = B2 C). { subst C. unfold meeting. destruct (decide (dir = 0)) as [->|]; cbn [A1 A2 B1 B2]; [destruct i as [|[|i]]; try lia; destruct j; try lia; done|assert (dir = 1) as -> by lia; destruct i; try lia; destruct j as [|[|j]]; try lia; done]. }
  destruct HAB as [E1 E2]. rewrite <- E1, <- E2 in Hc. destruct (meeting_ok 1 1 nz plist dir Hok Hd ltac:(lia) ltac:(lia) i j Hi Hj) as [HA _]. fold C in HA.
  assert (Hm : ∀ a b, a ≤ b → b < 2 * nz + 2 → (A1 C a ≤ A1 C b ∧ A2 C a ≤ A2 C b)%Z).
  { clear - HA. intros a b Hab. induction b as [|b IH]; intros Hb; [replace a with 0 by lia; lia|]. destruct (decide (a = S b)) as [->|]; [lia|]. destruct (IH ltac:(lia) ltac:(lia)). pose proof (co_mono1 _ _ _ HA b ltac:(lia)). pose proof (co_mono2 _ _ _ HA b ltac:(lia)). rewrite Nat.add_1_r in *. lia. }
  assert (Hle : ∀ q p p', (p ≤ p')%Z → (zp q p <= zp q p')%R) by (intros q p p' H; destruct (decide (p = p')) as [->|]; [lra|]; apply Rlt_le, Hzp; lia).
  unfold crossing in Hc. destruct (Nat.le_ge_cases k l) as [H|H]; destruct (Hm _ _ H ltac:(lia)) as [M1 M2]; pose proof (Hle (pillar1 1 dir i j) _ _ M1); pose proof (Hle (pillar2 1 dir i j) _ _ M2); nra.
Qed.
Print Assumptions C54_column.

(** ** One cell *)
Global Instance Rle_decision : RelDecision Rle := Rle_dec.
Definition rsort : list R → list R := merge_sort Rle.
Lemma rsort_ok : sorts Rlt rsort.
Proof.
  assert (Transitive Rle) by (intros x y z; apply Rle_trans). assert (Total Rle) by (intros x y; destruct (Rle_dec x y); [by left|right; lra]).
  intros l. split; [apply merge_sort_Permutation|]. pose proof (StronglySorted_merge_sort Rle l) as HS. unfold rsort. clear - HS. induction HS as [|x l' H IH HF]; constructor; [done|].
  eapply Forall_impl; [done|]. cbn. intros. lra.
Qed.
(** Three vertical pillars and one, the first, that is slanted: its places are
    [(z, 0)] at depth [z]. *)
Definition slanted : list R := [0; 0; 0; 1; 0; 1;  1; 0; 0; 1; 0; 1;  0; 1; 0; 0; 1; 1;  1; 1; 0; 1; 1; 1]%R.
Definition downwards : list R := [1; 1; 1; 1; 2; 2; 2; 2]%R.
Definition upwards : list R := [2; 2; 2; 2; 1; 1; 1; 1]%R.
Lemma one_cell_turn : turn 1 1 slanted 1.
Proof. exists 0%R, 0%R, 1%R, 0%R, 0%R, 1%R. split_and!; try reflexivity. ring. Qed.
Lemma one_cell_corners (zcorn : list R) (s : R) (a b : R) : zcorn = [a; a; a; a; b; b; b; b] → (s * a <= s * b)%R → descending 1 1 1 None zcorn s.
Proof. intros -> H i j k z z' Hi Hj Hk _ _ E E'. destruct i as [|[|i]], j as [|[|j]], k as [|k]; try lia; cbn in E, E'; simplify_eq; done. Qed.
Lemma downwards_oriented : oriented 1 1 1 slanted downwards None 1 1.
Proof.
  split; [left; split; [done|]; by apply (one_cell_corners _ _ 1 2); [|lra]|]. split; [|split; [apply one_cell_turn|lra]].
  exists 0, 0, 0, 0, 0, 1%R. do 3 (split; [lia|]). split; [intros a [=]|]. do 2 (split; [lia|]). split; [|lra]. exists 1%R, 2%R. split_and!; try reflexivity. ring.
Qed.
Lemma upwards_oriented : oriented 1 1 1 slanted upwards None (-1) 1.
Proof.
  split; [right; split; [done|]; split|].
  - intros H. pose proof (H 0 0 0 2%R 1%R ltac:(lia) ltac:(lia) ltac:(lia)) as H'. cbn in H'. assert (1 * 2 <= 1 * 1)%R; [|lra]. apply H'; try done; intros a [=].
  - by apply (one_cell_corners _ _ 2 1); [|lra].
  - split; [|split; [apply one_cell_turn|lra]]. exists 0, 0, 0, 0, 0, (-1)%R. do 3 (split; [lia|]). split; [intros a [=]|]. do 2 (split; [lia|]). split; [|lra]. exists 2%R, 1%R. split_and!; try reflexivity. ring.
Qed.
(** A single cell gets a grid. *)
Lemma one_cell_core junk junkr zcorn s e lh : length zcorn = 8 → get_zcorn_sign 1 1 1 None zcorn = Some (s, e) → is_lefthanded 1 1 1 None slanted zcorn = Some lh →
  ∃ act zc u P zp rv out Fs0 Fs1 Is0 Is1 Fh F cell, arranged 1 1 1 None zcorn s act zc ∧ right_numbering Rlt (λ z, (z + 0)%R) interpolate_pillar 1 1 1 slanted zc act P u ∧
    process_grdecl rsort junk junkr 1 1 1 slanted zcorn None 0 = Some out ∧ grid_of 1 1 1 slanted u P zp s rv Fs0 Fs1 Is0 Is1 Fh F cell out.
Proof.
  intros Hl Es Elh. destruct (grid_core rsort junk junkr 1 1 1 slanted zcorn None 0 ltac:(lia) ltac:(lia) eq_refl Hl ltac:(done) ltac:(lra) rsort_ok ltac:(done) s e lh Es Elh) as (act & zc & u & P & zp & H1 & H2 & H3 & Hb & [(out & Fs0 & Fs1 & Is0 & Is1 & Fh & F & cell & E & Hg)|[_ Hm]]).
  - exists act, zc, u, P, zp. eexists. exists out, Fs0, Fs1, Is0, Is1, Fh, F, cell. done.
  - exfalso. destruct H1 as [[La Ha] [Lz Hz]]. assert (Hin : input_sizes 1 1 1 slanted zc act) by (split; [lia|done|by rewrite Lz|by rewrite La]).
    assert (Hnum : (Z.of_nat (u_num u) ≤ int_max)%Z) by (unfold int_max; lia).
    eapply (C54_column 1 (u_plist u) zp); [|exact (proj1 H3)|exact Hm]. by eapply C39_levels.
Qed.
(** A grid is made in both orientations. *)
Example C54_case junk junkr : (∃ out, process_grdecl rsort junk junkr 1 1 1 slanted downwards None 0 = Some out) ∧ ∃ out, process_grdecl rsort junk junkr 1 1 1 slanted upwards None 0 = Some out.
Proof.
  split.
  - destruct (C54_grid rsort junk junkr 1 1 1 slanted downwards None 0 ltac:(lia) ltac:(lia) eq_refl eq_refl ltac:(done) ltac:(lra) rsort_ok ltac:(done) 1 1 downwards_oriented) as (act & zc & u & P & zp & H1 & H2 & H3 & Hb & [(rv & out & Fs0 & Fs1 & Is0 & Is1 & Fh & F & cell & E & _)|[_ Hm]]); [by exists out|].
    exfalso. destruct H1 as [[La Ha] [Lz Hz]]. assert (Hin : input_sizes 1 1 1 slanted zc act) by (split; [lia|done|by rewrite Lz|by rewrite La]).
    assert (Hnum : (Z.of_nat (u_num u) ≤ int_max)%Z) by (unfold int_max; lia). eapply (C54_column 1 (u_plist u) zp); [|exact (proj1 H3)|exact Hm]. by eapply C39_levels.
  - destruct (C54_grid rsort junk junkr 1 1 1 slanted upwards None 0 ltac:(lia) ltac:(lia) eq_refl eq_refl ltac:(done) ltac:(lra) rsort_ok ltac:(done) (-1) 1 upwards_oriented) as (act & zc & u & P & zp & H1 & H2 & H3 & Hb & [(rv & out & Fs0 & Fs1 & Is0 & Is1 & Fh & F & cell & E & _)|[_ Hm]]); [by exists out|].
    exfalso. destruct H1 as [[La Ha] [Lz Hz]]. assert (Hin : input_sizes 1 1 1 slanted zc act) by (split; [lia|done|by rewrite Lz|by rewrite La]).
    assert (Hnum : (Z.of_nat (u_num u) ≤ int_max)%Z) by (unfold int_max; lia). eapply (C54_column 1 (u_plist u) zp); [|exact (proj1 H3)|exact Hm]. by eapply C39_levels.
Qed.
(** A depth of a corner on the first pillar is one of its points. *)
Lemma first_pillar zcorn s act zc P u k w : arranged 1 1 1 None zcorn s act zc → right_numbering Rlt (λ z, (z + 0)%R) interpolate_pillar 1 1 1 slanted zc act P u → k < 2 → zcorn !! (4 * k) = Some w →
  ∃ L n, P !! 0 = Some L ∧ L !! n = Some (IZR s * w)%R.
Proof.
  intros [[La Ha] [Lz Hz]] HP Hk Hw. destruct (lookup_lt_is_Some_2 P 0) as [L HL]; [rewrite (rn_pillars _ _ _ _ _ _ _ _ _ _ _ HP); lia|]. exists L.
  destruct (rp_near _ _ _ _ _ _ _ _ _ (rn_points _ _ _ _ _ _ _ _ _ _ _ HP 0 L HL) (IZR s * w)%R) as (m & (y & Hy & H1 & H2) & _).
  { exists 0, 0, k. split; [split_and!; lia|]. split; [done|]. split.
    - exists 1%Z. split; [|done]. pose proof (Ha 0 0 (k / 2) ltac:(lia) ltac:(lia)) as H. assert (k / 2 = 0) as E by (apply Nat.div_small; lia). rewrite E in *. specialize (H ltac:(lia)). cbn in H. cbn. exact H.
    - unfold depth. pose proof (Hz 0 0 k ltac:(lia) ltac:(lia) ltac:(lia)) as H. rewrite H. rewrite list_lookup_fmap. replace (0 + 2 * 1 * (0 + 2 * 1 * k)) with (4 * k) by lia. by rewrite Hw. }
  exists m. split; [done|]. rewrite Hy. f_equal. lra.
Qed.
(** With depths that decrease downwards the sign of the depths of COORD is not
    changed along with that of ZCORN: the upper corner on the slanted pillar, at
    depth 2, becomes a node that is on no pillar. *)
Theorem C54_slanted_refuted junk junkr : ∃ out v x y, oriented 1 1 1 slanted upwards None (-1) 1 ∧ process_grdecl rsort junk junkr 1 1 1 slanted upwards None 0 = Some out ∧
  slice (o_coords out) (3 * v) 3 = Some [x; y; 2%R] ∧ ∀ q c, slice slanted (6 * q) 6 = Some c → interpolate_pillar c 2 ≠ (x, y).
Proof.
  destruct upwards_oriented as (Hs & Hv & Ht & Hd). assert (Hdesc : ¬ descending 1 1 1 None upwards 1 ∧ descending 1 1 1 None upwards (-1)) by (destruct Hs as [[? _]|[_ ?]]; done).
  destruct (C54_handed 1 1 1 None slanted upwards ltac:(lia) ltac:(lia) eq_refl ltac:(done) (-1) 1 eq_refl ltac:(by right) (proj2 Hdesc) Hv Ht Hd) as (lh & Elh & _).
  destruct (C52_sign 1 1 1 None upwards ltac:(done) eq_refl) as (s & e & Es & HE). assert (s = (-1)%Z) as -> by (clear - HE Hdesc; naive_solver).
  destruct (one_cell_core junk junkr upwards (-1) e lh eq_refl Es Elh) as (act & zc & u & P & zp & rv & out & Fs0 & Fs1 & Is0 & Is1 & Fh & F & cell & Harr & HP & E & Hg).
  destruct (first_pillar upwards (-1) act zc P u 0 2%R Harr HP ltac:(lia) eq_refl) as (L & n & HL & Hn). destruct (go_points _ _ _ _ _ _ _ _ _ _ _ _ _ _ _ _ _ Hg 0 L n _ HL Hn) as (c & x & y & Hc & Hi & HS).
  rewrite decide_True in HS by done. exists out, (length (concat (take 0 P)) + n), x, y. split; [exact upwards_oriented|]. split; [done|]. split; [rewrite HS; do 4 f_equal; ring|].
  cbn in Hc. injection Hc as <-. unfold interpolate_pillar in Hi. cbn [nth] in Hi. assert (HR : ∀ X (p q : X), (if Rlt_dec 0 (Rabs (1 - 0)) then p else q) = p) by (intros X p q; destruct (Rlt_dec 0 (Rabs (1 - 0))) as [|H]; [done|exfalso; apply H; rewrite Rabs_right; lra]).
  rewrite HR in Hi. injection Hi as <- <-. intros q c Hc Heq. unfold interpolate_pillar in Heq.
  assert (Hq : q < 4). { destruct (decide (q < 4)); [done|]. exfalso. pose proof (slice_lookup _ _ _ _ 0 Hc ltac:(lia)) as H. destruct c as [|? ?]; [by apply slice_length in Hc|]. cbn in H. apply lookup_lt_Some in H. cbn in H. lia. }
  destruct q as [|[|[|[|q]]]]; [| | | |lia]; cbn in Hc; injection Hc as <-; cbn [nth] in Heq; rewrite HR in Heq; injection Heq as H1 H2; lra.
Qed.
Print Assumptions C54_slanted_refuted.
(** For input with neither orientation the sign is -3, which process_grdecl
    uses as a factor: depths 0 and 1 become a node at depth -3. *)
Definition broken : list R := [0; 1; 0; 0; 1; 0; 0; 0]%R.
Theorem C54_broken_refuted junk junkr : ∃ out v x y, process_grdecl rsort junk junkr 1 1 1 slanted broken None 0 = Some out ∧ slice (o_coords out) (3 * v) 3 = Some [x; y; (-3)%R] ∧ ∀ z, z ∈ broken → z = 0%R ∨ z = 1%R.
Proof.
  pose proof C52_both_refuted as Es. fold broken in Es.
  assert (Elh : is_lefthanded 1 1 1 None slanted broken = Some false).
  { unfold is_lefthanded, slanted, broken. cbn [lookup list_lookup mbind option_bind Nat.mul Nat.add]. cbn [search mbind option_bind]. unfold vert_size. rewrite decide_True by lia.
    change (for_loop 4 0 ?f ?s) with (a ← f 0 s; b ← f 1 a; c ← f 2 b; d ← f 3 c; Some d). cbv beta. destruct (Rlt_dec 0 (Rabs 0)) as [H|_]; [rewrite Rabs_R0 in H; lra|]. cbn.
    assert (HR : ∀ X (p q : X), (if Rlt_dec 0 (Rabs (1 - 0)) then p else q) = p) by (intros X p q; destruct (Rlt_dec 0 (Rabs (1 - 0))) as [|H]; [done|exfalso; apply H; rewrite Rabs_right; lra]).
    repeat (rewrite HR; cbn [mbind option_bind]). set (t := ((1 - 0) * ((1 - 0) * (1 - 0) - (0 - 0) * (0 - 0)))%R). assert (Ht : t = 1%R) by (subst t; ring). rewrite Ht.
    destruct (Rlt_dec 0 (Rabs 1)) as [_|H]; [|exfalso; apply H; rewrite Rabs_right; lra]. destruct (Rlt_dec 1 0) as [H|_]; [lra|done]. }
  destruct (one_cell_core junk junkr broken (-3) true false eq_refl Es Elh) as (act & zc & u & P & zp & rv & out & Fs0 & Fs1 & Is0 & Is1 & Fh & F & cell & Harr & HP & E & Hg).
  destruct (first_pillar broken (-3) act zc P u 1 1%R Harr HP ltac:(lia) eq_refl) as (L & n & HL & Hn). destruct (go_points _ _ _ _ _ _ _ _ _ _ _ _ _ _ _ _ _ Hg 0 L n _ HL Hn) as (c & x & y & Hc & Hi & HS).
  rewrite decide_False in HS by done. exists out, (length (concat (take 0 P)) + n), x, y. split; [done|]. split; [rewrite HS; do 4 f_equal; ring|].
  intros z Hz. unfold broken in Hz. repeat (apply elem_of_cons in Hz as [->|Hz]; [auto|]). by apply elem_of_nil in Hz.
Qed.
Print Assumptions C54_broken_refuted.
