(** Properties of findconnections and process_vertical_faces. *)
From Coq Require Import Reals Lra Psatz.
From Verif Require Import Base LoopModel LoopProof UniqModel UniqSpec UniqProps PrepModel HorizSpec HorizProof HorizLoop HorizProps VertModel VertSpec VertGeom VertSlots VertLoop VertProc VertLink.
Unset Default Proof Using.

(** ** One call of findconnections *)
(** Given two columns of [n] levels whose point numbers are in order, an output
    structure that holds faces [F0] and has the room that checkmemory provides
    for faces, and [work] filled with -1: findconnections appends one face for
    each pair of strips, not both outside the cells, that overlap with positive
    area, in lexicographic order, and one entry of [intersections] for each pair
    of crossing lines; the nodes of a face are the corners of the overlap in
    order. It fails only if [intersections] is too short. *)
Theorem C39_findconnections (z1 z2 : Z → R) n plist p0 p1 p2 p3 C g0 F0 off :
  (∀ p q, (p < q)%Z → (z1 p < z1 q)%R) → (∀ p q, (p < q)%Z → (z2 p < z2 q)%R) →
  (∀ k, k < n → plist !! (p0 + k) = Some (A1 C k)) → (∀ k, k < n → plist !! (p1 + k) = Some (A2 C k)) →
  (∀ k, k < n → plist !! (p2 + k) = Some (B1 C k)) → (∀ k, k < n → plist !! (p3 + k) = Some (B2 C k)) →
  column_ok n (A1 C) (A2 C) → column_ok n (B1 C) (B2 C) → n mod 2 = 0 → 0 < n →
  holds g0 F0 → length F0 + n * n ≤ g_m g0 → length (concat (fc_nodes <$> F0)) + 6 * (n * n) ≤ g_n g0 → 4 * off ≤ length (g_its g0) →
  (∃ g' K F I, findconnections n plist p0 p1 p2 p3 (4 * off) (replicate (2 * n) (-1)%Z) g0 = Some (g', replicate (2 * n) (-1)%Z) ∧
    holds g' (F0 ++ F) ∧ right_connections z1 z2 n C cell_index cell_index (g_nn g0) K F I ∧ g_nn g' = g_nn g0 + length I ∧
    g_its g' = take (4 * off) (g_its g0) ++ quads I ++ drop (4 * (off + length I)) (g_its g0)) ∨
  (findconnections n plist p0 p1 p2 p3 (4 * off) (replicate (2 * n) (-1)%Z) g0 = None ∧ ∃ I, NoDup I ∧
    (∀ p1 p2 q1 q2, (p1, p2, q1, q2) ∈ I → ∃ i j, i < n ∧ j < n ∧ p1 = A1 C i ∧ p2 = A2 C i ∧ q1 = B1 C j ∧ q2 = B2 C j ∧ crossing z1 z2 p1 p2 q1 q2) ∧
    length (g_its g0) < 4 * (off + length I)).
Proof.
  intros. destruct (find_ok z1 z2 H H0 n plist p0 p1 p2 p3 C H1 H2 H3 H4 H5 H6 g0 F0 off H7 H10 H11 H8 H9 H12) as [(g' & K & F & I & E & ? & ? & ? & ? & ? & _)|[E Hov]].
  - left. by exists g', K, F, I.
  - right. done.
Qed.
Print Assumptions C39_findconnections.

(** ** All of them *)
Section props.
Variables (nx ny nz : nat) (plist : list Z) (zp : nat → Z → R).
Hypothesis Hx : 0 < nx.
Hypothesis Hy : 0 < ny.
Hypothesis Hlen : length plist = 8 * (nx * ny * nz + nx * ny).
Hypothesis Hok : columns_ok nx ny nz plist.
Hypothesis Hzp : ∀ q p p', (p < p')%Z → (zp q p < zp q p')%R.
Notation n := (2 * nz + 2).
Notation W dir := (nx + (1 - dir)).
Notation H dir := (ny + dir).
Lemma plist_len : length plist = n * (2 * nx * (2 * ny)). Proof using Hlen. rewrite Hlen. clear. lia. Qed.

(** The faces [Fs] and crossings [Is] of the planes of direction [dir], plane
    [(i, j)] at place [i + W j], where [c0] crossings were known before. *)
Definition all_planes (dir c0 : nat) (Fs : list (list face)) (Is : list (list (Z * Z * Z * Z))) (np : nat) : Prop :=
  length Fs = W dir * H dir ∧ length Is = W dir * H dir ∧ ∀ i j F I, i < W dir → j < H dir → Fs !! (i + W dir * j) = Some F → Is !! (i + W dir * j) = Some I →
    right_plane nx ny nz plist zp dir i j (np + c0 + length (concat (take (i + W dir * j) Is))) F I.
(** process_vertical_faces appends the faces of all planes, with their tags and
    with cells as neighbours, and the crossings; it fails only if the array
    [intersections] is too short for the crossings. *)
Theorem C39_vertical junk dir g F0 T0 I0 R0 r0 : dir < 2 →
  holds g F0 → g_tag g = T0 ++ R0 → length T0 = length F0 → g_nn g = g_np g + length I0 → g_its g = quads I0 ++ r0 → length (g_its g) ≤ 4 * g_m g →
  (∃ g' Fs Is R r, process_vertical_faces junk dir nx ny nz plist (replicate (2 * n) (-1)%Z) g = Some (g', replicate (2 * n) (-1)%Z) ∧
    all_planes dir (length I0) Fs Is (g_np g) ∧
    holds g' (F0 ++ concat Fs) ∧ g_tag g' = T0 ++ replicate (length (concat Fs)) (if decide (dir = 0) then LEFT else BACK) ++ R ∧
    g_np g' = g_np g ∧ g_nn g' = g_np g + length (I0 ++ concat Is) ∧ g_its g' = quads (I0 ++ concat Is) ++ r ∧
    length (g_its g) ≤ length (g_its g') ∧ length (g_its g') ≤ 4 * g_m g') ∨
  (process_vertical_faces junk dir nx ny nz plist (replicate (2 * n) (-1)%Z) g = None ∧ ∃ Is : list (list (Z * Z * Z * Z)), length Is ≤ W dir * H dir ∧
    (∀ i j I, i < W dir → j < H dir → Is !! (i + W dir * j) = Some I → crossings_of nx ny nz plist zp dir i j I) ∧
    length (g_its g) < 4 * length (I0 ++ concat Is)).
Proof using Hx Hy Hlen Hok Hzp.
  intros Hd Hh HT HL Hnn Hits Hm.
  destruct (vertical_ok nx ny nz plist junk dir plist_len Hok zp Hzp Hd Hx Hy (g_np g) (length (g_its g)) F0 T0 I0 g) as [([g' w] & Fs & Is & E & HP & HV)|[E Hov]].
  - split; cbn [fst snd]; try done; by eexists.
  - left. destruct HV as [V1 [R V2] V3 V4 V5 [r V6] V7 V8 V9]. cbn [fst snd] in *. exists g', Fs, Is, R, r. rewrite E, V9. split; [done|].
    split; [|rewrite <- app_assoc in V2; done]. destruct HP as (L1 & L2 & HP). split; [done|]. split; [done|]. intros i j F I Hi Hj HF HI. specialize (HP i j F I Hi Hj HF HI). rewrite app_length, Nat.add_assoc in HP. done.
  - right. done.
Qed.

(** If no two lines cross there is nothing to fail. *)
Theorem C39_unfaulted junk dir g F0 T0 R0 : dir < 2 → holds g F0 → g_tag g = T0 ++ R0 → length T0 = length F0 → g_nn g = g_np g → length (g_its g) ≤ 4 * g_m g →
  (∀ i j k l, i < W dir → j < H dir → k < n → l < n → let C := meeting nx ny nz plist dir i j in ¬ crossing (zp (pillar1 nx dir i j)) (zp (pillar2 nx dir i j)) (A1 C k) (A2 C k) (B1 C l) (B2 C l)) →
  ∃ g' w, process_vertical_faces junk dir nx ny nz plist (replicate (2 * n) (-1)%Z) g = Some (g', w) ∧ g_nn g' = g_np g'.
Proof using Hx Hy Hlen Hok Hzp.
  intros Hd Hh HT HL Hnn Hm Hno.
  assert (Hnil : ∀ i j I, i < W dir → j < H dir → crossings_of nx ny nz plist zp dir i j I → I = []).
  { intros i j [|[[[a b] c] d] I] Hi Hj [_ HC]; [done|]. destruct (HC a b c d) as (k & l & ? & ? & -> & -> & -> & -> & Hc); [apply elem_of_cons; by left|]. exfalso. by apply (Hno i j k l). }
  assert (Hall : ∀ Is : list (list (Z * Z * Z * Z)), length Is ≤ W dir * H dir → (∀ i j I, i < W dir → j < H dir → Is !! (i + W dir * j) = Some I → crossings_of nx ny nz plist zp dir i j I) → concat Is = []).
  { clear - Hnil Hx Hy. intros Is Hl HI. destruct (concat Is) as [|x l] eqn:E; [done|]. exfalso. assert (Hin : x ∈ concat Is) by (rewrite E; apply elem_of_cons; by left). apply elem_of_list_In, in_concat in Hin as (I & H1 & H2). apply elem_of_list_In, elem_of_list_lookup in H1 as [q Hq].
    assert (Hq' : q < length Is) by (by eapply lookup_lt_Some). pose proof (Nat.div_mod q (W dir) ltac:(lia)) as Ed. pose proof (Nat.mod_upper_bound q (W dir) ltac:(lia)) as Em.
    assert (Hj : q / W dir < H dir) by (apply Nat.div_lt_upper_bound; lia). rewrite (Hnil (q mod W dir) (q / W dir) I) in H2; [done|done|done|]. apply HI; [done|done|]. rewrite <- Hq. f_equal. lia. }
  destruct (C39_vertical junk dir g F0 T0 [] R0 (g_its g) Hd Hh HT HL) as [(g' & Fs & Is & R & r & E & (L1 & L2 & HP) & _ & _ & E1 & E2 & _)|[_ (Is & H1 & H2 & H3)]]; [cbn; lia|done|done| |].
  - exists g', (replicate (2 * n) (-1)%Z). split; [done|]. rewrite E1, E2. rewrite app_nil_l, (Hall Is); [cbn; lia|lia|]. intros i j I Hi Hj HI. destruct (lookup_lt_is_Some_2 Fs (i + W dir * j)) as [F HF]; [apply lookup_lt_Some in HI; lia|].
    destruct (HP i j F I Hi Hj HF HI) as (K & [C1 C2 C3 C4 C5]). split; [done|]. intros ? ? ? ? Hin. by apply C4.
  - exfalso. rewrite app_nil_l, (Hall Is H1 H2) in H3. cbn in H3. lia.
Qed.

(** Among all vertical faces of the direction there is exactly one between
    cell [(ai, aj, k)] and its neighbour column's cell [(i, j, k')] if they
    overlap with positive area in the plane between them, and its nodes are the
    corners of the overlap; there is none if they do not. *)
Theorem C39_one_face dir c0 Fs Is np i j ai aj k k' F I : dir < 2 → all_planes dir c0 Fs Is np →
  i < nx → j < ny → k' < nz → ai < nx → aj < ny → k < nz → (if decide (dir = 0) then i = ai + 1 ∧ j = aj else i = ai ∧ j = aj + 1) →
  Fs !! (i + W dir * j) = Some F → Is !! (i + W dir * j) = Some I →
  let over := overlap (zp (pillar1 nx dir i j)) (zp (pillar2 nx dir i j)) (meeting nx ny nz plist dir i j) (2 * k + 1) (2 * k' + 1) in
  (over → ∃ x vs, filter (λ x, fc_a x = cid nx ny ai aj k ∧ fc_b x = cid nx ny i j k') (concat Fs) = [x] ∧ x ∈ F ∧
    polygon (zp (pillar1 nx dir i j)) (zp (pillar2 nx dir i j)) (meeting nx ny nz plist dir i j) (2 * k + 1) (2 * k' + 1) vs ∧
    Forall2 (numbered_as (np + c0) (concat Is)) vs (fc_nodes x)) ∧
  (¬ over → filter (λ x, fc_a x = cid nx ny ai aj k ∧ fc_b x = cid nx ny i j k') (concat Fs) = []).
Proof.
  clear Hok Hzp Hlen Hx Hy. intros Hd (L1 & L2 & HP) Hi Hj Hk' Hai Haj Hk Hpos HF HI over.
  assert (HiW : i < W dir) by lia. assert (HjH : j < H dir) by lia. pose proof (HP i j F I HiW HjH HF HI) as HR.
  assert (Ea : Z.of_nat ai = (Z.of_nat i - 1 + Z.of_nat dir)%Z ∧ Z.of_nat aj = (Z.of_nat j - Z.of_nat dir)%Z) by (destruct (decide (dir = 0)); lia). destruct Ea as [Ea1 Ea2].
  destruct (plane_pair nx ny nz plist zp dir i j _ F I HR ai aj k k' Ea1 Ea2) as [H1 H2]; [done|done|].
  assert (Hcut : filter (λ x, fc_a x = cid nx ny ai aj k ∧ fc_b x = cid nx ny i j k') (concat Fs) = filter (λ x, fc_a x = cid nx ny ai aj k ∧ fc_b x = cid nx ny i j k') F).
  { assert (Ho : ∀ q F', q ≠ i + W dir * j → Fs !! q = Some F' → filter (λ x, fc_a x = cid nx ny ai aj k ∧ fc_b x = cid nx ny i j k') F' = []).
    { intros q F' Hne Hq. assert (Hq' : q < W dir * H dir) by (rewrite <- L1; by eapply lookup_lt_Some). pose proof (Nat.div_mod q (W dir) ltac:(lia)) as Ed. pose proof (Nat.mod_upper_bound q (W dir) ltac:(lia)) as Em.
      assert (Hj' : q / W dir < H dir) by (apply Nat.div_lt_upper_bound; lia). destruct (lookup_lt_is_Some_2 Is q) as [I' HI']; [lia|]. rewrite Nat.add_comm in Ed. rewrite Ed in Hq, HI'.
      pose proof (HP _ _ F' I' Em Hj' Hq HI') as HR'. refine (other_plane nx ny nz plist zp dir i j ai aj k k' _ _ _ _ F' I' HR' _); [done|]. intros [= E1 E2]. apply Hne. rewrite Ed, E1, E2. done. }
    rewrite <- (take_drop_middle Fs _ F HF), concat_app. cbn [concat]. rewrite !filter_app. rewrite (filter_none _ (concat (take _ _))), (filter_none _ (concat (drop _ _))); [by rewrite app_nil_r| |].
    - intros x Hx Hb. apply elem_of_list_In, in_concat in Hx as (F' & G1 & G2). apply elem_of_list_In, elem_of_list_lookup in G1 as [q Hq]. rewrite lookup_drop in Hq. assert (filter (λ x, fc_a x = cid nx ny ai aj k ∧ fc_b x = cid nx ny i j k') F' = []) as E by (eapply Ho; [|exact Hq]; lia).
      assert (x ∈ filter (λ x, fc_a x = cid nx ny ai aj k ∧ fc_b x = cid nx ny i j k') F') as Hin by (apply elem_of_list_filter; split; [done|by apply elem_of_list_In]). rewrite E in Hin. by apply elem_of_nil in Hin.
    - intros x Hx Hb. apply elem_of_list_In, in_concat in Hx as (F' & G1 & G2). apply elem_of_list_In, elem_of_list_lookup in G1 as [q Hq]. apply lookup_take_Some in Hq as [Hq Hlt]. assert (filter (λ x, fc_a x = cid nx ny ai aj k ∧ fc_b x = cid nx ny i j k') F' = []) as E by (eapply Ho; [|exact Hq]; lia).
      assert (x ∈ filter (λ x, fc_a x = cid nx ny ai aj k ∧ fc_b x = cid nx ny i j k') F') as Hin by (apply elem_of_list_filter; split; [done|by apply elem_of_list_In]). rewrite E in Hin. by apply elem_of_nil in Hin. }
  rewrite Hcut. split; [|exact H2]. intros Ho. destruct (H1 Ho) as (x & vs & Ex & Hp & Hn). exists x, vs. split; [done|]. split.
  - assert (x ∈ filter (λ x, fc_a x = cid nx ny ai aj k ∧ fc_b x = cid nx ny i j k') F) as Hin by (rewrite Ex; apply elem_of_list_singleton; done). by apply elem_of_list_filter in Hin as [_ ?].
  - split; [done|]. eapply Forall2_impl; [exact Hn|]. intros [p|p|p1 p2 q1 q2] y; cbn; [done|done|]. intros (m & Hm & ->). exists (length (concat (take (i + W dir * j) Is)) + m). split; [|f_equal; lia].
    assert (Ec : concat Is = concat (take (i + W dir * j) Is) ++ I ++ concat (drop (S (i + W dir * j)) Is)) by (rewrite <- (take_drop_middle Is _ I HI) at 1; by rewrite concat_app).
    rewrite Ec, lookup_app_r by lia. rewrite lookup_app_l by (apply lookup_lt_Some in Hm; lia). rewrite <- Hm. f_equal. lia.
Qed.
End props.
Print Assumptions C39_vertical.
Print Assumptions C39_unfaulted.
Print Assumptions C39_one_face.

(** ** The input comes from finduniquepoints *)
(** The numbers that finduniquepoints gives satisfy the hypothesis on columns. *)
Theorem C39_levels {V} (lt : V → V → Prop) shift interp nx ny nz coord zcorn actnum u P :
  input_sizes nx ny nz coord zcorn actnum → right_numbering lt shift interp nx ny nz coord zcorn actnum P u → (Z.of_nat (u_num u) ≤ int_max)%Z →
  columns_ok nx ny nz (u_plist u).
Proof. intros. by eapply levels_ok. Qed.
Print Assumptions C39_levels.
(** With real depths the points of the pillars have depths that increase with
    their numbers, and the planes of [meeting] are bounded by the pillars of
    their corner columns. *)
Theorem C39_depths tol interp nx ny nz coord zcorn actnum u P : (0 <= tol)%R → right_numbering Rlt (λ z, z + tol)%R interp nx ny nz coord zcorn actnum P u →
  ∃ zp, (∀ q p p', (p < p')%Z → (zp q p < zp q p')%R) ∧
    ∀ q L m z, P !! q = Some L → L !! m = Some z → zp q (Z.of_nat (length (concat (take q P)) + m)) = z.
Proof.
  intros Ht HP.
  assert (Hq : ∀ q, ∃ f : Z → R, (∀ p p', (p < p')%Z → (f p < f p')%R) ∧ ∀ m z, default [] (P !! q) !! m = Some z → f (Z.of_nat (length (concat (take q P))) + Z.of_nat m)%Z = z).
  { intros q. apply extend_depths. intros m x y Hx Hy. destruct (P !! q) as [L|] eqn:HL; [|done]. cbn in Hx, Hy. pose proof (rp_gap _ _ _ _ _ _ _ _ _ (rn_points _ _ _ _ _ _ _ _ _ _ _ HP q L HL) m x y Hx Hy) as H. cbn in H. lra. }
  assert (Hc : ∀ N, ∃ zp : nat → Z → R, (∀ q p p', (p < p')%Z → (zp q p < zp q p')%R) ∧ ∀ q, q < N → ∀ m z, default [] (P !! q) !! m = Some z → zp q (Z.of_nat (length (concat (take q P))) + Z.of_nat m)%Z = z).
  { induction N as [|N (zp & H1 & H2)]; [exists (λ _ p, IZR p); split; [intros; by apply IZR_lt|intros; lia]|]. destruct (Hq N) as (f & F1 & F2). exists (λ q, if decide (q = N) then f else zp q). split.
    - intros q p p' Hlt. destruct (decide (q = N)); [by apply F1|by apply H1].
    - intros q Hlt m z Hz. destruct (decide (q = N)) as [->|]; [by apply F2|apply H2; [lia|done]]. }
  destruct (Hc (length P)) as (zp & H1 & H2). exists zp. split; [done|]. intros q L m z HL Hz. rewrite Nat2Z.inj_add. apply H2; [by eapply lookup_lt_Some|]. by rewrite HL.
Qed.
Print Assumptions C39_depths.
Theorem C39_pillars nx ny dir i j : 0 < nx → 0 < ny → dir < 2 → i < nx + (1 - dir) → j < ny + dir →
  let '(a, b, a', b') := if decide (dir = 0) then ((2 * i - 1, 2 * j), (Nat.min (2 * i) (2 * nx - 1), 2 * j), (2 * i - 1, 2 * j + 1), (Nat.min (2 * i) (2 * nx - 1), 2 * j + 1))
    else ((2 * i + 1, 2 * j - 1), (2 * i + 1, Nat.min (2 * j) (2 * ny - 1)), (2 * i, 2 * j - 1), (2 * i, Nat.min (2 * j) (2 * ny - 1))) in
  pillar nx a.1 a.2 = pillar1 nx dir i j ∧ pillar nx b.1 b.2 = pillar1 nx dir i j ∧ pillar nx a'.1 a'.2 = pillar2 nx dir i j ∧ pillar nx b'.1 b'.2 = pillar2 nx dir i j.
Proof.
  intros Hx Hy Hd Hi Hj. assert (E : ∀ a b, a = 2 * b ∨ a = 2 * b + 1 → a / 2 = b) by apply half_l. unfold pillar, pillar1, pillar2, pillar_at.
  destruct (decide (dir = 0)) as [->|]; cbn [fst snd]; rewrite ?(E (2 * i - 1 + 1) i), ?(E (2 * j + 1) j), ?(E (Nat.min (2 * i) (2 * nx - 1) + 1) i), ?(E (2 * j + 1 + 1) (j + 1)), ?(E (2 * i + 1 + 1) (i + 1)), ?(E (2 * j - 1 + 1) j), ?(E (Nat.min (2 * j) (2 * ny - 1) + 1) j), ?(E (2 * i + 1) i) by lia; done.
Qed.
Print Assumptions C39_pillars.
(** The neighbours of the faces are live cells, as C38_neighbours requires. *)
Theorem C39_live nx ny nz plist zp dir c0 Fs Is np : length plist = 8 * (nx * ny * nz + nx * ny) → dir < 2 → 0 < nx → 0 < ny → all_planes nx ny nz plist zp dir c0 Fs Is np → ∀ x, x ∈ concat Fs →
  (fc_a x = (-1)%Z ∨ ∃ i j k, live nx ny nz plist i j k ∧ fc_a x = cid nx ny i j k) ∧ (fc_b x = (-1)%Z ∨ ∃ i j k, live nx ny nz plist i j k ∧ fc_b x = cid nx ny i j k).
Proof.
  intros Hlen Hd Hx Hy (L1 & L2 & HP) x Hin. apply elem_of_list_In, in_concat in Hin as (F & G1 & G2). apply elem_of_list_In, elem_of_list_lookup in G1 as [q Hq]. apply elem_of_list_In in G2. set (W := nx + (1 - dir)) in *.
  assert (Hq' : q < W * (ny + dir)) by (rewrite <- L1; by eapply lookup_lt_Some). pose proof (Nat.div_mod q W ltac:(lia)) as Ed. pose proof (Nat.mod_upper_bound q W ltac:(lia)) as Em.
  assert (Hj' : q / W < ny + dir) by (apply Nat.div_lt_upper_bound; lia). destruct (lookup_lt_is_Some_2 Is q) as [I' HI']; [lia|]. rewrite Nat.add_comm in Ed. rewrite Ed in Hq, HI'.
  pose proof (HP _ _ F I' Em Hj' Hq HI') as HR. eapply (plane_live nx ny nz plist zp dir); [lia|done|exact Em|exact Hj'|exact HR|done].
Qed.
Print Assumptions C39_live.

(** ** A case meeting the hypotheses: two cells whose common plane is a fault
    with two pairs of crossing lines. *)
Module FaultCase.
  Definition col (a b : Z) : list Z := [int_min; a; b; int_max].
  Definition plist : list Z := col 0 1 ++ col 2 4 ++ col 3 5 ++ col 6 7 ++ col 8 9 ++ col 11 13 ++ col 10 12 ++ col 14 15.
  Definition start : pgrid := PGrid 21 64 (replicate 64 7%Z) (replicate 64 7%Z) (0 :: replicate 21 5) (replicate 21 LEFT) 0 (replicate 64 7%Z) 16 16.
  Example sizes : length plist = 8 * (2 * 1 * 1 + 2 * 1) ∧ length (g_its start) ≤ 4 * g_m start. Proof. vm_compute. lia. Qed.
  Example levels : columns_ok 2 1 1 plist.
  Proof.
    intros i j a b a' b' Hi Hj Ha Hb Ha' Hb'. destruct i as [|[|i]], j as [|j]; try lia; destruct a as [|[|a]], b as [|[|b]], a' as [|[|a']], b' as [|[|b']]; try lia;
      (split; [intros k Hk; destruct k as [|[|[|[|]]]]; try lia; vm_compute; done|intros k Hk; destruct k as [|[|[|[|]]]]; try lia; vm_compute; done|done|done|
        intros k Hk; destruct k as [|[|[|[|]]]]; try lia; vm_compute; done|intros k Hk; destruct k as [|[|[|[|]]]]; try lia; vm_compute; done|
        intros k Hk; destruct k as [|[|[|[|]]]]; try lia; vm_compute; done|intros k Hk; destruct k as [|[|[|[|]]]]; try lia; vm_compute; (split; [|]; (by left) || (right; done))]).
  Qed.
  Example depths : ∀ (q : nat) p p', (p < p')%Z → (IZR p < IZR p')%R. Proof. intros. by apply IZR_lt. Qed.
  Example begin : holds start []. Proof. split; cbn; try done; try lia; [by eexists|by eexists|intros k ?; by replace k with 0 by lia]. Qed.
  (** Face 3 is the one between the two cells, with both crossings. *)
  Example run : match process_vertical_faces 0 0 2 1 1 plist (replicate 8 (-1)%Z) start with
    | Some (g, _) => Some (g_nf g, take (2 * g_nf g) (g_nbr g), take (g_nf g + 1) (g_ptr g), take (list_max (take (g_nf g + 1) (g_ptr g))) (g_nodes g), g_nn g, take 8 (g_its g))
    | None => None end = Some (7, [-1; 0; -1; 1; 0; -1; 0; 1; 0; -1; -1; 1; 1; -1]%Z, [0; 4; 7; 10; 16; 19; 22; 26],
      [0; 8; 9; 1;  16; 10; 11;  2; 16; 3;  3; 16; 11; 12; 17; 4;  17; 12; 13;  4; 17; 5;  6; 14; 15; 7]%Z, 18, [2; 11; 3; 10; 4; 13; 5; 12]%Z).
  Proof. vm_compute. done. Qed.
  Example overlapping : overlap IZR IZR (meeting 2 1 1 plist 0 1 0) 1 1.
  Proof. exists (1 / 2)%R, 7%R. unfold lineA, lineB, line, meeting. rewrite decide_True by done. cbn [A1 A2 B1 B2].
    repeat match goal with |- context [lev ?a ?b ?c ?d ?e ?f] => let v := eval vm_compute in (lev a b c d e f) in change (lev a b c d e f) with v end. lra. Qed.
End FaultCase.

(** ** The array of crossings can be too short *)
(** checkmemory makes room for faces, and the array [intersections] has four
    times the entries of the face tags. Crossings may be more than faces: with
    seven columns of five layers with gaps between them, and six faults that
    reverse the order of all layers from one end to the other, the sixth call of
    findconnections writes beyond the end of the array. The numbers come from
    finduniquepoints and the start is that of process_grdecl. *)
Module Overflow.
  Definition layers (b : Z) : list Z := (λ k, b + Z.of_nat k)%Z <$> seq 0 10.
  Definition pillar_pair (up : bool) (c : nat) : list Z := if Nat.odd c then layers (if up then 0 else 20) else layers (if up then 20 else 0).
  Definition zcorn : list Z := concat ((pillar_pair true <$> seq 0 14) ++ (pillar_pair false <$> seq 0 14)).
  Definition coord : list Z := concat (replicate 16 [0; 0; 0; 0; 0; 100]%Z).
  Definition act : list Z := replicate 35 1%Z.
  Example sizes : input_sizes 7 1 5 coord zcorn act. Proof. split; vm_compute; repeat split; lia. Qed.
  Definition points : option upoints := finduniquepoints Z.lt (λ z, z + 0)%Z zsort (λ c _, (nth 0 c 0%Z, nth 1 c 0%Z)) 77%Z 7 1 5 coord zcorn act (replicate 336 0%Z).
  Definition start (num : nat) : pgrid := PGrid 21 64 (replicate 64 7%Z) (replicate 64 7%Z) (0 :: replicate 21 5) (replicate 21 LEFT) 0 (replicate 64 7%Z) num num.
End Overflow.
Theorem C39_intersections_refuted : ∃ u, Overflow.points = Some u ∧ u_ok u = true ∧ length (u_plist u) = 8 * (7 * 1 * 5 + 7 * 1) ∧ holds (Overflow.start (u_num u)) [] ∧
  process_vertical_faces 7 0 7 1 5 (u_plist u) (replicate (2 * 12) (-1)%Z) (Overflow.start (u_num u)) = None.
Proof.
  eexists. split; [vm_compute; reflexivity|]. split; [vm_compute; reflexivity|]. split; [vm_compute; reflexivity|]. split; [|vm_compute; reflexivity].
  split; cbn; try done; try lia; [by eexists|by eexists|intros k ?; by replace k with 0 by lia].
Qed.
Print Assumptions C39_intersections_refuted.
