(** The nodes written by computeFaceTopology and by the branch for matching
    faces are the corners of the common part. *)
From Coq Require Import Reals Lra Psatz.
From Verif Require Import Base UniqModel PrepModel HorizSpec VertModel VertSpec VertGeom.
Unset Default Proof Using.

Lemma face_slots a1 a1' a2 a2' b1 b1' b2 b2' i0 i1 i2 i3 :
  (a1 ≤ a1' ∧ a2 ≤ a2' ∧ b1 ≤ b1' ∧ b2 ≤ b2')%Z →
  (b1' < a1 → a2 < b2')%Z → (a1' < b1 → b2 < a2')%Z → (b2' < a2 → a1 < b1')%Z → (a2' < b2 → b1 < a1')%Z →
  (i1 ≠ -1 ↔ (b1' < a1 ∧ a2 < b2') ∨ (a1 < b1' ∧ b2' < a2))%Z →
  (i2 ≠ -1 ↔ (b1 < a1' ∧ a2' < b2) ∨ (a1' < b1 ∧ b2 < a2'))%Z →
  compute_face_topology (a1, a1') (a2, a2') (b1, b1') (b2, b2') i0 i1 i2 i3 = filter (λ v, v ≠ (-1)%Z)
    [if decide (b1' < a1)%Z then i1 else if decide (a1' < b1)%Z then i2 else (-1)%Z;
     if decide (Z.max a1 b1 < Z.min a1' b1')%Z then Z.max a1 b1 else (-1)%Z;
     i0;
     if decide (Z.max a2 b2 < Z.min a2' b2')%Z then Z.max a2 b2 else (-1)%Z;
     if decide (b2' < a2)%Z then i1 else if decide (a2' < b2)%Z then i2 else (-1)%Z;
     if decide (Z.max a2 b2 ≤ Z.min a2' b2')%Z then Z.min a2' b2' else (-1)%Z;
     i3;
     if decide (Z.max a1 b1 ≤ Z.min a1' b1')%Z then Z.min a1' b1' else (-1)%Z].
Proof.
  intros M O1 O2 O3 O4 H1 H2. unfold compute_face_topology. cbn [fst snd].
  assert (Emin : ∀ p q, (if decide (q < p)%Z then q else p) = Z.min p q) by (intros; clear; case_decide; lia).
  assert (Emax : ∀ p q, (if decide (q < p)%Z then p else q) = Z.max p q) by (intros; clear; case_decide; lia).
  rewrite (Emin a1' b1'), (Emin a2' b2'), (Emax a2 b2), (Emax a1 b1). clear Emin Emax. f_equal.
  assert (D1 : (i1 = -1 ∧ ¬ ((b1' < a1 ∧ a2 < b2') ∨ (a1 < b1' ∧ b2' < a2)))%Z ∨ (i1 ≠ -1 ∧ ((b1' < a1 ∧ a2 < b2') ∨ (a1 < b1' ∧ b2' < a2)))%Z) by (destruct (decide (i1 = -1)%Z); [left; split; [done|]; intros Q%H1; done|right; split; [done|by apply H1]]).
  assert (D2 : (i2 = -1 ∧ ¬ ((b1 < a1' ∧ a2' < b2) ∨ (a1' < b1 ∧ b2 < a2')))%Z ∨ (i2 ≠ -1 ∧ ((b1 < a1' ∧ a2' < b2) ∨ (a1' < b1 ∧ b2 < a2')))%Z) by (destruct (decide (i2 = -1)%Z); [left; split; [done|]; intros Q%H2; done|right; split; [done|by apply H2]]).
  clear H1 H2. destruct D1 as [[-> D1]|[Hi1 D1]], D2 as [[-> D2]|[Hi2 D2]].
  all: try rewrite (decide_True (P := ((-1)%Z = (-1)%Z))) by done; try rewrite (decide_False (P := (i1 = (-1)%Z))) by done; try rewrite (decide_False (P := (i2 = (-1)%Z))) by done.
  - assert ((¬ b1' < a1 ∧ ¬ a1' < b1 ∧ ¬ b2' < a2 ∧ ¬ a2' < b2)%Z) as (N1 & N2 & N3 & N4) by lia. rewrite (decide_False _ _ N1), (decide_False _ _ N2), (decide_False _ _ N3), (decide_False _ _ N4). cbn [fst snd].
    rewrite (decide_True (P := (Z.max a2 b2 ≤ _)%Z)) by lia. rewrite (decide_True (P := (Z.max a1 b1 ≤ _)%Z)) by lia. repeat f_equal; repeat case_decide; first [done|lia|(f_equal; repeat f_equal; lia)].
  - destruct D2 as [D2|D2].
    + rewrite (decide_False (P := (a1' < b1)%Z)) by lia. rewrite (decide_False (P := (b1' < a1)%Z)) by lia. rewrite (decide_False (P := (b2' < a2)%Z)) by lia. rewrite (decide_True (P := (a2' < b2)%Z)) by lia. repeat f_equal; repeat case_decide; first [done|lia|(f_equal; repeat f_equal; lia)].
    + rewrite (decide_True (P := (a1' < b1)%Z)) by lia. rewrite (decide_False (P := (b1' < a1)%Z)) by lia. rewrite (decide_False (P := (b2' < a2)%Z)) by lia. rewrite (decide_False (P := (a2' < b2)%Z)) by lia. repeat f_equal; repeat case_decide; first [done|lia|(f_equal; repeat f_equal; lia)].
  - destruct D1 as [D1|D1].
    + rewrite (decide_True (P := (b1' < a1)%Z)) by lia. rewrite (decide_False (P := (b2' < a2)%Z)) by lia. rewrite (decide_False (P := (a2' < b2)%Z)) by lia. repeat f_equal; repeat case_decide; first [done|lia|(f_equal; repeat f_equal; lia)].
    + rewrite (decide_False (P := (b1' < a1)%Z)) by lia. rewrite (decide_False (P := (a1' < b1)%Z)) by lia. rewrite (decide_True (P := (b2' < a2)%Z)) by lia. repeat f_equal; repeat case_decide; first [done|lia|(f_equal; repeat f_equal; lia)].
  - destruct D1 as [D1|D1], D2 as [D2|D2]; try lia.
    + rewrite (decide_True (P := (b1' < a1)%Z)) by lia. rewrite (decide_False (P := (a1' < b1)%Z)) by lia. rewrite (decide_False (P := (b2' < a2)%Z)) by lia. rewrite (decide_True (P := (a2' < b2)%Z)) by lia. repeat f_equal; repeat case_decide; first [done|lia|(f_equal; repeat f_equal; lia)].
    + rewrite (decide_False (P := (b1' < a1)%Z)) by lia. rewrite (decide_True (P := (a1' < b1)%Z)) by lia. rewrite (decide_True (P := (b2' < a2)%Z)) by lia. repeat f_equal; repeat case_decide; first [done|lia|(f_equal; repeat f_equal; lia)].
Qed.

Definition slot_value (base : nat) (I : list (Z * Z * Z * Z)) (s : option vertex) (x : Z) : Prop :=
  match s with None => x = (-1)%Z | Some v => x ≠ (-1)%Z ∧ numbered_as base I v x end.
Lemma slots_filter base I sl xs : Forall2 (slot_value base I) sl xs → Forall2 (numbered_as base I) (present sl) (filter (λ v, v ≠ (-1)%Z) xs).
Proof.
  unfold present. induction 1 as [|s x sl xs H _ IH]; [constructor|]. rewrite filter_cons. destruct s as [v|]; cbn in H.
  - destruct H as [Hx Hv]. rewrite decide_True by done. cbn. by constructor.
  - subst x. rewrite decide_False by (by intros H). done.
Qed.

(** The record of a crossing. *)
Definition recd (base : nat) (I : list (Z * Z * Z * Z)) (p1 p2 q1 q2 x : Z) : Prop :=
  if line_intersection p1 p2 q1 q2 then ∃ k, I !! k = Some (p1, p2, q1, q2) ∧ x = Z.of_nat (base + k) else x = (-1)%Z.
Lemma recd_neg base I p1 p2 q1 q2 x : recd base I p1 p2 q1 q2 x → (x ≠ (-1)%Z ↔ line_intersection p1 p2 q1 q2 = true).
Proof. unfold recd. destruct (line_intersection _ _ _ _); [intros (k & _ & ->); split; [done|lia]|intros ->; done]. Qed.
Lemma recd_slot base I p1 p2 q1 q2 x : recd base I p1 p2 q1 q2 x → line_intersection p1 p2 q1 q2 = true → slot_value base I (Some (VX p1 p2 q1 q2)) x.
Proof. unfold recd. intros H E. rewrite E in H. destruct H as (k & Hk & ->). split; [lia|]. by exists k. Qed.

Section face.
Variables (z1 z2 : Z → R).
Hypothesis Hz1 : ∀ p q, (p < q)%Z → (z1 p < z1 q)%R.
Hypothesis Hz2 : ∀ p q, (p < q)%Z → (z2 p < z2 q)%R.
Variables (C : columns) (i j : nat).
Hypothesis MA : (A1 C i ≤ A1 C (i + 1)%nat ∧ A2 C i ≤ A2 C (i + 1)%nat)%Z.
Hypothesis MB : (B1 C j ≤ B1 C (j + 1)%nat ∧ B2 C j ≤ B2 C (j + 1)%nat)%Z.
(** One of the strips is a cell, so that the upper ends are points. *)
Hypothesis Hpos : (0 ≤ Z.max (A1 C i) (B1 C j) ∧ 0 ≤ Z.max (A2 C i) (B2 C j))%Z.
Notation a1 := (A1 C i, A1 C (i + 1)). Notation a2 := (A2 C i, A2 C (i + 1)).
Notation b1 := (B1 C j, B1 C (j + 1)). Notation b2 := (B2 C j, B2 C (j + 1)).

Lemma overlap_sides : overlap z1 z2 C i j →
  (B1 C (j + 1)%nat < A1 C i → A2 C i < B2 C (j + 1)%nat)%Z ∧ (A1 C (i + 1)%nat < B1 C j → B2 C j < A2 C (i + 1)%nat)%Z ∧
  (B2 C (j + 1)%nat < A2 C i → A1 C i < B1 C (j + 1)%nat)%Z ∧ (A2 C (i + 1)%nat < B2 C j → B1 C j < A1 C (i + 1)%nat)%Z.
Proof using Hz1 Hz2 MA MB.
  intros (t & y & Ht & G1 & G2 & G3 & G4). unfold lineA, lineB, line in *.
  split_and!; intros H; [apply (z2_lt z2 Hz2); apply Hz1 in H|apply (z2_lt z2 Hz2); apply Hz1 in H|apply (z1_lt z1 Hz1); apply Hz2 in H|apply (z1_lt z1 Hz1); apply Hz2 in H]; nra.
Qed.
Lemma corners_nodes base I i0 i1 i2 i3 : overlap z1 z2 C i j →
  recd base I (A1 C i) (A2 C i) (B1 C j) (B2 C j) i0 → recd base I (A1 C i) (A2 C i) (B1 C (j + 1)) (B2 C (j + 1)) i1 →
  recd base I (A1 C (i + 1)) (A2 C (i + 1)) (B1 C j) (B2 C j) i2 → recd base I (A1 C (i + 1)) (A2 C (i + 1)) (B1 C (j + 1)) (B2 C (j + 1)) i3 →
  let ns := compute_face_topology a1 a2 b1 b2 i0 i1 i2 i3 in
  Forall2 (numbered_as base I) (corners C i j) ns.
Proof using Hz1 Hz2 MA MB Hpos.
  intros Ho R0 R1 R2 R3 ns. destruct (overlap_sides Ho) as (O1 & O2 & O3 & O4).
  assert (E1 := recd_neg _ _ _ _ _ _ _ R1). assert (E2 := recd_neg _ _ _ _ _ _ _ R2). unfold line_intersection in E1, E2. rewrite bool_decide_eq_true in E1, E2.
  unfold ns. rewrite face_slots; [|lia|done|done|done|done|exact E1|exact E2]. apply slots_filter.
  assert (Hs : ∀ p1 p2 q1 q2 x (P : Prop) {D : Decision P} y s, recd base I p1 p2 q1 q2 x → (P → line_intersection p1 p2 q1 q2 = true) → (¬ P → slot_value base I s y) → slot_value base I (if decide P then Some (VX p1 p2 q1 q2) else s) (if decide P then x else y)).
  { intros p1 p2 q1 q2 x P D y s Hr Hp Hn. destruct (decide P); [by apply recd_slot; [|apply Hp]|by apply Hn]. }
  assert (Hv : ∀ v x (P : Prop) {D : Decision P}, (P → (0 ≤ x)%Z) → numbered_as base I v x → slot_value base I (if decide P then Some v else None) (if decide P then x else (-1)%Z)).
  { intros v x P D Hp Hn. destruct (decide P) as [HP|]; [|done]. split; [|done]. specialize (Hp HP). lia. }
  assert (Hx : ∀ p1 p2 q1 q2 x, recd base I p1 p2 q1 q2 x → slot_value base I (if line_intersection p1 p2 q1 q2 then Some (VX p1 p2 q1 q2) else None) x).
  { intros p1 p2 q1 q2 x Hr. destruct (line_intersection p1 p2 q1 q2) eqn:E; [by apply recd_slot|]. unfold recd in Hr. by rewrite E in Hr. }
  unfold line_intersection in Hs. 
  constructor; [unfold s7|constructor; [unfold s6|constructor; [unfold s5|constructor; [unfold s4|constructor; [unfold s3|constructor; [unfold s2|constructor; [unfold s1|constructor; [unfold s0|constructor]]]]]]]].
  - apply Hs; [done|intros; rewrite bool_decide_eq_true; lia|]. intros _. apply Hs; [done|intros; rewrite bool_decide_eq_true; lia|done].
  - apply Hv; [lia|done].
  - by apply Hx.
  - apply Hv; [lia|done].
  - apply Hs; [done|intros; rewrite bool_decide_eq_true; lia|]. intros _. apply Hs; [done|intros; rewrite bool_decide_eq_true; lia|done].
  - apply Hv; [lia|done].
  - by apply Hx.
  - apply Hv; [lia|done].
Qed.

(** At most six. *)
Lemma corners_six : overlap z1 z2 C i j → length (corners C i j) ≤ 6.
Proof using Hz1 Hz2 MA MB.
  intros Ho. destruct (left_end z1 z2 Hz1 Hz2 C i j MA MB Ho) as (tl & _ & _ & _ & HL). destruct (right_end z1 z2 Hz1 Hz2 C i j MA MB Ho) as (tr & _ & _ & _ & HR).
  assert (E : corners C i j = present [s7 C i j; s6 C i j] ++ present [s5 C i j] ++ present [s4 C i j; s3 C i j] ++ present [s2 C i j] ++ present [s1 C i j] ++ present [s0 C i j]) by (unfold corners; rewrite <- !present_app; done).
  rewrite E, !app_length. assert (G : ∀ o : option vertex, length (present [o]) ≤ 1) by (intros [?|]; cbn; lia). pose proof (G (s5 C i j)). pose proof (G (s1 C i j)). pose proof (G (s2 C i j)). pose proof (G (s0 C i j)).
  assert (length (present [s7 C i j; s6 C i j]) ≤ 1) by (destruct HL as [(s & -> & _)|[(s & -> & _)|(s & s' & -> & _)]]; cbn; lia).
  assert (length (present [s4 C i j; s3 C i j]) ≤ 1) by (destruct HR as [(s & -> & _)|[(s & -> & _)|(s & s' & -> & _)]]; cbn; lia). lia.
Qed.

Lemma hull_incl vs ws t z : (∀ s, s ∈ vs → s ∈ ws) → hull z1 z2 vs t z → hull z1 z2 ws t z.
Proof. intros H. induction 1 as [s t z Hs Ha|t z t' z' l _ IH1 _ IH2 Hl]; [apply (hull_vertex z1 z2 ws s); auto|by apply hull_between]. Qed.
(** Matching faces. *)
Lemma matching_polygon base I : overlap z1 z2 C i j → a1 = b1 → a2 = b2 → ∃ vs, polygon z1 z2 C i j vs ∧ Forall2 (numbered_as base I) vs (matching_nodes a1 a2).
Proof using Hz1 Hz2 MA MB.
  clear Hpos. intros Ho E1 E2. injection E1 as E1 E1'. injection E2 as E2 E2'. destruct (overlap_thick z1 z2 Hz1 Hz2 C i j MA MB Ho) as [Ta _]. unfold thickA in Ta.
  pose proof (corners_polygon z1 z2 Hz1 Hz2 C i j MA MB Ho) as Hpo. unfold matching_nodes. cbn [fst snd].
  assert (Ec : corners C i j = (if decide (A1 C i < A1 C (i + 1))%Z then [V1 (A1 C i)] else []) ++ (if decide (A2 C i < A2 C (i + 1))%Z then [V2 (A2 C i)] else []) ++ [V2 (A2 C (i + 1)); V1 (A1 C (i + 1))]).
  { unfold corners, s7, s6, s5, s4, s3, s2, s1, s0. rewrite <- E1, <- E2, <- E1', <- E2'. rewrite !Z.max_id, !Z.min_id.
    assert (L : ∀ p q, line_intersection p q p q = false) by (intros; unfold line_intersection; rewrite bool_decide_eq_false; lia). rewrite !L.
    rewrite !(decide_False (P := (A1 C (i + 1) < A1 C i)%Z)) by lia. rewrite !(decide_False (P := (A2 C (i + 1) < A2 C i)%Z)) by lia. rewrite (decide_True (P := (A1 C i ≤ A1 C (i + 1))%Z)) by lia. rewrite (decide_True (P := (A2 C i ≤ A2 C (i + 1))%Z)) by lia.
    destruct (decide (A1 C i < A1 C (i + 1))%Z), (decide (A2 C i < A2 C (i + 1))%Z); done. }
  destruct (decide (A1 C (i + 1) = A1 C i)) as [F1|F1].
  - rewrite decide_False in Ec by lia. rewrite decide_True in Ec by lia. rewrite decide_False by lia. cbn [app] in Ec.
    exists [V1 (A1 C i); V2 (A2 C i); V2 (A2 C (i + 1))]. split; [|repeat constructor].
    rewrite F1 in Ec. assert (Hsame : ∀ s, s ∈ [V1 (A1 C i); V2 (A2 C i); V2 (A2 C (i + 1))] ↔ s ∈ corners C i j) by (intros s; rewrite Ec, !elem_of_cons; tauto).
    assert (Hne : z2 (A2 C i) ≠ z2 (A2 C (i + 1))) by (intros Hq; assert (A2 C i < A2 C (i + 1))%Z as Hq' by lia; apply Hz2 in Hq'; lra). split.
    + intros s Hs. apply (po_at _ _ _ _ _ _ Hpo). by apply Hsame.
    + intros k l a b t z Ha Hb Hta Htb. destruct k as [|[|[|k]]], l as [|[|[|l]]]; cbn in Ha, Hb; simplify_eq; cbn in Hta, Htb; try done; destruct Hta as [? ?], Htb as [? ?]; exfalso; try lra; apply Hne; congruence.
    + intros t z. rewrite <- (po_hull _ _ _ _ _ _ Hpo). split; apply hull_incl; intros s Hs; [apply (proj1 (Hsame s))|apply (proj2 (Hsame s))]; exact Hs.
    + exists [V1 (A1 C i); V2 (A2 C i)], [V2 (A2 C (i + 1))]. split; [done|]. unfold lineA, lineB, line. split; [|split; [|split]].
      * intros s t z Hs Ha. rewrite <- E1, <- E2. rewrite Rmax_left by lra. rewrite !elem_of_cons in Hs. destruct Hs as [-> |[-> |Hs]]; [| |by apply elem_of_nil in Hs]; cbn in Ha; destruct Ha as [-> ->]; ring.
      * intros s t z Hs Ha. rewrite <- E1', <- E2'. rewrite Rmin_left by lra. apply elem_of_list_singleton in Hs as ->. cbn in Ha. destruct Ha as [-> ->]. ring.
      * intros k a b t z t' z' Ha Hb. destruct k as [|[|k]]; cbn in Ha, Hb; simplify_eq. cbn. lra.
      * intros k a b t z t' z' Ha Hb. destruct k as [|k]; cbn in Ha, Hb; simplify_eq.
  - exists (corners C i j). split; [done|]. rewrite Ec. rewrite decide_True by lia. cbn [app]. destruct (decide (A2 C (i + 1) = A2 C i)) as [F2|F2].
    + rewrite decide_False by lia. cbn [app]. rewrite F2. repeat constructor.
    + rewrite decide_True by lia. repeat constructor.
Qed.
Lemma matching_four : length (matching_nodes a1 a2) ≤ 4.
Proof. unfold matching_nodes. cbn. repeat case_decide; cbn; lia. Qed.
End face.
