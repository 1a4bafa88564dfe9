(** C38: horizontal faces, removal of collapsed cells, renumbering. *)
From Verif Require Import Base LoopModel LoopProof UniqModel UniqSpec UniqProof UniqFind UniqLoop PrepModel HorizSpec HorizProof HorizLoop HorizEnd.
Unset Default Proof Using.

Section props.
Variables (nx ny nz : nat) (plist : list Z).
Hypothesis Hpad : padded nx ny nz plist.

(** process_horizontal_faces never leaves its arrays; it appends horizontal
    faces to the faces there are, and marks the live cells with numbers. *)
Theorem C38_horizontal junk g F0 T0 cell : holds g F0 → (∃ R, g_tag g = T0 ++ R) → length T0 = length F0 → length cell = nx * ny * nz →
  ∃ g' cell' n F, process_horizontal_faces junk nx ny nz plist g cell = Some (g', cell', n) ∧
    holds g' (F0 ++ F) ∧ (∃ R, g_tag g' = T0 ++ replicate (length F) TOP ++ R) ∧ g_nn g' = g_nn g ∧ g_np g' = g_np g ∧
    right_horizontal nx ny nz plist F ∧ numbered nx ny nz plist cell' n.
Proof using Hpad.
  intros Hh HR HT Hl. destruct (whole_ok nx ny nz plist junk Hpad g F0 T0 cell Hh HR HT Hl) as (g' & cell' & E & Hw). exists g', cell', (length (Dq nx ny nz plist (nx * ny))), (Fq nx ny nz plist (nx * ny)). split; [exact E|].
  pose proof Hw as [Hf Ht Hnn Hnp _ _ _ _]. split; [done|]. split; [done|]. split; [done|]. split; [done|]. split; [by apply Fq_right|]. by eapply winv_numbered.
Qed.

(** The renumbering keeps the set of live cells, numbers them in Cartesian
    order, and inverts the numbering in global_cell_index. *)
Theorem C38_renumber cell gci n : numbered nx ny nz plist cell n → length gci = nx * ny * nz →
  ∃ cell' gci', enumerate_cells (nx * ny * nz) cell gci = Some (cell', gci', n) ∧ enumerated nx ny nz plist cell' gci' n.
Proof using Hpad. by apply numbered_enum. Qed.

(** The neighbours of the faces become local cells; nothing else changes. *)
Theorem C38_neighbours cell gci n g F : enumerated nx ny nz plist cell gci n → holds g F →
  (∀ x, x ∈ F → (fc_a x = (-1)%Z ∨ ∃ i j k, live nx ny nz plist i j k ∧ fc_a x = cid nx ny i j k) ∧ (fc_b x = (-1)%Z ∨ ∃ i j k, live nx ny nz plist i j k ∧ fc_b x = cid nx ny i j k)) →
  ∃ nbr F', remap (g_nf g) cell (g_nbr g) = Some nbr ∧ holds (PGrid (g_m g) (g_n g) nbr (g_nodes g) (g_ptr g) (g_tag g) (g_nf g) (g_its g) (g_nn g) (g_np g)) F' ∧ Forall2 (relabelled n gci) F F'.
Proof. apply remap_holds. Qed.
End props.
Print Assumptions C38_horizontal.
Print Assumptions C38_renumber.
Print Assumptions C38_neighbours.

(** ** The input comes from finduniquepoints *)
Section found.
Context {V : Type} (lt : V → V → Prop) (shift : V → V) (interp : list V → V → V * V).
Variables (nx ny nz : nat) (coord zcorn : list V) (actnum : list Z) (u : upoints (V := V)) (P : list (list V)).
Hypothesis Hin : input_sizes nx ny nz coord zcorn actnum.
Hypothesis HP : right_numbering lt shift interp nx ny nz coord zcorn actnum P u.

Lemma active_dec i j k : corner nx ny nz i j k → active nx nz actnum i j k ∨ ¬ active nx nz actnum i j k.
Proof using Hin.
  intros (Hi & Hj & Hk). unfold active. destruct (actnum !! (nz * (i / 2 + nx * (j / 2)) + k / 2)) as [a|] eqn:E; [|right; intros (a & ? & _); done].
  destruct (decide (a = 0%Z)) as [->|]; [right; intros (a & ? & ?); simplify_eq|left; by exists a].
Qed.
Lemma depth_some i j k : corner nx ny nz i j k → ∃ z, depth nx nz zcorn i j k z.
Proof using Hin. intros (Hi & Hj & Hk). apply lookup_lt_is_Some_2. rewrite (is_zcorn _ _ _ _ _ _ Hin). assert (i + 2 * nx * j + 1 ≤ 2 * nx * (2 * ny)) by nia. nia. Qed.
(** A number is INT_MIN or the number of a point. *)
Lemma number_range i j k : corner nx ny nz i j k → ∃ v, number nx nz (u_plist u) i j k v ∧ (v = int_min ∨ (0 ≤ v < Z.of_nat (u_num u))%Z).
Proof using Hin HP.
  induction k as [|k IH]; intros Hc.
  - destruct (active_dec i j 0 Hc) as [Ha|Ha].
    + destruct (depth_some i j 0 Hc) as [z Hz]. destruct (rn_active _ _ _ _ _ _ _ _ _ _ _ HP i j 0 z Hc Ha Hz) as (L & v & n & HL & Hv & -> & (k' & z' & _ & _ & _ & ((y & Hy & _) & _)) & _). eexists. split; [done|]. right. rewrite (rn_num _ _ _ _ _ _ _ _ _ _ _ HP).
      assert (length (concat (take (pillar nx i j) P)) + n < length (concat P)). { rewrite <- (take_drop_middle P _ L HL) at 2. rewrite concat_app, app_length. cbn [concat]. rewrite app_length. apply lookup_lt_Some in Hy. lia. } lia.
    + destruct (rn_inactive _ _ _ _ _ _ _ _ _ _ _ HP i j 0 Hc Ha) as (v & Hv & Hv'). exists v. split; [done|]. left. destruct Hc as (Hi & Hj & _). rewrite Nat.add_0_r, (proj1 (rn_pad _ _ _ _ _ _ _ _ _ _ _ HP i j Hi Hj)) in Hv'. congruence.
  - destruct (active_dec i j (S k) Hc) as [Ha|Ha].
    + destruct (depth_some i j (S k) Hc) as [z Hz]. destruct (rn_active _ _ _ _ _ _ _ _ _ _ _ HP i j (S k) z Hc Ha Hz) as (L & v & n & HL & Hv & -> & (k' & z' & _ & _ & _ & ((y & Hy & _) & _)) & _). eexists. split; [done|]. right. rewrite (rn_num _ _ _ _ _ _ _ _ _ _ _ HP).
      assert (length (concat (take (pillar nx i j) P)) + n < length (concat P)). { rewrite <- (take_drop_middle P _ L HL) at 2. rewrite concat_app, app_length. cbn [concat]. rewrite app_length. apply lookup_lt_Some in Hy. lia. } lia.
    + destruct (rn_inactive _ _ _ _ _ _ _ _ _ _ _ HP i j (S k) Hc Ha) as (v & Hv & Hv'). exists v. split; [done|]. destruct IH as (w & Hw & Hr); [destruct Hc as (? & ? & ?); split_and!; try done; lia|]. unfold number in Hw. rewrite <- Nat.add_assoc in Hw. change (1 + k) with (S k) in Hw. rewrite Hw in Hv'. by injection Hv' as <-.
Qed.

(** What finduniquepoints makes is the input C38_horizontal asks for, unless
    there are so many points that INT_MAX is the number of one. *)
Theorem C38_padded : length (u_plist u) = 8 * (nx * ny * nz + nx * ny) → (Z.of_nat (u_num u) ≤ int_max)%Z → padded nx ny nz (u_plist u).
Proof using Hin HP.
  intros Hl Hnum. split.
  - done.
  - intros i j Hi Hj. exact (proj2 (rn_pad _ _ _ _ _ _ _ _ _ _ _ HP i j Hi Hj)).
  - intros i j Hi Hj E. destruct nz as [|nz'] eqn:Ez.
    + cbn in E. rewrite Nat.add_0_r in E. pose proof (proj1 (rn_pad _ _ _ _ _ _ _ _ _ _ _ HP i j Hi Hj)) as E'. cbn in E'. rewrite E' in E. done.
    + rewrite <- Ez in *. destruct (number_range i j (2 * nz - 1)) as (v & Hv & Hr); [split_and!; try done; lia|]. unfold number in Hv. rewrite <- Nat.add_assoc in Hv. replace (1 + (2 * nz - 1)) with (2 * nz) in Hv by lia. rewrite E in Hv. injection Hv as <-. unfold int_max, int_min in *. lia.
Qed.

(** Cells that are not active are not live. *)
Theorem C38_inactive i j k : in_grid nx ny nz i j k → ¬ active nx nz actnum (2 * i) (2 * j) (2 * k) → ¬ live nx ny nz (u_plist u) i j k.
Proof using HP.
  intros (Hi & Hj & Hk) Hna (_ & q & q' & Hq & Hq' & Hne). apply Hne.
  destruct Hq as (v0 & v1 & v2 & v3 & E0 & E1 & E2 & E3 & ->), Hq' as (w0 & w1 & w2 & w3 & G0 & G1 & G2 & G3 & ->).
  assert (Hh : ∀ a, a < 2 → ∀ b, (2 * b + a) / 2 = b) by (intros a Ha b; rewrite (Nat.mul_comm 2), Nat.div_add_l by lia; rewrite (Nat.div_small a 2); lia).
  assert (H : ∀ a b v w, a < 2 → b < 2 → number nx nz (u_plist u) (2 * i + a) (2 * j + b) (2 * k) v → number nx nz (u_plist u) (2 * i + a) (2 * j + b) (2 * k + 1) w → v = w).
  { intros a b v w Ha Hb Hv Hw. destruct (rn_inactive _ _ _ _ _ _ _ _ _ _ _ HP (2 * i + a) (2 * j + b) (2 * k + 1)) as (x & Hx & Hx').
    - split_and!; lia.
    - unfold active in *. rewrite !Hh by lia. pose proof (Hh 0 ltac:(lia)) as H0. rewrite <- (Nat.add_0_r (2 * i)), <- (Nat.add_0_r (2 * j)), <- (Nat.add_0_r (2 * k)), !H0 in Hna. done.
    - unfold number in *. rewrite Hx in Hw. injection Hw as <-. rewrite Nat.add_assoc, (Nat.add_comm _ 1), Nat.add_assoc, (Nat.add_comm 1) in Hx'. rewrite Hv in Hx'. by injection Hx' as <-. }
  rewrite <- (Nat.add_0_r (2 * i)) in E0, E3, G0, G3. rewrite <- (Nat.add_0_r (2 * j)) in E0, E1, G0, G1.
  rewrite (H 0 0 v0 w0), (H 1 0 v1 w1), (H 1 1 v2 w2), (H 0 1 v3 w3) by (done || lia). done.
Qed.
End found.
Print Assumptions C38_padded.
Print Assumptions C38_inactive.

(** ** A case: two columns of three cells, the middle ones collapsed; in the
    first the other two touch, in the second they do not. *)
Module Case.
  (* numbers of the four pillars: rows of levels of the columns of corners, of
     the cells i = 0, 1 *)
  Definition col0 (b : Z) : list Z := [int_min; b; b + 1; b + 1; b + 1; b + 1; b + 2; int_max]%Z.
  Definition col1 (b : Z) : list Z := [int_min; b; b + 1; b + 2; b + 2; b + 3; b + 4; int_max]%Z.
  Definition plist : list Z := col0 0 ++ col0 10 ++ col1 20 ++ col1 30 ++ col0 40 ++ col0 50 ++ col1 60 ++ col1 70.
  Definition start : pgrid := PGrid 21 64 (replicate 64 7%Z) (replicate 64 7%Z) (0 :: replicate 21 5) (replicate 21 LEFT) 0 (replicate 64 7%Z) 80 80.
  Example hyp : padded 2 1 3 plist.
  Proof.
    split; [done|..].
    - intros i j Hi Hj. destruct i as [|[|[|[|]]]]; try lia; destruct j as [|[|]]; try lia; done.
    - intros i j Hi Hj. destruct i as [|[|[|[|]]]]; try lia; destruct j as [|[|]]; try lia; done.
  Qed.
  Example hyp2 : holds start [].
  Proof. split; cbn; try done; try lia; [by eexists|by eexists|intros k ?; by replace k with 0 by lia]. Qed.
  Example run : match process_horizontal_faces 0 2 1 3 plist start (replicate 6 9%Z) with
    | Some (g, cell, n) => Some (g_nf g, take (2 * g_nf g) (g_nbr g), cell, n)
    | None => None end = Some (7, [-1; 0; 0; 4; 4; -1; -1; 1; 1; -1; -1; 5; 5; -1]%Z, [0; 2; -1; -1; 1; 3]%Z, 4).
  Proof. vm_compute. done. Qed.
  Example live0 : live 2 1 3 plist 0 0 0.
  Proof. split; [unfold in_grid; lia|]. exists [0; 10; 50; 40]%Z, [1; 11; 51; 41]%Z. split; [by exists 0%Z, 10%Z, 50%Z, 40%Z|]. split; [by exists 1%Z, 11%Z, 51%Z, 41%Z|done]. Qed.
End Case.
