(** C15, C16: the transport sequence and the reordered cell-by-cell solution
    (opm/core/transport/reorder). *)
From stdpp Require Import relations.
From Verif Require Import Base CsrSpec CsrProof GridModel GridSpec DfsProof DfsProps TarjanModel TarjanProof TarjanProps
  ReorderModel ReorderProof.

(** What is known about the fluxes: the sign tests are exclusive, and negation
    swaps them.  True of doubles (including NaN) and of real numbers. *)
Definition sign_laws {F} (fpos fneg : F → bool) (fopp : F → F) : Prop :=
  (∀ x, fpos (fopp x) = fneg x) ∧ (∀ x, fneg (fopp x) = fpos x) ∧ (∀ x, fpos x = true → fneg x = false).

(** Fluid flows from cell [a] directly to cell [b]: through some face between
    them, along its orientation if the flux is positive, against it if it is
    negative. *)
Definition flows {F} (fpos fneg : F → bool) (g : ugrid) (flux : list F) (a b : nat) : Prop :=
  ∃ f x, flux !! f = Some x ∧
    ((face_between g f (Z.of_nat a) (Z.of_nat b) ∧ fpos x = true) ∨
     (face_between g f (Z.of_nat b) (Z.of_nat a) ∧ fneg x = true)).

Lemma rtc_flip {A} (R Q : A → A → Prop) : (∀ x y, R x y → Q y x) → ∀ x y, rtc R x y → rtc Q y x.
Proof. intros H x y. induction 1 as [|x y z Hxy _ IH]; [done|]. eapply rtc_r; [done|]. by apply H. Qed.

Section seq.
Context {F : Type} (fpos fneg : F → bool) (fopp : F → F).
Notation flows := (flows fpos fneg).

(** The sequence is a permutation of the cells divided into components, which
    are exactly the sets of cells that fluid can go around in; and fluid never
    goes from a component to an earlier one. *)
Theorem C15_sequence g cf flux :
  sign_laws fpos fneg fopp → grid_ok g cf → length flux = u_nf g → 0 < u_nc g →
  ∃ m sequence components ncomp comps,
    (∀ fuel, m ≤ fuel → compute_sequence fpos fneg fopp g flux fuel = Some (sequence, components, ncomp)) ∧
    length comps = ncomp ∧ holds_rows (take (S ncomp) components) sequence comps ∧
    sequence ≡ₚ seq 0 (u_nc g) ∧ (∀ C, C ∈ comps → C ≠ []) ∧
    (∀ C u, C ∈ comps → u ∈ C → ∀ w, w ∈ C ↔ rtc (flows g flux) u w ∧ rtc (flows g flux) w u) ∧
    (∀ i j Ci Cj u v, comps !! i = Some Ci → comps !! j = Some Cj → u ∈ Ci → v ∈ Cj → flows g flux u v → i ≤ j).
Proof.
  intros (L1 & L2 & L3) Hg Hf Hnc. unfold compute_sequence.
  destruct (make_upwind_graph_ok fpos fneg fopp L1 L2 L3 g cf flux Hg Hf
     (replicate (S (u_nc g)) 0) (replicate (u_nf g) 0) (replicate (u_nf g `max` (3 * u_nc g)) 0))
    as (ia & ja & rows & E & Hlen & Hreads & Hedge); try by rewrite replicate_length.
  assert (Hedge' : ∀ u v, edge rows u v ↔ flows g flux v u).
  { intros u v. rewrite Hedge. unfold flows, flows_via. naive_solver. }
  assert (Hrtc : ∀ u v, rtc (edge rows) u v ↔ rtc (flows g flux) v u).
  { intros u v. split; apply rtc_flip; intros x y; apply Hedge'. }
  destruct (C14_reads rows ia ja Hreads) as (m & vert & comp & ncomp & comps & Hrun & Hl & Hlc & Hh & Hp & Hne & Hscc & Hord).
  { intros u v He. apply Hedge' in He as (f & x & _ & H). rewrite Hlen.
    destruct H as [[H _]|[H _]]; apply (ok_range _ _ Hg) in H; lia. }
  rewrite Hlen in *.
  assert (Hn : length vert = length (concat comps)) by (destruct (holds_rows_unique _ _ _ Hh) as [_ ->]; done).
  rewrite Hp, seq_length in Hn.
  assert (ncomp ≤ u_nc g). { rewrite Hn, <- Hlc. by apply comps_length. }
  assert (ncomp ≠ 0). { intros ->. destruct comps; [simpl in Hn; lia|done]. }
  exists m, vert, comp, ncomp, comps. split_and!; try done.
  - intros fuel Hfuel. rewrite E. cbn [mbind option_bind]. rewrite (Hrun fuel Hfuel). cbn [mbind option_bind].
    by rewrite decide_True by lia.
  - intros C u HC Hu w. rewrite (Hscc C u HC Hu w). unfold mutual. rewrite !Hrtc. naive_solver.
  - intros i j Ci Cj u v Hi Hj Hu Hv Hfl. apply (Hord j i Cj Ci v u); try done. by apply Hedge'.
Qed.

(** Without cycles each component is one cell, and a cell comes strictly after
    all cells that flow into it. *)
Theorem C15_acyclic g cf flux :
  sign_laws fpos fneg fopp → grid_ok g cf → length flux = u_nf g → 0 < u_nc g →
  (∀ u v, rtc (flows g flux) u v → rtc (flows g flux) v u → u = v) →
  ∃ m sequence,
    (∀ fuel, m ≤ fuel → compute_sequence fpos fneg fopp g flux fuel
                        = Some (sequence, seq 0 (S (u_nc g)), u_nc g)) ∧
    sequence ≡ₚ seq 0 (u_nc g) ∧
    (∀ i j u v, sequence !! i = Some u → sequence !! j = Some v → flows g flux u v → i < j).
Proof.
  intros Hlaws Hg Hf Hnc Hac. pose proof Hlaws as (L1 & L2 & L3). unfold compute_sequence.
  destruct (make_upwind_graph_ok fpos fneg fopp L1 L2 L3 g cf flux Hg Hf
     (replicate (S (u_nc g)) 0) (replicate (u_nf g) 0) (replicate (u_nf g `max` (3 * u_nc g)) 0))
    as (ia & ja & rows & E & Hlen & Hreads & Hedge); try by rewrite replicate_length.
  assert (Hedge' : ∀ u v, edge rows u v ↔ flows g flux v u).
  { intros u v. rewrite Hedge. unfold flows, flows_via. naive_solver. }
  assert (Hrtc : ∀ u v, rtc (edge rows) u v ↔ rtc (flows g flux) v u).
  { intros u v. split; apply rtc_flip; intros x y; apply Hedge'. }
  destruct (C14_acyclic rows ia ja Hreads) as (m & vert & comp & Hrun & -> & Hp & Hord).
  { intros u v He. apply Hedge' in He as (f & x & _ & H). rewrite Hlen.
    destruct H as [[H _]|[H _]]; apply (ok_range _ _ Hg) in H; lia. }
  { intros u v [H1 H2]. apply Hrtc in H1. apply Hrtc in H2. by apply Hac. }
  rewrite Hlen in *. exists m, vert. split_and!; [|done|].
  - intros fuel Hfuel. rewrite E. cbn [mbind option_bind]. rewrite (Hrun fuel Hfuel). cbn [mbind option_bind].
    by rewrite decide_True by lia.
  - intros i j u v Hi Hj Hfl. pose proof (Hord j i v u Hj Hi (proj2 (Hedge' v u) Hfl)).
    destruct (decide (i = j)) as [->|]; [|lia]. exfalso. rewrite Hi in Hj. simplify_eq.
    destruct Hfl as (f & x & _ & H'). destruct H' as [[H' _]|[H' _]]; apply (ok_range _ _ Hg) in H'; lia.
Qed.

(** One call of the single cell solver for each component of one cell, one call
    of the multi cell solver with all its cells for each other component. *)
Fixpoint calls {S'} (single : nat → S' → option S') (multi : list nat → S' → option S') (comps : list (list nat)) (s : S') : option S' :=
  match comps with
  | [] => Some s
  | C :: comps => s ← match C with [c] => single c s | _ => multi C s end; calls single multi comps s
  end.
(** For any solvers and any flow, also with circulation: the components of the
    flow are visited once each, in an order that follows the flow. *)
Theorem C16_components {S'} (single : nat → S' → option S') multi g cf flux :
  sign_laws fpos fneg fopp → grid_ok g cf → length flux = u_nf g → 0 < u_nc g →
  ∃ m comps,
    (∀ fuel s, m ≤ fuel → reorder_and_transport fpos fneg fopp g flux single multi fuel s = calls single multi comps s) ∧
    concat comps ≡ₚ seq 0 (u_nc g) ∧ (∀ C, C ∈ comps → C ≠ []) ∧
    (∀ C u, C ∈ comps → u ∈ C → ∀ w, w ∈ C ↔ rtc (flows g flux) u w ∧ rtc (flows g flux) w u) ∧
    (∀ i j Ci Cj u v, comps !! i = Some Ci → comps !! j = Some Cj → u ∈ Ci → v ∈ Cj → flows g flux u v → i ≤ j).
Proof.
  intros Hlaws Hg Hf Hnc.
  destruct (C15_sequence g cf flux Hlaws Hg Hf Hnc) as (m & vert & comp & ncomp & comps & Hrun & Hl & Hh & Hp & Hne & Hscc & Hord).
  exists m, comps. destruct (holds_rows_unique _ _ _ Hh) as [_ Hv]. split_and!; [|by rewrite <- Hv|done..].
  intros fuel s Hfuel. unfold reorder_and_transport. rewrite (Hrun fuel Hfuel). cbn [mbind option_bind].
  replace (ncomp + 1) with (S ncomp) by lia.
  assert (G : ∀ n k s, k + n = length comps → components_loop single multi n k vert (take (S ncomp) comp) s = calls single multi (drop k comps) s).
  { induction n as [|n IH]; intros k s' Hk; [by rewrite drop_ge by lia|]. cbn [components_loop].
    destruct (lookup_lt_is_Some_2 comps k) as [C HC]; [lia|].
    destruct (proj2 (proj2 (proj2 Hh)) k C HC) as (b & e & Hb & He & Hbe & Hsl).
    rewrite Hb. replace (k + 1) with (S k) by lia. rewrite He. cbn [mbind option_bind].
    rewrite (drop_S _ _ _ HC). cbn [calls].
    assert (E : (if decide (e - b = 1) then c ← vert !! b; single c s' else cs ← slice vert b (e - b); multi cs s')
      = match C with [c] => single c s' | _ => multi C s' end).
    { pose proof (slice_length _ _ _ _ Hsl) as HlC. destruct (decide (e - b = 1)) as [H1|H1].
      - destruct C as [|c [|? ?]]; simpl in HlC; [lia| |lia].
        pose proof (slice_lookup _ _ _ _ 0 Hsl ltac:(lia)) as H0. rewrite Nat.add_0_r in H0. by rewrite H0.
      - rewrite Hsl. cbn [mbind option_bind]. destruct C as [|c [|? ?]]; simpl in HlC; [done|lia|done]. }
    rewrite E. destruct (match C with [c] => single c s' | _ => multi C s' end); [|done]. cbn [mbind option_bind]. apply IH. lia. }
  rewrite (G ncomp 0 s) by lia. done.
Qed.

(** Induction along the flow. *)
Lemma upwind_induction g cf flux (Q : nat → Prop) :
  sign_laws fpos fneg fopp → grid_ok g cf → length flux = u_nf g →
  (∀ u v, rtc (flows g flux) u v → rtc (flows g flux) v u → u = v) →
  (∀ c, c < u_nc g → (∀ u, u < u_nc g → flows g flux u c → Q u) → Q c) → ∀ c, c < u_nc g → Q c.
Proof.
  intros Hlaws Hg Hf Hac HQ c Hc.
  destruct (C15_acyclic g cf flux Hlaws Hg Hf ltac:(lia) Hac) as (_ & sequence & _ & Hp & Hord).
  assert (G : ∀ n i c, i < n → sequence !! i = Some c → Q c).
  { induction n as [|n IH]; intros i c' Hi Hc'; [lia|].
    assert (Hin : c' ∈ sequence) by (by eapply elem_of_list_lookup_2). rewrite Hp in Hin. apply elem_of_seq in Hin.
    apply HQ; [lia|]. intros u Hul Hu.
    assert (Huin : u ∈ sequence). { rewrite Hp. apply elem_of_seq. lia. }
    apply elem_of_list_lookup in Huin as [j Hj]. pose proof (Hord j i u c' Hj Hc' Hu).
    apply (IH j); [lia|done]. }
  assert (Hin : c ∈ sequence). { rewrite Hp. apply elem_of_seq. lia. }
  apply elem_of_list_lookup in Hin as [i Hi]. by apply (G (S i) i); [lia|].
Qed.

(** ** The reordered solution *)
Section solve.
Context {V : Type} (solve : nat → list V → option V).
(** The single cell solver stores a new value for its cell. *)
Definition solve_cell (c : nat) (x : list V) : option (list V) := v ← solve c x; upd x c v.

Variables (g : ugrid) (cf : list (list nat)) (flux : list F) (multi : list nat → list V → option (list V)).

(** A solver that reads nothing but the values of its own cell and of the cells
    that flow into it. *)
Definition reads_upwind : Prop := ∀ c x y, c < u_nc g → length x = u_nc g → length y = u_nc g →
  x !! c = y !! c → (∀ u, flows g flux u c → x !! u = y !! u) → solve c x = solve c y.
Definition never_fails : Prop := ∀ c x, c < u_nc g → length x = u_nc g → is_Some (solve c x).

Lemma loop_ok sequence x0 :
  reads_upwind → never_fails → length x0 = u_nc g → sequence ≡ₚ seq 0 (u_nc g) →
  (∀ i j u v, sequence !! i = Some u → sequence !! j = Some v → flows g flux u v → i < j) →
  (∀ a, ¬ flows g flux a a) →
  ∀ n k x, k + n = u_nc g → length x = u_nc g →
    (∀ i c v0, i < k → sequence !! i = Some c → x0 !! c = Some v0 → ∃ v, x !! c = Some v ∧ solve c (<[c:=v0]> x) = Some v) →
    (∀ i c, k ≤ i → sequence !! i = Some c → x !! c = x0 !! c) →
    ∃ x', components_loop solve_cell multi n k sequence (seq 0 (S (u_nc g))) x = Some x' ∧ length x' = u_nc g ∧
      (∀ i c v0, i < u_nc g → sequence !! i = Some c → x0 !! c = Some v0 → ∃ v, x' !! c = Some v ∧ solve c (<[c:=v0]> x') = Some v).
Proof.
  intros Hup Hnf Hl0 Hp Hord Hirr. assert (Hlen : length sequence = u_nc g) by (rewrite Hp; apply seq_length).
  assert (Hin : ∀ c, c < u_nc g → ∃ i, sequence !! i = Some c).
  { intros c Hc. apply elem_of_list_lookup. rewrite Hp. apply elem_of_seq. lia. }
  assert (Hlt : ∀ i c, sequence !! i = Some c → c < u_nc g).
  { intros i c Hi. apply elem_of_list_lookup_2 in Hi. rewrite Hp in Hi. apply elem_of_seq in Hi. lia. }
  assert (Hnd : NoDup sequence) by (rewrite Hp; apply NoDup_seq).
  induction n as [|n IH]; intros k x Hk Hlx Hdone Htodo.
  - assert (k = u_nc g) as -> by lia. exists x. done.
  - cbn [components_loop].
    rewrite (lookup_seq_lt 0 (S (u_nc g)) k), (lookup_seq_lt 0 (S (u_nc g)) (k + 1)) by lia.
    cbn [mbind option_bind]. rewrite decide_True by lia.
    destruct (lookup_lt_is_Some_2 sequence k) as [c Hc]; [lia|]. simpl. rewrite Hc. cbn [mbind option_bind].
    pose proof (Hlt k c Hc) as Hcl. destruct (Hnf c x Hcl Hlx) as [v Hv].
    assert (Esc : solve_cell c x = Some (<[c:=v]> x)).
    { unfold solve_cell. rewrite Hv. cbn [mbind option_bind]. by rewrite upd_Some by lia. }
    rewrite Esc. cbn [mbind option_bind]. apply IH.
    + lia.
    + by rewrite insert_length.
    + intros i c' v0 Hi Hc' Hv0. destruct (decide (i = k)) as [->|Hne].
      * rewrite Hc in Hc'. simplify_eq. exists v. split; [apply list_lookup_insert; lia|].
        rewrite list_insert_insert. rewrite list_insert_id; [done|]. by rewrite (Htodo k c' ltac:(lia) Hc).
      * assert (Hcc : c' ≠ c). { intros ->. apply Hne. by eapply NoDup_lookup. }
        destruct (Hdone i c' v0 ltac:(lia) Hc' Hv0) as (v' & Hv' & Hs'). exists v'. split.
        -- by rewrite list_lookup_insert_ne.
        -- rewrite <- Hs'. pose proof (Hlt _ _ Hc'). apply Hup; [done|by rewrite !insert_length|by rewrite !insert_length| |].
           ++ rewrite !list_lookup_insert by (rewrite ?insert_length; lia). done.
           ++ intros u Hu. destruct (decide (u = c')) as [->|Huc]; [by apply Hirr in Hu|].
              rewrite !(list_lookup_insert_ne _ c') by done.
              rewrite list_lookup_insert_ne; [done|]. intros <-.
              pose proof (Hord k i c c' Hc Hc' Hu). lia.
    + intros i c' Hi Hc'. rewrite list_lookup_insert_ne; [by apply (Htodo i); [lia|]|].
      intros ->. assert (i = k) by (by eapply NoDup_lookup). lia.
Qed.

(** When fluid does not go around in circles, the loop leaves every cell
    satisfying its local equation with the final values of all cells that flow
    into it (and the initial value of the cell itself, where that is read). *)
Theorem C16_general x0 :
  sign_laws fpos fneg fopp → grid_ok g cf → length flux = u_nf g → 0 < u_nc g →
  (∀ u v, rtc (flows g flux) u v → rtc (flows g flux) v u → u = v) →
  reads_upwind → never_fails → length x0 = u_nc g →
  ∃ m x, (∀ fuel, m ≤ fuel → reorder_and_transport fpos fneg fopp g flux solve_cell multi fuel x0 = Some x) ∧
    length x = u_nc g ∧
    ∀ c v0, x0 !! c = Some v0 → ∃ v, x !! c = Some v ∧ solve c (<[c:=v0]> x) = Some v.
Proof.
  intros Hlaws Hg Hf Hnc Hac Hup Hnf Hl0.
  destruct (C15_acyclic g cf flux Hlaws Hg Hf Hnc Hac) as (m & sequence & Hrun & Hp & Hord).
  destruct (loop_ok sequence x0 Hup Hnf Hl0 Hp Hord) with (n := u_nc g) (k := 0) (x := x0)
    as (x & Hx & Hlx & Hsol); try done.
  { intros a (f & x & _ & H). destruct H as [[H _]|[H _]]; apply (ok_range _ _ Hg) in H; lia. }
  { intros i c v0 Hi. lia. }
  exists m, x. split_and!; [|done|].
  - intros fuel Hfuel. unfold reorder_and_transport. rewrite (Hrun fuel Hfuel). cbn [mbind option_bind].
    rewrite take_ge by (rewrite seq_length; lia). done.
  - intros c v0 Hc. assert (Hin : c ∈ sequence).
    { rewrite Hp. apply elem_of_seq. apply lookup_lt_Some in Hc. lia. }
    apply elem_of_list_lookup in Hin as [i Hi]. apply (Hsol i c v0); [|done|done].
    apply lookup_lt_Some in Hi. rewrite Hp, seq_length in Hi. done.
Qed.

(** Solvers that do not read the old value of their own cell: all local
    equations hold at the end, and the result is the only solution of the
    coupled system, whatever the initial values. *)
Theorem C16_solves x0 :
  sign_laws fpos fneg fopp → grid_ok g cf → length flux = u_nf g → 0 < u_nc g →
  (∀ u v, rtc (flows g flux) u v → rtc (flows g flux) v u → u = v) →
  (∀ c x y, c < u_nc g → length x = u_nc g → length y = u_nc g →
     (∀ u, flows g flux u c → x !! u = y !! u) → solve c x = solve c y) →
  never_fails → length x0 = u_nc g →
  ∃ m x, (∀ fuel, m ≤ fuel → reorder_and_transport fpos fneg fopp g flux solve_cell multi fuel x0 = Some x) ∧
    length x = u_nc g ∧
    (∀ c, c < u_nc g → solve c x = x !! c) ∧
    (∀ y, length y = u_nc g → (∀ c, c < u_nc g → solve c y = y !! c) → y = x).
Proof.
  intros Hlaws Hg Hf Hnc Hac Hup Hnf Hl0.
  destruct (C16_general x0) as (m & x & Hrun & Hl & Hsol); try done.
  { intros c a b Hc Ha Hb _ H. by apply Hup. }
  assert (Hirr : ∀ a, ¬ flows g flux a a).
  { intros a (f & z & _ & H). destruct H as [[H _]|[H _]]; apply (ok_range _ _ Hg) in H; lia. }
  assert (Heq : ∀ c, c < u_nc g → solve c x = x !! c).
  { intros c Hc. destruct (lookup_lt_is_Some_2 x0 c) as [v0 Hv0]; [lia|].
    destruct (Hsol c v0 Hv0) as (v & Hv & Hs). rewrite Hv, <- Hs. apply Hup; [done|done|by rewrite insert_length|].
    intros u Hu. rewrite list_lookup_insert_ne; [done|]. intros ->. by apply Hirr in Hu. }
  exists m, x. split_and!; [done|done|done|]. intros y Hly Hy.
  destruct (C15_acyclic g cf flux Hlaws Hg Hf Hnc Hac) as (_ & sequence & _ & Hp & Hord).
  assert (Hlt : ∀ i c, sequence !! i = Some c → c < u_nc g).
  { intros i c Hi. apply elem_of_list_lookup_2 in Hi. rewrite Hp in Hi. apply elem_of_seq in Hi. lia. }
  assert (G : ∀ n i c, i < n → sequence !! i = Some c → y !! c = x !! c).
  { induction n as [|n IH]; intros i c Hi Hc; [lia|].
    pose proof (Hlt i c Hc). rewrite <- (Hy c) by done. rewrite <- Heq by done.
    apply Hup; [done|done|done|]. intros u Hu.
    assert (Hul : u < u_nc g). { destruct Hu as (f & z & _ & H'). destruct H' as [[H' _]|[H' _]]; apply (ok_range _ _ Hg) in H'; lia. }
    assert (Huin : u ∈ sequence). { rewrite Hp. apply elem_of_seq. lia. }
    apply elem_of_list_lookup in Huin as [j Hj]. pose proof (Hord j i u c Hj Hc Hu).
    apply (IH j); [lia|done]. }
  apply list_eq. intros c. destruct (decide (c < u_nc g)) as [Hc|Hc].
  - assert (Hin : c ∈ sequence). { rewrite Hp. apply elem_of_seq. lia. }
    apply elem_of_list_lookup in Hin as [i Hi]. apply (G (S i) i); [lia|done].
  - rewrite !lookup_ge_None_2 by lia. done.
Qed.
End solve.
End seq.
Print Assumptions C15_sequence.
Print Assumptions C15_acyclic.
Print Assumptions C16_components.
Print Assumptions C16_general.
Print Assumptions C16_solves.

(** ** Non-vacuity *)
(** What the code can see of a double. *)
Inductive fsign := Pos | Neg | Zero | Nan.
Definition s_pos x := match x with Pos => true | _ => false end.
Definition s_neg x := match x with Neg => true | _ => false end.
Definition s_opp x := match x with Pos => Neg | Neg => Pos | x => x end.
Lemma sign_laws_double : sign_laws s_pos s_neg s_opp.
Proof. split_and!; by intros []. Qed.

(** Three cells in a ring, 0 - 1 - 2, with the third face from 2 to 0 and two
    boundary faces. *)
Definition ring_cf : list (list nat) := [[3;0;2];[0;1];[1;4;2]].
Definition ring : ugrid := UGrid 3 5 [0;3;5;8] [3;0;2; 0;1; 1;4;2] [0;1; 1;2; 2;0; -1;0; 2;-1]%Z.
Lemma ring_ok : grid_ok ring ring_cf.
Proof.
  assert (Hf : ∀ f a b, face_between ring f a b → f < 5).
  { intros f a b [_ H]. apply lookup_lt_Some in H. simpl in H. lia. }
  split.
  - done.
  - apply (starts_holds ring_cf).
  - done.
  - intros f a b H. pose proof (Hf _ _ _ H). destruct H as [H1 H2].
    do 5 (destruct f as [|f]; [vm_compute in H1, H2; simplify_eq; simpl; lia|]). lia.
  - intros i r Hi. do 3 (destruct i as [|i]; [simplify_eq/=; by apply (bool_decide_unpack _)|]). done.
  - intros i r f Hi. split.
    + intros H. do 3 (destruct i as [|i]; [simplify_eq/=;
        repeat (apply elem_of_cons in H as [->|H]; [eexists _, _; split; [split; done|simpl; lia]|]); by apply elem_of_nil in H|]). done.
    + intros (a & b & H & Hab). pose proof (Hf _ _ _ H). destruct H as [H1 H2].
      do 5 (destruct f as [|f]; [vm_compute in H1, H2; simplify_eq;
        do 3 (destruct i as [|i]; [simplify_eq/=; try lia; by apply (bool_decide_unpack _)|]); done|]). lia.
Qed.
(** A cyclic flow: one component of three cells. *)
Example C15_example_cycle :
  grid_ok ring ring_cf ∧
  compute_sequence s_pos s_neg s_opp ring [Pos;Pos;Pos;Pos;Pos] 40 = Some ([1;2;0], [0;3;2;0], 1).
Proof. split; [apply ring_ok|vm_compute; done]. Qed.
(** An acyclic flow, 2 -> 1 -> 0 and 2 -> 0. *)
Example C15_example_acyclic :
  (∀ u v, rtc (flows s_pos s_neg ring [Neg;Neg;Pos;Zero;Nan]) u v →
          rtc (flows s_pos s_neg ring [Neg;Neg;Pos;Zero;Nan]) v u → u = v) ∧
  compute_sequence s_pos s_neg s_opp ring [Neg;Neg;Pos;Zero;Nan] 40 = Some ([2;1;0], [0;1;2;3], 3).
Proof.
  split; [|vm_compute; done].
  assert (G : ∀ u v, flows s_pos s_neg ring [Neg;Neg;Pos;Zero;Nan] u v → v ≤ u).
  { intros u v (f & x & Hx & H). do 5 (destruct f as [|f]; [simplify_eq/=;
      destruct H as [[[H1 H2] H]|[[H1 H2] H]]; vm_compute in H; try discriminate H; cbn in H1, H2; injection H1 as H1; injection H2 as H2; lia|]). done. }
  assert (G' : ∀ u v, rtc (flows s_pos s_neg ring [Neg;Neg;Pos;Zero;Nan]) u v → v ≤ u).
  { intros u v. induction 1 as [|a b c H _ IH]; [lia|]. apply G in H. lia. }
  intros u v H1 H2. apply G' in H1. apply G' in H2. lia.
Qed.
(** An empty grid fails the assertion at reordersequence.cpp:117. *)
Example C15_example_empty :
  compute_sequence s_pos s_neg s_opp (UGrid 0 0 [0] [] []) [] 40 = None.
Proof. vm_compute. done. Qed.
(** A local solver: one more than the largest value flowing in over a face. *)
Definition longest (flux : list fsign) (c : nat) (x : list nat) : option nat :=
  fs ← ring_cf !! c;
  Some (foldr (λ f acc,
     match u_facecells ring !! (2 * f), u_facecells ring !! (2 * f + 1), flux !! f with
     | Some a, Some b, Some s =>
       let u := if decide (b = Z.of_nat c) then a else b in
       let inflow := if decide (b = Z.of_nat c) then s_pos s else s_neg s in
       if inflow && bool_decide (0 ≤ u)%Z then Nat.max acc (S (default 0 (x !! Z.to_nat u))) else acc
     | _, _, _ => acc
     end) 0 fs).
Example C16_example :
  reorder_and_transport s_pos s_neg s_opp ring [Neg;Neg;Pos;Zero;Nan]
    (solve_cell (longest [Neg;Neg;Pos;Zero;Nan])) (λ _ _, None) 40 [7;8;9] = Some [2;1;0].
Proof. vm_compute. done. Qed.
