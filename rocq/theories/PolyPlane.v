(** C58 and C59 in two dimensions: edges and polygonal cells. *)
From Coq Require Import Reals Lra Psatz.
From Verif Require Import Base LoopModel LoopProof TableModel GridModel GridSpec CsrSpec CartGeomProof TofSpec AccProof TofProof TwoProps PolyModel PolySpec PolyProof.
Local Open Scope R_scope.
Unset Default Proof Using.

Lemma foldl_rsum {A} (h : A → R) l : ∀ s, foldl (λ s x, s + h x) s l = s + rsum h l.
Proof. induction l as [|x l IH]; intros s; cbn [foldl rsum]; [lra|]. rewrite IH. lra. Qed.
Lemma foldl_rsum2 {A} (h k : A → R) l : ∀ s, foldl (λ s x, (s.1 + h x, s.2 + k x)) s l = (s.1 + rsum h l, s.2 + rsum k l).
Proof. induction l as [|x l IH]; intros [s t]; cbn [foldl rsum fst snd]; [f_equal; lra|]. rewrite IH. cbn [fst snd]. f_equal; lra. Qed.

Section plane.
Variable coords : list R.
Variables nodepos facenodes : list nat.
Variable g : ugrid.
Variable cf : list (list nat).
Hypothesis Hg : grid_ok g cf.
Variable nd : nat → nat * nat.
Variable pt : nat → vec2.
Hypothesis Hnodes : ∀ f, (f < u_nf g)%nat → corners nodepos facenodes f [(nd f).1; (nd f).2].
Hypothesis Hpt : ∀ f, (f < u_nf g)%nat → at2 coords (nd f).1 (pt (nd f).1) ∧ at2 coords (nd f).2 (pt (nd f).2).
Notation P f := (pt (nd f).1).
Notation Q f := (pt (nd f).2).
Notation midpt f := (((P f).1 + (Q f).1) * (1 / 2), ((P f).2 + (Q f).2) * (1 / 2)).

Lemma edge_facts f : (f < u_nf g)%nat → ∃ b, nodepos !! f = Some b ∧ nodepos !! (f + 1)%nat = Some (b + 2)%nat ∧ edge_ends coords nodepos facenodes f = Some (P f, Q f).
Proof using Hnodes Hpt.
  intros Hf. destruct (Hnodes f Hf) as (b & e & Hb & He & Hle & Hs). pose proof (slice_length _ _ _ _ Hs) as Hl. cbn [length] in Hl. destruct (Hpt f Hf) as [H1 H2].
  exists b. split; [done|]. split; [replace (f + 1)%nat with (S f) by lia; rewrite He; f_equal; lia|]. unfold edge_ends. rewrite Hb. cbn [mbind option_bind].
  pose proof (slice_lookup _ _ _ _ 0%nat Hs ltac:(lia)) as E0. pose proof (slice_lookup _ _ _ _ 1%nat Hs ltac:(lia)) as E1. rewrite Nat.add_0_r in E0. cbn in E0, E1. rewrite E0, E1. cbn [mbind option_bind].
  apply read2_at in H1, H2. by rewrite H1, H2.
Qed.

Variables mN mC mA mc mv : list R.
Hypotheses (LN : length mN = (2 * u_nf g)%nat) (LC : length mC = (2 * u_nf g)%nat) (LA : length mA = u_nf g).
Hypotheses (Lc : length mc = (2 * u_nc g)%nat) (Lv : length mv = u_nc g).

Lemma edges_code : ∃ N C A, edge_geometry2 coords nodepos facenodes (u_nf g) (mN, mC, mA) = Some (N, C, A) ∧
  length N = (2 * u_nf g)%nat ∧ length C = (2 * u_nf g)%nat ∧ length A = u_nf g ∧
  ∀ f, (f < u_nf g)%nat → at2 N f (vright (vsub2 (Q f) (P f))) ∧ at2 C f (midpt f) ∧ A !! f = Some (R_sqrt.sqrt (vdot2 (vsub2 (Q f) (P f)) (vsub2 (Q f) (P f)))).
Proof using Hnodes Hpt LN LC LA.
  clear Lc Lv mc mv. unfold edge_geometry2.
  destruct (for_loop_inv (λ k s, length s.1.1 = (2 * u_nf g)%nat ∧ length s.1.2 = (2 * u_nf g)%nat ∧ length s.2 = u_nf g ∧ ∀ f, (f < k)%nat →
     at2 s.1.1 f (vright (vsub2 (Q f) (P f))) ∧ at2 s.1.2 f (midpt f) ∧ s.2 !! f = Some (R_sqrt.sqrt (vdot2 (vsub2 (Q f) (P f)) (vsub2 (Q f) (P f)))))
     (u_nf g) 0 (edge_body coords nodepos facenodes) (mN, mC, mA)) as ([[N C] A] & E & H1 & H2 & H3 & H4).
  - do 3 (split; [done|]). intros; lia.
  - intros f [[N C] A] Hf (L1 & L2 & L3 & Hd). cbn [fst snd] in *. destruct (edge_facts f) as (b & Hb & He & Ee); [lia|].
    unfold edge_body. rewrite Hb, He. cbn [mbind option_bind]. rewrite decide_True by done. rewrite Ee. cbn [mbind option_bind fst snd].
    destruct (write2_ok C f (midpt f) (u_nf g) L2) as (C' & EC & LC' & HC & HC'); [lia|]. rewrite EC. cbn [mbind option_bind].
    destruct (write2_ok N f (vright (vsub2 (Q f) (P f))) (u_nf g) L1) as (N' & EN & LN' & HN & HN'); [lia|].
    change ((Q f).2 - (P f).2, - ((Q f).1 - (P f).1)) with (vright (vsub2 (Q f) (P f))). rewrite EN. cbn [mbind option_bind]. rewrite upd_Some by lia. cbn [mbind option_bind].
    eexists. split; [done|]. cbn [fst snd]. do 2 (split; [done|]). split; [by rewrite insert_length|].
    intros f' Hf'. destruct (decide (f' = f)) as [->|Hne].
    + do 2 (split; [done|]). apply list_lookup_insert. lia.
    + destruct (Hd f') as (G1 & G2 & G3); [lia|]. split; [by apply HN'|]. split; [by apply HC'|]. by rewrite list_lookup_insert_ne.
  - cbn [fst snd] in *. exists N, C, A. do 4 (split; [done|]). intros f Hf. apply H4. lia.
Qed.

(** C58: in two dimensions every edge has its midpoint, its length, and as
    normal the vector to its right, which is as long as the edge. *)
Theorem C58_edges : ∃ N C A, edge_geometry2 coords nodepos facenodes (u_nf g) (mN, mC, mA) = Some (N, C, A) ∧
  ∀ f, (f < u_nf g)%nat → ∃ n m l, at2 N f n ∧ at2 C f m ∧ A !! f = Some l ∧
    let d := vsub2 (Q f) (P f) in vsub2 (Q f) m = vsub2 m (P f) ∧ 0 <= l ∧ l * l = vdot2 d d ∧ vdot2 n d = 0 ∧ vcross2 n d = l * l.
Proof using Hnodes Hpt LN LC LA.
  clear Lc Lv mc mv. destruct edges_code as (N & C & A & E & _ & _ & _ & H). exists N, C, A. split; [done|]. intros f Hf. destruct (H f Hf) as (H1 & H2 & H3). eexists _, _, _. do 3 (split; [done|]).
  clear. intros d. fold d. assert (0 <= vdot2 d d) by (unfold vdot2; nra). split; [unfold vsub2; cbn [fst snd]; f_equal; field|].
  split; [apply R_sqrt.sqrt_pos|]. rewrite R_sqrt.sqrt_sqrt by done. split; [done|]. unfold vright, vdot2, vcross2. cbn [fst snd]. split; ring.
Qed.

Variable ns : nat → list nat.
Variable turn : nat → nat → bool.
Hypothesis Hout : ∀ c row, cf !! c = Some row → outline nd (turn c) row (ns c).
Hypothesis Hne : ∀ c row, cf !! c = Some row → row ≠ [].
Notation poly c := (map pt (ns c)).

Lemma row_lt2 c row f : cf !! c = Some row → f ∈ row → (f < u_nf g)%nat.
Proof using Hg. clear - Hg. intros Hr Hf. apply (ok_inc _ _ Hg c row f Hr) in Hf as (a & b & [_ H] & _). apply lookup_lt_Some in H. rewrite (ok_faces _ _ Hg) in H. lia. Qed.
Lemma outline_sum c row (h : vec2 * vec2 → R) : cf !! c = Some row → (∀ p q, h (p, q) = h (q, p)) →
  rsum (λ f, h (P f, Q f)) row = rsum h (edges (poly c)).
Proof using Hout.
  clear - Hout. intros Hr Hh. rewrite edges_map, rsum_map, <- (rsum_perm _ _ _ (Hout c row Hr)), rsum_map. apply rsum_ext. intros f _.
  destruct (turn c f); cbn [flip fst snd]; [done|apply Hh].
Qed.
Lemma outline_length c row : cf !! c = Some row → length row = length (poly c).
Proof using Hout.
  clear - Hout. intros Hr. pose proof (Permutation_length (Hout c row Hr)) as H. rewrite map_length in H. rewrite H, map_length. by rewrite <- (map_length fst (edges (ns c))), edges_fst.
Qed.
Lemma shift_cross (m : vec2) ps : rsum (λ e, vcross2 (vsub2 e.1 m) (vsub2 e.2 m)) (edges ps) = rsum (λ e, vcross2 e.1 e.2) (edges ps).
Proof using.
  clear. rewrite (rsum_ext _ (λ e, vcross2 e.1 e.2 + (vcross2 m e.1 + - vcross2 m e.2))) by (intros; unfold vcross2, vsub2; cbn [fst snd]; ring).
  rewrite !rsum_plus, rsum_opp, (edges_telescope (vcross2 m)). ring.
Qed.

(** C59: in two dimensions the centre of every cell is the mean of its corners,
    and its area the area of the polygon if the polygon is star shaped around
    that point. *)
Theorem C59_plane : ∃ N C A cc cv, compute_geometry2 coords nodepos facenodes g mN mC mA mc mv = Some (N, C, A, cc, cv) ∧
  edge_geometry2 coords nodepos facenodes (u_nf g) (mN, mC, mA) = Some (N, C, A) ∧ length cv = u_nc g ∧
  ∀ c row, cf !! c = Some row → at2 cc c (mean2 (poly c)) ∧ ∃ a, cv !! c = Some a ∧
    a = 1 / 2 * rsum (λ e, Rabs (vcross2 (vsub2 e.1 (mean2 (poly c))) (vsub2 e.2 (mean2 (poly c))))) (edges (poly c)) ∧
    (star2 (poly c) → a = shoelace (poly c)).
Proof using Hg Hnodes Hpt LN LC LA Lc Lv Hout Hne.
  destruct edges_code as (N & C & A & E & LN' & LC' & LA' & HF). unfold compute_geometry2. rewrite E. cbn [mbind option_bind]. unfold cell_geometry2.
  destruct (for_loop_inv (λ k s, length s.1 = (2 * u_nc g)%nat ∧ length s.2 = u_nc g ∧ ∀ c row, (c < k)%nat → cf !! c = Some row → at2 s.1 c (mean2 (poly c)) ∧
    s.2 !! c = Some (rsum (λ e, Rabs (vcross2 (vsub2 e.1 (mean2 (poly c))) (vsub2 e.2 (mean2 (poly c))))) (edges (poly c)) * (1 / 2)))
    (u_nc g) 0 (cell2_body coords nodepos facenodes C (u_facepos g) (u_cellfaces g)) (mc, mv)) as ([cc cv] & EL & H1 & H2 & H3).
  - do 2 (split; [done|]). intros; lia.
  - intros c [cc cv] Hc (L1 & L2 & Hd). cbn [fst snd] in *. destruct (lookup_lt_is_Some_2 cf c) as [row Hrow]; [rewrite (ok_cells _ _ Hg); lia|].
    destruct (proj2 (proj2 (proj2 (ok_rows _ _ Hg))) c row Hrow) as (b & e & Hb & He & Hle & Hs). pose proof (slice_length _ _ _ _ Hs) as Hl.
    unfold cell2_body. rewrite Hb. replace (c + 1)%nat with (S c) by lia. rewrite He. cbn [mbind option_bind]. rewrite <- Hl in Hs |- *.
    rewrite (loop_slice (u_cellfaces g) _ (λ m f, (m.1 + ((P f).1 + (Q f).1) * (1 / 2), m.2 + ((P f).2 + (Q f).2) * (1 / 2))) b row); [| |done].
    2:{ intros k f s E1 Hf. rewrite E1. cbn [mbind option_bind]. destruct (HF f (row_lt2 _ _ _ Hrow Hf)) as (_ & Hm & _). apply read2_at in Hm. by rewrite Hm. }
    cbn [mbind option_bind]. rewrite foldl_rsum2. cbn [fst snd]. pose proof (outline_length c row Hrow) as Hlen.
    rewrite <- Nat2Z.inj_sub, <- INR_IZR_INZ by done. rewrite <- Hl. assert (INR (length row) ≠ 0) as Hn0 by (apply not_0_INR; specialize (Hne c row Hrow); destruct row; [done|cbn; lia]).
    assert (EX : ∀ pr : vec2 → R, rsum (λ f, (pr (P f) + pr (Q f)) * (1 / 2)) row = rsum pr (poly c)).
    { intros pr. pose proof (outline_sum c row (λ e, (pr e.1 + pr e.2) * (1 / 2)) Hrow ltac:(intros; cbn [fst snd]; ring)) as EE. cbn [fst snd] in EE. rewrite EE.
      rewrite <- (edges_fst (poly c)) at 2. rewrite rsum_map. transitivity (rsum (λ e, 1 / 2 * pr e.1 + 1 / 2 * pr e.2) (edges (poly c))); [apply rsum_ext; intros; ring|].
      rewrite rsum_plus, !rsum_scale, <- (edges_telescope pr). lra. }
    rewrite (EX fst), (EX snd). unfold rdiv. destruct (Req_EM_T (INR (length row)) 0); [done|]. cbn [mbind option_bind]. rewrite !Rplus_0_l, Hlen.
    change (rsum fst (poly c) / INR (length (poly c)), rsum snd (poly c) / INR (length (poly c))) with (mean2 (poly c)).
    destruct (write2_ok cc c (mean2 (poly c)) (u_nc g) L1) as (cc' & Ec & Lcc & Hcc & Hcc'); [lia|]. rewrite Ec. cbn [mbind option_bind]. rewrite <- Hlen.
    rewrite (loop_slice (u_cellfaces g) _ (λ a f, a + Rabs (vcross2 (vsub2 (P f) (mean2 (poly c))) (vsub2 (Q f) (mean2 (poly c))))) b row); [| |done].
    2:{ intros k f s E1 Hf. rewrite E1. cbn [mbind option_bind]. destruct (edge_facts f (row_lt2 _ _ _ Hrow Hf)) as (? & _ & _ & Ee). rewrite Ee. cbn [mbind option_bind]. rewrite Hlen. done. }
    cbn [mbind option_bind]. rewrite foldl_rsum.
    pose proof (outline_sum c row (λ e, Rabs (vcross2 (vsub2 e.1 (mean2 (poly c))) (vsub2 e.2 (mean2 (poly c))))) Hrow) as EE. cbn [fst snd] in EE. rewrite EE; clear EE.
    2:{ intros p q. cbn [fst snd]. rewrite <- Rabs_Ropp. f_equal. unfold vcross2. ring. }
    rewrite upd_Some by lia. cbn [mbind option_bind]. eexists. split; [done|]. cbn [fst snd]. split; [done|]. split; [by rewrite insert_length|].
    intros c' row' Hc' Hr'. destruct (decide (c' = c)) as [->|Hnc].
    + split; [done|]. rewrite Rplus_0_l. apply list_lookup_insert. lia.
    + destruct (Hd c' row') as (G1 & G2); [lia|done|]. split; [by apply Hcc'|]. by rewrite list_lookup_insert_ne.
  - cbn [fst snd] in *. rewrite EL. cbn [mbind option_bind]. exists N, C, A, cc, cv. do 3 (split; [done|]). intros c row Hr.
    destruct (H3 c row) as (G1 & G2); [|done|].
    { apply lookup_lt_Some in Hr. rewrite (ok_cells _ _ Hg) in Hr. lia. }
    split; [done|]. eexists. split; [done|]. split; [lra|]. intros Hstar. unfold shoelace. rewrite <- (shift_cross (mean2 (poly c))), Rmult_comm. f_equal. apply rsum_ext. intros e He. by apply Rabs_pos_eq, Hstar.
Qed.

(** From here on the cells lie to the left of the edges of which they are the
    first cell. *)
Hypothesis Hturn : ∀ c f, turn c f = side g c f.
Hypothesis Hstar : ∀ c row, cf !! c = Some row → star2 (poly c).
Variables N C A cc cv : list R.
Hypothesis E : compute_geometry2 coords nodepos facenodes g mN mC mA mc mv = Some (N, C, A, cc, cv).

Lemma area_sum c row a : cf !! c = Some row → cv !! c = Some a → a = rsum (λ f, sgn (side g c f) * (1 / 2 * vcross2 (P f) (Q f))) row.
Proof using Hg Hnodes Hpt LN LC LA Lc Lv Hout Hne Hturn Hstar E.
  intros Hr Ha. destruct C59_plane as (N' & C' & A' & cc' & cv' & E' & _ & _ & H). rewrite E in E'. injection E' as <- <- <- <- <-.
  destruct (H c row Hr) as (_ & a' & Ha' & _ & Hs). rewrite Ha in Ha'. injection Ha' as <-. rewrite (Hs (Hstar c row Hr)). unfold shoelace.
  rewrite edges_map, rsum_map, <- (rsum_perm _ _ _ (Hout c row Hr)), rsum_map, <- rsum_scale. apply rsum_ext. intros f _. rewrite Hturn. clear.
  destruct (side g c f); cbn [sgn flip fst snd]; unfold vcross2; ring.
Qed.

(** C59: the areas add up to the area inside the outer edges. *)
Theorem C59_plane_total : rsum (λ a, a) cv = 1 / 2 * rsum (λ e, vcross2 (pt e.1) (pt e.2)) (outer_edges g nd).
Proof using Hg Hnodes Hpt LN LC LA Lc Lv Hout Hne Hturn Hstar E.
  assert (Lcv : length cv = u_nc g). { destruct C59_plane as (N' & C' & A' & cc' & cv' & E' & _ & H & _). rewrite E in E'. by injection E' as -> -> -> -> ->. }
  set (v := λ f, 1 / 2 * vcross2 (P f) (Q f)).
  rewrite rsum_seq_list, Lcv.
  rewrite (rsum_ext _ (λ c, rsum (λ f, if decide (f ∈ default [] (cf !! c)) then sgn (side g c f) * v f else 0) (seq 0 (u_nf g)))).
  2:{ intros c Hc. apply elem_of_seq in Hc. destruct (lookup_lt_is_Some_2 cf c) as [r Hr]; [rewrite (ok_cells _ _ Hg); lia|]. rewrite Hr. cbn [default from_option]. unfold Datatypes.id.
      destruct (lookup_lt_is_Some_2 cv c) as [V HV]; [lia|]. rewrite HV. rewrite (area_sum c r V Hr HV).
      apply rsum_row; [by eapply ok_nodup|]. intros f. by eapply row_lt2. }
  rewrite rsum_swap. rewrite <- rsum_scale. unfold outer_edges. rewrite rsum_concat, rsum_map. apply rsum_ext. intros f Hf. apply elem_of_seq in Hf.
  clear E Hstar Hturn Lcv LN LC LA Lc Lv Hout Hne Hpt Hnodes.
  destruct (lookup_lt_is_Some_2 (u_facecells g) (2 * f)) as [a Ha]; [rewrite (ok_faces _ _ Hg); lia|].
  destruct (lookup_lt_is_Some_2 (u_facecells g) (2 * f + 1)) as [b Hb]; [rewrite (ok_faces _ _ Hg); lia|].
  rewrite Ha, Hb. destruct (ok_range _ _ Hg f a b) as (Ra & Rb & Rab); [by split|].
  transitivity (rsum (λ c, (if decide (a = Z.of_nat c) then v f else 0) + (if decide (b = Z.of_nat c) then - v f else 0)) (seq 0 (u_nc g))).
  { apply rsum_ext. intros c Hc. apply elem_of_seq in Hc. destruct (lookup_lt_is_Some_2 cf c) as [r Hr]; [rewrite (ok_cells _ _ Hg); lia|]. rewrite Hr. cbn [default from_option]. unfold Datatypes.id.
    unfold side. rewrite Ha. destruct (decide (f ∈ r)) as [Hin|Hin].
    - apply (ok_inc _ _ Hg c r f Hr) in Hin as (a' & b' & [Ha' Hb'] & Hi). rewrite Ha in Ha'. rewrite Hb in Hb'. injection Ha' as <-. injection Hb' as <-.
      destruct (decide (a = Z.of_nat c)) as [->|Hna].
      + rewrite bool_decide_true by done. destruct (decide (b = Z.of_nat c)) as [->|]; [exfalso; specialize (Rab eq_refl); lia|]. cbn [sgn]. ring.
      + rewrite bool_decide_false by (intros [=]; done). destruct (decide (b = Z.of_nat c)) as [->|]; [cbn [sgn]; ring|]. by destruct Hi.
    - rewrite !decide_False; [ring| |]; intros ->; apply Hin; apply (ok_inc _ _ Hg c r f Hr); eexists _, _; split; [by split| |by split|]; auto. }
  assert (one : ∀ (x : Z) t, (-1 ≤ x < Z.of_nat (u_nc g))%Z → rsum (λ c, if decide (x = Z.of_nat c) then t else 0) (seq 0 (u_nc g)) = if decide (x = (-1)%Z) then 0 else t).
  { intros x t Hx. destruct (decide (x = (-1)%Z)) as [->|Hn].
    - apply rsum_zero. intros c _. rewrite decide_False; [done|lia].
    - rewrite (rsum_ext _ (λ c, if decide (c = Z.to_nat x) then t else 0)).
      2:{ intros c _. destruct (decide (x = Z.of_nat c)) as [->|], (decide (c = _)); try done; exfalso; lia. }
      rewrite (rsum_single (λ _, t) (Z.to_nat x)); [done|apply NoDup_seq|apply elem_of_seq; lia]. }
  rewrite rsum_plus, !one by done.
  destruct (decide (a = (-1)%Z)), (decide (b = (-1)%Z)); cbn [rsum flip fst snd]; unfold v, vcross2; ring.
Qed.

(** C59: normals, midpoints and areas fit together as for linear functions. *)
Theorem C59_plane_green c row nrm mid a : cf !! c = Some row → (∀ f, f ∈ row → at2 N f (nrm f) ∧ at2 C f (mid f)) → cv !! c = Some a →
  ∀ o d w, rsum (λ f, sgn (side g c f) * (vdot2 (nrm f) d * vdot2 (vsub2 (mid f) o) w)) row = vdot2 d w * a.
Proof using Hg Hnodes Hpt LN LC LA Lc Lv Hout Hne Hturn Hstar E.
  intros Hr Hnm Ha o d w. rewrite (area_sum c row a Hr Ha).
  destruct edges_code as (N' & C' & A' & E' & _ & _ & _ & HF).
  destruct C59_plane as (N2 & C2 & A2 & cc2 & cv2 & E2 & E3 & _). rewrite E in E2. injection E2 as <- <- <- <- <-. rewrite E3 in E'. injection E' as <- <- <-.
  rewrite (rsum_ext _ (λ f, vdot2 d w * (sgn (side g c f) * (1 / 2 * vcross2 (P f) (Q f))) + sgn (side g c f) *
     ((1 / 2 * (d.1 * w.1 * (Q f).1 * (Q f).2 + d.1 * w.2 * (Q f).2 * (Q f).2 - d.2 * w.1 * (Q f).1 * (Q f).1 - d.2 * w.2 * (Q f).1 * (Q f).2) - vdot2 (vright (Q f)) d * vdot2 o w)
     - (1 / 2 * (d.1 * w.1 * (P f).1 * (P f).2 + d.1 * w.2 * (P f).2 * (P f).2 - d.2 * w.1 * (P f).1 * (P f).1 - d.2 * w.2 * (P f).1 * (P f).2) - vdot2 (vright (P f)) d * vdot2 o w)))).
  2:{ intros f Hf. destruct (Hnm f Hf) as [H1 H2]. destruct (HF f (row_lt2 _ _ _ Hr Hf)) as (G1 & G2 & _). rewrite (at2_fun _ _ _ _ H1 G1), (at2_fun _ _ _ _ H2 G2). clear.
      unfold vdot2, vright, vsub2, vcross2. cbn [fst snd]. field. }
  rewrite rsum_plus, rsum_scale. rewrite <- (Rplus_0_r (vdot2 d w * _)) at 2. f_equal.
  set (h := λ p : vec2, 1 / 2 * (d.1 * w.1 * p.1 * p.2 + d.1 * w.2 * p.2 * p.2 - d.2 * w.1 * p.1 * p.1 - d.2 * w.2 * p.1 * p.2) - vdot2 (vright p) d * vdot2 o w).
  transitivity (rsum (λ e, h (pt e.2) + - h (pt e.1)) (edges (ns c))).
  - rewrite <- (rsum_perm _ _ _ (Hout c row Hr)), rsum_map. apply rsum_ext. intros f _. rewrite Hturn. fold (h (P f)) (h (Q f)). destruct (side g c f); cbn [sgn flip fst snd]; ring.
  - rewrite rsum_plus, rsum_opp, (edges_telescope (λ n, h (pt n))). ring.
Qed.
End plane.
Print Assumptions C58_edges.
Print Assumptions C59_plane.
Print Assumptions C59_plane_total.
Print Assumptions C59_plane_green.
