(** Lemmas about the solution of a cycle of cells. *)
From Coq Require Import Reals Lra Psatz.
From stdpp Require Import relations.
From Verif Require Import Base CsrSpec CsrProof GridModel GridSpec DfsProps TarjanProof ReorderModel ReorderProof ReorderProps
  TofModel TofSpec TofProof AccProof TableModel RootModel RootProps TwoModel TwoSpec TwoProof.
Unset Default Proof Using.
Local Open Scope R_scope.

Notation cellval := (R * R * Z)%type.
(** Saturation and number of iterations of cell [u]. *)
Definition satv (x : list cellval) (u : nat) : R := default 0 ((λ v : cellval, v.1.1) <$> x !! u).

Section marks.
Context (ja : list nat) (pos : list (option nat)).
Lemma mark_ok js needs :
  (∀ j, j ∈ js → ∃ d o, ja !! j = Some d ∧ pos !! d = Some o ∧ ∀ ci, o = Some ci → (ci < length needs)%nat) →
  ∃ needs', mark ja pos js needs = Some needs' ∧ length needs' = length needs ∧
    (∀ i, needs !! i = Some true → needs' !! i = Some true) ∧
    (∀ j d ci, j ∈ js → ja !! j = Some d → pos !! d = Some (Some ci) → needs' !! ci = Some true).
Proof.
  revert needs. induction js as [|j js IH]; intros needs Hok; cbn [mark].
  { exists needs. split_and!; try done. intros j d ci Hj. by apply elem_of_nil in Hj. }
  destruct (Hok j) as (d & o & Hd & Ho & Hlt); [by left|]. rewrite Hd. cbn [mbind option_bind]. rewrite Ho. cbn [mbind option_bind].
  destruct o as [ci|].
  - rewrite upd_Some by (by apply Hlt). cbn [mbind option_bind].
    destruct (IH (<[ci:=true]> needs)) as (needs' & E & Hl & Hm & Hs).
    { intros j' Hj'. destruct (Hok j') as (d' & o' & H1 & H2 & H3); [by right|]. exists d', o'. rewrite insert_length. done. }
    exists needs'. rewrite E. rewrite insert_length in Hl. split_and!; [done|done| |].
    + intros i Hi. apply Hm. destruct (decide (ci = i)) as [->|Hne]; [apply list_lookup_insert; by apply lookup_lt_Some in Hi|].
      by rewrite list_lookup_insert_ne.
    + intros j' d' ci' Hj' Hd' Hp'. apply elem_of_cons in Hj' as [->|Hj']; [|by eapply Hs].
      simplify_eq. apply Hm. apply list_lookup_insert. by apply Hlt.
  - cbn [mbind option_bind]. destruct (IH needs) as (needs' & E & Hl & Hm & Hs).
    { intros j' Hj'. apply Hok. by right. }
    exists needs'. rewrite E. split_and!; [done|done|done|].
    intros j' d' ci' Hj' Hd' Hp'. apply elem_of_cons in Hj' as [->|Hj']; [congruence|by eapply Hs].
Qed.
End marks.

Lemma positions_ok nc i cells pos : length pos = nc → (∀ c, c ∈ cells → (c < nc)%nat) → NoDup cells →
  ∃ pos', positions i cells pos = Some pos' ∧ length pos' = nc ∧
    (∀ j c, cells !! j = Some c → pos' !! c = Some (Some (i + j)%nat)) ∧
    (∀ c, c ∉ cells → pos' !! c = pos !! c).
Proof.
  revert i pos. induction cells as [|c cells IH]; intros i pos Hl Hlt Hnd; cbn [positions].
  { exists pos. split_and!; done. }
  apply NoDup_cons in Hnd as [Hc Hnd]. rewrite upd_Some by (rewrite Hl; apply Hlt; by left). cbn [mbind option_bind].
  destruct (IH (S i) (<[c:=Some i]> pos)) as (pos' & E & Hl' & Hin & Hout).
  { by rewrite insert_length. } { intros c' Hc'. apply Hlt. by right. } { done. }
  exists pos'. rewrite E. split_and!; [done|done| |].
  - intros [|j] c' Hj; simpl in Hj.
    + simplify_eq. rewrite Hout by done. rewrite list_lookup_insert by (apply Hlt; by left). f_equal. f_equal. lia.
    + rewrite (Hin j c' Hj). f_equal. f_equal. lia.
  - intros c' Hc'. rewrite not_elem_of_cons in Hc'. destruct Hc' as [Hne Hc']. rewrite Hout by done.
    by rewrite list_lookup_insert_ne.
Qed.

Section multi.
Context (g : ugrid) (cf : list (list nat)) (flux pv src : list R) (dt : R).
Context (kr : nat → R → R → R * R) (visc_w visc_o tol : R) (maxit : Z).
Context (Hg : grid_ok g cf) (Hflux : length flux = u_nf g).
Context (Hpv : length pv = u_nc g) (Hsrc : length src = u_nc g) (Hpos : ∀ c p, pv !! c = Some p → 0 < p).
Context (Hdt : 0 <= dt) (Htol : 0 <= tol) (HF : fluid_ok kr visc_w visc_o).
Notation flows := (flows r_pos r_neg g flux).
Notation F := (fraction kr visc_w visc_o).
Notation nc := (u_nc g).
Definition tol9 : R := / 10 ^ 9.

Lemma tol9_pos : 0 < tol9.
Proof. unfold tol9. apply Rinv_0_lt_compat, pow_lt. lra. Qed.
Lemma flows_irr u : ¬ flows u u.
Proof using Hg. clear - Hg. intros (f & z & _ & H). destruct H as [[H _]|[H _]]; apply (ok_range _ _ Hg) in H; lia. Qed.
Lemma flows_lt u v : flows u v → (u < nc)%nat ∧ (v < nc)%nat.
Proof using Hg. clear - Hg. intros (f & z & _ & H). destruct H as [[H _]|[H _]]; apply (ok_range _ _ Hg) in H; lia. Qed.

Lemma imbalance_ext c r p q val val' s0 s : cf !! c = Some r → (∀ u, flows u c → val u = val' u) →
  imbalance g flux dt p q r c val (F c) s0 s = imbalance g flux dt p q r c val' (F c) s0 s.
Proof using Hg Hflux. clear Hpv Hsrc Hpos Hdt Htol HF.
  intros Hr Hv. unfold imbalance. f_equal. f_equal. f_equal. f_equal. f_equal.
  unfold inner_sum. apply rsum_ext. intros f Hf. destruct (inner g f) eqn:Hi; [|done].
  destruct (Rlt_dec _ 0) as [Ho|Ho]; [|done]. f_equal.
  destruct (inner_facts g cf flux Hg Hflux c r f Hr Hf) as (a & e & d & _ & _ & _ & _ & Hin & Hrg & Hup & _).
  destruct (Hup Hi Ho) as [Hu Hfl]. unfold carried. rewrite Hu. apply Hin in Hi. clear Hin Hrg Hup Hu.
  revert Hi Hfl. generalize (if decide (Z.of_nat c = a) then e else a). intros o Hi Hfl. rewrite !decide_False by done. auto.
Qed.

(** The equation of cell [c], with the fractional flows of the saturations [snap]
    upstream. *)
Definition solves (c : nat) (snap : nat → R) (s0 s : R) : Prop :=
  ∀ r p q, cf !! c = Some r → pv !! c = Some p → src !! c = Some q →
    settled tol maxit (imbalance g flux dt p q r c (λ u, F u (snap u)) (F c) s0) 0 1 s0 s.

Definition good (x : list cellval) (u : nat) : Prop :=
  ∃ s it, x !! u = Some (s, F u s, it) ∧ 0 <= s <= 1 ∧ (0 ≤ it)%Z.
Lemma good_sat x u : good x u → 0 <= satv x u <= 1 ∧ ffv x u = F u (satv x u).
Proof. intros (s & it & H & Hs & _). unfold satv, ffv. rewrite H. done. Qed.

Lemma single_ok c x s0 ff it :
  (c < nc)%nat → length x = nc → x !! c = Some (s0, ff, it) → 0 <= s0 <= 1 → (∀ u, flows u c → good x u) →
  ∃ s n, two_single g flux pv src dt kr visc_w visc_o tol maxit c x = Some (<[c:=(s, F c s, (it + n)%Z)]> x) ∧
    0 <= s <= 1 ∧ (0 ≤ n)%Z ∧ solves c (satv x) s0 s.
Proof using Hg Hflux Hpv Hsrc Hpos Hdt Htol HF.
  intros Hc Hx Hxc Hs0 Hup.
  destruct (lookup_lt_is_Some_2 cf c) as [r Hr]; [by rewrite (ok_cells _ _ Hg)|].
  destruct (lookup_lt_is_Some_2 src c) as [q Hq]; [by rewrite Hsrc|]. destruct (lookup_lt_is_Some_2 pv c) as [p Hp]; [by rewrite Hpv|].
  destruct (two_cell_ok g cf flux pv src dt kr visc_w visc_o tol maxit Hg Hflux c r x s0 ff it q p) as (s & n & E & Hs & Hn & Hset); try done.
  { by eapply Hpos. }
  { intros u Hu. destruct (good_sat x u (Hup u Hu)) as [H1 ->]. by apply fraction_bounds. }
  exists s, n. unfold two_single. rewrite E. cbn [mbind option_bind]. rewrite upd_Some by (by rewrite Hx).
  split; [done|]. split; [done|]. split; [done|]. intros r' p' q' Hr' Hp' Hq'. simplify_eq.
  eapply settled_ext; [|exact Hset]. intros y. apply imbalance_ext; [done|]. intros u Hu. by destruct (good_sat x u (Hup u Hu)).
Qed.

Context (ia ja : list nat) (rows : list (list nat)) (Hreads : reads ia ja rows) (Hrows : length rows = nc)
  (Hedge : ∀ u v, edge rows u v ↔ flows u v).
Context (C : list nat) (HC : ∀ c, c ∈ C → (c < nc)%nat) (Hnd : NoDup C).
Context (xin : list cellval).
Context (Hout : ∀ u c, c ∈ C → flows u c → u ∉ C → good xin u).
Context (Hin : ∀ c, c ∈ C → ∃ s ff it, xin !! c = Some (s, ff, it) ∧ 0 <= s <= 1 ∧ (0 ≤ it)%Z).
Context (Hxin : length xin = nc).

Lemma init_ok cells x : (∀ c, c ∈ cells → c ∈ C) → length x = nc → NoDup cells →
  (∀ c, c ∈ cells → ∃ s ff it, x !! c = Some (s, ff, it) ∧ 0 <= s <= 1 ∧ (0 ≤ it)%Z) →
  ∃ x', init_cells kr visc_w visc_o cells x = Some (x', map (satv x) cells) ∧ length x' = nc ∧
    (∀ c, c ∈ cells → good x' c ∧ satv x' c = satv x c) ∧ (∀ u, u ∉ cells → x' !! u = x !! u).
Proof using HF HC. clear - HF HC.
  revert x. induction cells as [|c cells IH]; intros x Hsub Hx Hndc Hs; cbn [init_cells map].
  { exists x. split_and!; try done. intros c Hc. by apply elem_of_nil in Hc. }
  apply NoDup_cons in Hndc as [Hc Hndc].
  destruct (Hs c) as (s & ff & it & E & Hs1 & Hit); [by left|]. rewrite E. cbn [mbind option_bind].
  rewrite frac_defined_ok by done. assert (c < length x)%nat by (by eapply lookup_lt_Some).
  rewrite upd_Some by done. cbn [mbind option_bind]. rewrite frac_flow_fraction.
  destruct (IH (<[c:=(s, F c s, it)]> x)) as (x' & E' & Hl & Hgood & Hsame).
  { intros c' Hc'. apply Hsub. by right. } { by rewrite insert_length. } { done. }
  { intros c' Hc'. rewrite list_lookup_insert_ne by (intros ->; done). apply Hs. by right. }
  exists x'. rewrite E'. cbn [mbind option_bind]. split_and!.
  - f_equal. f_equal. f_equal.
    + unfold satv. by rewrite E.
    + apply map_ext_in. intros c' Hc'. apply elem_of_list_In in Hc'. unfold satv. by rewrite list_lookup_insert_ne by (intros ->; done).
  - done.
  - intros c' Hc'. apply elem_of_cons in Hc' as [->|Hc'].
    + assert (Ec : x' !! c = Some (s, F c s, it)). { rewrite Hsame by done. by apply list_lookup_insert. }
      split; [by exists s, it|]. unfold satv. by rewrite Ec, E.
    + destruct (Hgood c' Hc') as [H1 H2]. split; [done|]. rewrite H2. unfold satv. by rewrite list_lookup_insert_ne by (intros ->; done).
  - intros u Hu. apply not_elem_of_cons in Hu as [Hu1 Hu2]. rewrite Hsame by done. by rewrite list_lookup_insert_ne.
Qed.

(** ** The invariant of the sweeps *)
Definition rbound (k i m : nat) : R := INR (if decide (m < i)%nat then S k else k) * tol9.
Record inv (k i : nat) (needs : list bool) (x : list cellval) : Prop := {
  iv_needs : length needs = length C;
  iv_len : length x = nc;
  iv_out : ∀ u, u ∉ C → x !! u = xin !! u;
  iv_good : ∀ c, c ∈ C → good x c;
  iv_eq : ∀ j c, C !! j = Some c → needs !! j = Some false →
    ∃ snap, (∀ u, flows u c → 0 <= snap u <= 1 ∧ (u ∉ C → snap u = satv x u) ∧
               (∀ m, C !! m = Some u → Rabs (snap u - satv x u) <= rbound k i m)) ∧
            solves c snap (satv xin c) (satv x c) }.

Lemma rbound_mono k i m : rbound k i m <= rbound k (S i) m.
Proof. clear. unfold rbound. pose proof tol9_pos. apply Rmult_le_compat_r; [lra|]. apply le_INR. repeat case_decide; lia. Qed.
Lemma rbound_next k i m : (m < i)%nat → rbound k i m = rbound (S k) 0 m.
Proof. clear. intros H. unfold rbound. rewrite decide_True, decide_False by lia. done. Qed.
Lemma rbound_nonneg k i m : 0 <= rbound k i m.
Proof. clear. unfold rbound. pose proof tol9_pos. apply Rmult_le_pos; [apply pos_INR|lra]. Qed.

Context (pos : list (option nat)) (Hposl : length pos = nc)
  (Hpos1 : ∀ j c, C !! j = Some c → pos !! c = Some (Some j)) (Hpos2 : ∀ c ci, c ∉ C → pos !! c ≠ Some (Some ci)).
Notation s0s := (map (satv xin) C).

Lemma good_all k i needs x c u : inv k i needs x → c ∈ C → flows u c → good x u.
Proof using Hout. clear - Hout.
  intros [_ _ Ho Hgd _] Hc Hu. destruct (decide (u ∈ C)) as [H|H]; [by apply Hgd|].
  destruct (Hout u c Hc Hu H) as (s & it & E & Hs). exists s, it. by rewrite Ho.
Qed.

Lemma sweep_ok k n i needs count x : inv k i needs x → (i + n = length C)%nat →
  ∃ needs' count' x', sweep g flux pv src dt kr visc_w visc_o tol maxit ia ja C pos s0s n i needs count x = Some (needs', count', x') ∧
    inv k (length C) needs' x' ∧ (count <= count')%nat ∧
    (count' = count → needs' = needs ∧ x' = x ∧ ∀ j, (i <= j < length C)%nat → needs !! j = Some false).
Proof using All.
  revert i needs count x. induction n as [|n IH]; intros i needs count x Hinv Hin'; cbn [sweep].
  { exists needs, count, x. replace (length C) with i by lia. split_and!; try done. intros _. split_and!; try done. lia. }
  pose proof Hinv as [Hnl Hxl Ho Hgd Heq].
  destruct (lookup_lt_is_Some_2 needs i) as [b Hb]; [lia|]. rewrite Hb. cbn [mbind option_bind].
  destruct b; cbn [negb].
  2:{ destruct (IH (S i) needs count x) as (needs' & count' & x' & E & Hinv' & Hle & Hsame); [|lia|].
      { split; try done. intros j c Hj Hf. destruct (Heq j c Hj Hf) as (snap & Hsn & Hso). exists snap. split; [|done].
        intros u Hu. destruct (Hsn u Hu) as (H1 & H2 & H3). split_and!; [apply H1|apply H1|done|].
        intros m Hm. eapply Rle_trans; [by apply H3|apply rbound_mono]. }
      exists needs', count', x'. split_and!; try done. intros Hc. destruct (Hsame Hc) as (H1 & H2 & H3).
      split_and!; try done. intros j Hj. destruct (decide (j = i)) as [->|]; [done|]. apply H3. lia. }
  destruct (lookup_lt_is_Some_2 C i) as [c Hc]; [lia|]. rewrite Hc. cbn [mbind option_bind].
  assert (HcC : c ∈ C) by (by eapply elem_of_list_lookup_2). pose proof (HC c HcC) as Hcn.
  destruct (Hgd c HcC) as (old & it & Hxc & Hold & Hit). rewrite Hxc. cbn [mbind option_bind].
  rewrite list_lookup_fmap, Hc. cbn [fmap option_fmap option_map mbind option_bind].
  rewrite upd_Some by lia. cbn [mbind option_bind].
  destruct (Hin c HcC) as (s0 & ff0 & it0 & Hxi & Hs0 & _).
  assert (Es0 : satv xin c = s0) by (unfold satv; by rewrite Hxi). rewrite Es0.
  set (x1 := <[c:=(s0, F c old, it)]> x).
  assert (Hne : ∀ u, flows u c → u ≠ c). { intros u Hu ->. by apply flows_irr in Hu. }
  assert (Hx1 : ∀ u, flows u c → x1 !! u = x !! u).
  { intros u Hu. unfold x1. rewrite list_lookup_insert_ne; [done|]. apply not_eq_sym. auto. }
  destruct (single_ok c x1 s0 (F c old) it) as (s & m & E & Hs & Hm & Hsolve); try done.
  { unfold x1. by rewrite insert_length. } { unfold x1. apply list_lookup_insert. by rewrite Hxl. }
  { intros u Hu. destruct (good_all k i needs x c u Hinv HcC Hu) as (su & iu & Eu & Hu1). exists su, iu. by rewrite Hx1. }
  rewrite E. cbn [mbind option_bind]. unfold x1. rewrite list_insert_insert.
  set (x2 := <[c:=(s, F c s, (it + m)%Z)]> x).
  assert (Hx2c : x2 !! c = Some (s, F c s, (it + m)%Z)). { unfold x2. apply list_lookup_insert. by rewrite Hxl. }
  assert (Hx2n : ∀ u, u ≠ c → x2 !! u = x !! u). { intros u Hu. unfold x2. by rewrite list_lookup_insert_ne. }
  rewrite Hx2c. cbn [mbind option_bind].
  (* the marks *)
  assert (Hmarks : ∃ needs1, (if Rlt_dec (/ 10 ^ 9) (Rabs (s - old))
      then b ← ia !! c; e ← ia !! (c + 1)%nat; mark ja pos (seq b (e - b)) needs else Some needs) = Some needs1 ∧
      length needs1 = length C ∧ (∀ j, needs !! j = Some true → needs1 !! j = Some true) ∧
      (tol9 < Rabs (s - old) → ∀ j d, C !! j = Some d → flows c d → needs1 !! j = Some true)).
  { fold tol9. destruct (Rlt_dec tol9 (Rabs (s - old))) as [Hbig|Hsmall]; [|by exists needs].
    destruct (lookup_lt_is_Some_2 rows c) as [rw Hrw]; [by rewrite Hrows|].
    destruct (Hreads c rw Hrw) as (b & Hb1 & Hb2 & Hja). replace (c + 1)%nat with (S c) by lia. rewrite Hb1. cbn [mbind option_bind].
    rewrite Hb2. cbn [mbind option_bind].
    destruct (mark_ok ja pos (seq b (b + length rw - b)) needs) as (needs1 & E1 & Hl1 & Hm1 & Hmk).
    { intros j Hj. apply elem_of_seq in Hj. destruct (lookup_lt_is_Some_2 rw (j - b)) as [d Hd]; [lia|].
      assert (Hfl : flows c d). { apply Hedge. exists rw. split; [done|]. by eapply elem_of_list_lookup_2. }
      destruct (flows_lt _ _ Hfl) as [_ Hdn].
      destruct (lookup_lt_is_Some_2 pos d) as [o Hpo]; [by rewrite Hposl|]. exists d, o. split_and!; [|done|].
      - rewrite <- Hd, <- Hja by lia. f_equal. lia.
      - intros ci ->. destruct (decide (d ∈ C)) as [HdC|HdC]; [|by apply Hpos2 in Hpo].
        apply elem_of_list_lookup in HdC as [j' Hj']. rewrite (Hpos1 j' d Hj') in Hpo. simplify_eq.
        rewrite Hnl. by eapply lookup_lt_Some. }
    exists needs1. split_and!; [done|by rewrite Hl1|done|]. intros _ j d Hj Hfl.
    apply Hedge in Hfl as (rw' & Hrw' & Hd). simplify_eq. apply elem_of_list_lookup in Hd as [t Ht].
    pose proof (lookup_lt_Some _ _ _ Ht). eapply (Hmk (b + t)%nat d j).
    - apply elem_of_seq. lia.
    - rewrite Hja by lia. done.
    - by apply Hpos1. }
  destruct Hmarks as (needs1 & -> & Hl1 & Hm1 & Hbig). cbn [mbind option_bind].
  rewrite upd_Some by (rewrite Hl1; eapply lookup_lt_Some; exact Hc). cbn [mbind option_bind].
  destruct (IH (S i) (<[i:=false]> needs1) (S count) x2) as (needs' & count' & x' & E' & Hinv' & Hle & Hsame); [|lia|].
  2:{ exists needs', count', x'. split_and!; [done|done|lia|]. intros ->. lia. }
  assert (Hsat2 : ∀ u, u ≠ c → satv x2 u = satv x u). { intros u Hu. unfold satv. by rewrite Hx2n. }
  assert (Hsat1 : ∀ u, flows u c → satv x1 u = satv x u). { intros u Hu. unfold satv. by rewrite Hx1. }
  split.
  - by rewrite insert_length.
  - unfold x2. by rewrite insert_length.
  - intros u Hu. rewrite Hx2n by (intros ->; done). by apply Ho.
  - intros c' Hc'. destruct (decide (c' = c)) as [->|Hcc].
    + exists s, (it + m)%Z. split_and!; [done|apply Hs|apply Hs|lia].
    + destruct (Hgd c' Hc') as (s' & it' & Ec' & H'). exists s', it'. by rewrite Hx2n.
  - intros j c' Hj Hf. destruct (decide (j = i)) as [->|Hji].
    + rewrite Hc in Hj. injection Hj as <-. exists (satv x). split.
      * intros u Hu. destruct (good_sat x u (good_all k i needs x c u Hinv HcC Hu)) as [H1 _].
        rewrite (Hsat2 u (Hne u Hu)). split_and!; [apply H1|apply H1|done|]. intros m' _.
        rewrite Rminus_eq_0, Rabs_R0. apply rbound_nonneg.
      * rewrite Es0. unfold satv at 2. rewrite Hx2c. simpl. intros r p q Hr Hp Hq.
        eapply settled_ext; [|exact (Hsolve r p q Hr Hp Hq)].
        intros y. apply imbalance_ext; [done|]. intros u Hu. by rewrite Hsat1.
    + rewrite list_lookup_insert_ne in Hf by done.
      assert (Hf0 : needs !! j = Some false).
      { destruct (lookup_lt_is_Some_2 needs j) as [[] Hj0]; [|by rewrite (Hm1 j Hj0) in Hf|done].
        rewrite Hnl. by eapply lookup_lt_Some. }
      assert (Hc'c : c' ≠ c). { intros ->. apply Hji. by eapply NoDup_lookup. }
      destruct (Heq j c' Hj Hf0) as (snap & Hsn & Hso). exists snap. split.
      * intros u Hu. destruct (Hsn u Hu) as (H1 & H2 & H3). destruct (decide (u = c)) as [->|Huc].
        -- split_and!; [apply H1|apply H1|done|]. intros m' Hm'.
           assert (m' = i) as -> by (by eapply NoDup_lookup).
           assert (Hsmall : Rabs (s - old) <= tol9).
           { destruct (Rle_dec (Rabs (s - old)) tol9); [done|]. rewrite (Hbig ltac:(lra) j c' Hj Hu) in Hf. done. }
           specialize (H3 i Hc). assert (Eold : satv x c = old) by (unfold satv; by rewrite Hxc).
           assert (Enew : satv x2 c = s) by (unfold satv; by rewrite Hx2c). rewrite Eold in H3. rewrite Enew.
           unfold rbound in *. rewrite decide_False in H3 by lia. rewrite decide_True by lia. rewrite S_INR.
           replace (snap c - s) with ((snap c - old) + - (s - old)) by lra.
           eapply Rle_trans; [apply Rabs_triang|]. rewrite Rabs_Ropp. clear - H3 Hsmall. lra.
        -- rewrite Hsat2 by done. split_and!; [apply H1|apply H1|done|]. intros m' Hm'.
           eapply Rle_trans; [by apply H3|apply rbound_mono].
      * rewrite Hsat2 by done. exact Hso.
Qed.

Lemma rounds_ok n k needs x : inv k 0 needs x →
  ∃ res, rounds g flux pv src dt kr visc_w visc_o tol maxit ia ja C pos s0s n needs x = Some res ∧
    ∀ x', res = Some x' → ∃ k' needs', (k' <= k + n)%nat ∧ inv k' 0 needs' x' ∧ ∀ j, (j < length C)%nat → needs' !! j = Some false.
Proof using All.
  revert k needs x. induction n as [|n IH]; intros k needs x Hinv; cbn [rounds];
    destruct (sweep_ok k (length C) 0 needs 0 x Hinv ltac:(lia)) as (needs' & count & x' & E & Hinv' & _ & Hsame);
    rewrite E; cbn [mbind option_bind].
  - destruct (decide (count = 0%nat)) as [H0|H0]; [|by exists None].
    exists (Some x'). split; [done|]. intros ? [= <-]. destruct (Hsame H0) as (-> & -> & Hall). exists k, needs.
    split_and!; [lia|done|]. intros j Hj. apply Hall. lia.
  - destruct (decide (count = 0%nat)) as [H0|H0].
    + exists (Some x'). split; [done|]. intros ? [= <-]. destruct (Hsame H0) as (-> & -> & Hall). exists k, needs.
      split_and!; [lia|done|]. intros j Hj. apply Hall. lia.
    + destruct (IH (S k) needs' x') as (res & Er & Hres).
      { destruct Hinv' as [H1 H2 H3 H4 H5]. split; try done. intros j c Hj Hf. destruct (H5 j c Hj Hf) as (snap & Hsn & Hso).
        exists snap. split; [|done]. intros u Hu. destruct (Hsn u Hu) as (A1 & A2 & A3). split_and!; [apply A1|apply A1|done|].
        intros m Hm. rewrite <- (rbound_next k (length C)); [by apply A3|by eapply lookup_lt_Some]. }
      exists res. split; [done|]. intros x'' Hx. destruct (Hres x'' Hx) as (k' & nd & Hk & Hi & Hall). exists k', nd.
      split_and!; [lia|done|done].
Qed.
End multi.
