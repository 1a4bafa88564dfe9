(** Boundary conditions on sides (C69). *)
From Coq Require Import Reals Lra Psatz.
From Verif Require Import Base LoopModel LoopProof TableModel UTableProof TofSpec TofProof MiscSpec AppendModel AppendSpec AppendProof SideModel SideSpec.
Local Open Scope R_scope.
Unset Default Proof Using.

Lemma for_loop_none {S} n lo (f : nat → S → option S) i s : (lo <= i < lo + n)%nat → (∀ s, f i s = None) → for_loop n lo f s = None.
Proof.
  intros Hi Hf. revert lo s Hi. induction n as [|n IH]; intros lo s Hi; [lia|]. cbn [for_loop]. destruct (decide (i = lo)) as [->|Hne]; [by rewrite Hf|].
  destruct (f lo s) as [s'|]; [|done]. cbn [mbind option_bind]. apply IH. lia.
Qed.

Lemma lex_drop dims ijk k : Forall2 lt ijk dims → (k < length dims)%nat → ∃ n i, dims !! k = Some n ∧ ijk !! k = Some i ∧ (i < n)%nat ∧
  lex (drop k dims) (drop k ijk) = (i + n * lex (drop (k + 1) dims) (drop (k + 1) ijk))%nat.
Proof.
  intros HF. revert k. induction HF as [|i n ijk dims Hi HF IH]; intros k Hk; cbn [length] in Hk; [lia|]. destruct k as [|k].
  - exists n, i. cbn. rewrite !drop_0. done.
  - destruct (IH k ltac:(lia)) as (n' & i' & H1 & H2 & H3 & H4). exists n', i'. done.
Qed.
Lemma cart_coord_ok ndims dims ijk : (ndims <= 3)%nat → (ndims <= length dims)%nat → length ijk = ndims → Forall2 lt ijk (take ndims dims) →
  ∃ l, cart_coord ndims (lex (take ndims dims) ijk) dims [0; 0; 0]%nat = Some l ∧ ∀ d, (d < ndims)%nat → l !! d = ijk !! d.
Proof.
  intros H3 Hd Hl HF. unfold cart_coord.
  edestruct (for_loop_inv (λ k (st : list nat * nat), length (fst st) = 3%nat ∧ snd st = lex (drop k (take ndims dims)) (drop k ijk) ∧ ∀ d, (d < k)%nat → fst st !! d = ijk !! d) ndims 0) as ([l ix] & -> & Hst).
  - cbn [fst snd]. rewrite !drop_0. split; [done|]. split; [done|]. intros; lia.
  - intros k [l ix] Hk (L & E & V). cbn [fst snd] in *.
    destruct (lex_drop (take ndims dims) ijk k HF) as (n & i & H1 & H2 & Hi & H4); [rewrite take_length; lia|].
    rewrite lookup_take in H1 by lia. rewrite H1. cbn [mbind option_bind]. rewrite decide_False by lia. rewrite upd_Some by lia. cbn [mbind option_bind].
    eexists. split; [reflexivity|]. cbn [fst snd]. split; [by rewrite insert_length|]. rewrite E, H4.
    replace (i + n * lex (drop (k + 1) (take ndims dims)) (drop (k + 1) ijk))%nat with (i + lex (drop (k + 1) (take ndims dims)) (drop (k + 1) ijk) * n)%nat by lia.
    rewrite Nat.div_add, Nat.mod_add, Nat.div_small, Nat.mod_small by lia. split; [done|].
    intros d Hd'. destruct (decide (d = k)) as [->|]; [by rewrite list_lookup_insert by lia|]. rewrite list_lookup_insert_ne by lia. apply V. lia.
  - cbn [mbind option_bind fst snd] in *. destruct Hst as (L & E & V). rewrite drop_ge in E by (rewrite take_length; lia). cbn [lex] in E. rewrite E.
    rewrite decide_True by done. eexists. split; [reflexivity|]. intros d Hd'. apply V. lia.
Qed.

Section sides.
Context (g : tgrid) (tag : list Z) (co : nat → list nat) (side : nat).
Hypothesis Hco : coordinates g co.
Hypothesis Hsz : sized g tag.
Hypothesis Hside : (side < 2 * tg_dim g)%nat.

Lemma side_dim : (side / 2 < tg_dim g)%nat. Proof using Hside. apply Nat.div_lt_upper_bound; lia. Qed.
Lemma cell_prefix c : (c < tg_nc g)%nat → ∃ ijk x n, (match tg_gc g with None => Some c | Some l => l !! c end) = Some (place g c) ∧
  cart_coord (tg_dim g) (place g c) (tg_cart g) [0; 0; 0]%nat = Some ijk ∧ ijk !! (side / 2)%nat = Some x ∧ tg_cart g !! (side / 2)%nat = Some n ∧ (x < n)%nat ∧ co c !! (side / 2)%nat = Some x.
Proof using Hco Hside.
  intros Hc. pose proof side_dim as Hs. destruct Hco as (D3 & Dl & Dg & Dc). destruct (Dc c Hc) as (Cl & CF & Cp).
  destruct (cart_coord_ok (tg_dim g) (tg_cart g) (co c) D3 Dl Cl CF) as (ijk & E & V). rewrite <- Cp in E.
  destruct (lookup_lt_is_Some_2 (co c) (side / 2)) as [x Ex]; [lia|]. destruct (Forall2_lookup_l _ _ _ _ _ CF Ex) as (n & En & Hn). rewrite lookup_take in En by done.
  exists ijk, x, n. split; [|rewrite V by done; done]. unfold place. destruct (tg_gc g) as [l|]; [|done]. specialize (Dg l eq_refl). destruct (lookup_lt_is_Some_2 l c) as [y Ey]; [lia|]. by rewrite Ey.
Qed.

(** The faces found so far are those of half-faces [hs]. *)
Definition found (hs faces : list nat) : Prop := Forall2 (λ hf f, tg_faces g !! hf = Some f) hs faces ∧ NoDup hs.

Lemma inner_ok hs0 faces0 lo hi : found hs0 faces0 → (∀ hf, hf ∈ hs0 → (hf < lo)%nat) → (lo <= hi <= length (tg_faces g))%nat →
  (∀ hf f, (lo <= hf < hi)%nat → tag !! hf = Some (Z.of_nat side) → tg_faces g !! hf = Some f → boundary g f) →
  ∃ hs faces, for_loop (hi - lo) lo (side_face tag g side) faces0 = Some faces ∧ found hs faces ∧ (∀ hf, hf ∈ hs → (hf < hi)%nat) ∧
    ∀ hf, hf ∈ hs ↔ hf ∈ hs0 ∨ (lo <= hf < hi)%nat ∧ tag !! hf = Some (Z.of_nat side).
Proof using Hsz Hside Hco.
  intros H0 Hlt Hle Hb. destruct Hsz as (Ht & _ & Tl & _ & Fc).
  edestruct (for_loop_inv (λ k (faces : list nat), ∃ hs, found hs faces ∧ (∀ hf, hf ∈ hs → (hf < k)%nat) ∧
    ∀ hf, hf ∈ hs ↔ hf ∈ hs0 ∨ (lo <= hf < k)%nat ∧ tag !! hf = Some (Z.of_nat side)) (hi - lo) lo) as (faces & -> & hs & H1 & H2 & H3).
  - exists hs0. split; [done|]. split; [done|]. intros hf. split; [by left|]. intros [?|[? _]]; [done|lia].
  - intros k faces Hk (hs & [H1 H2] & H3 & H4). unfold side_face. destruct (lookup_lt_is_Some_2 tag k) as [t Et]; [lia|]. rewrite Et. cbn [mbind option_bind].
    case_decide as D.
    + subst t. destruct (lookup_lt_is_Some_2 (tg_faces g) k) as [f Ef]; [lia|]. rewrite Ef. cbn [mbind option_bind]. destruct (Fc k f Ef) as [Fl _].
      destruct (lookup_lt_is_Some_2 (tg_cells g) (2 * f)) as [a Ea]; [lia|]. destruct (lookup_lt_is_Some_2 (tg_cells g) (2 * f + 1)) as [b Eb]; [lia|].
      rewrite Ea, Eb. cbn [mbind option_bind]. rewrite decide_True.
      2:{ destruct (Hb k f ltac:(lia) Et Ef) as [E|E]; [left|right]; congruence. }
      eexists. split; [reflexivity|]. exists (hs ++ [k]). split; [|split].
      * split; [apply Forall2_app; [done|by constructor; [|constructor]]|]. apply NoDup_app. split; [done|]. split; [|apply NoDup_singleton].
        intros x Hx ->%elem_of_list_singleton. specialize (H3 k Hx). lia.
      * intros hf [Hx| ->%elem_of_list_singleton]%elem_of_app; [specialize (H3 hf Hx)|]; lia.
      * intros hf. rewrite elem_of_app, elem_of_list_singleton, H4. split.
        -- intros [[?|[? ?]]| ->]; [by left|right; split; [lia|done]|right; split; [lia|done]].
        -- intros [?|[Hx ?]]; [left; by left|]. destruct (decide (hf = k)); [by right|]. left; right. split; [lia|done].
    + eexists. split; [reflexivity|]. exists hs. split; [done|]. split; [intros hf Hx; specialize (H3 hf Hx); lia|].
      intros hf. rewrite H4. split; (intros [?|[Hx Ex]]; [by left|]); right; (split; [|done]); [lia|]. destruct (decide (hf = k)) as [->|]; [congruence|lia].
  - exists hs, faces. split; [done|]. replace (lo + (hi - lo))%nat with hi in * by lia. done.
Qed.

Lemma correct_iff c x n : tg_cart g !! (side / 2)%nat = Some n → (x < n)%nat → co c !! (side / 2)%nat = Some x →
  Z.of_nat x = (if decide (side mod 2 = 1)%nat then (Z.of_nat n - 1)%Z else 0%Z) ↔ outermost g co side c.
Proof using Hsz Hside Hco.
  intros En Hx Ex. unfold outermost. rewrite Ex, En. cbn [default]. destruct (decide (side mod 2 = 1)%nat); cbn; (split; [intros; f_equal; lia|intros [= E]; lia]).
Qed.

(** Exactly the faces of the outermost cells that look to the side, each half-face
    once. *)
Theorem C69_faces : (∀ hf f, side_half g tag co side hf f → boundary g f) →
  ∃ hs faces, find_side g side = Some faces ∧ Forall2 (λ hf f, tg_faces g !! hf = Some f) hs faces ∧ NoDup hs ∧
    (∀ hf, hf ∈ hs ↔ ∃ f, side_half g tag co side hf f) ∧ (∀ f, f ∈ faces ↔ ∃ hf, side_half g tag co side hf f) ∧
    ((∀ hf hf' f, tg_faces g !! hf = Some f → tg_faces g !! hf' = Some f → boundary g f → hf = hf') → NoDup faces).
Proof using Hco Hsz Hside.
  intros Hb. unfold find_side. destruct Hsz as (Ht & Pl & Tl & Pm & Fc). rewrite Ht. pose proof side_dim as Hs2. destruct Hco as (D3 & Dl & _).
  rewrite (decide_True (P := (tg_dim g <= 3)%nat)) by done. rewrite (decide_True (P := (side < 2 * tg_dim g)%nat)) by done.
  destruct (lookup_lt_is_Some_2 (tg_cart g) (side / 2)) as [n En]; [lia|]. rewrite En. cbn [mbind option_bind].
  edestruct (for_loop_inv (λ c (faces : list nat), ∃ hs, found hs faces ∧ (∀ hf p, hf ∈ hs → tg_pos g !! c = Some p → (hf < p)%nat) ∧
    ∀ hf, hf ∈ hs ↔ ∃ c', (c' < c)%nat ∧ outermost g co side c' ∧ of_cell g c' hf ∧ tag !! hf = Some (Z.of_nat side)) (tg_nc g) 0) as (faces & E & hs & [F1 F2] & _ & Hhs).
  3:{ rewrite E. exists hs, faces. split; [done|]. split; [done|]. split; [done|].
      assert (∀ hf, hf ∈ hs ↔ ∃ f, side_half g tag co side hf f) as Hiff.
      { intros hf. rewrite Hhs. split.
        - intros (c & Hc & Ho & Hof & Et). assert (hf < length (tg_faces g))%nat as Hlt by (rewrite <- Tl; by eapply lookup_lt_Some).
          destruct (lookup_lt_is_Some_2 _ _ Hlt) as [f Ef]. exists f, c. split; [lia|]. done.
        - intros (f & c & Hc & Ho & Hof & Et & Ef). exists c. split; [lia|]. done. }
      split; [done|]. split.
      - intros f. split.
        + intros (i & Ei)%elem_of_list_lookup. destruct (Forall2_lookup_r _ _ _ _ _ F1 Ei) as (hf & Eh & Ef).
          destruct (proj1 (Hiff hf) (elem_of_list_lookup_2 _ _ _ Eh)) as (f' & Hh). exists hf. assert (f' = f) as -> by (destruct Hh as (? & _ & _ & _ & _ & E'); congruence). done.
        + intros (hf & Hh). assert (hf ∈ hs) as Hin by (apply Hiff; by exists f). apply elem_of_list_lookup in Hin as (i & Ei).
          destruct (Forall2_lookup_l _ _ _ _ _ F1 Ei) as (f' & Ef' & E2). assert (f' = f) as -> by (destruct Hh as (? & _ & _ & _ & _ & E'); congruence). by apply elem_of_list_lookup_2 in Ef'.
      - intros Hu. apply NoDup_alt. intros i j f Ei Ej. destruct (Forall2_lookup_r _ _ _ _ _ F1 Ei) as (hf & Eh & Ef). destruct (Forall2_lookup_r _ _ _ _ _ F1 Ej) as (hf' & Eh' & Ef').
        destruct (proj1 (Hiff hf) (elem_of_list_lookup_2 _ _ _ Eh)) as (f' & Hh). assert (f' = f) as -> by (destruct Hh as (? & _ & _ & _ & _ & E'); congruence).
        assert (hf = hf') as <- by (apply (Hu hf hf' f); [done|done|by apply (Hb hf)]). by eapply NoDup_lookup. }
  - exists []. split; [split; constructor|]. split; [intros hf p Hx; by apply elem_of_nil in Hx|]. intros hf. split; [intros Hx; by apply elem_of_nil in Hx|]. intros (c' & ? & _). lia.
  - intros c faces Hc (hs & HF & Hlt & Hiff). destruct (cell_prefix c) as (ijk & x & n' & -> & E2 & E3 & E4 & Hx & E5); [lia|]. cbn [mbind option_bind].
    rewrite E2. cbn [mbind option_bind]. rewrite E3. cbn [mbind option_bind]. rewrite En in E4. injection E4 as <-.
    destruct (lookup_lt_is_Some_2 (tg_pos g) c) as [lo Elo]; [lia|]. destruct (lookup_lt_is_Some_2 (tg_pos g) (c + 1)) as [hi Ehi]; [lia|].
    pose proof (Pm c lo hi Elo Ehi) as Hm. pose proof (correct_iff c x n En Hx E5) as Hcor.
    set (cor := (if decide (side mod 2 = 1)%nat then (Z.of_nat n - 1)%Z else 0%Z)) in *. clearbody cor.
    case_decide as D.
    + eexists. split; [reflexivity|]. exists hs. split; [done|]. split.
      * intros hf p Hin Ep. rewrite Ehi in Ep. injection Ep as <-. specialize (Hlt hf lo Hin Elo). lia.
      * intros hf. rewrite Hiff. split.
        -- intros (c' & H1 & H2). exists c'. split; [lia|done].
        -- intros (c' & H1 & H2 & H3). exists c'. split; [|done]. destruct (decide (c' = c)) as [->|]; [|lia]. exfalso. by apply D, Hcor.
    + assert (outermost g co side c) as Ho by (by apply Hcor).
      rewrite Elo, Ehi. cbn [mbind option_bind].
      destruct (inner_ok hs faces lo hi HF) as (hs' & faces' & -> & HF' & Hlt' & Hiff'); [intros hf Hin; by apply (Hlt hf lo)|done| |].
      { intros hf f Hr Et Ef. apply (Hb hf). exists c. split; [lia|]. split; [done|]. split; [by exists lo, hi|]. done. }
      eexists. split; [reflexivity|]. exists hs'. split; [done|]. split; [intros hf p Hin Ep; assert (hi = p) as <- by (cbn in Ep; congruence); by apply Hlt'|].
      intros hf. rewrite Hiff', Hiff. split.
      * intros [(c' & H1 & H2)|[H1 H2]]; [exists c'; split; [lia|done]|]. exists c. split; [lia|]. split; [done|]. split; [by exists lo, hi|done].
      * intros (c' & H1 & H2 & (lo' & hi' & P1 & P2 & P3) & H4). destruct (decide (c' = c)) as [->|].
        -- right. rewrite Elo in P1. rewrite Ehi in P2. injection P1 as <-. injection P2 as <-. done.
        -- left. exists c'. split; [lia|]. split; [done|]. split; [by exists lo', hi'|done].
Qed.

(** Such a face inside the grid is refused. *)
Theorem C69_inside hf f : side_half g tag co side hf f → ¬ boundary g f → find_side g side = None.
Proof using Hco Hsz Hside.
  intros (c & Hc & Ho & (lo & hi & Elo & Ehi & Hr) & Et & Ef) Hn. unfold find_side. destruct Hsz as (Ht & Pl & Tl & Pm & Fc). rewrite Ht.
  pose proof side_dim as Hs2. destruct Hco as (D3 & Dl & _). case_decide; [|done]. case_decide; [|done].
  destruct (lookup_lt_is_Some_2 (tg_cart g) (side / 2)) as [n En]; [lia|]. rewrite En. cbn [mbind option_bind].
  apply (for_loop_none _ _ _ c); [lia|]. intros faces. destruct (cell_prefix c Hc) as (ijk & x & n' & -> & E2 & E3 & E4 & Hx & E5). cbn [mbind option_bind].
  rewrite E2. cbn [mbind option_bind]. rewrite E3. cbn [mbind option_bind]. rewrite En in E4. injection E4 as <-.
  rewrite decide_False. 2:{ intros D. apply D. by apply (correct_iff c x n). }
  rewrite Elo, Ehi. cbn [mbind option_bind]. apply (for_loop_none _ _ _ hf); [lia|]. intros fs. unfold side_face. rewrite Et. cbn [mbind option_bind]. rewrite decide_True by done. rewrite Ef. cbn [mbind option_bind].
  destruct (tg_cells g !! (2 * f)%nat) as [a|] eqn:Ea; [|done]. cbn [mbind option_bind]. destruct (tg_cells g !! (2 * f + 1)%nat) as [b|] eqn:Eb; [|done]. cbn [mbind option_bind].
  rewrite decide_False; [done|]. intros [->| ->]; apply Hn; [by left|by right].
Qed.
End sides.
Print Assumptions C69_faces.
Print Assumptions C69_inside.
