(** Correctness proof of Tarjan's algorithm as coded in tarjan.c. *)
From stdpp Require Import relations.
From Verif Require Import Base CsrSpec CsrProof DfsProof TarjanModel.

Lemma drop_insert_cons {A} (l : list A) i x : i < length l → drop i (<[i:=x]> l) = x :: drop (S i) l.
Proof.
  intros H. assert (E : <[i:=x]> l !! i = Some x) by (by apply list_lookup_insert).
  rewrite (drop_S _ _ _ E). by rewrite drop_insert_gt by lia.
Qed.

(** [ia], [ja] can be read as the rows [rows]; ja may be longer than needed. *)
Definition reads (ia ja : list nat) (rows : list (list nat)) : Prop :=
  ∀ u r, rows !! u = Some r → ∃ b, ia !! u = Some b ∧ ia !! S u = Some (b + length r) ∧
    ∀ t, t < length r → ja !! (b + t) = r !! t.

Section tarjan.
Variable rows : list (list nat).
Variables ia ja : list nat.
Notation nv := (length rows).
Notation row := (row rows).
Hypothesis Hreads : reads ia ja rows.
Hypothesis Hrange : ∀ u v, v ∈ row u → v < nv.
Notation reach := (rtc (λ u v, v ∈ row u)).

Lemma row_reads u : u < nv → ∃ b, ia !! u = Some b ∧ ia !! S u = Some (b + length (row u)) ∧
    ∀ t, t < length (row u) → ja !! (b + t) = row u !! t.
Proof.
  intros Hu. destruct (lookup_lt_is_Some_2 rows u Hu) as [r Hr]. unfold DfsProof.row. rewrite Hr. simpl.
  by apply Hreads.
Qed.

(** A segment of the component stack: the vertices [F] hanging from the vertex
    [c] of the depth first stack.  Top of the stacks first. *)
Notation segments := (list (list nat * nat)).
Definition T (segs : segments) : list nat := flat_map (λ s, s.1 ++ [s.2]) segs.
Definition tm (s : tj) (v : nat) : nat := default 0 (t_time s !! v).
Definition lk (s : tj) (v : nat) : nat := default 0 (t_link s !! v).

Lemma T_seg segs F c v : (F, c) ∈ segs → v ∈ F ++ [c] → v ∈ T segs.
Proof.
  intros H Hv. unfold T. apply elem_of_list_In, in_flat_map. exists (F, c).
  split; [by apply elem_of_list_In|by apply elem_of_list_In].
Qed.
Lemma T_inv segs v : v ∈ T segs → ∃ F c, (F, c) ∈ segs ∧ (v ∈ F ∨ v = c).
Proof.
  unfold T. intros H. apply elem_of_list_In, in_flat_map in H as ([F c] & H1 & H2).
  exists F, c. split; [by apply elem_of_list_In|]. apply elem_of_list_In in H2. simpl in H2.
  apply elem_of_app in H2 as [?|H2]; [by left|]. apply elem_of_list_singleton in H2. by right.
Qed.
Lemma T_act segs F c : (F, c) ∈ segs → c ∈ T segs.
Proof. intros H. eapply T_seg; [done|]. apply elem_of_app. right. by apply elem_of_list_singleton. Qed.
Lemma T_fin segs F c v : (F, c) ∈ segs → v ∈ F → v ∈ T segs.
Proof. intros H Hv. eapply T_seg; [done|]. apply elem_of_app. by left. Qed.

Record inv (comps : list (list nat)) (segs : segments) (fresh : list nat) (s : tj) : Prop := {
  v_lc : length (t_comp s) = S nv;
  v_lv : length (t_vert s) = nv;
  v_lt : length (t_time s) = nv;
  v_ll : length (t_link s) = nv;
  v_ls : length (t_status s) = nv;
  v_ncomp : t_ncomp s = length comps;
  v_comp : take (S (length comps)) (t_comp s) = starts 0 comps;
  v_sp : t_sp s = length (fresh ++ segs.*2);
  v_stack : drop (nv - t_sp s + 1) (t_comp s) = fresh ++ segs.*2;
  v_pos : t_pos s = length (concat comps);
  v_vert : take (t_pos s) (t_vert s) = concat comps;
  v_k : t_k s = length (T segs);
  v_cst : drop (nv - t_k s) (t_vert s) = T segs;
  v_nd : NoDup (concat comps ++ T segs ++ fresh);
  v_dom : ∀ v, v ∈ concat comps ++ T segs ++ fresh → v < nv;
  v_ne : ∀ C, C ∈ comps → C ≠ [];
  v_done : ∀ v, v ∈ concat comps → t_status s !! v = Some done;
  v_fin : ∀ F c v, (F, c) ∈ segs → v ∈ F → t_status s !! v = Some 0%Z;
  v_act : ∀ F c, (F, c) ∈ segs → ∃ m, t_status s !! c = Some (Z.of_nat m) ∧ m ≤ length (row c);
  v_rem : ∀ v, v < nv → v ∉ concat comps → v ∉ T segs → t_status s !! v = Some remaining;
  v_time : ∀ i j u v, T segs !! i = Some u → T segs !! j = Some v → i < j → tm s v < tm s u;
  v_t : ∀ v, v ∈ T segs → tm s v < t_t s;
  v_link : ∀ F c, (F, c) ∈ segs → lk s c ≤ tm s c ∧ ∃ w, w ∈ T segs ∧ tm s w = lk s c ∧ reach c w;
  v_sc : ∀ F c v, (F, c) ∈ segs → v ∈ F → reach c v ∧ reach v c;
  v_path : ∀ i u v, (fresh ++ segs.*2) !! i = Some u → (fresh ++ segs.*2) !! S i = Some v → reach v u;
  v_pf : ∀ F c v y, (F, c) ∈ segs → v ∈ F → y ∈ row v →
           y ∈ concat comps ∨ (y ∈ T segs ∧ lk s c ≤ tm s y);
  v_pc : ∀ F c m j y, (F, c) ∈ segs → t_status s !! c = Some (Z.of_nat m) → m ≤ j → row c !! j = Some y →
           y ∈ concat comps ∨ (y ∈ T segs ∧ lk s c ≤ tm s y) ∨ y ∈ fresh;
  v_closed : ∀ i C v y, comps !! i = Some C → v ∈ C → y ∈ row v → y ∈ concat (take (S i) comps);
  v_scc : ∀ C u, C ∈ comps → u ∈ C → ∀ w, w ∈ C ↔ reach u w ∧ reach w u
}.

(** Room in the arrays. *)
Lemma NoDup_bound (l : list nat) n : NoDup l → (∀ v, v ∈ l → v < n) → length l ≤ n.
Proof.
  intros Hnd Hl. rewrite <- (seq_length n 0). apply submseteq_length, NoDup_submseteq; [done|].
  intros x Hx. apply elem_of_seq. specialize (Hl x Hx). lia.
Qed.
Lemma comps_length (comps : list (list nat)) : (∀ C, C ∈ comps → C ≠ []) → length comps ≤ length (concat comps).
Proof.
  induction comps as [|C l IH]; intros H; simpl; [lia|]. rewrite app_length.
  pose proof (H C ltac:(left)). destruct C; [done|]. simpl.
  specialize (IH ltac:(intros D HD; apply H; by right)). lia.
Qed.
Lemma segs_length (segs : segments) : length segs ≤ length (T segs).
Proof.
  unfold T. induction segs as [|[F c] l IH]; simpl; [lia|]. rewrite app_length, app_length. simpl. lia.
Qed.
Lemma inv_room comps segs fresh s :
  inv comps segs fresh s →
  length comps ≤ t_pos s ∧ t_pos s + t_k s + length fresh ≤ nv ∧ t_sp s ≤ t_k s + length fresh.
Proof.
  intros H. pose proof (NoDup_bound _ nv (v_nd _ _ _ _ H) (v_dom _ _ _ _ H)) as Hb. rewrite !app_length in Hb.
  pose proof (comps_length comps (v_ne _ _ _ _ H)). pose proof (segs_length segs).
  rewrite (v_pos _ _ _ _ H), (v_k _ _ _ _ H), (v_sp _ _ _ _ H), app_length, fmap_length. lia.
Qed.

(** ** Potential *)
Definition left (st : list Z) (v : nat) : nat :=
  match st !! v with
  | Some x => if decide (x = remaining) then length (row v) else Z.to_nat x
  | None => 0
  end.
Definition potential (s : tj) : nat := 2 * sum_list_with (left (t_status s)) (seq 0 nv) + t_sp s.

Lemma sum_le (f g : nat → nat) l : (∀ v, v ∈ l → f v ≤ g v) → sum_list_with f l ≤ sum_list_with g l.
Proof.
  induction l as [|x l IH]; intros H; simpl; [lia|]. pose proof (H x ltac:(left)).
  specialize (IH ltac:(intros; apply H; by right)). lia.
Qed.
Lemma sum_lt (f g : nat → nat) l c : (∀ v, v ∈ l → f v ≤ g v) → c ∈ l → f c < g c →
  sum_list_with f l < sum_list_with g l.
Proof.
  induction l as [|x l IH]; intros H Hc Hlt; [by apply elem_of_nil in Hc|]. simpl.
  pose proof (H x ltac:(left)). pose proof (sum_le f g l ltac:(intros; apply H; by right)).
  apply elem_of_cons in Hc as [->|Hc]; [lia|].
  specialize (IH ltac:(intros; apply H; by right) Hc Hlt). lia.
Qed.

(** ** First visit *)
Lemma lookup_default_insert_ne (l : list nat) i j x : i ≠ j → default 0 (<[i:=x]> l !! j) = default 0 (l !! j).
Proof. intros H. by rewrite list_lookup_insert_ne. Qed.
Lemma lookup_default_insert (l : list nat) i x : i < length l → default 0 (<[i:=x]> l !! i) = x.
Proof. intros H. by rewrite list_lookup_insert. Qed.

Lemma visit_fresh comps segs f s :
  inv comps segs [f] s →
  ∃ s', visit nv ia f s = Some s' ∧ inv comps (([], f) :: segs) [] s' ∧
    potential s' = potential s ∧ t_sp s' = t_sp s.
Proof.
  intros HI. pose proof (inv_room _ _ _ _ HI) as (R1 & R2 & R3). simpl in R2, R3.
  assert (Hf : f < nv). { apply (v_dom _ _ _ _ HI). rewrite !elem_of_app. right; right. by left. }
  pose proof (v_nd _ _ _ _ HI) as Hnd. apply NoDup_app in Hnd as (Hnd1 & Hnd2 & Hnd3).
  apply NoDup_app in Hnd3 as (Hnd3 & Hnd4 & _).
  assert (HfT : f ∉ T segs). { intros H. apply (Hnd4 f H). by left. }
  assert (Hfc : f ∉ concat comps). { intros H. apply (Hnd2 f H). apply elem_of_app. right. by left. }
  destruct HI. destruct (row_reads f Hf) as (b & Eb & Ee & _).
  unfold visit. rewrite v_rem0 by done. cbn [mbind option_bind].
  rewrite !decide_False by (unfold remaining, done; lia). rewrite decide_True by done.
  rewrite Ee, Eb. cbn [mbind option_bind].
  rewrite (upd_Some (t_status s)) by lia. cbn [mbind option_bind].
  rewrite (upd_Some (t_link s)) by lia. cbn [mbind option_bind].
  rewrite (upd_Some (t_time s)) by lia. cbn [mbind option_bind]. rewrite decide_True by lia.
  rewrite (upd_Some (t_vert s)) by lia. cbn [mbind option_bind].
  eexists. split; [done|].
  replace (Z.of_nat (b + length (row f)) - Z.of_nat b)%Z with (Z.of_nat (length (row f))) by lia.
  assert (HT : T (([], f) :: segs) = f :: T segs) by done.
  set (s' := TJ _ _ _ _ _ _ _ _ _ _).
  assert (Htm : ∀ v, v ∈ T segs → tm s' v = tm s v).
  { intros v Hv. unfold tm, s'. simpl. apply lookup_default_insert_ne. intros ->. done. }
  assert (Htf : tm s' f = t_t s). { unfold tm, s'. simpl. apply lookup_default_insert. lia. }
  assert (Hlk : ∀ F c, (F, c) ∈ segs → lk s' c = lk s c).
  { intros F c Hc. unfold lk, s'. simpl. apply lookup_default_insert_ne. intros ->. apply HfT. by eapply T_act. }
  assert (Hlf : lk s' f = t_t s). { unfold lk, s'. simpl. apply lookup_default_insert. lia. }
  assert (Hst : ∀ v, v ≠ f → t_status s' !! v = t_status s !! v).
  { intros v Hv. unfold s'. simpl. by rewrite list_lookup_insert_ne. }
  assert (Hsf : t_status s' !! f = Some (Z.of_nat (length (row f)))).
  { unfold s'. simpl. apply list_lookup_insert. lia. }
  assert (Hin : ∀ F c, (F, c) ∈ ([], f) :: segs → (F = [] ∧ c = f) ∨ ((F, c) ∈ segs ∧ c ≠ f)).
  { intros F c Hc. apply elem_of_cons in Hc as [?|Hc]; [left; by simplify_eq|right].
    split; [done|]. intros ->. apply HfT. by eapply T_act. }
  split_and!.
  2:{ unfold potential. change (t_sp s') with (t_sp s). f_equal. f_equal.
      assert (Hl : ∀ v, left (t_status s') v = left (t_status s) v).
      { intros v. unfold left. destruct (decide (v = f)) as [->|Hne]; [|by rewrite Hst by done].
        rewrite Hsf, v_rem0 by done. rewrite (decide_True _ _ eq_refl).
        destruct (decide _) as [E|E]; [unfold remaining in E; lia|lia]. }
      apply Nat.le_antisymm; apply sum_le; intros v _; rewrite Hl; lia. }
  2:{ done. }
  split; try (unfold s'; simpl; rewrite ?insert_length; assumption).
  - unfold s'. cbn [t_k t_vert t_pos]. rewrite take_insert by lia. done.
  - unfold s'. cbn [t_k]. rewrite HT. simpl. by rewrite v_k0.
  - unfold s'. cbn [t_k t_vert]. rewrite HT.
    replace (nv - S (t_k s)) with (nv - 1 - t_k s) by lia. rewrite drop_insert_cons by lia. f_equal.
    rewrite <- v_cst0. f_equal. lia.
  - rewrite HT. rewrite app_nil_r. apply NoDup_app. split_and!; [done| |].
    + intros v Hv Hv'. apply elem_of_cons in Hv' as [->|Hv']; [done|].
      apply (Hnd2 v Hv). apply elem_of_app. by left.
    + by apply NoDup_cons.
  - intros v Hv. apply v_dom0. rewrite HT in Hv. rewrite !elem_of_app, elem_of_cons, elem_of_nil in Hv.
    rewrite !elem_of_app, elem_of_list_singleton. naive_solver.
  - intros v Hv. rewrite Hst by (intros ->; done). by apply v_done0.
  - intros F c v Hc Hv. apply Hin in Hc as [[-> ->]|[Hc Hne]]; [by apply elem_of_nil in Hv|].
    rewrite Hst; [by eapply v_fin0|]. intros ->. apply HfT. by eapply T_fin.
  - intros F c Hc. apply Hin in Hc as [[-> ->]|[Hc Hne]]; [eexists; by rewrite Hsf|].
    rewrite Hst by done. by eapply v_act0.
  - intros v Hv Hvc HvT. rewrite HT, not_elem_of_cons in HvT. destruct HvT as [Hne HvT].
    rewrite Hst by done. by apply v_rem0.
  - rewrite HT. intros i j u v Hi Hj Hij. destruct j as [|j]; [lia|]. simpl in Hj.
    assert (v ∈ T segs) as Hv by (by eapply elem_of_list_lookup_2). rewrite (Htm v Hv).
    destruct i as [|i]; simpl in Hi.
    + simplify_eq. rewrite Htf. by apply v_t0.
    + rewrite Htm by (by eapply elem_of_list_lookup_2). eapply (v_time0 i j); [done|done|lia].
  - rewrite HT. intros v Hv. change (t_t s') with (S (t_t s)).
    apply elem_of_cons in Hv as [->|Hv]; [rewrite Htf; lia|]. rewrite Htm by done. specialize (v_t0 v Hv). lia.
  - intros F c Hc. rewrite HT. apply Hin in Hc as [[-> ->]|[Hc Hne]].
    + rewrite Hlf, Htf. split; [done|]. exists f. split_and!; [by left|done|done].
    + rewrite (Hlk F c Hc). rewrite (Htm c) by (by eapply T_act).
      destruct (v_link0 F c Hc) as (Hle & w & Hw & Ew & Hr). split; [done|].
      exists w. split_and!; [by right|by rewrite Htm|done].
  - intros F c v Hc Hv. apply Hin in Hc as [[-> ->]|[Hc Hne]]; [by apply elem_of_nil in Hv|]. by eapply v_sc0.
  - intros F c v y Hc Hv Hy. rewrite HT. apply Hin in Hc as [[-> ->]|[Hc Hne]]; [by apply elem_of_nil in Hv|].
    rewrite (Hlk F c Hc). destruct (v_pf0 F c v y Hc Hv Hy) as [?|[HyT Hle]]; [by left|].
    right. split; [by right|]. by rewrite Htm.
  - intros F c m j y Hc Hm Hj Hy. rewrite HT. apply Hin in Hc as [[-> ->]|[Hc Hne]].
    + rewrite Hsf in Hm. simplify_eq. apply lookup_lt_Some in Hy. lia.
    + rewrite Hst in Hm by done. rewrite (Hlk F c Hc).
      destruct (v_pc0 F c m j y Hc Hm Hj Hy) as [?|[[HyT Hle]|Hyf]]; [by left| |].
      * right; left. split; [by right|]. by rewrite Htm.
      * apply elem_of_list_singleton in Hyf as ->. right; left. split; [by left|]. rewrite Htf.
        destruct (v_link0 F c Hc) as [Hle _]. pose proof (v_t0 c ltac:(by eapply T_act)). lia.
Qed.

(** A vertex already visited. *)
Lemma visit_old comps F c segs s :
  inv comps ((F, c) :: segs) [] s → visit nv ia c s = Some s.
Proof.
  intros []. destruct (v_act0 F c ltac:(left)) as (m & Hm & _). unfold visit. rewrite Hm. cbn [mbind option_bind].
  by rewrite !decide_False by (unfold done, remaining; lia).
Qed.

(** ** Popping a component *)
Lemma pop_comp_ok A F c R vert pos status :
  length vert = nv → pos = length A → take pos vert = A → c ∉ F →
  drop (nv - length ((F ++ [c]) ++ R)) vert = (F ++ [c]) ++ R → pos + length ((F ++ [c]) ++ R) ≤ nv →
  (∀ v, v ∈ F ++ [c] → v < length status) →
  ∃ vert' status', pop_comp nv (length ((F ++ [c]) ++ R)) c vert pos status
      = Some (vert', pos + length (F ++ [c]), length R, status') ∧
    length vert' = nv ∧ length status' = length status ∧
    take (pos + length (F ++ [c])) vert' = A ++ F ++ [c] ∧ drop (nv - length R) vert' = R ∧
    (∀ v, v ∈ F ++ [c] → status' !! v = Some done) ∧ (∀ v, v ∉ F ++ [c] → status' !! v = status !! v).
Proof.
  revert A vert pos status. induction F as [|f F IH]; intros A vert pos status Hlv Hpos Htk Hc Hdr Hroom Hlt.
  - simpl in *.
    assert (Ev : vert !! (nv - S (length R)) = Some c).
    { rewrite <- (Nat.add_0_r (nv - S (length R))), <- lookup_drop, Hdr. done. }
    rewrite Ev. cbn [mbind option_bind]. rewrite (upd_Some status) by (apply Hlt; by left). cbn [mbind option_bind].
    rewrite (upd_Some vert) by lia. cbn [mbind option_bind]. rewrite decide_True by done.
    eexists _, _. split; [f_equal; f_equal; f_equal; f_equal; lia|].
    split_and!; [by rewrite insert_length|by rewrite insert_length| | | |].
    + rewrite Nat.add_1_r. rewrite (take_S_r _ _ c) by (apply list_lookup_insert; lia).
      rewrite take_insert by lia. by rewrite Htk.
    + rewrite drop_insert_gt by lia.
      assert (E : drop (nv - length R) vert = drop 1 (drop (nv - S (length R)) vert)).
      { rewrite drop_drop. f_equal. lia. }
      rewrite E, Hdr. done.
    + intros v Hv. apply elem_of_list_singleton in Hv as ->. apply list_lookup_insert. apply Hlt. by left.
    + intros v Hv. rewrite not_elem_of_cons in Hv. rewrite list_lookup_insert_ne by naive_solver. done.
  - set (L := (F ++ [c]) ++ R) in *.
    assert (HL : ((f :: F) ++ [c]) ++ R = f :: L) by done. rewrite HL in *. cbn [length pop_comp].
    cbn [length] in *.
    assert (Ev : vert !! (nv - S (length L)) = Some f).
    { rewrite <- (Nat.add_0_r (nv - S (length L))), <- lookup_drop, Hdr. done. }
    rewrite Ev. cbn [mbind option_bind]. rewrite (upd_Some status) by (apply Hlt; by left). cbn [mbind option_bind].
    rewrite (upd_Some vert) by lia. cbn [mbind option_bind].
    apply not_elem_of_cons in Hc as [Hcf HcF]. rewrite decide_False by done.
    destruct (IH (A ++ [f]) (<[pos:=f]> vert) (S pos) (<[f:=done]> status)) as (vert' & status' & E & H1 & H2 & H3 & H4 & H5 & H6).
    + by rewrite insert_length.
    + rewrite app_length. simpl. lia.
    + rewrite (take_S_r _ _ f) by (apply list_lookup_insert; lia). rewrite take_insert by lia. by rewrite Htk.
    + done.
    + rewrite drop_insert_gt by lia.
      assert (E : drop (nv - length L) vert = drop 1 (drop (nv - S (length L)) vert)).
      { rewrite drop_drop. f_equal. lia. }
      fold L. rewrite E, Hdr. done.
    + fold L. lia.
    + intros v Hv. rewrite insert_length. apply Hlt. by right.
    + fold L in E. exists vert', status'. rewrite E. split_and!.
      * f_equal. f_equal. f_equal. f_equal. rewrite app_length. simpl. rewrite app_length. simpl. lia.
      * done.
      * by rewrite H2, insert_length.
      * replace (pos + length ((f :: F) ++ [c])) with (S pos + length (F ++ [c])) by (rewrite !app_length; simpl; lia).
        rewrite H3. by rewrite <- app_assoc.
      * done.
      * intros v Hv. destruct (decide (v ∈ F ++ [c])) as [Hin|Hout]; [by apply H5|].
        rewrite H6 by done. simpl in Hv. apply elem_of_cons in Hv as [->|?]; [|done].
        apply list_lookup_insert. apply Hlt. by left.
      * intros v Hv. simpl in Hv. apply not_elem_of_cons in Hv as [? ?]. rewrite H6 by done.
        by rewrite list_lookup_insert_ne by done.
Qed.
(** ** Consequences of the invariant *)
Lemma concat_take_sub {A} (l : list (list A)) i x : x ∈ concat (take i l) → x ∈ concat l.
Proof. intros H. rewrite <- (take_drop i l), concat_app. apply elem_of_app. by left. Qed.

Lemma closed_comps comps segs fresh s : inv comps segs fresh s →
  ∀ v w, v ∈ concat comps → reach v w → w ∈ concat comps.
Proof.
  intros HI v w Hv Hr. induction Hr as [|v y w Hy Hr IH]; [done|]. apply IH.
  apply elem_of_list_In, in_concat in Hv as (C & HC & Hv). apply elem_of_list_In in HC, Hv.
  apply elem_of_list_lookup in HC as [i Hi].
  by eapply concat_take_sub, (v_closed _ _ _ _ HI i C v y).
Qed.

Lemma path_reach (P : list nat) :
  (∀ i u v, P !! i = Some u → P !! S i = Some v → reach v u) →
  ∀ d i u v, P !! i = Some u → P !! (i + d) = Some v → reach v u.
Proof.
  intros H. induction d as [|d IH]; intros i u v Hu Hv.
  - rewrite Nat.add_0_r in Hv. simplify_eq. done.
  - assert (i + d < length P) as Hl by (apply lookup_lt_Some in Hv; lia).
    apply lookup_lt_is_Some_2 in Hl as [x Hx].
    transitivity x; [|by eapply IH]. eapply (H (i + d)); [done|]. by rewrite <- Hv; f_equal; lia.
Qed.

Lemma status_T comps segs fresh s v : inv comps segs fresh s → v ∈ T segs →
  ∃ m, t_status s !! v = Some (Z.of_nat m).
Proof.
  intros HI Hv. apply T_inv in Hv as (F & c & Hc & [Hv| ->]).
  - exists 0. by eapply v_fin.
  - destruct (v_act _ _ _ _ HI F c Hc) as (m & ? & _). by exists m.
Qed.

Lemma time_inj comps segs fresh s u v : inv comps segs fresh s →
  u ∈ T segs → v ∈ T segs → tm s u = tm s v → u = v.
Proof.
  intros HI Hu Hv E. apply elem_of_list_lookup in Hu as [i Hi]. apply elem_of_list_lookup in Hv as [j Hj].
  destruct (Nat.lt_trichotomy i j) as [H|[H|H]].
  - pose proof (v_time _ _ _ _ HI i j u v Hi Hj H). lia.
  - by simplify_eq.
  - pose proof (v_time _ _ _ _ HI j i v u Hj Hi H). lia.
Qed.

(** A vertex of the component stack younger than the top of the depth first
    stack belongs to the top segment, and conversely. *)
Lemma top_segment comps F c segs s y : inv comps ((F, c) :: segs) [] s →
  y ∈ T ((F, c) :: segs) → (tm s c ≤ tm s y ↔ y ∈ F ++ [c]).
Proof.
  intros HI Hy. pose proof (v_time _ _ _ _ HI) as Ht.
  assert (HTc : T ((F, c) :: segs) !! length F = Some c).
  { unfold T. simpl. rewrite <- app_assoc. by apply list_lookup_middle. }
  change (T ((F, c) :: segs)) with ((F ++ [c]) ++ T segs) in *.
  split.
  - intros Hle. apply elem_of_app in Hy as [?|Hy]; [done|]. exfalso.
    apply elem_of_list_lookup in Hy as [j Hj].
    assert (tm s y < tm s c); [|lia].
    eapply (Ht (length F) (length (F ++ [c]) + j)); [done| |rewrite app_length; simpl; lia].
    rewrite lookup_app_r by lia. by rewrite Nat.add_comm, Nat.add_sub.
  - intros Hin. apply elem_of_list_lookup in Hin as [j Hj].
    pose proof (lookup_lt_Some _ _ _ Hj) as Hl. rewrite app_length in Hl. simpl in Hl.
    destruct (decide (j = length F)) as [->|Hne].
    + rewrite lookup_app_l in HTc by (rewrite app_length; simpl; lia). simplify_eq. done.
    + assert (tm s c < tm s y); [|lia]. eapply (Ht j (length F)); [|done|lia].
      by apply lookup_app_l_Some.
Qed.

Lemma starts_snoc a l C : starts a (l ++ [C]) = starts a l ++ [a + length (concat (l ++ [C]))].
Proof.
  revert a. induction l as [|D l IH]; intros a; simpl.
  - by rewrite app_nil_r.
  - rewrite IH. simpl. f_equal. f_equal. f_equal. rewrite app_length. lia.
Qed.

Lemma stack_drop {A} (l : list A) n x P : drop n l = x :: P → drop (S n) l = P.
Proof. intros H. replace (S n) with (n + 1) by lia. rewrite <- drop_drop, H. done. Qed.

(** ** The root of a component is finished *)
Lemma finish_root comps F c segs s :
  inv comps ((F, c) :: segs) [] s → t_status s !! c = Some 0%Z → lk s c = tm s c →
  ∃ s', finish nv c s = Some s' ∧ inv (comps ++ [F ++ [c]]) segs [] s' ∧ potential s' < potential s.
Proof.
  intros HI Hst0 Hlink. pose proof (inv_room _ _ _ _ HI) as (R1 & R2 & R3). simpl in R2, R3.
  pose proof (closed_comps _ _ _ _ HI) as Hcl. pose proof (λ y, top_segment _ _ _ _ _ y HI) as Htop.
  assert (HTeq : T ((F, c) :: segs) = (F ++ [c]) ++ T segs) by done.
  pose proof (v_nd _ _ _ _ HI) as Hnd. rewrite app_nil_r, HTeq in Hnd.
  apply NoDup_app in Hnd as (Hnd1 & Hnd2 & Hnd3). apply NoDup_app in Hnd3 as (Hnd3 & Hnd4 & Hnd5).
  pose proof Hnd3 as Hnd3'. apply NoDup_app in Hnd3' as (_ & HcF & _).
  assert (Hc0 : c < nv).
  { apply (v_dom _ _ _ _ HI). rewrite !elem_of_app. right; left. eapply (T_act _ F). by left. }
  assert (Hclosed : ∀ v y, v ∈ F ++ [c] → y ∈ row v → y ∈ concat comps ++ F ++ [c]).
  { intros v y Hv Hy. apply elem_of_app. apply elem_of_app in Hv as [Hv|Hv].
    - destruct (v_pf _ _ _ _ HI F c v y ltac:(left) Hv Hy) as [?|[HyT Hle]]; [by left|].
      right. apply Htop; [done|lia].
    - apply elem_of_list_singleton in Hv as ->. apply elem_of_list_lookup in Hy as [j Hj].
      destruct (v_pc _ _ _ _ HI F c 0 j y ltac:(left) Hst0 ltac:(lia) Hj) as [?|[[HyT Hle]|Hn]]; [by left| |by apply elem_of_nil in Hn].
      right. apply Htop; [done|lia]. }
  assert (Hsc : ∀ v, v ∈ F ++ [c] → reach c v ∧ reach v c).
  { intros v Hv. apply elem_of_app in Hv as [Hv|Hv]; [by eapply (v_sc _ _ _ _ HI F c v ltac:(left))|].
    apply elem_of_list_singleton in Hv as ->. done. }
  destruct HI. unfold finish.
  assert (Elk : t_link s !! c = Some (lk s c)).
  { unfold lk. destruct (lookup_lt_is_Some_2 (t_link s) c ltac:(lia)) as [x Hx]. by rewrite Hx. }
  assert (Etm : t_time s !! c = Some (tm s c)).
  { unfold tm. destruct (lookup_lt_is_Some_2 (t_time s) c ltac:(lia)) as [x Hx]. by rewrite Hx. }
  rewrite Elk, Etm. cbn [mbind option_bind]. rewrite decide_True by done.
  destruct (pop_comp_ok (concat comps) F c (T segs) (t_vert s) (t_pos s) (t_status s))
    as (vert' & status' & E & L1 & L2 & L3 & L4 & L5 & L6); [done|done|done| | | | |].
  { intros H. apply (HcF c H). by left. }
  { rewrite <- HTeq. rewrite <- v_k0. done. }
  { rewrite <- HTeq. lia. }
  { intros v Hv. rewrite v_ls0. apply v_dom0. rewrite HTeq, !elem_of_app. rewrite elem_of_app in Hv. naive_solver. }
  rewrite <- HTeq, <- v_k0 in E. rewrite E. cbn [mbind option_bind].
  set (n := length (F ++ [c])) in *.
  assert (Hn : n ≠ 0) by (unfold n; rewrite app_length; simpl; lia).
  assert (Hk : t_k s = n + length (T segs)) by (rewrite v_k0, HTeq, app_length; done).
  rewrite (upd_Some (t_comp s)) by lia. cbn [mbind option_bind t_sp t_comp t_link].
  assert (Hsp : t_sp s = S (length segs)) by (rewrite v_sp0; simpl; by rewrite fmap_length).
  pose proof (segs_length segs) as Hsl.
  assert (Hstk : drop (nv - (t_sp s - 1) + 1) (<[S (t_ncomp s):=t_pos s + n]> (t_comp s)) = segs.*2).
  { rewrite drop_insert_gt by lia.
    replace (nv - (t_sp s - 1) + 1) with (S (nv - t_sp s + 1)) by lia.
    eapply stack_drop. by rewrite v_stack0. }
  assert (Elink : (if decide (t_sp s - 1 ≠ 0)
     then q ← <[S (t_ncomp s):=t_pos s + n]> (t_comp s) !! (nv - (t_sp s - 1) + 1);
          lq ← t_link s !! q; lc ← t_link s !! c; upd (t_link s) q (lq `min` lc)
     else Some (t_link s)) = Some (t_link s)).
  { destruct (decide (t_sp s - 1 ≠ 0)) as [H|H]; [|done].
    destruct segs as [|[F1 c1] segs]; [simpl in Hsp; lia|].
    assert (Eq : <[S (t_ncomp s):=t_pos s + n]> (t_comp s) !! (nv - (t_sp s - 1) + 1) = Some c1).
    { rewrite <- (Nat.add_0_r (nv - (t_sp s - 1) + 1)), <- lookup_drop, Hstk. done. }
    rewrite Eq. cbn [mbind option_bind].
    assert (Hc1 : c1 ∈ T ((F, c) :: (F1, c1) :: segs)) by (eapply (T_act _ F1); right; left).
    assert (Hc1' : c1 < nv). { apply v_dom0. rewrite !elem_of_app. by right; left. }
    destruct (lookup_lt_is_Some_2 (t_link s) c1 ltac:(lia)) as [x Hx]. rewrite Hx, Elk. cbn [mbind option_bind].
    assert (Hx' : lk s c1 = x) by (unfold lk; by rewrite Hx).
    assert (tm s c1 < tm s c).
    { apply Nat.nle_gt. intros Hle. apply Htop in Hle; [|done].
      apply (Hnd4 c1 Hle). eapply (T_act _ F1). by left. }
    destruct (v_link0 F1 c1 ltac:(right; left)) as [Hle1 _].
    rewrite (upd_Some (t_link s)) by lia. rewrite Nat.min_l by lia. by rewrite list_insert_id. }
  rewrite Elink. cbn [mbind option_bind t_ncomp t_vert t_pos t_k t_time t_status t_t].
  eexists. split; [done|]. set (s' := TJ _ _ _ _ _ _ _ _ _ _).
  assert (Hcat : concat (comps ++ [F ++ [c]]) = concat comps ++ F ++ [c]).
  { rewrite concat_app. simpl. by rewrite app_nil_r. }
  split.
  - split; try (unfold s'; simpl; rewrite ?insert_length; assumption).
    + unfold s'. cbn [t_status]. by rewrite L2.
    + unfold s'. cbn [t_ncomp]. rewrite app_length. simpl. lia.
    + unfold s'. cbn [t_comp]. rewrite app_length. simpl.
      replace (S (length comps + 1)) with (S (S (t_ncomp s))) by lia.
      rewrite (take_S_r _ _ (t_pos s + n)) by (apply list_lookup_insert; lia).
      rewrite take_insert by lia. rewrite v_ncomp0, v_comp0. rewrite starts_snoc. f_equal. f_equal.
      rewrite Hcat, app_length. unfold n. lia.
    + unfold s'. cbn [t_sp]. simpl. rewrite fmap_length. lia.
    + unfold s'. cbn [t_pos]. rewrite Hcat, app_length. unfold n. lia.
    + unfold s'. cbn [t_pos t_vert]. by rewrite Hcat.
    + done.
    + rewrite Hcat, app_nil_r, <- app_assoc. apply NoDup_app. split_and!; [done|done|].
      by apply NoDup_app.
    + intros v Hv. apply v_dom0. rewrite HTeq. rewrite Hcat in Hv.
      rewrite !elem_of_app in Hv |- *. naive_solver.
    + intros C HC. apply elem_of_app in HC as [HC|HC]; [by apply v_ne0|].
      apply elem_of_list_singleton in HC as ->. by destruct F.
    + intros v Hv. rewrite Hcat in Hv. unfold s'. cbn [t_status].
      destruct (decide (v ∈ F ++ [c])) as [Hin|Hout]; [by apply L5|]. rewrite L6 by done.
      apply elem_of_app in Hv as [Hv|Hv]; [|done]. by apply v_done0.
    + intros F1 c1 v Hc1 Hv. unfold s'. cbn [t_status]. rewrite L6; [eapply (v_fin0 F1 c1); [by right|done]|].
      intros Hin. apply (Hnd4 v Hin). by eapply T_fin.
    + intros F1 c1 Hc1. unfold s'. cbn [t_status]. rewrite L6; [eapply (v_act0 F1); by right|].
      intros Hin. apply (Hnd4 c1 Hin). by eapply T_act.
    + intros v Hv Hv1 Hv2. rewrite Hcat in Hv1. unfold s'. cbn [t_status].
      rewrite not_elem_of_app in Hv1. destruct Hv1 as [Hv1 Hv3]. rewrite L6 by done.
      apply v_rem0; [done|done|]. rewrite HTeq. by apply not_elem_of_app.
    + intros i j u v Hi Hj Hij. change (tm s' v) with (tm s v). change (tm s' u) with (tm s u).
      rewrite HTeq in v_time0. eapply (v_time0 (n + i) (n + j)); [| |lia].
      * rewrite lookup_app_r by (unfold n; lia). fold n. by rewrite Nat.add_comm, Nat.add_sub.
      * rewrite lookup_app_r by (unfold n; lia). fold n. by rewrite Nat.add_comm, Nat.add_sub.
    + intros v Hv. apply v_t0. rewrite HTeq. apply elem_of_app. by right.
    + intros F1 c1 Hc1. change (lk s' c1) with (lk s c1). change (tm s' c1) with (tm s c1).
      destruct (v_link0 F1 c1 ltac:(by right)) as (Hle & w & Hw & Ew & Hr). split; [done|].
      exists w. split_and!; [|done|done].
      destruct (decide (w ∈ F ++ [c])) as [Hin|Hout].
      * apply Htop in Hin; [|done].
        assert (Hin1 : c1 ∈ F ++ [c]). { apply Htop; [eapply (T_act _ F1); by right|lia]. }
        destruct (Hnd4 c1 Hin1). by eapply T_act.
      * rewrite HTeq in Hw. apply elem_of_app in Hw as [?|?]; done.
    + intros F1 c1 v Hc1 Hv. eapply v_sc0; [by right|done].
    + intros i u v Hu Hv. eapply (v_path0 (S i)); done.
    + intros F1 c1 v y Hc1 Hv Hy. rewrite Hcat.
      destruct (v_pf0 F1 c1 v y ltac:(by right) Hv Hy) as [?|[HyT Hle]]; [left; apply elem_of_app; by left|].
      rewrite HTeq in HyT. apply elem_of_app in HyT as [HyT|HyT]; [left; apply elem_of_app; by right|].
      by right.
    + intros F1 c1 m j y Hc1 Hm Hj Hy. rewrite Hcat. unfold s' in Hm. cbn [t_status] in Hm.
      rewrite L6 in Hm by (intros Hin; apply (Hnd4 c1 Hin); by eapply T_act).
      destruct (v_pc0 F1 c1 m j y ltac:(by right) Hm Hj Hy) as [?|[[HyT Hle]|Hn']];
        [left; apply elem_of_app; by left| |by apply elem_of_nil in Hn'].
      rewrite HTeq in HyT. apply elem_of_app in HyT as [HyT|HyT]; [left; apply elem_of_app; by right|].
      right; left. done.
    + intros i C v y HC Hv Hy. destruct (decide (i < length comps)) as [Hi|Hi].
      * rewrite lookup_app_l in HC by done. rewrite take_app_le by lia. by eapply v_closed0.
      * pose proof (lookup_lt_Some _ _ _ HC) as Hl. rewrite app_length in Hl. simpl in Hl.
        assert (i = length comps) as -> by lia. rewrite list_lookup_middle in HC by done. simplify_eq.
        rewrite take_ge by (rewrite app_length; simpl; lia). rewrite Hcat. by eapply Hclosed.
    + intros C u HC Hu w. apply elem_of_app in HC as [HC|HC]; [by apply v_scc0|].
      apply elem_of_list_singleton in HC as ->. split.
      * intros Hw. destruct (Hsc u Hu), (Hsc w Hw). split; by transitivity c.
      * intros [Huw Hwu].
        assert (G : ∀ a b, reach a b → a ∈ concat comps ++ F ++ [c] → b ∈ concat comps ++ F ++ [c]).
        { intros a b Hab. induction Hab as [|a x b Hx Hab IH]; [done|]. intros Ha. apply IH.
          apply elem_of_app in Ha as [Ha|Ha]; [|by eapply Hclosed].
          apply elem_of_app. left. eapply Hcl; [done|]. by apply rtc_once. }
        specialize (G u w Huw ltac:(apply elem_of_app; by right)).
        apply elem_of_app in G as [G|G]; [|done]. exfalso.
        apply (Hnd2 u); [by eapply Hcl|]. apply elem_of_app. by left.
  - unfold potential. unfold s'. cbn [t_status t_sp].
    assert (sum_list_with (left status') (seq 0 nv) ≤ sum_list_with (left (t_status s)) (seq 0 nv)); [|lia].
    apply sum_le. intros v _. unfold left.
    destruct (decide (v ∈ F ++ [c])) as [Hin|Hout]; [|by rewrite L6].
    rewrite L5 by done. rewrite decide_False by done. unfold done. simpl. lia.
Qed.
Lemma lk_lookup comps segs fresh s v : inv comps segs fresh s → v < nv → t_link s !! v = Some (lk s v).
Proof.
  intros HI Hv. unfold lk. destruct (lookup_lt_is_Some_2 (t_link s) v) as [x Hx]; [|by rewrite Hx].
  by rewrite (v_ll _ _ _ _ HI).
Qed.
Lemma tm_lookup comps segs fresh s v : inv comps segs fresh s → v < nv → t_time s !! v = Some (tm s v).
Proof.
  intros HI Hv. unfold tm. destruct (lookup_lt_is_Some_2 (t_time s) v) as [x Hx]; [|by rewrite Hx].
  by rewrite (v_lt _ _ _ _ HI).
Qed.
Lemma T_lt comps segs fresh s v : inv comps segs fresh s → v ∈ T segs → v < nv.
Proof. intros HI Hv. apply (v_dom _ _ _ _ HI). rewrite !elem_of_app. by right; left. Qed.

(** ** A vertex that is not a root is finished *)
Lemma finish_child comps F c segs s :
  inv comps ((F, c) :: segs) [] s → t_status s !! c = Some 0%Z → lk s c ≠ tm s c →
  ∃ s' F1 c1 segs', segs = (F1, c1) :: segs' ∧ finish nv c s = Some s' ∧
    inv comps (((F ++ [c]) ++ F1, c1) :: segs') [] s' ∧ potential s' < potential s.
Proof.
  intros HI Hst0 Hlink. pose proof (inv_room _ _ _ _ HI) as (R1 & R2 & R3). simpl in R2, R3.
  pose proof (λ y, top_segment _ _ _ _ _ y HI) as Htop.
  pose proof (λ v, lk_lookup _ _ _ _ v HI) as Elk. pose proof (λ v, tm_lookup _ _ _ _ v HI) as Etm.
  pose proof (λ v, T_lt _ _ _ _ v HI) as HTlt.
  pose proof (path_reach _ (v_path _ _ _ _ HI)) as Hpath.
  assert (HTeq : T ((F, c) :: segs) = (F ++ [c]) ++ T segs) by done.
  pose proof (v_nd _ _ _ _ HI) as Hnd. rewrite app_nil_r in Hnd.
  apply NoDup_app in Hnd as (Hnd1 & Hnd2 & Hnd3). rewrite HTeq in Hnd3. apply NoDup_app in Hnd3 as (Hnd3 & Hnd4 & Hnd5).
  assert (HcT : c ∈ T ((F, c) :: segs)) by (eapply (T_act _ F); left).
  destruct (v_link _ _ _ _ HI F c ltac:(left)) as (Hle & w & Hw & Ew & Hcw).
  assert (Hw' : w ∈ T segs).
  { rewrite HTeq in Hw. apply elem_of_app in Hw as [Hw|Hw]; [|done].
    apply Htop in Hw; [lia|]. rewrite HTeq. apply elem_of_app. by left. }
  destruct segs as [|[F1 c1] segs]; [by apply elem_of_nil in Hw'|].
  assert (Hc1T : c1 ∈ T ((F, c) :: (F1, c1) :: segs)) by (eapply (T_act _ F1); right; left).
  assert (Hc1c : reach c1 c). { eapply (Hpath 1 0); done. }
  assert (Hcc1 : reach c c1).
  { transitivity w; [done|]. apply T_inv in Hw' as (F2 & c2 & Hin & Hwc).
    assert (Hc2 : reach w c2).
    { destruct Hwc as [Hwc| ->]; [|done]. by apply (v_sc _ _ _ _ HI F2 c2 w ltac:(by right)). }
    transitivity c2; [done|]. apply elem_of_list_lookup in Hin as [i Hi].
    destruct i as [|i]; simpl in Hi; [by simplify_eq|].
    assert (Hl : ((F, c) :: (F1, c1) :: segs).*2 !! (2 + i) = Some c2).
    { simpl. rewrite list_lookup_fmap, Hi. done. }
    eapply (Hpath (S i) 1); done. }
  assert (HTeq2 : T (((F ++ [c]) ++ F1, c1) :: segs) = T ((F, c) :: (F1, c1) :: segs)).
  { unfold T. simpl. by rewrite <- !app_assoc. }
  pose proof (top_segment _ _ _ _ _ c1 HI Hc1T) as Hc1top.
  assert (Hc1n : c1 ∉ F ++ [c]).
  { intros H. apply (Hnd4 c1 H). eapply (T_act _ F1). left. }
  assert (Hc1F : c1 ∉ F1).
  { intros H. change (T ((F1, c1) :: segs)) with ((F1 ++ [c1]) ++ T segs) in Hnd5.
    apply NoDup_app in Hnd5 as (Hx & _ & _). apply NoDup_app in Hx as (_ & Hx & _). apply (Hx c1 H). left. }
  assert (Hc1s : ∀ F2 c2, (F2, c2) ∈ segs → c2 ≠ c1).
  { intros F2 c2 Hin ->. change (T ((F1, c1) :: segs)) with ((F1 ++ [c1]) ++ T segs) in Hnd5.
    apply NoDup_app in Hnd5 as (_ & Hx & _). apply (Hx c1); [apply elem_of_app; right; left|].
    by eapply T_act. }
  assert (Hsp : t_sp s = S (S (length segs))).
  { rewrite (v_sp _ _ _ _ HI). simpl. by rewrite fmap_length. }
  unfold finish. rewrite (Elk c), (Etm c) by (by apply HTlt). cbn [mbind option_bind].
  rewrite decide_False by done. cbn [mbind option_bind]. rewrite decide_True by lia.
  assert (Hstk : drop (nv - (t_sp s - 1) + 1) (t_comp s) = ((F1, c1) :: segs).*2).
  { pose proof (segs_length ((F1, c1) :: segs)) as Hsl. simpl in Hsl.
    replace (nv - (t_sp s - 1) + 1) with (S (nv - t_sp s + 1)) by lia.
    eapply stack_drop. by rewrite (v_stack _ _ _ _ HI). }
  assert (Eq : t_comp s !! (nv - (t_sp s - 1) + 1) = Some c1).
  { rewrite <- (Nat.add_0_r (nv - (t_sp s - 1) + 1)), <- lookup_drop, Hstk. done. }
  rewrite Eq. cbn [mbind option_bind]. rewrite (Elk c1), (Elk c) by (by apply HTlt). cbn [mbind option_bind].
  pose proof (HTlt c1 Hc1T) as Hc1lt. pose proof (v_ll _ _ _ _ HI) as Hll.
  rewrite (upd_Some (t_link s)) by lia. cbn [mbind option_bind].
  eexists _, F1, c1, segs. split; [done|]. split; [done|].
  set (l1 := lk s c1 `min` lk s c).
  set (s' := TJ _ _ _ _ _ _ _ _ _ _).
  assert (Hlk1 : lk s' c1 = l1). { unfold lk, s'. simpl. apply lookup_default_insert. lia. }
  assert (Hlk2 : ∀ v, v ≠ c1 → lk s' v = lk s v).
  { intros v Hv. unfold lk, s'. simpl. by apply lookup_default_insert_ne. }
  assert (Htm : ∀ v, tm s' v = tm s v) by done.
  assert (Hin : ∀ F2 c2, (F2, c2) ∈ ((F ++ [c]) ++ F1, c1) :: segs →
     (F2 = (F ++ [c]) ++ F1 ∧ c2 = c1) ∨ ((F2, c2) ∈ segs ∧ c2 ≠ c1)).
  { intros F2 c2 H. apply elem_of_cons in H as [H|H]; [left; by simplify_eq|right; eauto]. }
  split.
  - destruct HI.
    split; rewrite ?HTeq2; try (unfold s'; simpl; rewrite ?insert_length; assumption).
    + unfold s'. cbn [t_sp]. simpl. rewrite fmap_length. lia.
    + intros F2 c2 v Hc Hv. apply Hin in Hc as [[-> ->]|[Hc Hne]]; [|by apply (v_fin0 F2 c2); [right; right|]].
      apply elem_of_app in Hv as [Hv|Hv]; [|by apply (v_fin0 F1 c1); [right; left|]].
      apply elem_of_app in Hv as [Hv|Hv]; [by apply (v_fin0 F c); [left|]|].
      by apply elem_of_list_singleton in Hv as ->.
    + intros F2 c2 Hc. apply Hin in Hc as [[-> ->]|[Hc Hne]]; [apply (v_act0 F1 c1); right; left|].
      apply (v_act0 F2 c2). by right; right.
    + intros F2 c2 Hc. rewrite Htm. apply Hin in Hc as [[-> ->]|[Hc Hne]].
      * rewrite Hlk1. destruct (v_link0 F1 c1 ltac:(right; left)) as (Hle1 & w1 & Hw1 & Ew1 & Hr1).
        split; [unfold l1; lia|]. unfold l1. destruct (decide (lk s c1 ≤ lk s c)).
        -- exists w1. split_and!; [done|rewrite Htm; lia|done].
        -- exists w. split_and!; [done|rewrite Htm; lia|by transitivity c].
      * rewrite Hlk2 by done. destruct (v_link0 F2 c2 ltac:(by right; right)) as (Hle1 & w1 & Hw1 & Ew1 & Hr1).
        split; [done|]. by exists w1.
    + intros F2 c2 v Hc Hv. apply Hin in Hc as [[-> ->]|[Hc Hne]]; [|by apply (v_sc0 F2 c2); [right; right|]].
      apply elem_of_app in Hv as [Hv|Hv]; [|by apply (v_sc0 F1 c1); [right; left|]].
      apply elem_of_app in Hv as [Hv|Hv].
      * destruct (v_sc0 F c v ltac:(left) Hv). split; by transitivity c.
      * by apply elem_of_list_singleton in Hv as ->.
    + intros i u v Hu Hv. by apply (v_path0 (S i) u v).
    + intros F2 c2 v y Hc Hv Hy. rewrite Htm. apply Hin in Hc as [[-> ->]|[Hc Hne]].
      * rewrite Hlk1. apply elem_of_app in Hv as [Hv|Hv].
        -- assert (y ∈ concat comps ∨ y ∈ T ((F, c) :: (F1, c1) :: segs) ∧ lk s c ≤ tm s y) as [?|[? ?]].
           { apply elem_of_app in Hv as [Hv|Hv]; [by apply (v_pf0 F c v y); [left| |]|].
             apply elem_of_list_singleton in Hv as ->. apply elem_of_list_lookup in Hy as [j Hj].
             destruct (v_pc0 F c 0 j y ltac:(left) Hst0 ltac:(lia) Hj) as [?|[?|Hn]]; [by left|by right|].
             by apply elem_of_nil in Hn. }
           { by left. } { right. split; [done|]. unfold l1. lia. }
        -- destruct (v_pf0 F1 c1 v y ltac:(right; left) Hv Hy) as [?|[? ?]]; [by left|].
           right. split; [done|]. unfold l1. lia.
      * rewrite Hlk2 by done. apply (v_pf0 F2 c2 v y); [by right; right|done|done].
    + intros F2 c2 m j y Hc Hm Hj Hy. rewrite Htm. apply Hin in Hc as [[-> ->]|[Hc Hne]].
      * rewrite Hlk1. destruct (v_pc0 F1 c1 m j y ltac:(right; left) Hm Hj Hy) as [?|[[? ?]|?]]; [by left| |by right; right].
        right; left. split; [done|]. unfold l1. lia.
      * rewrite Hlk2 by done. apply (v_pc0 F2 c2 m j y); [by right; right|done|done|done].
  - unfold potential, s'. cbn [t_status t_sp]. lia.
Qed.

(** ** An edge is examined *)
Lemma descend_ok comps F c segs s m :
  inv comps ((F, c) :: segs) [] s → t_status s !! c = Some (Z.of_nat (S m)) →
  ∃ s' fresh', descend nv ia ja c (Z.of_nat (S m)) s = Some s' ∧
    inv comps ((F, c) :: segs) fresh' s' ∧ length fresh' ≤ 1 ∧ potential s' < potential s.
Proof.
  intros HI Hst. pose proof (inv_room _ _ _ _ HI) as (R1 & R2 & R3). simpl in R2, R3.
  pose proof (λ v, lk_lookup _ _ _ _ v HI) as Elk. pose proof (λ v, tm_lookup _ _ _ _ v HI) as Etm.
  pose proof (λ v, T_lt _ _ _ _ v HI) as HTlt.
  pose proof (λ v, status_T _ _ _ _ v HI) as HstT.
  set (sg := (F, c) :: segs) in *.
  assert (HcT : c ∈ T sg) by (eapply (T_act _ F); left).
  pose proof (HTlt c HcT) as Hc.
  destruct (v_act _ _ _ _ HI F c ltac:(left)) as (m' & Hm' & Hdeg). rewrite Hst in Hm'.
  assert (m' = S m) as -> by (simplify_eq; lia). clear Hm'.
  destruct (row_reads c Hc) as (b & Eb & _ & Hja).
  destruct (lookup_lt_is_Some_2 (row c) m ltac:(lia)) as [child Hch].
  assert (Hedge : child ∈ row c) by (by eapply elem_of_list_lookup_2).
  assert (Hchild : child < nv) by (by eapply Hrange).
  unfold descend. rewrite decide_True by lia. rewrite Eb. cbn [mbind option_bind].
  replace (b + Z.to_nat (Z.of_nat (S m)) - 1) with (b + m) by lia. rewrite Hja by lia. rewrite Hch.
  cbn [mbind option_bind]. replace (Z.of_nat (S m) - 1)%Z with (Z.of_nat m) by lia.
  pose proof (v_ls _ _ _ _ HI) as Hls.
  rewrite (upd_Some (t_status s)) by lia. cbn [mbind option_bind].
  set (status' := <[c:=Z.of_nat m]> (t_status s)).
  assert (Hs1 : status' !! c = Some (Z.of_nat m)) by (apply list_lookup_insert; lia).
  assert (Hs2 : ∀ v, v ≠ c → status' !! v = t_status s !! v) by (intros v Hv; by apply list_lookup_insert_ne).
  assert (Hnd : NoDup (concat comps ++ T sg)).
  { pose proof (v_nd _ _ _ _ HI) as H. by rewrite app_nil_r in H. }
  apply NoDup_app in Hnd as (Hnd1 & Hnd2 & Hnd3).
  assert (HF : ∀ F1 c1 v, (F1, c1) ∈ sg → v ∈ F1 → v ≠ c).
  { intros F1 c1 v Hin Hv ->. pose proof (v_fin _ _ _ _ HI F1 c1 c Hin Hv) as E. rewrite Hst in E. by simplify_eq. }
  assert (Hpot : ∀ sp, sp ≤ S (t_sp s) →
     2 * sum_list_with (left status') (seq 0 nv) + sp < potential s).
  { intros sp Hsp. unfold potential.
    assert (sum_list_with (left status') (seq 0 nv) < sum_list_with (left (t_status s)) (seq 0 nv)); [|lia].
    apply (sum_lt _ _ _ c); [|apply elem_of_seq; lia|].
    - intros v _. destruct (decide (v = c)) as [->|Hne]; [|unfold left; by rewrite Hs2].
      unfold left. rewrite Hs1, Hst. destruct (decide _) as [E|_]; [unfold remaining in E; lia|].
      destruct (decide _) as [E|_]; [unfold remaining in E; lia|]. lia.
    - unfold left. rewrite Hs1, Hst. destruct (decide _) as [E|_]; [unfold remaining in E; lia|].
      destruct (decide _) as [E|_]; [unfold remaining in E; lia|]. lia. }
  assert (Hact' : ∀ F1 c1, (F1, c1) ∈ sg → ∃ x, status' !! c1 = Some (Z.of_nat x) ∧ x ≤ length (row c1)).
  { intros F1 c1 Hin. destruct (decide (c1 = c)) as [->|Hne].
    - exists m. split; [done|lia].
    - rewrite Hs2 by done. by apply (v_act _ _ _ _ HI F1). }
  destruct (decide (child ∈ concat comps)) as [Hcc|Hncc].
  { (* already in a component *)
    assert (child ≠ c). { intros ->. by apply (Hnd2 c). }
    rewrite Hs2 by done. rewrite (v_done _ _ _ _ HI child Hcc). cbn [mbind option_bind].
    rewrite decide_False by done. rewrite decide_False by (unfold done; lia). rewrite decide_True by done.
    eexists _, []. split; [done|]. split; [|split; [simpl; lia|by apply Hpot; simpl; lia]].
    destruct HI. split; try (simpl; rewrite ?insert_length; assumption).
    - simpl. unfold status'. by rewrite insert_length.
    - intros v Hv. simpl. rewrite Hs2 by (intros ->; by apply (Hnd2 c)). by apply v_done0.
    - intros F1 c1 v Hin Hv. simpl. rewrite Hs2 by (by eapply HF). by eapply v_fin0.
    - intros v Hv Hv1 Hv2. simpl. rewrite Hs2 by (intros ->; done). by apply v_rem0.
    - intros F1 c1 x j y Hin Hx Hj Hy. simpl in Hx. destruct (decide (c1 = c)) as [->|Hne].
      + rewrite Hs1 in Hx. assert (x = m) as -> by (simplify_eq; lia).
        destruct (decide (j = m)) as [->|]; [simplify_eq; by left|].
        apply (v_pc0 F1 c (S m) j y); [done|done|lia|done].
      + rewrite Hs2 in Hx by done. by apply (v_pc0 F1 c1 x j y). }
  destruct (decide (child ∈ T sg)) as [HcTT|HncT].
  { (* on the component stack *)
    assert (Hsc : ∃ x, status' !! child = Some (Z.of_nat x)).
    { destruct (decide (child = c)) as [->|Hne]; [by exists m|]. rewrite Hs2 by done. by apply HstT. }
    destruct Hsc as [x Hx]. rewrite Hx. cbn [mbind option_bind].
    rewrite decide_False by (unfold remaining; lia). rewrite decide_True by lia.
    rewrite Elk by done. rewrite Etm by done. cbn [mbind option_bind].
    pose proof (v_ll _ _ _ _ HI) as Hll.
    rewrite (upd_Some (t_link s)) by lia. cbn [mbind option_bind].
    eexists _, []. split; [done|]. split; [|split; [simpl; lia|by apply Hpot; simpl; lia]].
    set (l1 := lk s c `min` tm s child). set (s' := TJ _ _ _ _ _ _ _ _ _ _).
    assert (Hlk1 : lk s' c = l1). { unfold lk, s'. simpl. apply lookup_default_insert. lia. }
    assert (Hlk2 : ∀ v, v ≠ c → lk s' v = lk s v).
    { intros v Hv. unfold lk, s'. simpl. by apply lookup_default_insert_ne. }
    assert (Hlkle : ∀ v, lk s' v ≤ lk s v).
    { intros v. destruct (decide (v = c)) as [->|]; [rewrite Hlk1; unfold l1; lia|by rewrite Hlk2]. }
    assert (Htm : ∀ v, tm s' v = tm s v) by done.
    destruct HI. split; try (unfold s'; simpl; rewrite ?insert_length; assumption).
    - simpl. unfold status'. by rewrite insert_length.
    - intros v Hv. simpl. rewrite Hs2 by (intros ->; by apply (Hnd2 c)). by apply v_done0.
    - intros F1 c1 v Hin Hv. simpl. rewrite Hs2 by (by eapply HF). by eapply v_fin0.
    - intros v Hv Hv1 Hv2. simpl. rewrite Hs2 by (intros ->; done). by apply v_rem0.
    - intros F1 c1 Hin. rewrite Htm. destruct (v_link0 F1 c1 Hin) as (Hle & w & Hw & Ew & Hr).
      split; [specialize (Hlkle c1); lia|].
      destruct (decide (c1 = c)) as [->|Hne].
      + rewrite Hlk1. unfold l1. destruct (decide (lk s c ≤ tm s child)).
        * exists w. split_and!; [done|rewrite Htm; lia|done].
        * exists child. split_and!; [done|rewrite Htm; lia|by apply rtc_once].
      + rewrite Hlk2 by done. by exists w.
    - intros F1 c1 v y Hin Hv Hy. rewrite Htm. destruct (v_pf0 F1 c1 v y Hin Hv Hy) as [?|[? ?]]; [by left|].
      right. split; [done|]. specialize (Hlkle c1). lia.
    - intros F1 c1 x' j y Hin Hx' Hj Hy. rewrite Htm. simpl in Hx'. specialize (Hlkle c1).
      destruct (decide (c1 = c)) as [->|Hne].
      + rewrite Hs1 in Hx'. assert (x' = m) as -> by (apply Nat2Z.inj; congruence).
        destruct (decide (j = m)) as [->|].
        * assert (y = child) as -> by congruence. right; left. split; [done|]. rewrite Hlk1. unfold l1. lia.
        * destruct (v_pc0 F1 c (S m) j y) as [?|[[? ?]|?]]; [done|done|lia|done|by left| |by right; right].
          right; left. split; [done|lia].
      + rewrite Hs2 in Hx' by done. destruct (v_pc0 F1 c1 x' j y) as [?|[[? ?]|?]];
          [done|done|done|done|by left| |by right; right].
        right; left. split; [done|lia]. }
  (* a new vertex *)
  assert (Hne : child ≠ c) by (intros ->; done).
  rewrite Hs2 by done. rewrite (v_rem _ _ _ _ HI child) by done. cbn [mbind option_bind].
  rewrite decide_True by done.
  assert (Hall : NoDup (concat comps ++ T sg ++ [child])).
  { rewrite app_assoc. apply NoDup_app. split_and!.
    - apply NoDup_app. done.
    - intros v Hv Hv'. apply elem_of_list_singleton in Hv' as ->. apply elem_of_app in Hv as [?|?]; done.
    - apply NoDup_singleton. }
  assert (Hdom : ∀ v, v ∈ concat comps ++ T sg ++ [child] → v < nv).
  { intros v Hv. rewrite app_assoc in Hv. apply elem_of_app in Hv as [Hv|Hv].
    - apply (v_dom _ _ _ _ HI). by rewrite app_nil_r.
    - by apply elem_of_list_singleton in Hv as ->. }
  assert (Hroom : t_pos s + t_k s + 1 ≤ nv).
  { pose proof (NoDup_bound _ nv Hall Hdom) as Hb. rewrite !app_length in Hb. cbn [length] in Hb.
    rewrite (v_pos _ _ _ _ HI), (v_k _ _ _ _ HI). lia. }
  pose proof (v_lc _ _ _ _ HI) as Hlc.
  unfold push. cbn [t_sp t_comp t_ncomp t_vert t_pos t_k t_time t_link t_status t_t].
  rewrite decide_True by lia. rewrite (upd_Some (t_comp s)) by lia. cbn [mbind option_bind].
  eexists _, [child]. split; [done|]. split; [|split; [simpl; lia|by apply Hpot; simpl; lia]].
  destruct HI. split; try (simpl; rewrite ?insert_length; assumption).
  - simpl. unfold status'. by rewrite insert_length.
  - cbn [t_comp]. rewrite take_insert by lia. done.
  - cbn [t_sp]. simpl. by rewrite v_sp0.
  - cbn [t_sp t_comp]. replace (nv - S (t_sp s) + 1) with (nv - t_sp s) by lia.
    rewrite drop_insert_cons by lia. change ([child] ++ sg.*2) with (child :: ([] ++ sg.*2)). f_equal. rewrite <- v_stack0. f_equal. lia.
  - intros v Hv. simpl. rewrite Hs2 by (intros ->; by apply (Hnd2 c)). by apply v_done0.
  - intros F1 c1 v Hin Hv. simpl. rewrite Hs2 by (by eapply HF). by eapply v_fin0.
  - intros v Hv Hv1 Hv2. simpl. rewrite Hs2 by (intros ->; done). by apply v_rem0.
  - intros [|i] u v Hu Hv; simpl in Hu, Hv.
    + simplify_eq. by apply rtc_once.
    + by apply (v_path0 i u v).
  - intros F1 c1 x j y Hin Hx Hj Hy. simpl in Hx. destruct (decide (c1 = c)) as [->|Hne'].
    + rewrite Hs1 in Hx. assert (x = m) as -> by (simplify_eq; lia).
      destruct (decide (j = m)) as [->|]; [simplify_eq; right; right; left|].
      destruct (v_pc0 F1 c (S m) j y) as [?|[?|Hn]]; [done|done|lia|done|by left|by right; left|by apply elem_of_nil in Hn].
    + rewrite Hs2 in Hx by done.
      destruct (v_pc0 F1 c1 x j y) as [?|[?|Hn]]; [done|done|done|done|by left|by right; left|by apply elem_of_nil in Hn].
Qed.

(** ** One iteration of the inner loop *)
Definition known (comps : list (list nat)) (segs : segments) (fresh : list nat) (v : nat) : Prop :=
  v ∈ concat comps ++ T segs ++ fresh.

Lemma step_top comps F c segs s :
  inv comps ((F, c) :: segs) [] s →
  ∃ s' comps' segs' fresh', 
    (st ← t_status s !! c; if decide (st = 0)%Z then finish nv c s else descend nv ia ja c st s) = Some s' ∧
    inv comps' segs' fresh' s' ∧ length fresh' ≤ 1 ∧
    potential s' < potential s ∧ (∀ v, known comps ((F, c) :: segs) [] v → known comps' segs' fresh' v).
Proof.
  intros HI. destruct (v_act _ _ _ _ HI F c ltac:(left)) as (m & Hm & _). rewrite Hm. cbn [mbind option_bind].
  unfold known. destruct m as [|m].
  - rewrite decide_True by done. destruct (decide (lk s c = tm s c)) as [E|E].
    + destruct (finish_root _ _ _ _ _ HI Hm E) as (s' & E1 & HI' & Hp).
      exists s', (comps ++ [F ++ [c]]), segs, []. split_and!; [done|done|simpl; lia|done|].
      intros v. rewrite concat_app. simpl. rewrite !app_nil_r.
      change (T ((F, c) :: segs)) with ((F ++ [c]) ++ T segs). by rewrite <- !app_assoc.
    + destruct (finish_child _ _ _ _ _ HI Hm E) as (s' & F1 & c1 & segs' & -> & E1 & HI' & Hp).
      eexists s', comps, _, []. split_and!; [done|done|simpl; lia|done|].
      intros v. unfold T. simpl. by rewrite <- !app_assoc.
  - rewrite decide_False by lia. destruct (descend_ok _ _ _ _ _ _ HI Hm) as (s' & fresh' & E1 & HI' & Hl' & Hp).
    exists s', comps, ((F, c) :: segs), fresh'. split_and!; [done|done|done|done|].
    intros v. rewrite !elem_of_app. intros [?|[?|Hn]]; [by left|by right; left|by apply elem_of_nil in Hn].
Qed.

Lemma step_ok comps segs fresh s :
  inv comps segs fresh s → length fresh ≤ 1 → t_sp s ≠ 0 →
  ∃ s' comps' segs' fresh', tj_step nv ia ja s = Some s' ∧
    inv comps' segs' fresh' s' ∧ length fresh' ≤ 1 ∧
    potential s' < potential s ∧ (∀ v, known comps segs fresh v → known comps' segs' fresh' v).
Proof.
  intros HI Hf Hsp. unfold tj_step, peek.
  rewrite <- (Nat.add_0_r (nv - t_sp s + 1)), <- lookup_drop, (v_stack _ _ _ _ HI).
  destruct fresh as [|f [|??]]; [| |simpl in Hf; lia].
  - destruct segs as [|[F c] segs]; [rewrite (v_sp _ _ _ _ HI) in Hsp; done|].
    cbn [app fmap list_fmap lookup list_lookup snd mbind option_bind].
    rewrite (visit_old _ _ _ _ _ HI). cbn [mbind option_bind]. by apply step_top.
  - cbn [app lookup list_lookup mbind option_bind].
    destruct (visit_fresh _ _ _ _ HI) as (s1 & E1 & HI1 & Hp1 & _). rewrite E1. cbn [mbind option_bind].
    destruct (step_top _ _ _ _ _ HI1) as (s' & comps' & segs' & fresh' & E & HI' & Hl & Hp & Hk).
    exists s', comps', segs', fresh'. split_and!; [done|done|done|lia|].
    intros v Hv. apply Hk. unfold known in *. rewrite app_nil_r.
    change (T (([], f) :: segs)) with (f :: T segs). 
    rewrite !elem_of_app in Hv. rewrite elem_of_app, elem_of_cons. rewrite elem_of_list_singleton in Hv. naive_solver.
Qed.

Lemma while_ok fuel comps segs fresh s :
  inv comps segs fresh s → length fresh ≤ 1 → potential s < fuel →
  ∃ s' comps', tj_while nv ia ja fuel s = Some s' ∧ inv comps' [] [] s' ∧
    (∀ v, known comps segs fresh v → v ∈ concat comps').
Proof.
  revert comps segs fresh s. induction fuel as [|fuel IH]; intros comps segs fresh s HI Hf Hp; [lia|].
  cbn [tj_while]. destruct (decide (t_sp s = 0)) as [E|E].
  - rewrite (v_sp _ _ _ _ HI), app_length, fmap_length in E.
    destruct fresh; [|simpl in E; lia]. destruct segs; [|simpl in E; lia].
    exists s, comps. split_and!; [done|done|]. intros v. unfold known. simpl. by rewrite app_nil_r.
  - destruct (step_ok _ _ _ _ HI Hf E) as (s1 & comps1 & segs1 & fresh1 & E1 & HI1 & Hf1 & Hp1 & Hk1).
    rewrite E1. cbn [mbind option_bind].
    destruct (IH _ _ _ _ HI1 Hf1 ltac:(lia)) as (s' & comps' & E' & HI' & Hk').
    exists s', comps'. split_and!; [done|done|]. intros v Hv. by apply Hk', Hk1.
Qed.

(** ** The outer loop *)
Definition max_potential : nat := 2 * sum_list_with (λ v, length (row v)) (seq 0 nv) + 1.

Lemma seed_ok comps s seed :
  inv comps [] [] s → seed < nv → seed ∉ concat comps →
  ∃ s1, push nv seed s = Some s1 ∧
    inv comps [] [seed] (TJ (t_comp s1) (t_ncomp s1) (t_sp s1) (t_vert s1) (t_pos s1) (t_k s1)
                    (t_time s1) (t_link s1) (t_status s1) 0) ∧
    2 * sum_list_with (left (t_status s1)) (seq 0 nv) + t_sp s1 ≤ max_potential.
Proof.
  intros HI Hs Hn. pose proof (inv_room _ _ _ _ HI) as (R1 & R2 & R3).
  assert (Hsp : t_sp s = 0) by (rewrite (v_sp _ _ _ _ HI); done).
  assert (Hall : NoDup (concat comps ++ [seed])).
  { pose proof (v_nd _ _ _ _ HI) as H. simpl in H. rewrite app_nil_r in H. apply NoDup_app. split_and!; [done| |apply NoDup_singleton].
    intros v Hv Hv'. by apply elem_of_list_singleton in Hv' as ->. }
  assert (Hdom : ∀ v, v ∈ concat comps ++ [seed] → v < nv).
  { intros v Hv. apply elem_of_app in Hv as [Hv|Hv].
    - apply (v_dom _ _ _ _ HI). simpl. by rewrite app_nil_r.
    - by apply elem_of_list_singleton in Hv as ->. }
  assert (Hroom : t_pos s + 1 ≤ nv).
  { pose proof (NoDup_bound _ nv Hall Hdom) as Hb. rewrite !app_length in Hb. simpl in Hb.
    rewrite (v_pos _ _ _ _ HI). lia. }
  pose proof (v_lc _ _ _ _ HI) as Hlc.
  unfold push. rewrite decide_True by lia. rewrite upd_Some by lia. cbn [mbind option_bind].
  eexists. split; [done|]. cbn [t_sp t_comp t_ncomp t_vert t_pos t_k t_time t_link t_status t_t]. split.
  - destruct HI. split; try (simpl; rewrite ?insert_length; assumption).
    + cbn [t_comp]. rewrite take_insert by lia. done.
    + cbn [t_sp]. simpl. by rewrite Hsp.
    + cbn [t_sp t_comp]. replace (nv - S (t_sp s) + 1) with (nv - t_sp s) by lia.
      rewrite drop_insert_cons by lia. rewrite drop_ge by lia. done.
    + intros v Hv. by apply elem_of_nil in Hv.
    + intros [|i] u v Hu Hv; done.
    + intros F c m j y Hin. by apply elem_of_nil in Hin.
  - unfold max_potential. rewrite Hsp.
    assert (sum_list_with (left (t_status s)) (seq 0 nv) ≤ sum_list_with (λ v, length (row v)) (seq 0 nv)); [|lia].
    apply sum_le. intros v Hv. apply elem_of_seq in Hv. unfold left.
    destruct (decide (v ∈ concat comps)) as [Hv'|Hv'].
    + rewrite (v_done _ _ _ _ HI v Hv'). rewrite decide_False by done. unfold done. simpl. lia.
    + rewrite (v_rem _ _ _ _ HI v) by (lia || done || apply not_elem_of_nil). by rewrite decide_True.
Qed.

Lemma outer_ok fuel : max_potential < fuel →
  ∀ d n seed comps s, inv comps [] [] s → nv - seed = d → (∀ v, v < seed → v < nv → v ∈ concat comps) →
    2 * d < n →
    ∃ s' comps', tj_outer nv ia ja n fuel seed s = Some s' ∧ inv comps' [] [] s' ∧
      ∀ v, v < nv → v ∈ concat comps'.
Proof.
  intros Hfuel. induction d as [|d IH]; intros n seed comps s HI Hd Hseen Hn.
  - destruct n as [|n]; [lia|]. cbn [tj_outer]. rewrite decide_False by lia.
    exists s, comps. split_and!; [done|done|]. intros v Hv. apply Hseen; lia.
  - assert (Hdone : ∀ n comps s, 2 * d < n → inv comps [] [] s → (∀ v, v < S seed → v < nv → v ∈ concat comps) →
      ∃ s' comps', tj_outer nv ia ja (S n) fuel seed s = Some s' ∧ inv comps' [] [] s' ∧
        ∀ v, v < nv → v ∈ concat comps').
    { intros n1 comps1 s1 Hn1 HI1 Hs1. cbn [tj_outer]. rewrite decide_True by lia.
      rewrite (v_done _ _ _ _ HI1 seed) by (apply Hs1; lia). cbn [mbind option_bind]. rewrite decide_True by done.
      apply (IH n1 (S seed) comps1 s1); [done|lia|done|lia]. }
    destruct n as [|n]; [lia|]. destruct (decide (seed ∈ concat comps)) as [Hin|Hout].
    + apply (Hdone n comps s); [lia|done|]. intros v Hv Hv'. destruct (decide (v = seed)) as [->|]; [done|].
      apply Hseen; lia.
    + cbn [tj_outer]. rewrite decide_True by lia.
      rewrite (v_rem _ _ _ _ HI seed) by (lia || done || apply not_elem_of_nil). cbn [mbind option_bind].
      rewrite decide_False by done.
      destruct (seed_ok comps s seed HI ltac:(lia) Hout) as (s1 & E1 & HI1 & Hp1). rewrite E1. cbn [mbind option_bind].
      destruct (while_ok fuel _ _ _ _ HI1) as (s2 & comps2 & E2 & HI2 & Hk2); [simpl; lia|unfold potential; cbn [t_status t_sp]; lia|].
      rewrite E2. cbn [mbind option_bind]. rewrite (v_k _ _ _ _ HI2). rewrite decide_True by done.
      destruct n as [|n]; [lia|]. apply (Hdone n comps2 s2); [lia|done|].
      intros v Hv Hv'. apply Hk2. unfold known. rewrite !elem_of_app.
      destruct (decide (v = seed)) as [->|]; [right; right; left|]. left. apply Hseen; lia.
Qed.

Lemma init_inv : inv [] [] []
  (TJ (replicate (S nv) 0) 0 0 (replicate nv 0) 0 0 (replicate nv 0) (replicate nv 0) (replicate nv remaining) 0).
Proof.
  split; simpl; rewrite ?replicate_length; try done; try (by intros; exfalso; eapply not_elem_of_nil).
  - rewrite Nat.sub_0_r, Nat.add_1_r. simpl. rewrite drop_ge; [done|by rewrite replicate_length].
  - rewrite Nat.sub_0_r. rewrite drop_ge; [done|by rewrite replicate_length].
  - apply NoDup_nil_2.
  - intros v Hv _ _. by apply lookup_replicate_2.
Qed.

Lemma tj_while_mono fuel fuel' s s' : fuel ≤ fuel' →
  tj_while nv ia ja fuel s = Some s' → tj_while nv ia ja fuel' s = Some s'.
Proof.
  revert fuel' s. induction fuel as [|fuel IH]; intros fuel' s Hle H; [done|].
  destruct fuel' as [|fuel']; [lia|]. cbn [tj_while] in *. destruct (decide (t_sp s = 0)); [done|].
  apply bind_Some in H as (s1 & -> & H). cbn [mbind option_bind]. apply IH; [lia|done].
Qed.
Lemma tj_outer_mono n n' fuel fuel' seed s s' : n ≤ n' → fuel ≤ fuel' →
  tj_outer nv ia ja n fuel seed s = Some s' → tj_outer nv ia ja n' fuel' seed s = Some s'.
Proof.
  intros Hn Hf. revert n' seed s Hn. induction n as [|n IH]; intros n' seed s Hn H; [done|].
  destruct n' as [|n']; [lia|]. cbn [tj_outer] in *. destruct (decide (seed < nv)); [|done].
  apply bind_Some in H as (st & -> & H). cbn [mbind option_bind]. destruct (decide (st = done)).
  - apply IH; [lia|done].
  - apply bind_Some in H as (s1 & -> & H). cbn [mbind option_bind].
    apply bind_Some in H as (s2 & H2 & H). rewrite (tj_while_mono _ _ _ _ Hf H2). cbn [mbind option_bind].
    destruct (decide (t_k s2 = 0)); [|done]. apply IH; [lia|done].
Qed.

Theorem tarjan_ok : ∃ m vert comp comps, (∀ fuel, m ≤ fuel → tarjan fuel nv ia ja = Some (vert, comp, length comps)) ∧
  vert = concat comps ∧ take (S (length comps)) comp = starts 0 comps ∧
  vert ≡ₚ seq 0 nv ∧ (∀ C, C ∈ comps → C ≠ []) ∧ length comp = S nv ∧
  (∀ i C v y, comps !! i = Some C → v ∈ C → y ∈ row v → y ∈ concat (take (S i) comps)) ∧
  (∀ C u, C ∈ comps → u ∈ C → ∀ w, w ∈ C ↔ reach u w ∧ reach w u).
Proof.
  set (m := S (max_potential + 2 * nv + 1)).
  set (s0 := TJ (replicate (S nv) 0) 0 0 (replicate nv 0) 0 0 (replicate nv 0) (replicate nv 0) (replicate nv remaining) 0).
  assert (Hrun : ∀ fuel, m ≤ fuel → ∃ s' comps', tj_outer nv ia ja fuel fuel 0 s0 = Some s' ∧ inv comps' [] [] s' ∧
      ∀ v, v < nv → v ∈ concat comps').
  { intros fuel Hfuel. apply (outer_ok fuel ltac:(lia) nv fuel 0 []); [apply init_inv|lia|intros; lia|lia]. }
  destruct (Hrun m ltac:(lia)) as (s' & comps & E & HI & Hall).
  exists m, (t_vert s'), (t_comp s'), comps. 
  assert (Hperm : concat comps ≡ₚ seq 0 nv).
  { apply NoDup_Permutation.
    - pose proof (v_nd _ _ _ _ HI) as H. simpl in H. by rewrite app_nil_r in H.
    - apply NoDup_seq.
    - intros v. rewrite elem_of_seq. split; [|intros; apply Hall; lia].
      intros Hv. assert (v < nv); [|lia]. apply (v_dom _ _ _ _ HI). simpl. by rewrite app_nil_r. }
  assert (Hv : t_vert s' = concat comps).
  { rewrite <- (v_vert _ _ _ _ HI). symmetry. apply take_ge.
    rewrite (v_lv _ _ _ _ HI), (v_pos _ _ _ _ HI), Hperm, seq_length. done. }
  split_and!.
  - intros fuel Hfuel. unfold tarjan. fold s0.
    rewrite (tj_outer_mono m fuel m fuel 0 s0 s' Hfuel Hfuel E). cbn [mbind option_bind].
    by rewrite (v_ncomp _ _ _ _ HI).
  - done.
  - apply (v_comp _ _ _ _ HI).
  - by rewrite Hv.
  - apply (v_ne _ _ _ _ HI).
  - apply (v_lc _ _ _ _ HI).
  - apply (v_closed _ _ _ _ HI).
  - apply (v_scc _ _ _ _ HI).
Qed.
End tarjan.
