(** C10: dfs computes the connected components (opm/core/pressure/msmfem/dfs.c). *)
From stdpp Require Import relations.
From Verif Require Import Base DfsModel CsrSpec CsrProof DfsProof.

(** A graph is a list of rows: row [u] lists the vertices [u] points to. *)
Definition edge (rows : list (list nat)) (u v : nat) : Prop := ∃ r, rows !! u = Some r ∧ v ∈ r.
Definition in_range (rows : list (list nat)) : Prop := ∀ u v, edge rows u v → v < length rows.
Definition undirected (rows : list (list nat)) : Prop := ∀ u v, edge rows u v → edge rows v u.
(** A vertex that points to itself does so in the first entry of its row only. *)
Definition self_first (rows : list (list nat)) : Prop :=
  ∀ u r t, rows !! u = Some r → r !! t = Some u → t = 0.

Lemma edge_E rows u v : edge rows u v ↔ E rows u v.
Proof.
  unfold edge, E, row. split.
  - intros (r & -> & Hv). done.
  - destruct (rows !! u) as [r|]; simpl; [|by intros ?%elem_of_nil]. by exists r.
Qed.
Lemma rtc_edge_E rows u v : rtc (edge rows) u v ↔ rtc (E rows) u v.
Proof.
  split; induction 1 as [|a b c H _ IH]; [done| |done|].
  - eapply rtc_l; [|done]. by apply edge_E.
  - eapply rtc_l; [|done]. by apply edge_E.
Qed.

(** Any directed graph.  There is a list of seeds, one for each colour; the
    colour of a vertex is the number of the first seed it can be reached from;
    and the seed of colour k is the first vertex that no earlier seed reaches.
    The arrays may be longer than the graph needs, as they are in
    partition_split_disconnected; what lies beyond is left alone. *)
Theorem C10_directed rows ia ja xi xj color0 xc work0 xw :
  holds_rows ia ja rows → in_range rows → self_first rows →
  length color0 = length rows → length work0 = 2 * length rows →
  ∃ m seeds color,
    (∀ fuel, m ≤ fuel → dfs_run fuel (length rows) (ia ++ xi) (ja ++ xj) (color0 ++ xc) (work0 ++ xw)
                        = Some (length seeds, color ++ xc)) ∧
    length color = length rows ∧
    (∀ v x, color !! v = Some x → ∃ k f, x = Z.of_nat k ∧ seeds !! k = Some f ∧ rtc (edge rows) f v ∧
        ∀ j g, j < k → seeds !! j = Some g → ¬ rtc (edge rows) g v) ∧
    (∀ k f, seeds !! k = Some f → color !! f = Some (Z.of_nat k) ∧
        ∀ u, u < f → ∃ j g, j < k ∧ seeds !! j = Some g ∧ rtc (edge rows) g u).
Proof.
  intros Hr Hrange Hself Hc Hw.
  destruct (dfs_run_correct rows ia ja Hr) with (color0 := color0) (work0 := work0)
    as (m & fs & ncol & color & Hrun & Hlc & Hlf & Hval & Hreach & Hfirst); try done.
  { intros u v H. apply edge_E in H. by eapply Hrange. }
  { intros u t H. unfold row in H. destruct (rows !! u) as [r|] eqn:Hu; simpl in H; [|done]. by eapply Hself. }
  exists m, fs, color. split_and!.
  - intros fuel Hf. rewrite Hlf. apply dfs_run_frame. by apply Hrun.
  - done.
  - intros v x Hx. destruct (Hreach v x Hx) as [(f & Hf & Hfv) Hmin]. pose proof (Hval v x Hx).
    exists (Z.to_nat x), f. split_and!; [lia|done|by apply rtc_edge_E|].
    intros j g Hj Hg HR. apply rtc_edge_E in HR. eapply (Hmin j g); [lia|done|done].
  - intros k f Hk. destruct (Hfirst k f Hk) as [Hf Hlt]. split; [done|]. intros u Hu.
    destruct (lookup_lt_is_Some_2 color u) as [x Hx]. { pose proof (lookup_lt_Some _ _ _ Hf). lia. }
    pose proof (Hlt u x Hu Hx). pose proof (Hval u x Hx). destruct (Hreach u x Hx) as [(g & Hg & Hgu) _].
    exists (Z.to_nat x), g. split_and!; [lia|done|by apply rtc_edge_E].
Qed.
Print Assumptions C10_directed.

(** Undirected graphs: two vertices get the same colour exactly when a path
    joins them, the colours are 0 .. ncolors-1 with none left out, and they are
    numbered in the order in which the components first appear. *)
Theorem C10_components rows ia ja xi xj color0 xc work0 xw :
  holds_rows ia ja rows → in_range rows → undirected rows → self_first rows →
  length color0 = length rows → length work0 = 2 * length rows →
  ∃ m ncolors color,
    (∀ fuel, m ≤ fuel → dfs_run fuel (length rows) (ia ++ xi) (ja ++ xj) (color0 ++ xc) (work0 ++ xw)
                        = Some (ncolors, color ++ xc)) ∧
    length color = length rows ∧
    (∀ v x, color !! v = Some x → (0 ≤ x < Z.of_nat ncolors)%Z) ∧
    (∀ u v x y, color !! u = Some x → color !! v = Some y → (x = y ↔ rtc (edge rows) u v)) ∧
    (∀ k, k < ncolors → ∃ f, color !! f = Some (Z.of_nat k) ∧
        ∀ u x, u < f → color !! u = Some x → (x < Z.of_nat k)%Z).
Proof.
  intros Hr Hrange Hund Hself Hc Hw.
  destruct (C10_directed rows ia ja xi xj color0 xc work0 xw Hr Hrange Hself Hc Hw)
    as (m & seeds & color & Hrun & Hlc & Hcol & Hseed).
  assert (Hsym : ∀ u v, rtc (edge rows) u v → rtc (edge rows) v u).
  { induction 1 as [|a b c Hab _ IH]; [done|]. eapply rtc_r; [done|]. by apply Hund. }
  exists m, (length seeds), color. split_and!; [done|done| | |].
  - intros v x Hx. destruct (Hcol v x Hx) as (k & f & -> & Hf & _). pose proof (lookup_lt_Some _ _ _ Hf). lia.
  - intros u v x y Hx Hy. destruct (Hcol u x Hx) as (k & f & -> & Hf & Hfu & Hkm).
    destruct (Hcol v y Hy) as (l & g & -> & Hg & Hgv & Hlm). split.
    + intros Heq. assert (k = l) as -> by lia. simplify_eq. etrans; [by apply Hsym|done].
    + intros Huv. destruct (decide (k < l)) as [Hlt|Hge].
      { exfalso. eapply (Hlm k f); [done|done|]. by etrans. }
      destruct (decide (l < k)) as [Hlt|Hge']; [|lia].
      exfalso. eapply (Hkm l g); [done|done|]. etrans; [done|]. by apply Hsym.
  - intros k Hk. destruct (lookup_lt_is_Some_2 seeds k Hk) as [f Hf].
    destruct (Hseed k f Hf) as [Hfc Hlt]. exists f. split; [done|]. intros u x Hu Hx.
    destruct (Hlt u Hu) as (j & g & Hj & Hg & Hgu).
    destruct (Hcol u x Hx) as (l & h & -> & Hh & Hhu & Hm).
    destruct (decide (j < l)); [|lia]. exfalso. by eapply (Hm j g).
Qed.
Print Assumptions C10_components.

(** The restriction on self connections is needed: on the path 0 - 2 - 1 where
    every vertex also points to itself, but not in the first entry of its row,
    dfs reports two components although the graph is connected. *)
Theorem C10_self_loops_refuted :
  ∃ rows ia ja color0 work0,
    holds_rows ia ja rows ∧ in_range rows ∧ undirected rows ∧
    length color0 = length rows ∧ length work0 = 2 * length rows ∧
    rtc (edge rows) 0 1 ∧
    ∀ fuel, 20 ≤ fuel → dfs_run fuel (length rows) ia ja color0 work0 = Some (2, [0; 1; 0]%Z).
Proof.
  set (rows := [[0;2];[1;2];[1;0;2]] : list (list nat)).
  assert (He : ∀ u v, edge rows u v →
     (u, v) ∈ [(0,0);(0,2);(1,1);(1,2);(2,1);(2,0);(2,2)]).
  { intros u v (r & Hr & Hv). destruct u as [|[|[|u]]]; simpl in Hr; simplify_eq;
      repeat (apply elem_of_cons in Hv as [->|Hv]); try (by apply elem_of_nil in Hv);
      repeat first [left|right]; try done. }
  exists rows, [0;2;4;7], [0;2;1;2;1;0;2], [7;7;7]%Z, [9;9;9;9;9;9]. split_and!.
  - exact (CsrProof.starts_holds rows).
  - intros u v H. apply He in H. change (length rows) with 3.
    repeat (apply elem_of_cons in H as [?|H]; [simplify_eq; lia|]). by apply elem_of_nil in H.
  - intros u v H. apply He in H.
    repeat (apply elem_of_cons in H as [?|H];
      [simplify_eq; eexists; split; [reflexivity|]; repeat first [by left|right]|]).
    by apply elem_of_nil in H.
  - done.
  - done.
  - eapply rtc_l; [|eapply rtc_once].
    + exists [0;2]. split; [done|]. right. left.
    + exists [1;0;2]. split; [done|]. left.
  - intros fuel Hf. do 20 (destruct fuel as [|fuel]; [lia|]). reflexivity.
Qed.
Print Assumptions C10_self_loops_refuted.

(** Non-vacuity: five vertices, two components, self connections first. *)
Definition rows_ex : list (list nat) := [[0;3];[1;4;2];[2;1];[3;0];[4;1]].
Example C10_ex_hyps :
  holds_rows [0;2;5;7;9;11] [0;3;1;4;2;2;1;3;0;4;1] rows_ex ∧ in_range rows_ex ∧
  undirected rows_ex ∧ self_first rows_ex.
Proof.
  assert (He : ∀ u v, edge rows_ex u v →
     (u, v) ∈ [(0,0);(0,3);(1,1);(1,4);(1,2);(2,2);(2,1);(3,3);(3,0);(4,4);(4,1)]).
  { intros u v (r & Hr & Hv). destruct u as [|[|[|[|[|u]]]]]; simpl in Hr; simplify_eq;
      repeat (apply elem_of_cons in Hv as [->|Hv]); try (by apply elem_of_nil in Hv);
      repeat first [left|right]; try done. }
  split_and!.
  - exact (CsrProof.starts_holds rows_ex).
  - intros u v H. apply He in H. change (length rows_ex) with 5.
    repeat (apply elem_of_cons in H as [?|H]; [simplify_eq; lia|]). by apply elem_of_nil in H.
  - intros u v H. apply He in H.
    repeat (apply elem_of_cons in H as [?|H];
      [simplify_eq; eexists; split; [reflexivity|]; repeat first [by left|right]|]).
    by apply elem_of_nil in H.
  - intros u r t Hr Ht. destruct u as [|[|[|[|[|u]]]]]; simpl in Hr; simplify_eq;
      destruct t as [|[|[|t]]]; simpl in Ht; simplify_eq; done.
Qed.
Example C10_ex_run :
  dfs_run 30 5 [0;2;5;7;9;11] [0;3;1;4;2;2;1;3;0;4;1] [7;7;7;7;7]%Z (replicate 10 9)
  = Some (2, [0;1;1;0;1]%Z).
Proof. reflexivity. Qed.
