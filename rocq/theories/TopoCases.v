(** C60: cases. *)
From Coq Require Import Reals Lra Psatz.
From Verif Require Import Base LoopModel LoopProof TableModel UniqModel UniqSpec UniqProps PillarModel PrepModel HorizSpec HorizProps VertModel VertSpec VertGeom VertSlots VertLoop VertProc VertLink VertProps GrdModel GrdSpec GrdProps GrdNodes GrdEnd GrdCases CsrModel GridModel GridSpec CartGeomProof TofSpec PolyModel PolySpec PolyProof PolyProps PolyCell PolyCellProps PolyCases TopoModel TopoProps TopoGrid.
Unset Default Proof Using.

(** One cell with a slanted pillar has a grid, provided there is memory. *)
Example C60_one_cell junk junkn junkr o : false ∉ o →
  ∃ out pos faces tags cf nodes, process_grdecl rsort junk junkr 1 1 1 slanted downwards None 0 = Some out ∧ grid_ok (to_grid out pos faces) cf ∧
    (solid (to_grid out pos faces) cf nodes (node_at (o_coords out)) → ∃ g o', create_grid_cornerpoint rsort junk junkn junkr 1 1 1 slanted downwards None 0 o = Some (Some g, o') ∧ cp_facetag g = tags).
Proof.
  intros Ho. pose proof (C60_create rsort junk junkn junkr 1 1 1 slanted downwards None 0 o 1 1 ltac:(lia) ltac:(lia) eq_refl eq_refl ltac:(done) ltac:(lra) rsort_ok ltac:(done) downwards_oriented) as HC. cbv zeta in HC.
  destruct HC as (act & zc & u & P & zp & H1 & H2 & H3 & Hb & HC).
  destruct HC as [(o' & _ & Hf)|[[_ Hm]|(rv & out & Fs0 & Fs1 & Is0 & Is1 & Fh & F & cell & E & Hrv & Hg & pos & faces & tags & cf & nodes & H4 & H5 & H6 & H7 & H8 & H9)]]; [done| |].
  - exfalso. destruct H1 as [[La Ha] [Lz Hz]]. assert (Hin : input_sizes 1 1 1 slanted zc act) by (split; [lia|done|by rewrite Lz|by rewrite La]).
    assert (Hnum : (Z.of_nat (u_num u) ≤ int_max)%Z) by (unfold int_max; lia).
    eapply (C54_column 1 (u_plist u) zp); [|exact (proj1 H3)|exact Hm]. by eapply C39_levels.
  - exists out, pos, faces, tags, cf, nodes. split; [done|]. split; [done|]. intros Hs. destruct (H9 Hs) as (N & C & A & cc & cv & o' & -> & _). by eexists _, _.
Qed.

(** The two tetrahedra of C59 are solid. *)
Example C60_solid : solid tets tets_cf tets_nodes tets_pt.
Proof.
  split.
  - intros f Hf. split; [apply fan_area_pos; by apply tets_area|]. destruct (tets_flat f Hf) as [k Hk]. apply (flat_aligned k); [|done]. intros Hn. pose proof (tets_area f Hf) as Ha. unfold poly in Ha. rewrite Hn in Ha. cbn in Ha. unfold vdot in Ha. cbn in Ha. lra.
  - intros c row Hr. split.
    + do 2 (destruct c as [|c]; [injection Hr as <-; apply (bool_decide_unpack _); vm_compute; done|]). done.
    + pose proof (tets_volumes c row Hr) as HV. unfold poly in HV. rewrite HV. destruct (decide (c = 0)%nat); lra.
Qed.
