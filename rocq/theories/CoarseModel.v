(** Model of opm/core/pressure/msmfem/coarse_conn.c: the interfaces between the
    blocks of a partition.

    Simplifications valid for the whole file:
    - int values are [Z] or, where they are counters and positions, [nat] (no
      overflow);
    - the hash sets are those of HashModel.v, with the hash function [h];
    - freeing memory is left out;
    - new memory is filled with the unknown value [junk] where the code does not
      initialise it. *)
From Verif Require Import Base HashModel CsrModel.

Definition int_min : Z := -2147483648.

(** struct block_neighbour and struct block_neighbours, coarse_conn.c:39-50;
    an entry [None] is a null pointer and the null array is [[]]. *)
Record nbr := Nbr { nb_b : Z; nb_set : option hash_set }.
Record nbrs := Nbrs { ns_num : nat; ns_cpty : nat; ns_arr : list (option nbr) }.

Section coarse.
Variable h : Z → nat → nat.

(** block_neighbour_allocate, coarse_conn.c:76-100. *)
Definition nbr_allocate (nconn : Z) (o : list bool) : option nbr * list bool :=
  let '(ok, o) := next_alloc o in
  if ok then
    if decide (0 < nconn)%Z then
      let '(t, o) := allocate (Z.to_nat nconn) o in
      match t with Some t => (Some (Nbr int_min (Some t)), o) | None => (None, o) end
    else (Some (Nbr int_min None), o)
  else (None, o).
(** block_neighbour_insert_fconn, coarse_conn.c:105-121. *)
Definition nbr_insert_fconn (fconn : Z) (bn : nbr) (o : list bool) : option (Z * nbr * list bool) :=
  match nb_set bn with
  | Some t => '(r, t, o) ← insert h fconn t o; Some (r, Nbr (nb_b bn) (Some t), o)
  | None => Some (0%Z, bn, o)
  end.
(** block_neighbours_allocate, coarse_conn.c:149-177. *)
Definition nbrs_allocate (n : nat) (o : list bool) : option nbrs * list bool :=
  let '(ok, o) := next_alloc o in
  if ok then
    if decide (0 < n) then
      let '(ok, o) := next_alloc o in
      if ok then (Some (Nbrs 0 n (replicate n None)), o) else (None, o)
    else (Some (Nbrs 0 0 []), o)
  else (None, o).
(** The loop coarse_conn.c:198-200: [m] iterations from [k] on. *)
Fixpoint clear_from (m k : nat) (arr : list (option nbr)) : option (list (option nbr)) :=
  match m with 0 => Some arr | S m => arr ← upd arr k None; clear_from m (S k) arr end.
(** block_neighbours_expand, coarse_conn.c:183-206; the value returned is the
    last value of the loop variable. *)
Definition nbrs_expand (n : nat) (bns : nbrs) (o : list bool) : option (Z * nbrs * list bool) :=
  let '(ok, o) := next_alloc o in
  if ok then
    arr ← clear_from (n - ns_num bns) (ns_num bns) (realloc_arr None n (ns_arr bns));
    Some (Z.of_nat (Nat.max (ns_num bns) n), Nbrs (ns_num bns) n arr, o)
  else Some ((-1)%Z, bns, o).
(** The binary search coarse_conn.c:233-247; the fuel is the length of the
    interval. *)
Fixpoint search (fuel : nat) (b : Z) (arr : list (option nbr)) (i j : nat) : option nat :=
  if decide (i < j) then
    match fuel with
    | 0 => None
    | S fuel =>
      let p := (i + j) / 2 in
      x ← arr !! p; x ← x;
      if decide (nb_b x < b)%Z then search fuel b arr (p + 1) j
      else if decide (b < nb_b x)%Z then search fuel b arr i p
      else Some p
    end
  else Some i.
(** The part that makes a new neighbour, coarse_conn.c:252-278. *)
Definition add_neighbour (i : nat) (ret b fconn expct_nconn : Z) (bns : nbrs) (o : list bool) : option (Z * nbrs * list bool) :=
  '(ret, bns, o) ← (if decide (ns_num bns = ns_cpty bns) then
      if decide (1 ≤ ns_cpty bns) then nbrs_expand (2 * ns_cpty bns) bns o else None
    else Some (ret, bns, o));
  if decide (0 ≤ ret)%Z then
    arr ← (if decide (i < ns_num bns) then
        src ← slice (ns_arr bns) i (ns_num bns - i); memcpy (ns_arr bns) (i + 1) src
      else Some (ns_arr bns));
    let '(x, o) := nbr_allocate expct_nconn o in
    arr ← upd arr i x;
    match x with
    | Some bn =>
      '(ret, bn, o) ← nbr_insert_fconn fconn bn o;
      arr ← upd arr i (Some (Nbr b (nb_set bn)));
      Some (ret, Nbrs (ns_num bns + 1) (ns_cpty bns) arr, o)
    | None => Some ((-1)%Z, Nbrs (ns_num bns) (ns_cpty bns) arr, o)
    end
  else Some (ret, bns, o).
(** block_neighbours_insert_neighbour, coarse_conn.c:215-283. *)
Definition insert_neighbour (b fconn expct_nconn : Z) (bns : nbrs) (o : list bool) : option (Z * nbrs * list bool) :=
  '(ret, bns, o) ← (if decide (ns_arr bns = [] ∨ ns_cpty bns = 0) then nbrs_expand 1 bns o else Some (1%Z, bns, o));
  if decide (ret = 1)%Z then
    i ← search (ns_num bns) b (ns_arr bns) 0 (ns_num bns);
    x ← (if decide (i < ns_num bns) then ns_arr bns !! i else Some None);
    match x with
    | Some bn =>
      if decide (nb_b bn = b) then
        '(r, bn, o) ← nbr_insert_fconn fconn bn o;
        arr ← upd (ns_arr bns) i (Some bn);
        Some (r, Nbrs (ns_num bns) (ns_cpty bns) arr, o)
      else add_neighbour i ret b fconn expct_nconn bns o
    | None => add_neighbour i ret b fconn expct_nconn bns o
    end
  else Some (ret, bns, o).

(** count_blocks, coarse_conn.c:289-302. *)
Definition count_blocks (nc : nat) (p : list Z) : option Z :=
  l ← slice p 0 nc; Some (foldl Z.max (-1) l + 1)%Z.

(** One pass of the loop of derive_block_faces, coarse_conn.c:332-364. *)
Definition block_of (p : list Z) (c : Z) : option Z := if decide (0 ≤ c)%Z then p !! Z.to_nat c else Some (-1)%Z.
Definition derive_face (expct_nconn : Z) (p neighbours : list Z) (f : nat) (bns : list (option nbrs)) (ret : Z) (o : list bool) :
    option (Z * list (option nbrs) * list bool) :=
  c1 ← neighbours !! (2 * f); b1 ← block_of p c1;
  c2 ← neighbours !! (2 * f + 1); b2 ← block_of p c2;
  if decide (0 ≤ b1 ∨ 0 ≤ b2)%Z then
    let '(b_in, b_out) :=
      if decide (0 ≤ b1 ∧ 0 ≤ b2)%Z then (Z.min b1 b2, Z.max b1 b2)
      else if decide (0 ≤ b1)%Z then (b1, b2) else (b2, b1) in
    if decide (b_in ≠ b_out) then
      x ← bns !! Z.to_nat b_in;
      let '(x, o) := match x with Some x => (Some x, o) | None => nbrs_allocate 1 o end in
      match x with
      | Some x =>
        '(ret, x, o) ← insert_neighbour b_out (Z.of_nat f) expct_nconn x o;
        bns ← upd bns (Z.to_nat b_in) (Some x);
        Some (ret, bns, o)
      | None => Some ((-1)%Z, bns, o)
      end
    else Some (ret, bns, o)
  else None.
(** The loop coarse_conn.c:331-365; [m] fine faces are left. *)
Fixpoint derive_loop (expct_nconn : Z) (p neighbours : list Z) (m f : nat) (bns : list (option nbrs)) (ret : Z) (o : list bool) :
    option (Z * list (option nbrs) * list bool) :=
  match m with
  | 0 => Some (ret, bns, o)
  | S m =>
    if decide (0 ≤ ret)%Z then
      '(ret, bns, o) ← derive_face expct_nconn p neighbours f bns ret o;
      derive_loop expct_nconn p neighbours m (S f) bns ret o
    else Some (ret, bns, o)
  end.
(** derive_block_faces, coarse_conn.c:321-378. *)
Definition derive_block_faces (nfinef nblk : nat) (expct_nconn : Z) (p neighbours : list Z) (bns : list (option nbrs)) (o : list bool) :
    option (Z * list (option nbrs) * list bool) :=
  '(ret, bns, o) ← derive_loop expct_nconn p neighbours nfinef 0 bns 0 o;
  if decide (0 ≤ ret)%Z then
    l ← slice bns 0 nblk;
    Some (foldl (λ r x, match x with Some x => r + Z.of_nat (ns_num x) | None => r end)%Z 0%Z l, bns, o)
  else Some (ret, bns, o).

(** coarse_topology_build_coarsef, coarse_conn.c:388-429: the loop over the
    neighbours of a block ([m] left), the loop over the blocks, and the start
    pointers.  The state is (coarse_f, neighbours, blkfacepos, nsubf). *)
Fixpoint coarsef_nbrs (b m n : nat) (arr : list (option nbr)) (s : nat * list Z * list nat * nat) : option (nat * list Z * list nat * nat) :=
  match m with
  | 0 => Some s
  | S m =>
    let '(cf, nb, pos, nsub) := s in
    x ← arr !! n; x ← x;
    nb ← upd nb (2 * cf) (Z.of_nat b);
    nb ← upd nb (2 * cf + 1) (nb_b x);
    pos ← count_one pos b;
    pos ← (if decide (0 ≤ nb_b x)%Z then count_one pos (Z.to_nat (nb_b x)) else Some pos);
    let nsub := match nb_set x with Some t => nsub + count_elms t | None => nsub end in
    coarsef_nbrs b m (S n) arr (S cf, nb, pos, nsub)
  end.
Fixpoint coarsef_blocks (m b : nat) (bns : list (option nbrs)) (s : nat * list Z * list nat * nat) : option (nat * list Z * list nat * nat) :=
  match m with
  | 0 => Some s
  | S m =>
    x ← bns !! b;
    s ← (match x with Some x => coarsef_nbrs b (ns_num x) 0 (ns_arr x) s | None => Some s end);
    coarsef_blocks m (S b) bns s
  end.
Definition build_coarsef (nblk : nat) (bns : list (option nbrs)) (neighbours : list Z) (blkfacepos : list nat) : option (list Z * list nat * nat * nat) :=
  '(_, nb, pos, nsub) ← coarsef_blocks nblk 0 bns (0, neighbours, blkfacepos, 0);
  pos ← scan_loop nblk 1 pos;
  nblkf ← pos !! 0;
  pos ← upd pos 0 0;
  Some (nb, pos, nblkf, nsub).

(** coarse_topology_build_final, coarse_conn.c:443-497: the loop over the coarse
    faces, then the sub-faces. *)
Fixpoint final_faces (m cf : nat) (neighbours : list Z) (s : list nat * list nat) : option (list nat * list nat) :=
  match m with
  | 0 => Some s
  | S m =>
    b1 ← neighbours !! (2 * cf);
    b2 ← neighbours !! (2 * cf + 1);
    if decide (b1 ≠ b2) then
      s ← (if decide (0 ≤ b1)%Z then push_one s (Z.to_nat b1, cf) else Some s);
      s ← (if decide (0 ≤ b2)%Z then push_one s (Z.to_nat b2, cf) else Some s);
      final_faces m (S cf) neighbours s
    else None
  end.
(** coarse_conn.c:478-482. *)
Fixpoint copy_set (l : list Z) (subpos : nat) (subfaces : list Z) : option (nat * list Z) :=
  match l with
  | [] => Some (subpos, subfaces)
  | x :: l =>
    if decide (x ≠ (-1)%Z) then subfaces ← upd subfaces subpos x; copy_set l (S subpos) subfaces
    else copy_set l subpos subfaces
  end.
(** The loops coarse_conn.c:471-491; the state is (coarse_f, subpos,
    subfacepos, subfaces), and the boolean is subface_valid. *)
Fixpoint sub_nbrs (m n : nat) (arr : list (option nbr)) (s : nat * nat * list nat * list Z) : option (bool * (nat * nat * list nat * list Z)) :=
  match m with
  | 0 => Some (true, s)
  | S m =>
    let '(cf, subpos, spos, sub) := s in
    x ← arr !! n; x ← x;
    match nb_set x with
    | Some t =>
      l ← slice (hs_s t) 0 (hs_m t);
      '(subpos, sub) ← copy_set l subpos sub;
      spos ← upd spos (S cf) subpos;
      sub_nbrs m (S n) arr (S cf, subpos, spos, sub)
    | None => Some (false, s)
    end
  end.
Fixpoint sub_blocks (m b : nat) (bns : list (option nbrs)) (s : nat * nat * list nat * list Z) : option (bool * (nat * nat * list nat * list Z)) :=
  match m with
  | 0 => Some (true, s)
  | S m =>
    x ← bns !! b;
    '(valid, s) ← (match x with Some x => sub_nbrs (ns_num x) 0 (ns_arr x) s | None => Some (true, s) end);
    if (valid : bool) then sub_blocks m (S b) bns s else Some (false, s)
  end.
(** The pair of the null pointers subfacepos and subfaces is [None]. *)
Definition build_final (ncoarse_f nblk : nat) (neighbours : list Z) (blkfacepos blkfaces : list nat) (bns : list (option nbrs))
    (subs : option (list nat * list Z)) : option (bool * list nat * list nat * option (list nat * list Z)) :=
  '(pos, faces) ← final_faces ncoarse_f 0 neighbours (blkfacepos, blkfaces);
  match subs with
  | Some (spos, sub) =>
    '(valid, (_, _, spos, sub)) ← sub_blocks nblk 0 bns (0, 0, spos, sub);
    Some (valid, pos, faces, Some (spos, sub))
  | None => Some (true, pos, faces, None)
  end.

(** struct coarse_topology, coarse_conn.h:27-38. *)
Record topology := Topology { t_nblocks : nat; t_nfaces : nat; t_neighbours : list Z; t_blkfacepos : list nat; t_blkfaces : list nat;
  t_sub : option (list nat * list Z) }.

(** coarse_topology_build, coarse_conn.c:508-581; inner [None] is a null
    pointer.  A negative ncoarse_f asks for nearly SIZE_MAX bytes (line 520),
    which malloc does not have.  If the sub-faces are not valid nblocks and
    nfaces are not set (line 574): reading them would be undefined. *)
Definition build (junk : nat) (ncoarse_f : Z) (nblk : nat) (bns : list (option nbrs)) (o : list bool) : option (option topology * list bool) :=
  let '(ok, o) := next_alloc o in
  if negb ok then Some (None, o) else
  let '(ok1, o) := next_alloc o in
  let '(ok2, o) := next_alloc o in
  if negb (bool_decide (0 ≤ ncoarse_f)%Z && ok1 && ok2) then Some (None, o) else
  let nf := Z.to_nat ncoarse_f in
  '(nb, pos, nblkf, nsub) ← build_coarsef nblk bns (replicate (2 * nf) int_min) (replicate (nblk + 1) 0);
  let '(subs, o) :=
    if decide (0 < nsub) then
      let '(ok1, o) := next_alloc o in
      let '(ok2, o) := next_alloc o in
      if ok1 && ok2 then (Some (replicate (nf + 1) 0, replicate nsub (Z.of_nat junk)), o) else (None, o)
    else (None, o) in
  let '(ok, o) := next_alloc o in
  if negb ok then Some (None, o) else
  '(valid, pos, faces, subs) ← build_final nf nblk nb pos (replicate nblkf junk) bns subs;
  if (valid : bool) then Some (Some (Topology nblk nf nb pos faces subs), o) else None.

(** coarse_topology_create, coarse_conn.c:590-621. *)
Definition create (junk : nat) (nc nf : nat) (expct_nconn : Z) (p neighbours : list Z) (o : list bool) : option (option topology * list bool) :=
  nblocks ← count_blocks nc p;
  let nblk := Z.to_nat nblocks in
  let '(ok, o) := next_alloc o in
  if ok then
    '(ncoarse_f, bns, o) ← derive_block_faces nf nblk expct_nconn p neighbours (replicate nblk None) o;
    build junk ncoarse_f nblk bns o
  else Some (None, o).
End coarse.
