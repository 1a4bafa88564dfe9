(** Model of opm/core/pressure/msmfem/partition.c: uniform partitioning,
    compression, inversion and local numbering (splitting of disconnected
    blocks is in SplitModel.v).

    Simplifications valid for the whole file: [int] has unlimited range; block
    numbers in a partition vector are [nat] (the code asserts or silently
    assumes that they are not negative); array positions are [nat]; [None] is
    undefined behaviour or a failed assertion. *)
From Verif Require Import Base CsrModel.

(** ** Uniform partition (values are [Z] because of C's truncating division) *)

(** C division and remainder; a zero divisor is undefined behaviour. *)
Definition c_div (a b : Z) : option Z := if decide (b = 0%Z) then None else Some (Z.quot a b).
Definition c_mod (a b : Z) : option Z := if decide (b = 0%Z) then None else Some (Z.rem a b).

(** partition_coord_idx, partition.c:35-47.  Loop over the dimensions, then
    [assert (idx == 0)]. *)
Fixpoint coord_idx (size : list Z) (idx : Z) : option (list Z) :=
  match size with
  | [] => if decide (idx = 0%Z) then Some [] else None
  | s :: size =>
    c ← c_mod idx s; idx ← c_div idx s; cs ← coord_idx size idx; Some (c :: cs)
  end.

(** partition_lin_idx, partition.c:52-64.  The loop runs from dimension
    ndims-2 down to 0, i.e. from the right end of the lists; ndims = 0 reads
    cidx[-1]. *)
Fixpoint lin_idx (size cidx : list Z) : option Z :=
  match size, cidx with
  | [_], [c] => Some c
  | s :: size, c :: cidx => idx ← lin_idx size cidx; Some (c + s * idx)%Z
  | _, _ => None
  end.

(** Loop body of partition_loadbal_lin_dist, partition.c:79-87, MAX at 30. *)
Definition lin_dist (size nbins idx : Z) : option Z :=
  L ← c_div size nbins;
  R ← c_mod size nbins;
  b1 ← c_div idx (L + 1);
  b2 ← c_div (idx - R) L;
  Some (if decide (b1 > b2)%Z then b1 else b2).
Fixpoint loadbal (size nbins idx : list Z) : option (list Z) :=
  match size, nbins, idx with
  | [], [], [] => Some []
  | s :: size, n :: nbins, i :: idx =>
    b ← lin_dist s n i; bs ← loadbal size nbins idx; Some (b :: bs)
  | _, _, _ => None
  end.

(** Loop body of partition_unif_idx, partition.c:111-117. *)
Definition unif_one (fine_d coarse_d : list Z) (idx : Z) : option Z :=
  ix ← coord_idx fine_d idx;
  ix ← loadbal fine_d coarse_d ix;
  lin_idx coarse_d ix.
(** partition_unif_idx, partition.c:100-127: return value and the contents of p
    ([p0] before the call, of length nc). *)
Definition unif_idx (fine_d coarse_d idx p0 : list Z) (o : list bool) : option (Z * list Z) :=
  if (next_alloc o).1 then
    p ← mapM (unif_one fine_d coarse_d) idx; Some (Z.of_nat (length idx), p)
  else Some ((-1)%Z, p0).

(** ** Compression *)

(** Maximum as computed in partition.c:141-146 and by max_block, 219-233:
    -1 for an empty vector. *)
Definition max_block (p : list nat) : Z :=
  foldl (λ m x, if decide (m > Z.of_nat x)%Z then m else Z.of_nat x) (-1)%Z p.

(** partition.c:152. *)
Fixpoint compr_count (compr : list Z) (p : list nat) : option (list Z) :=
  match p with
  | [] => Some compr
  | b :: p => x ← compr !! b; compr ← upd compr b (x + 1)%Z; compr_count compr p
  end.
Definition b2z (b : bool) : Z := if b then 1 else 0.
(** partition.c:155-157; [n] iterations are left. *)
Fixpoint compr_scan (n i : nat) (compr : list Z) : option (list Z) :=
  match n with
  | 0 => Some compr
  | S n =>
    prev ← compr !! (i - 1)%nat; x ← compr !! i;
    compr ← upd compr i (prev + b2z (bool_decide (x > 0)%Z))%Z;
    compr_scan n (S i) compr
  end.
(** partition_compress, partition.c:135-169: return value and new p.  New
    block numbers are [Z]. *)
Definition compress (p : list nat) (o : list bool) : option (Z * list Z) :=
  if decide (0 < length p) then
    let max := max_block p in
    if (next_alloc o).1 then
      compr ← compr_count (replicate (Z.to_nat (max + 1)) 0%Z) p;
      x ← compr !! 0%nat;
      compr ← upd compr 0 (-1 + b2z (bool_decide (x > 0)%Z))%Z;
      compr ← compr_scan (Z.to_nat max) 1 compr;
      p' ← mapM (λ b, compr !! b) p;
      ret ← compr !! Z.to_nat max;
      Some (ret, p')
    else Some ((-1)%Z, Z.of_nat <$> p)
  else None.

(** ** Inversion *)

(** partition_allocate_inverse, partition.c:189-216: return value and the two
    arrays, contents unknown. *)
Definition allocate_inverse (junk : nat → nat) (nc : nat) (max_bin : Z) (o : list bool) :
    Z * option (list nat * list nat) * list bool :=
  let nbin := Z.to_nat (max_bin + 1) in
  let '(ok1, o) := next_alloc o in
  let '(ok2, o) := next_alloc o in
  if ok1 && ok2 then (Z.of_nat nc, Some (junk <$> seq 0 (nbin + 1), junk <$> seq 0 nc), o)
  else (0%Z, None, o).

(** Loop [for (i = 0; i < n; i++) a[i] = 0;], partition.c:248-250. *)
Fixpoint zero_loop (n i : nat) (a : list nat) : option (list nat) :=
  match n with 0 => Some a | S n => a ← upd a i 0; zero_loop n (S i) a end.

(** partition_invert, partition.c:239-268. *)
Definition invert (p : list nat) (pi inverse : list nat) : option (list nat * list nat) :=
  let nc := length p in
  let nbin := Z.to_nat (max_block p + 1) in
  pi ← zero_loop (nbin + 1) 0 pi;
  pi ← count_all pi p;
  pi ← scan_loop nbin 1 pi;
  '(pi, inverse) ← push_all (pi, inverse) (zip p (seq 0 nc));
  e ← pi !! nbin;
  if decide (e = nc) then
    pi ← upd pi 0 0;
    Some (pi, inverse)
  else None.

(** partition_localidx, partition.c:274-286: inner and outer loop. *)
Fixpoint localidx_block (n i b0 : nat) (inverse loc : list nat) : option (list nat) :=
  match n with
  | 0 => Some loc
  | S n => c ← inverse !! i; loc ← upd loc c (i - b0); localidx_block n (S i) b0 inverse loc
  end.
Fixpoint localidx_loop (nbin b : nat) (pi inverse loc : list nat) : option (list nat) :=
  match nbin with
  | 0 => Some loc
  | S nbin =>
    s ← pi !! b; e ← pi !! S b;
    loc ← localidx_block (e - s) s s inverse loc;
    localidx_loop nbin (S b) pi inverse loc
  end.
Definition localidx (nbin : nat) (pi inverse loc : list nat) : option (list nat) :=
  localidx_loop nbin 0 pi inverse loc.
