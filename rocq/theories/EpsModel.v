(** Model of opm/core/props/satfunc/SaturationPropsFromDeck_impl.hpp: saturation
    functions of a reservoir, and end-point scaling.

    Simplifications valid for the whole file:
    - those of KrModel.v and KrInitModel.v; the type of the saturation functions,
      a template parameter, is the model [m];
    - the deck is the record [deck] of what is read from it; text output is left
      out;
    - water and oil have the same code for scaling, with the roles of the arrays
      exchanged; it is written once, with the arrays as parameters. *)
From Coq Require Import Reals.
From Verif Require Import Base LoopModel TableModel PhaseModel KrModel KrInitModel.
Local Open Scope R_scope.

(** eps_, SaturationPropsFromDeck.hpp:110-119. *)
Record eps_params := Eps { e_swl : list R; e_swcr : list R; e_swu : list R; e_sowcr : list R;
  e_krw : list R; e_krwr : list R; e_kro : list R; e_krorw : list R }.
(** Data members, SaturationPropsFromDeck.hpp:106-121. *)
Record satprops := SatProps { sp_pu : phase_usage; sp_funcs : list satfunc; sp_map : list Z; sp_eps : eps_params; sp_do_eps : bool; sp_3pt : bool }.

(** funcForCell, _impl.hpp:248-252. *)
Definition func_for_cell (P : satprops) (cell : nat) : option satfunc :=
  match sp_map P with
  | [] => sp_funcs P !! 0%nat
  | _ => z ← sp_map P !! cell; if decide (z < 0)%Z then None else sp_funcs P !! Z.to_nat z
  end.

(** arr.empty() ? d : arr[cell], e.g. _impl.hpp:393. *)
Definition or_default (arr : list R) (cell : nat) (d : R) : option R := match arr with [] => Some d | _ => arr !! cell end.
(** y0 + (x-x0)*(y1-y0)/(x1-x0), e.g. _impl.hpp:398. *)
Definition onto (x0 x1 y0 y1 x : R) : option R := q ← rdiv ((x - x0) * (y1 - y0)) (x1 - x0); Some (y0 + q).

(** The transform of one saturation, _impl.hpp:386-400 and 419-431 (water),
    402-416 and 433-445 (oil).  [cr], [r] and [mx] are the arrays of the critical
    saturation, of 1 minus the critical saturation of the other phase, and of the
    largest saturation; [t_cr], [t_r] and [t_mx] these numbers of the tables. *)
Definition scale_sat (three : bool) (cr r mx : list R) (t_cr t_r t_mx : R) (cell : nat) (x : R) : option R :=
  if (match cr, mx with [], [] => true | _, _ => false end) then Some x else
  if three then
    sr ← or_default r cell t_r;
    if Rle_dec x sr then
      swcr ← or_default cr cell t_cr;
      if Rle_dec x swcr then Some t_cr else onto swcr sr t_cr t_r x
    else
      swmax ← or_default mx cell t_mx;
      if Rge_dec x swmax then Some t_mx else onto sr swmax t_r t_mx x
  else
    swcr ← or_default cr cell t_cr;
    if Rle_dec x swcr then Some t_cr else
    swmax ← or_default mx cell t_mx;
    if Rge_dec x swmax then Some t_mx else onto swcr swmax t_cr t_mx x.

(** The scaling of one relative permeability [v], _impl.hpp:460-498 (water) and
    501-539 (oil).  [k] and [kr] are the arrays of the largest value and of the
    value at the critical saturation of the other phase, [t_k] and [t_kr] these
    values of the tables.  [tested] is the array tested in line 480 or 521. *)
Definition scale_val (three : bool) (cr r mx k kr tested : list R) (t_cr t_r t_mx t_k t_kr : R) (cell : nat) (x v : R) : option R :=
  match k, kr with
  | [], [] => Some v
  | _, [] => a ← k !! cell; q ← rdiv a t_k; Some (v * q)
  | _, _ =>
      swcr ← or_default cr cell t_cr;
      swmax ← or_default mx cell t_mx;
      sr ← (if three then or_default r cell t_r
            else q ← rdiv ((t_r - t_cr) * (swmax - swcr)) (t_mx - t_cr); Some (swcr + q));
      if Rle_dec x swcr then Some 0
      else if Rgt_dec sr (swmax - / 1000000) then
        if three then a ← kr !! cell; q ← rdiv a t_kr; Some (v * q)
        else match tested with
             | [] => Some v
             | _ => a ← k !! cell; q ← rdiv a t_k; Some (v * q)
             end
      else if Rle_dec x sr then a ← kr !! cell; q ← rdiv a t_kr; Some (v * q)
      else if Rle_dec x swmax then
        krw ← or_default k cell t_k;
        krwr ← or_default kr cell t_kr;
        if Rgt_dec (Rabs (t_k - t_kr)) (/ 1000000) then q ← rdiv ((v - t_kr) * (krw - krwr)) (t_k - t_kr); Some (krwr + q)
        else q ← rdiv ((krw - krwr) * (x - sr)) (swmax - sr); Some (krwr + q)
      else or_default k cell t_k
  end.

(** 1.0-a[cell] for all cells. *)
Definition minus_from_1 (l : list R) : list R := (λ x, 1 - x) <$> l.

(** relpermEPS, _impl.hpp:378-540.  [s] and [kr] are the arrays from the values of
    the point on, [ss] is the local array before it is written. [deriv] tells
    whether derivatives are asked for.  The members of the saturation
    functions are read at once here, there when needed. *)
Definition relperm_eps (m : model) (P : satprops) (ss s : list R) (cell : nat) (kr : list R) (deriv : bool) : option (list R) :=
  wpos ← pu_pos (sp_pu P) !! phase_index Aqua;
  opos ← pu_pos (sp_pu P) !! phase_index Liquid;
  F ← func_for_cell P cell;
  let E := sp_eps P in
  sw ← s !! wpos; so ← s !! opos;
  w_max ← sf_smax F !! wpos; o_max ← sf_smax F !! opos;
  let w_cr := sf_swcr F in let o_cr := sf_sowcr F in
  ssw ← scale_sat (sp_3pt P) (e_swcr E) (minus_from_1 (e_sowcr E)) (e_swu E) w_cr (1 - o_cr) w_max cell sw;
  ss ← upd ss wpos ssw;
  sso ← scale_sat (sp_3pt P) (e_sowcr E) (minus_from_1 (e_swcr E)) (minus_from_1 (e_swl E)) o_cr (1 - w_cr) o_max cell so;
  ss ← upd ss opos sso;
  if deriv then None else
  kr ← eval_kr m F ss kr;
  vw ← kr !! wpos;
  vw ← scale_val (sp_3pt P) (e_swcr E) (minus_from_1 (e_sowcr E)) (e_swu E) (e_krw E) (e_krwr E) (e_kro E) w_cr (1 - o_cr) w_max (sf_krwmax F) (sf_krwr F) cell sw vw;
  kr ← upd kr wpos vw;
  vo ← kr !! opos;
  vo ← scale_val (sp_3pt P) (e_sowcr E) (minus_from_1 (e_swcr E)) (minus_from_1 (e_swl E)) (e_kro E) (e_krorw E) (e_kro E) o_cr (1 - w_cr) o_max (sf_kromax F) (sf_krorw F) cell so vo;
  upd kr opos vo.

(** relperm, _impl.hpp:151-182.  A pointer plus an offset is [drop]; what is before
    it is kept. *)
Definition relperm (m : model) (P : satprops) (ss : list R) (n : nat) (s : list R) (cells : list nat) (kr : list R) (dkrds : option (list R)) : option (list R * option (list R)) :=
  let np := pu_num (sp_pu P) in
  match dkrds with
  | Some d =>
      '(kr, d) ← for_loop n 0 (λ i '(kr, d),
        c ← cells !! i;
        if sp_do_eps P then
          kr' ← relperm_eps m P ss (drop (np * i) s) c (drop (np * i) kr) true; Some (take (np * i) kr ++ kr', d)
        else
          F ← func_for_cell P c;
          '(kr', d') ← eval_kr_deriv m F (drop (np * i) s) (drop (np * i) kr) (drop (np * np * i) d);
          Some (take (np * i) kr ++ kr', take (np * np * i) d ++ d')) (kr, d);
      Some (kr, Some d)
  | None =>
      kr ← for_loop n 0 (λ i kr,
        c ← cells !! i;
        kr' ← (if sp_do_eps P then relperm_eps m P ss (drop (np * i) s) c (drop (np * i) kr) false
               else F ← func_for_cell P c; eval_kr m F (drop (np * i) s) (drop (np * i) kr));
        Some (take (np * i) kr ++ kr')) kr;
      Some (kr, None)
  end.
(** capPress, _impl.hpp:195-217. *)
Definition cap_press (P : satprops) (n : nat) (s : list R) (cells : list nat) (pc : list R) (dpcds : option (list R)) : option (list R * option (list R)) :=
  let np := pu_num (sp_pu P) in
  match dpcds with
  | Some d =>
      '(pc, d) ← for_loop n 0 (λ i '(pc, d),
        c ← cells !! i;
        F ← func_for_cell P c;
        '(pc', d') ← eval_pc_deriv F (drop (np * i) s) (drop (np * i) pc) (drop (np * np * i) d);
        Some (take (np * i) pc ++ pc', take (np * np * i) d ++ d')) (pc, d);
      Some (pc, Some d)
  | None =>
      pc ← for_loop n 0 (λ i pc,
        c ← cells !! i;
        F ← func_for_cell P c;
        pc' ← eval_pc F (drop (np * i) s) (drop (np * i) pc);
        Some (take (np * i) pc ++ pc')) pc;
      Some (pc, None)
  end.
(** satRange, _impl.hpp:229-243. *)
Definition sat_range (P : satprops) (n : nat) (cells : list nat) (smin smax : list R) : option (list R * list R) :=
  let np := pu_num (sp_pu P) in
  for_loop n 0 (λ i st,
    for_loop np 0 (λ p '(smin, smax),
      c ← cells !! i;
      F ← func_for_cell P c;
      a ← sf_smin F !! p; smin ← upd smin (np * i + p) a;
      b ← sf_smax F !! p; smax ← upd smax (np * i + p) b;
      Some (smin, smax)) st) (smin, smax).

(** ** Reading the deck *)
(** The keywords of end-point scaling. *)
Inductive kw := SWCR | SWL | SWU | SOWCR | KRW | KRWR | KRO | KRORW.
(** keyword[0] == 'S'. *)
Definition is_S (k : kw) : bool := match k with SWCR | SWL | SWU | SOWCR => true | _ => false end.
(** itab, _impl.hpp:271-299 and 306-334. *)
Definition itab (k : kw) : nat := match k with SWL | KRW => 1 | SWCR | KRO => 2 | SWU | KRWR => 3 | SOWCR | KRORW => 4 end.
(** The number of the tables, _impl.hpp:276, 283, 290, 297, 311, 318, 325 and 332. *)
Definition from_table (k : kw) (aqua : nat) (F : satfunc) : option R :=
  match k with
  | SWL => sf_smin F !! aqua
  | SWCR => Some (sf_swcr F)
  | SWU => sf_smax F !! aqua
  | SOWCR => Some (sf_sowcr F)
  | KRW => Some (sf_krwmax F)
  | KRO => Some (sf_kromax F)
  | KRWR => Some (sf_krwr F)
  | KRORW => Some (sf_krorw F)
  end.
(** What is read from the deck: SATNUM, SWOF, SGOF, ENDSCALE (with its switches
    NODIR and REVERS), whether SCALECRS is YES, the fields of the keywords, and the
    masks and tables of ENPTVD and ENKRVD. *)
Record deck := Deck { d_satnum : option (list Z); d_swof : list (list (list R)); d_sgof : list (list (list R));
  d_endscale : option (bool * bool); d_scalecrs : bool; d_field : kw → option (list R);
  d_enptvd : option (list bool * list (list (list R))); d_enkrvd : option (list bool * list (list (list R))) }.
(** number_of_cells, dimensions, global_cell and cell_centroids of a grid. *)
Record grid := Grid { gr_nc : nat; gr_dim : nat; gr_global : option (list nat); gr_centroids : list R }.

(** deck_pos, _impl.hpp:66 and 350. *)
Definition deck_pos (g : grid) (c : nat) : option nat := match gr_global g with None => Some c | Some gc => gc !! c end.

(** initEPS, _impl.hpp:256-373; [sp] is scaleparam. *)
Definition init_eps (P : satprops) (D : deck) (g : grid) (k : kw) (sp : list R) : option (list R) :=
  aqua ← pu_pos (sp_pu P) !! phase_index Aqua;
  let vd := if is_S k then d_enptvd D else d_enkrvd D in
  active ← (match d_field D k with
            | Some _ => Some true
            | None => match vd with None => Some false | Some (mask, _) => mask !! (itab k - 1)%nat end
            end);
  sp ← (if (active : bool) then mapM (λ i, F ← func_for_cell P i; from_table k aqua F) (seq 0 (gr_nc g)) else Some sp);
  match sp with
  | [] => Some sp
  | _ =>
    match d_field D k with
    | Some v =>
        for_loop (length sp) 0 (λ c sp, p ← deck_pos g c; x ← v !! p; upd sp c x) sp
    | None =>
        for_loop (gr_nc g) 0 (λ cell sp,
          if (active : bool) then
          jtab ← (match sp_map P with [] => Some 0%Z | _ => sp_map P !! cell end);
          if decide (jtab < 0)%Z then None else
          let jtab := Z.to_nat jtab in
          '(_, table) ← (vd : option (list bool * list (list (list R))));
          t ← table !! itab k; vals ← t !! jtab; v0 ← vals !! 0%nat;
          if Req_EM_T v0 (-1) then Some sp else
          t0 ← table !! 0%nat; depth ← t0 !! jtab;
          zc ← gr_centroids g !! (gr_dim g * cell + gr_dim g - 1)%nat;
          front ← head depth; back ← last depth;
          if Rge_dec zc front then if Rle_dec zc back then x ← linear_interpolation (length depth) depth vals zc; upd sp cell x else Some sp else Some sp
          else None) sp
    end
  end.

(** init, _impl.hpp:44-128, for an object just constructed; [mk] makes the tables,
    [junk] are the saturation functions just constructed. *)
Definition sp_init (mk : list R → list R → option table) (m : model) (junk : nat → satfunc) (pu : phase_usage) (D : deck) (g : grid) : option satprops :=
  uo ← pu_used pu !! phase_index Liquid;
  if decide (uo = 0%nat) then None else
  '(expected, map) ← (match d_satnum D with
    | None => Some (1%Z, [])
    | Some satnum =>
        z ← head satnum;
        map ← mapM (λ cell, p ← deck_pos g cell; v ← satnum !! p; Some (v - 1)%Z) (seq 0 (gr_nc g));
        Some (foldl Z.max z satnum, map)
    end);
  uw ← pu_used pu !! phase_index Aqua;
  ug ← pu_used pu !! phase_index Vapour;
  let nw := length (d_swof D) in let ng := length (d_sgof D) in
  if decide (uw ≠ 0%nat ∧ (Z.of_nat nw < expected)%Z) then None else
  if decide (ug ≠ 0%nat ∧ (Z.of_nat ng < expected)%Z) then None else
  if decide (uw ≠ 0%nat ∧ ug ≠ 0%nat ∧ nw ≠ ng) then None else
  let num_tables := if decide (uw ≠ 0%nat) then nw else ng in
  funcs ← mapM (λ table, sat_init mk m (junk table) (d_swof D) (d_sgof D) table pu) (seq 0 num_tables);
  let E0 := Eps [] [] [] [] [] [] [] [] in
  match d_endscale D with
  | None => Some (SatProps pu funcs map E0 false false)
  | Some (nodir, revers) =>
      if decide (uw = 0%nat ∨ ug ≠ 0%nat) then None else
      if (nodir : bool) then if (revers : bool) then
        let P := SatProps pu funcs map E0 true (d_scalecrs D) in
        swcr ← init_eps P D g SWCR [];
        swl ← init_eps P D g SWL [];
        swu ← init_eps P D g SWU [];
        sowcr ← init_eps P D g SOWCR [];
        krw ← init_eps P D g KRW [];
        krwr ← init_eps P D g KRWR [];
        kro ← init_eps P D g KRO [];
        krorw ← init_eps P D g KRORW [];
        Some (SatProps pu funcs map (Eps swl swcr swu sowcr krw krwr kro krorw) true (d_scalecrs D))
      else None else None
  end.
