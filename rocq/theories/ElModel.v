(** Electron counts and the block description handed to the SCF solver:
    /repo/src/general/scf_helpers.cpp and
    /repo/src/general/scf_driver_common.h. *)
Require Import Reals String ZArith List Bool.
Require Import Verif.Prelude.
Import ListNotations.
Local Open Scope Z_scope.

(** Signed 32-bit arithmetic: overflow is undefined. *)
Definition int_ok (z : Z) : bool := (- 2 ^ 31 <=? z) && (z <=? 2 ^ 31 - 1).
Definition ck (z : Z) : res Z := if int_ok z then Ok z else UB.

(** Inputs and outputs by reference: nela, nelb, Q, M. *)
Record counts := mkCounts { c_a : Z; c_b : Z; c_Q : Z; c_M : Z }.

(** scf_helpers.cpp 116-159: parse_nela_nelb.  The operators / and % of C++
    truncate towards zero: Z.quot and Z.rem. *)
Definition parse_nela_nelb (c : counts) (Zn : Z) : res counts :=
  if (c_a c =? 0) && (c_b c =? 0) then
    bind (ck (Zn - c_Q c)) (fun nel =>
    if c_M c <? 1 then Throw RuntimeError
    else if (Z.rem nel 2 =? 0) && negb (Z.rem (c_M c) 2 =? 1) then Throw RuntimeError
    else if (Z.rem nel 2 =? 1) && negb (Z.rem (c_M c) 2 =? 0) then Throw RuntimeError
    else
      bind (if Z.rem nel 2 =? 0
            then bind (ck (c_M c - 1)) (fun m1 => ck (Z.quot nel 2 + Z.quot m1 2))
            else ck (Z.quot nel 2 + Z.quot (c_M c) 2)) (fun nela =>
      bind (ck (nel - nela)) (fun nelb =>
      if nela <? 0 then Throw RuntimeError
      else if nelb <? 0 then Throw RuntimeError
      else Ok (mkCounts nela nelb (c_Q c) (c_M c)))))
  else
    bind (ck (Zn - c_a c)) (fun q1 =>
    bind (ck (q1 - c_b c)) (fun Q =>
    bind (ck (1 + c_a c)) (fun m1 =>
    bind (ck (m1 - c_b c)) (fun M =>
    if M <? 1 then Throw RuntimeError else Ok (mkCounts (c_a c) (c_b c) Q M))))).

(** What derive_nela_nelb_restricted leaves in its reference arguments. *)
Record spins := mkSpins { s_a : Z; s_b : Z; s_restr : Z; s_restricted : bool; s_Ntot : Z }.

(** scf_driver_common.h 310-328: derive_nela_nelb_restricted (Q and M by value) *)
Definition derive_nela_nelb_restricted (c : counts) (restr Ztotal : Z) : res spins :=
  if (c_M c =? 0) && (c_a c =? 0) && (c_b c =? 0) then
    if restr =? 0 then Throw LogicError else
    bind (ck (Ztotal - c_Q c)) (fun Ntot =>
    if Ntot <=? 0 then Throw LogicError else
    bind (ck (Ntot + 1)) (fun n1 =>
    Ok (mkSpins (Z.quot n1 2) (Z.quot Ntot 2) 1 true Ntot)))
  else
    bind (parse_nela_nelb c Ztotal) (fun c' =>
    let restr' := if restr =? -1 then (if c_a c' =? c_b c' then 1 else 0) else restr in
    bind (ck (c_a c' + c_b c')) (fun Ntot =>
    Ok (mkSpins (c_a c') (c_b c') restr' (negb (restr' =? 0)) Ntot))).

(** scf_driver_common.h 360-398: build_ooo_block_metadata.  The four output
    arguments. *)
Record metadata := mkMeta {
  md_blocks : list nat; md_maxocc : list R; md_particles : list R; md_desc : list string }.

Definition build_ooo_block_metadata (nsym nparttype : nat) (restricted : bool) (Ntot nela nelb : Z)
  (labels : list string) (degeneracy : list Z) : res metadata :=
  if negb (Nat.eqb (length degeneracy) nsym) then Throw LogicError
  else if negb (Nat.eqb (length labels) nsym) then Throw LogicError
  else Ok (mkMeta
    (map (fun _ => nsym) (seq 0 nparttype))
    (flat_map (fun t => map (fun k => ((if restricted then 2 else 1) * IZR (nth k degeneracy 0%Z))%R) (seq 0 nsym)) (seq 0 nparttype))
    (map (fun t => IZR (if restricted then Ntot else if Nat.eqb t 0 then nela else nelb)) (seq 0 nparttype))
    (flat_map (fun t => map (fun k =>
       append (if Nat.eqb nparttype 1 then "" else if Nat.eqb t 0 then "a:" else "b:")%string (nth k labels EmptyString)) (seq 0 nsym))
       (seq 0 nparttype))).

(** The degeneracies the drivers pass: diatomic/main.cpp 308-310 (two for a block
    with a mirror image); atomic/main.cpp passes all ones. *)
Definition diatomic_degeneracy (mirror : list (list nat)) : list Z :=
  map (fun b => match b with [] => 1 | _ => 2 end) mirror.

(** The number of particle types: atomic/main.cpp and diatomic/main.cpp 336 *)
Definition nparttype_of (restricted : bool) : nat := if restricted then 1%nat else 2%nat.
