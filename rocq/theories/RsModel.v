(** Model of the self-consistent field driver of spherically averaged atoms:
    /repo/src/sadatom/scf.cpp (run_atomic_scf) and its options in scf.h.

    Matrices are functions with explicit dimensions; arithmetic is exact.  The
    two-electron matrices and the quadrature of the functional are arguments: they
    are modelled in SxModel and SgModel, and what is assumed of them is stated in
    RsSpec.  The solver (OpenOrbitalOptimizer) is not part of the repository; its
    inputs and the use made of its outputs are modelled.  Timers and printing are
    left out. *)
Require Import Reals ZArith List Bool Arith.
Require Import Verif.Prelude Verif.FEModel Verif.AngModel Verif.JKModel Verif.ScfModel.
Import ListNotations.
Local Open Scope R_scope.

(** One matrix per angular momentum (helfem::Cube). *)
Definition cube := nat -> mat.
Definition czero : cube := fun _ => mzero.
Definition cube_set (c : cube) (l : nat) (A : mat) : cube := fun k => if Nat.eqb k l then A else c k.
(** 119-123: divided_cube, and the element-wise /= of the other places *)
Definition divided_cube (c : cube) (f : nat -> R) : cube := fun l a b => c l a b / f l.

(** What the driver sets up, 50-113: number of radial functions and blocks
    (lmax + 1), restricted, the electrons, overlap, its half-inverse, kinetic and
    nuclear matrices, the confinement potential (None: iconf is zero), the fractions
    of exchange, whether there is a functional, and the functions of the basis and the
    grid. *)
Record satom := mkSA {
  sa_n : nat; sa_nb : nat; sa_restricted : bool; sa_nela : nat; sa_nelb : nat;
  sa_S : mat; sa_X : mat; sa_T : mat; sa_Tl : mat; sa_Vnuc : mat; sa_conf : option mat;
  sa_kfrac : R; sa_kshort : R; sa_have_xc : bool;
  sa_coulomb : mat -> mat;
  sa_exchange : cube -> cube; sa_rs_exchange : cube -> cube;
  sa_xc1 : cube -> R * cube;
  sa_xc2 : bool -> cube -> cube -> R * (cube * cube) }.

Definition have_exx (s : satom) : bool := (negb (Reqb (sa_kfrac s) 0) || negb (Reqb (sa_kshort s) 0))%bool.
(** 90-110: the particle types, their numbers of particles, and the largest
    occupation of block l *)
Definition nparttype (s : satom) : nat := if sa_restricted s then 1 else 2.
Definition number_of_particles (s : satom) (t : nat) : nat :=
  if sa_restricted s then (sa_nela s + sa_nelb s)%nat else if Nat.eqb t 0 then sa_nela s else sa_nelb s.
Definition maximum_occupation (s : satom) (l : nat) : nat :=
  if sa_restricted s then (2 * (2 * l + 1))%nat else (2 * l + 1)%nat.
Definition angfac : R := 4 * PI.

(** occ.cwiseAbs().maxCoeff() == 0 *)
Definition all_zero (m : nat) (occ : vec) : bool := forallb (fun i => Reqb (Rabs (occ i)) 0) (seq 0 m).

(** 125-136: accumulate_density; maxCoeff of an empty vector is undefined. *)
Definition accumulate_density (s : satom) (acc : mat * cube * R) (l : nat) (b : block) : res (mat * cube * R) :=
  let '(Prad, Pl, Ekin) := acc in
  let n := sa_n s in
  if Nat.eqb (b_m b) 0 then UB else
  if all_zero (b_m b) (b_occ b) then Ok acc else
  let P_l := block_density n (sa_X s) (b_m b) (b_orb b) (b_occ b) in
  let Ekin := Ekin + tr n P_l (sa_T s) in
  let Ekin := if Nat.ltb 0 l then Ekin + INR (l * (l + 1)) * tr n P_l (sa_Tl s) else Ekin in
  Ok (madd Prad P_l, cube_set Pl l P_l, Ekin).

(** 203-237: the exchange matrices of one channel, [fac l] the divisor of the density *)
Definition hf_exchange (s : satom) (fac : nat -> R) (Pl : cube) : cube :=
  let ang := divided_cube Pl fac in
  let K := czero in
  let K := if negb (Reqb (sa_kfrac s) 0) then fun l => madd (K l) (mscal (sa_kfrac s) (sa_exchange s ang l)) else K in
  if negb (Reqb (sa_kshort s) 0) then fun l => madd (K l) (mscal (sa_kshort s) (sa_rs_exchange s ang l)) else K.
Definition exchange_energy (s : satom) (K Pl : cube) : R :=
  fold_left (fun E l => E + / 2 * tr (sa_n s) (K l) (Pl l)) (seq 0 (sa_nb s)) 0.

(** 258-270: build_fock_block *)
Definition build_fock_block (s : satom) (J : mat) (l : nat) (XC : cube) (add_xc : bool) (K : cube) (add_k : bool) : mat :=
  let F := madd (madd (sa_T s) (sa_Vnuc s)) J in
  let F := match sa_conf s with Some V => madd F V | None => F end in
  let F := if Nat.ltb 0 l then madd F (mscal (INR (l * (l + 1))) (sa_Tl s)) else F in
  let F := if add_xc then madd F (XC l) else F in
  let F := if add_k then madd F (K l) else F in
  mmul (sa_n s) (mmul (sa_n s) (mT (sa_X s)) F) (sa_X s).

(** 196-201, 241: the energy but for the kinetic, exchange-correlation and exchange
    energies *)
Definition potential_energy (s : satom) (Prad J : mat) : R * R * R :=
  (tr (sa_n s) Prad (sa_Vnuc s),
   match sa_conf s with Some V => tr (sa_n s) Prad V | None => 0 end,
   / 2 * tr (sa_n s) Prad J).

(** 145-283: build_fock.  Block k holds the orbitals in the orthonormal basis and their
    occupations; in a spin-polarised calculation the blocks of beta follow those of alpha. *)
Definition build_restricted (s : satom) (blk : nat -> block) : res (R * (nat -> mat)) :=
  bind (fold_res (fun acc l => accumulate_density s acc l (blk l)) (seq 0 (sa_nb s)) (mzero, czero, 0)) (fun acc =>
  let '(Prad, Pal, Ekin) := acc in
  let '(Exc, XCa) := if sa_have_xc s then
      let '(E, V) := sa_xc1 s (divided_cube Pal (fun _ => angfac)) in (E, divided_cube V (fun _ => angfac))
    else (0, czero) in
  let J := sa_coulomb s (fun a b => Prad a b / angfac) in
  let '(Enuc, Econf, Ecoul) := potential_energy s Prad J in
  let Ka := if have_exx s then hf_exchange s (fun l => 2 * INR (2 * l + 1)) Pal else czero in
  let Exx := if have_exx s then exchange_energy s Ka Pal else 0 in
  Ok (Ekin + Enuc + Econf + Ecoul + Exc + Exx,
      fun l => build_fock_block s J l XCa (sa_have_xc s) Ka (have_exx s))).

Definition build_unrestricted (s : satom) (blk : nat -> block) : res (R * (nat -> mat)) :=
  let nb := sa_nb s in
  let beta := Nat.ltb 0 (sa_nelb s) in
  bind (fold_res (fun st l =>
      let '(Pa, Pal, Pb, Pbl, E) := st in
      bind (accumulate_density s (Pa, Pal, E) l (blk l)) (fun x =>
      let '(Pa', Pal', E') := x in
      bind (accumulate_density s (Pb, Pbl, E') l (blk (nb + l)%nat)) (fun y =>
      let '(Pb', Pbl', E'') := y in Ok (Pa', Pal', Pb', Pbl', E''))))
    (seq 0 nb) (mzero, czero, mzero, czero, 0)) (fun st =>
  let '(Pa, Pal, Pb, Pbl, Ekin) := st in
  let Prad := madd Pa Pb in
  let '(Exc, XCa, XCb) := if sa_have_xc s then
      let '(E, (Va, Vb)) := sa_xc2 s beta (divided_cube Pal (fun _ => angfac)) (divided_cube Pbl (fun _ => angfac)) in
      (E, divided_cube Va (fun _ => angfac), if beta then divided_cube Vb (fun _ => angfac) else Vb)
    else (0, czero, czero) in
  let J := sa_coulomb s (fun a b => Prad a b / angfac) in
  let '(Enuc, Econf, Ecoul) := potential_energy s Prad J in
  let fac := fun l => INR (2 * l + 1) in
  let Ka := if have_exx s then hf_exchange s fac Pal else czero in
  let Kb := if have_exx s then hf_exchange s fac Pbl else czero in
  let Exx := if have_exx s then exchange_energy s Ka Pal + exchange_energy s Kb Pbl else 0 in
  Ok (Ekin + Enuc + Econf + Ecoul + Exc + Exx,
      fun k => if Nat.ltb k nb then build_fock_block s J k XCa (sa_have_xc s) Ka (have_exx s)
               else build_fock_block s J (k - nb) XCb (sa_have_xc s && beta) Kb (have_exx s && beta))).

Definition build_fock (s : satom) (blk : nat -> block) : res (R * (nat -> mat)) :=
  if sa_restricted s then build_restricted s blk else build_unrestricted s blk.

(** 313-350: batched_fock_builder; the loop over the densities is parallel, [order] the
    order in which the entries are evaluated.  An exception that leaves the parallel loop
    ends the program (UB). *)
Definition batched_fock_builder (s : satom) (dms : list (nat -> block)) (order : list nat) : res (list (R * (nat -> mat))) :=
  let n := length dms in
  bind (fold_res (fun out i =>
      match nth_error dms i with
      | Some dm => match build_fock s dm with
                   | Ok r => Ok (fun k => if Nat.eqb k i then Some r else out k)
                   | Throw e => if Nat.ltb 1 n then UB else Throw e
                   | UB => UB
                   | OutOfFuel => OutOfFuel
                   end
      | None => UB
      end) order (fun _ => None)) (fun out =>
  fold_res (fun l k => match out k with Some r => Ok (l ++ [r]) | None => UB end) (seq 0 n) []).

(** 358-380: the potential and the Fock matrices of the initial guess; [model i] is the
    matrix of the model potential of choice i. *)
Definition guess_potential (s : satom) (model : Z -> mat) (iguess : Z) : res mat :=
  if (iguess =? 0)%Z then Ok (sa_Vnuc s) else
  match iguess with
  | 1 | 2 | 3 | 4 => Ok (model iguess)
  | _ => Throw LogicError
  end%Z.
Definition coreH (s : satom) (Vguess : mat) (l : nat) : mat :=
  let H := madd (sa_T s) Vguess in
  let H := match sa_conf s with Some V => madd H V | None => H end in
  let H := if Nat.ltb 0 l then madd H (mscal (INR (l * (l + 1))) (sa_Tl s)) else H in
  mmul (sa_n s) (mmul (sa_n s) (mT (sa_X s)) H) (sa_X s).

(** 394-406: the frozen occupations given to the solver, if any *)
Definition frozen (s : satom) (fa fb : list R) : option (list R) :=
  let nb := sa_nb s in
  let freeze_a := Nat.eqb (length fa) nb in
  let freeze_b := (negb (sa_restricted s) && Nat.eqb (length fb) nb)%bool in
  if (freeze_a || freeze_b)%bool then
    Some ((if freeze_a then fa else repeat 0 nb) ++
          (if sa_restricted s then [] else if freeze_b then fb else repeat 0 nb))
  else None.

(* ------------------------------------------------------------------ *)
(** * Results and the saved state *)

(** std::round: halves away from zero *)
Definition round_away (x : R) : Z :=
  if Rleb 0 x then Int_part (x + / 2) else (- Int_part (- x + / 2))%Z.

(** 552-569: extract_channel for particle type t: the AO orbitals of every l, their
    occupations, and the rounded number of electrons. *)
Record channel := mkCh { ch_orb : cube; ch_m : nat -> nat; ch_occ : nat -> vec; ch_occs : nat -> Z }.
Definition extract_channel (s : satom) (blk : nat -> block) (t : nat) : channel :=
  let b := fun l => blk (t * sa_nb s + l)%nat in
  mkCh (fun l => mmul (sa_n s) (sa_X s) (b_orb (b l))) (fun l => b_m (b l)) (fun l => b_occ (b l))
       (fun l => round_away (sum (b_m (b l)) (b_occ (b l)))).

(** 578-592: build_cube *)
Definition build_cube (c : channel) : cube := fun l =>
  if (Nat.eqb (ch_m c l) 0 || all_zero (ch_m c l) (ch_occ c l))%bool then mzero else
  fun a b => sum (ch_m c l) (fun i => ch_orb c l a i * ch_occ c l i * ch_orb c l b i).

(** 594-604: Prad_tot *)
Definition total_density (s : satom) (blk : nat -> block) : mat :=
  let P := fold_left (fun P l => madd P (build_cube (extract_channel s blk 0) l)) (seq 0 (sa_nb s)) mzero in
  if sa_restricted s then P
  else fold_left (fun P l => madd P (build_cube (extract_channel s blk 1) l)) (seq 0 (sa_nb s)) P.

(** 632-651: write_orbitals for one l: occ_save_threshold is zero.  The columns of C and
    the occupations that are written. *)
Definition keep (c : channel) (l : nat) : list nat :=
  filter (fun i => Rltb 0 (Rabs (ch_occ c l i))) (seq 0 (ch_m c l)).
Definition saved_orbitals (c : channel) (l : nat) : nat * mat * vec :=
  let k := keep c l in (length k, fun a i => ch_orb c l a (ix k i), fun i => ch_occ c l (ix k i)).

(** What the load path reads of the file: lmax, the polynomial basis, the element
    boundaries, the densities sadatom_Pal_l and sadatom_Pbl_l and the electron numbers
    sadatom_occs_a and sadatom_occs_b, each of which may be missing.  See C27-C31 for the
    file itself. *)
Record saved := mkSaved {
  sd_lmax : nat; sd_primbas : Z; sd_nnodes : Z; sd_bval : list R;
  sd_Pal : nat -> option dmat; sd_Pbl : nat -> option dmat;
  sd_occs_a : option (list Z); sd_occs_b : option (list Z) }.

(** 616-668: what is saved; [poly] and [bval] are those of the run. *)
Definition save_state (s : satom) (poly : polybasis) (bval : list R) (blk : nat -> block) : saved :=
  let part t l := if Nat.ltb l (sa_nb s) then Some (mkD (sa_n s) (sa_n s) (build_cube (extract_channel s blk t) l)) else None in
  let occs t := map (ch_occs (extract_channel s blk t)) (seq 0 (sa_nb s)) in
  mkSaved (sa_nb s - 1) (pb_id poly) (pb_nnodes poly) bval (part 0%nat)
    (if sa_restricted s then fun _ => None else part 1%nat)
    (Some (occs 0%nat)) (if sa_restricted s then None else Some (occs 1%nat)).

(* ------------------------------------------------------------------ *)
(** * Loading *)

(** 427-433, basis.cpp 38-51: the finite elements of the old basis as rebuilt from the
    file; [zeroder] is the option of the run that loads. *)
Definition rebuild (k : saved) (zeroder : bool) : res fe :=
  bind (FEModel.get_basis (sd_primbas k) (sd_nnodes k)) (fun p =>
  Ok (mkFE (pb_family p) (Z.to_nat (pb_nnodes p)) (sd_bval k) true false true zeroder)).

(** 439-471: the densities read, zero where missing; empty without sadatom_P?l_0 *)
Definition read_slices (lmax : nat) (P : nat -> option dmat) : list dmat :=
  match P 0%nat with
  | None => []
  | Some P0 => map (fun l => match P l with Some A => A | None => dzero (drows P0) (dcols P0) end) (seq 0 (lmax + 1))
  end.

(** 476-503: fill_l.  [no] and [S12] are the size of the rebuilt basis and its overlap
    with the functions of the run; a product of matrices that do not fit is undefined. *)
Definition fill_l (sv : solvers) (s : satom) (no : nat) (S12 : mat) (old_lmax l : nat) (Pcube : list dmat)
    (per_l max_occ : R) : res block :=
  let n := sa_n s in let X := sa_X s in
  let Pproj := mmul n (mmul n X (mT X)) S12 in
  bind (if (Nat.leb l old_lmax && Nat.ltb l (length Pcube))%bool then
          let Pl := nth l Pcube dempty in
          if negb (Nat.eqb (drows Pl) no && Nat.eqb (dcols Pl) no) then UB else
          let Pn := mmul no (mmul no Pproj (dent Pl)) (mT Pproj) in
          let trace_now := tr n Pn (sa_S s) in
          Ok (if (Rltb 0 trace_now && Rltb 0 per_l)%bool then mscal (per_l / trace_now) Pn else Pn)
        else Ok mzero) (fun Pn =>
  let Porth := mmul n (mmul n (mT X) Pn) X in
  match sv_eig sv n Porth with
  | None => Throw LogicError
  | Some (e, V) => Ok (mkBlock n (fun a i => V a (n - 1 - i)%nat) (fun i => Rmin (Rmax (e (n - 1 - i)%nat) 0) max_occ))
  end).

(** per_l_a(l), zero past the end *)
Definition per_l_of (o : option (list Z)) (l : nat) : R :=
  match o with Some z => if Nat.ltb l (length z) then IZR (nth l z 0%Z) else 0 | None => 0 end.

(** 412-533: the blocks given to initialize_with_orbitals *)
Definition load_state (sv : solvers) (s : satom) (k : saved) (no : nat) (S12 : mat) : res (list block) :=
  let Pal := read_slices (sd_lmax k) (sd_Pal k) in
  let Pbl := if sa_restricted s then [] else read_slices (sd_lmax k) (sd_Pbl k) in
  let fill P o l := fill_l sv s no S12 (sd_lmax k) l P (per_l_of o l) (INR (maximum_occupation s l)) in
  bind (fold_res (fun acc l => bind (fill Pal (sd_occs_a k) l) (fun b => Ok (acc ++ [b]))) (seq 0 (sa_nb s)) []) (fun a =>
  if sa_restricted s then Ok a else
  bind (fold_res (fun acc l => bind (fill Pbl (sd_occs_b k) l) (fun b => Ok (acc ++ [b]))) (seq 0 (sa_nb s)) []) (fun b =>
  Ok (a ++ b))).
