(** Model of the jellium program, /repo/src/sadatom/aij.cpp 36-314 (geometry, energies of the
    background, grid) and 379-551 (density matrices of the Fock builders).  Scalars are exact
    real numbers; the printing is left out. *)
Require Import Reals ZArith List Bool Arith.
Require Import Verif.Prelude Verif.GridModel Verif.TabModel.
Import ListNotations.
Open Scope R_scope.

(** aij.cpp 38 *)
Definition magic : list Z :=
  [2; 8; 19; 36; 59; 89; 118; 163; 215; 269; 341; 425; 516; 612; 731; 859; 994; 1131; 1300; 1424;
   1625; 1820; 2043; 2295; 2543; 2821; 3080; 3337; 3665; 3987; 4373; 4741; 5155; 5611; 5961; 6407;
   6909; 7406; 7964; 8512; 9058; 9591; 10147; 10792; 11440; 12116; 12825; 13611; 14431; 15158;
   15988; 16805; 17706; 18621; 19645; 20657; 21501; 22408; 23489; 24637; 25833; 26930; 28248;
   29434; 30645; 31904; 33212; 34657; 36113; 37655; 39105; 40511; 41843; 43494; 45069; 46840;
   48404; 50040; 51814; 53644; 55608; 57488; 59540; 61712; 63658; 65554; 67735; 69649; 71971;
   74347; 76766; 78827; 81288; 83721; 86369; 89041; 91671; 94286; 96899; 99284]%Z.
(** aij.cpp 39-46: index of the first entry above njellium. *)
Fixpoint first_above (nj : Z) (i : Z) (l : list Z) : res Z :=
  match l with
  | [] => Throw LogicError
  | m :: l' => if (nj <? m)%Z then Ok i else first_above nj (i + 1)%Z l'
  end.
(** aij.cpp 36-47 *)
Definition consistent_lmax (nj : Z) : res Z := first_above nj 0 magic.

(** Values read from the command line, aij.cpp 88-116. *)
Record jin := mkJ { j_Z : Z; j_Q : Z; j_nj : Z; j_rs : R; j_vac : bool; j_nufreq : R; j_Rmax : R; j_nelem : Z; j_igrid : Z; j_zexp : R }.

(** aij.cpp 160-177: (r_inner, r_outer); R is r_outer in both branches. *)
Definition shell (j : jin) : R * R :=
  if j_vac j then (cbrt (IZR (j_Z j - j_Q j)) * j_rs j, cbrt (IZR (j_Z j - j_Q j + j_nj j)) * j_rs j)
  else (0, cbrt (IZR (j_nj j)) * j_rs j).
(** aij.cpp 182 *)
Definition friedel (rs : R) : R := cbrt (4 * PI * PI / 9) * rs.
(** std::ceil, with the conversion to int; values beyond the range of int are not modelled. *)
Definition rceil (x : R) : Z := (1 - up (- x))%Z.
(** aij.cpp 184 *)
Definition nuelem (j : jin) : Z :=
  if Rltb 0 (j_rs j) then rceil (snd (shell j) / friedel (j_rs j) * j_nufreq j) else 0%Z.
(** aij.cpp 195-201 *)
Definition charge_check (j : jin) : res unit :=
  if Rltb 0 (j_rs j) then
    let bg := (snd (shell j) / j_rs j) ^ 3 - (fst (shell j) / j_rs j) ^ 3 in
    if Rltb (/ 10 ^ 8 * Rmax 1 (IZR (j_nj j))) (Rabs (bg - IZR (j_nj j))) then Throw LogicError else Ok tt
  else Ok tt.
(** aij.cpp 212-214 *)
Definition erep (rs r_inner r_outer : R) : R :=
  if Rltb 0 rs then (3 * r_outer ^ 5 + 9 / 2 * r_inner ^ 5 - 15 / 2 * r_inner ^ 3 * r_outer ^ 2) / (5 * rs ^ 6) else 0.
(** aij.cpp 282-289 *)
Definition sphere_pot (rs r R0 : R) : R :=
  let prefac := (R0 / rs) ^ 3 in
  if Rltb r R0 then prefac * (3 - (r / R0) ^ 2) / (2 * R0) else prefac / r.
(** aij.cpp 291-302 *)
Definition potfunc (rs r_inner r_outer r : R) : R :=
  if Rltb 0 r_inner then - sphere_pot rs r r_outer + sphere_pot rs r r_inner
  else if Rltb 0 r_outer then - sphere_pot rs r r_outer else 0.
(** aij.cpp 310 *)
Definition enucfield (Z0 : Z) (rs r_inner r_outer : R) : R := - IZR Z0 * potfunc rs r_inner r_outer 0.

(** v(i), undefined outside the vector. *)
Definition at_index (i : nat) (l : list R) : res R := if (i <? length l)%nat then Ok (nth i l 0) else UB.
(** aij.cpp 216-219 *)
Definition uniform_part (j : jin) : res (list R) :=
  if (nuelem j =? 0)%Z then Ok []
  else form_grid POINT_NUCLEUS 0 (nuelem j) (snd (shell j)) 1 0 0 0 0 (j_Z j) 0 0 0 false 0.
(** aij.cpp 228-241 *)
Definition glue (atom unif : list R) : res (list R) :=
  match unif with
  | [] => Ok atom
  | _ =>
    bind (if (0 <? length atom)%nat then Ok (last atom 0) else UB) (fun a =>
    bind (at_index 1 unif) (fun u =>
    if negb (Reqb a u) then Throw LogicError
    else Ok (atom ++ skipn 2 unif)))
  end.
(** aij.cpp 221-244 *)
Definition glued (j : jin) (unif : list R) : res (list R) :=
  if (0 <? j_nelem j)%Z then
    bind (if (0 <? nuelem j)%Z then at_index 1 unif else Ok (j_Rmax j)) (fun rinfty =>
    bind (form_grid POINT_NUCLEUS 0 (j_nelem j) rinfty (j_igrid j) (j_zexp j) 0 0 0 (j_Z j) 0 0 0 false 0) (fun atom =>
    glue atom unif))
  else Ok unif.
(** aij.cpp 246-253 *)
Definition insert_vacancy (j : jin) (bval : list R) : list R :=
  if j_vac j then sortR (bval ++ [fst (shell j)]) else bval.
(** aij.cpp 255-273 *)
Definition add_vacuum (j : jin) (bval : list R) : res (list R) :=
  if (0 <? nuelem j)%Z && Rltb 0 (j_Rmax j) then
    let nv := rceil (j_Rmax j / friedel (j_rs j) * j_nufreq j) in
    bind (form_grid POINT_NUCLEUS 0 nv (j_Rmax j) 1 0 0 0 0 (j_Z j) 0 0 0 false 0) (fun vac0 =>
    bind (if (0 <? length bval)%nat then Ok (last bval 0) else UB) (fun b =>
    let vac := map (fun x => x + b) vac0 in
    bind (at_index 0 vac) (fun v =>
    if negb (Reqb b v) then Throw LogicError
    else Ok (bval ++ skipn 1 vac))))
  else Ok bval.
(** aij.cpp 179 and 193-273: the checks and the grid, in the order of the program. *)
Definition jellium_grid (j : jin) : res (list R) :=
  bind (consistent_lmax (j_nj j)) (fun _ =>
  bind (charge_check j) (fun _ =>
  bind (uniform_part j) (fun unif =>
  bind (glued j unif) (fun bval =>
  add_vacuum j (insert_vacancy j bval))))).

(** One block: orbitals in the radial basis (Sinvh times the solver's orbitals, aij.cpp 397)
    and their occupations. *)
Definition block := (mat * list R)%type.
(** aij.cpp 393: occupations[l].cwiseAbs().maxCoeff() == 0 *)
Definition unoccupied (b : block) : bool := forallb (fun x => Reqb (Rabs x) 0) (snd b).
(** aij.cpp 398 *)
Definition block_density (b : block) : mat :=
  fun i k => sum (length (snd b)) (fun o => fst b i o * nth o (snd b) 0 * fst b k o).
(** aij.cpp 389-404: the radial density matrix of the restricted builder. *)
Definition restricted_density (bs : list block) : mat :=
  fold_left (fun P b => if unoccupied b then P else madd P (block_density b)) bs mzero.
(** aij.cpp 471-491: the same for two spins; the first of a pair is alpha. *)
Definition unrestricted_density (bs : list (block * block)) : mat :=
  fold_left (fun P ab => if unoccupied (fst ab) then P
                         else madd P (madd (block_density (fst ab)) (block_density (snd ab)))) bs mzero.
(** aij.cpp 402-403: the kinetic energy; l counts the blocks. *)
Fixpoint restricted_kinetic (n : nat) (T Tl : mat) (l : nat) (bs : list block) : R :=
  match bs with
  | [] => 0
  | b :: bs' =>
    (if unoccupied b then 0
     else sum n (fun i => mmul n (block_density b) T i i) + INR (l * (l + 1)) * sum n (fun i => mmul n (block_density b) Tl i i))
    + restricted_kinetic n T Tl (S l) bs'
  end.
