(** Vocabulary for the statements about shells, symmetry blocks and tables. *)
Require Import Reals ZArith List Bool Arith Permutation Sorted.
Require Import Verif.Prelude Verif.FEModel Verif.AngModel.
Import ListNotations.
Local Open Scope Z_scope.

(** A basis function: its l, its m and the number of its radial function. *)
Notation bfun := (Z * Z * nat)%type.
Definition bf_l (f : bfun) : Z := fst (fst f).
Definition bf_m (f : bfun) : Z := snd (fst f).
Definition bf_k (f : bfun) : nat := snd f.

(** All functions, shell by shell, radial functions innermost; the position in
    this list is the index of the function. *)
Definition all_functions (sh : list (Z * Z)) (Nrad : nat) : list bfun :=
  flat_map (fun lm => map (fun k => (lm, k)) (seq 0 Nrad)) sh.

(** The functions that survive the condition at the nuclear axis: everything
    except the first radial function of a shell with m <> 0. *)
Definition survives (f : bfun) : bool := (bf_m f =? 0) || negb (Nat.eqb (bf_k f) 0).
Definition pure_functions (sh : list (Z * Z)) (Nrad : nat) : list bfun :=
  filter survives (all_functions sh Nrad).

(** Function number g of a list of functions. *)
Definition fnth (fs : list bfun) (g : nat) : bfun := nth g fs (0, 0, 0%nat).

(** The positions at which a list of functions satisfies p, ascending. *)
Definition positions (p : bfun -> bool) (fs : list bfun) : list nat :=
  filter (fun g => p (fnth fs g)) (seq 0 (length fs)).

(** The label a symmetry number assigns to a function. *)
Definition label_of (symm : Z) (atomic : bool) (f : bfun) : label :=
  if symm =? 0 then LabAll
  else if symm =? 1 then LabM (bf_m f)
  else if symm =? 2 then
    (if atomic then LabLM (bf_l f) (bf_m f) else LabMP (bf_m f) (Z.odd (bf_l f)))
  else LabAbsM (Z.abs (bf_m f)).

(** The blocks are the classes of the functions [fs] under [key], one per
    label: disjoint, exhaustive, ascending, distinct labels. *)
Definition blocks_by (fs : list bfun) (key : bfun -> label)
    (labels : list label) (blocks : list (list nat)) : Prop :=
  Permutation (concat blocks) (seq 0 (length fs)) /\
  NoDup labels /\
  (forall b, In b blocks -> StronglySorted lt b) /\
  Forall2 (fun lab b => forall g, In g b <-> (g < length fs)%nat /\ key (fnth fs g) = lab)
    labels blocks.

(** Strictly ascending in the given order. *)
Definition ascending (less : Z * Z -> Z * Z -> bool) (l : list (Z * Z)) : Prop :=
  StronglySorted (fun a b => less a b = true) l.

(** The +m and the -m shells list the same l values in the same order. *)
Definition mirrored (sh : list (Z * Z)) : Prop :=
  forall m, map fst (filter (fun lm => snd lm =? m) sh) =
            map fst (filter (fun lm => snd lm =? - m) sh).

(** Radial function r lives in element iel. *)
Definition lives_in (b : fe) (iel : nat) (r : nat) : Prop :=
  exists f l, get_idx b iel = Ok (f, l) /\ (f <= Z.of_nat r <= l)%Z.

(** |m| first, then l, then +m before -m. *)
Definition lm_order (a b : Z * Z) : Prop :=
  Z.abs (snd a) < Z.abs (snd b) \/
  (Z.abs (snd a) = Z.abs (snd b) /\ (fst a < fst b \/ (fst a = fst b /\ snd b < snd a))).
