(** Vocabulary used by the statements about primitive families and finite
    element bases; nothing here refers to how the code computes it. *)
Require Import Reals ZArith List Bool Arith.
Require Import Verif.Prelude Verif.FEModel.
Import ListNotations.

(** Primitive function number p belongs to node p / k and interpolates the
    derivative of order p mod k there, where k is the number of functions per
    node. *)
Definition node_of (f : family) (p : nat) : nat := p / noverlap f.
Definition kind_of (f : family) (p : nat) : nat := p mod noverlap f.

(** A boundary condition (zero_func, zero_deriv) at a node removes the value
    function, respectively the derivative functions, of that node. *)
Definition removed_at (f : family) (node : nat) (zf zd : bool) (p : nat) : bool :=
  Nat.eqb (node_of f p) node && (if Nat.eqb (kind_of f p) 0 then zf else zd).

(** The functions of an element with the left condition applied if the
    element is the first one and the right one if it is the last one. *)
Definition expected_functions (b : fe) (iel : nat) : list nat :=
  filter (fun p =>
    negb (Nat.eqb iel 0 && removed_at (fe_fam b) 0 (fe_zfl b) (fe_zdl b) p) &&
    negb (Nat.eqb (iel + 2) (length (fe_bval b)) &&
          removed_at (fe_fam b) (fe_n b - 1) (fe_zfr b) (fe_zdr b) p))
    (seq 0 (fe_n b * noverlap (fe_fam b))).

(** Bases the constructor accepts: at least two nodes, at least one element,
    strictly increasing boundaries. *)
Definition valid_fe (b : fe) : Prop :=
  2 <= fe_n b /\ 2 <= length (fe_bval b) /\ increasing (fe_bval b).

(** Global function g lives in the range r. *)
Definition in_range (g : Z) (r : Z * Z) : Prop := (fst r <= g <= snd r)%Z.

(** Number of functions a boundary condition removes. *)
Definition ndropped (f : family) (zf zd : bool) : nat :=
  (if zf then 1 else 0) + (if zd then noverlap f - 1 else 0).

(** Every value of the list is below or equal to every later one. *)
Definition in_element (b : fe) (iel : nat) (x : R) : Prop :=
  (nth iel (fe_bval b) 0 <= x <= nth (iel + 1) (fe_bval b) 0)%R.

(** f 0 + ... + f (n-1). *)
Fixpoint zsum (n : nat) (f : nat -> Z) : Z :=
  match n with O => 0 | S n' => zsum n' f + f n' end%Z.

