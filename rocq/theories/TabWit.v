(** A small table. *)
Require Import Reals Lra Lia List Arith Bool ZArith.
Require Import Verif.Prelude Verif.TabModel Verif.TabSpec Verif.TabProofs Verif.TabGsz.
Import ListNotations.
Open Scope R_scope.

(** Radii 0, 1, 2, 4 and charges 3, 2, 1, 1 of nucleus 1. *)
Definition small (row i : nat) : R := match row with O => nth i [0; 1; 2; 4] 0 | _ => nth i [3; 2; 1; 1] 0 end.
Lemma small_rising : rising 4 (small 0).
Proof.
  split; [reflexivity|]. intros i j Hij Hj. destruct j as [|[|[|[|j]]]]; try lia; destruct i as [|[|[|[|i]]]]; try lia; cbn; lra.
Qed.
Lemma small_case : rising 4 (small 0) /\ sap_effective_charge 2 4 2 small 4 1 (Fin (3 / 2)) = Ok (3 / 2) /\
  sap_effective_charge 2 4 2 small 4 1 (Fin 3) = Ok 1 /\ line 1 2 2 1 (3 / 2) = 3 / 2 /\
  sap_effective_charge 2 4 2 small 4 1 (Fin 9) = Ok 1 /\ sap_effective_charge 2 4 2 small 4 2 (Fin 1) = Ok 0.
Proof.
  assert (L : line 1 2 2 1 (3 / 2) = 3 / 2) by (unfold line; lra).
  split; [apply small_rising|]. split.
  - rewrite (sap_linear 2 4 small 1 4 small_rising ltac:(lia) ltac:(lia) 1 (3 / 2)); [|lia|cbn; lra]. cbn. f_equal. exact L.
  - split.
    + rewrite (sap_linear 2 4 small 1 4 small_rising ltac:(lia) ltac:(lia) 2 3); [|lia|cbn; lra]. change (Ok (line 2 1 4 1 3) = Ok 1). f_equal. unfold line. field.
    + split; [exact L|]. split; [|reflexivity]. destruct (sap_ends 2 4 2 small small_rising 1 4 ltac:(lia) ltac:(lia)) as (_ & E & _). apply E; cbn; lra.
Qed.
Lemma gsz_case : exists H, GSZ_parameters 10 = Ok (561 / 1000, Fin H) /\ Z_GSZ_element 0 10 = Ok (Fin 10).
Proof.
  destruct (gsz_table 10 ltac:(lia)) as (d & H & E & Ed & _). exists H. split.
  - rewrite E, Ed. cbn. reflexivity.
  - apply gsz_element. lia.
Qed.
(** The table lists 215/1000 second, for helium; the lookup of Z = 2 returns the third entry. *)
Lemma gsz_neighbour : nth 1 d_Z_GSZ 0%Z = 215%Z /\ exists H, GSZ_parameters 2 = Ok (563 / 1000, H).
Proof.
  split; [reflexivity|]. destruct (gsz_table 2 ltac:(lia)) as (d & H & E & Ed & _). exists (Fin H). rewrite E, Ed. reflexivity.
Qed.
