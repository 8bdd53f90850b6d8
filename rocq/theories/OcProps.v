(** Properties C135-C136: tables of integers and frozen occupations. *)
Require Import ZArith List Bool Arith Ascii String Lia.
Require Import Verif.Prelude Verif.TabSpec Verif.AngModel Verif.AngSpec Verif.OcModel Verif.OcSpec Verif.OcProofs.
Import ListNotations.
Open Scope Z_scope.

(** * C135: reading a table *)
Theorem C135_table : forall ls last rows data, Forall one_line ls -> one_line last -> Forall2 line_means (all_lines ls last) rows -> nonblank rows data ->
  ((forall r r', In r data -> In r' data -> List.length r = List.length r') -> read_raw_ascii_imat (Some (text ls last)) = Ok data) /\
  (forall r r', In r data -> In r' data -> List.length r <> List.length r' -> read_raw_ascii_imat (Some (text ls last)) = Throw RuntimeError).
Proof. exact read_table. Qed.
Theorem C135_shape : forall file M, read_raw_ascii_imat file = Ok M -> forall r, In r M -> List.length r = cols M /\ r <> [] /\ Forall int_range r.
Proof. exact read_shape. Qed.
(** Text that is not a number is dropped without a word, with the rest of its line. *)
Theorem C135_junk_refuted : ~ (forall t M, read_raw_ascii_imat (Some t) = Ok M -> all_of (fun c => blank c \/ digit c \/ plus_minus c) t).
Proof. exact junk_refuted. Qed.
Example C135_ex : read_raw_ascii_imat (Some (text ["1 -2  +3"; ""; " 4 5 6 # last shell"]%string "7 8 9")) = Ok [[1; -2; 3]; [4; 5; 6]; [7; 8; 9]] /\
  read_raw_ascii_imat (Some (text ["1 2"; "3"]%string "")) = Throw RuntimeError /\ read_raw_ascii_imat (Some ""%string) = Ok [] /\
  read_raw_ascii_imat (Some "1 99999999999 2"%string) = Ok [[1]].
Proof. vm_compute. auto. Qed.
Example C135_unopened_ex : read_raw_ascii_imat None = Throw RuntimeError.
Proof. reflexivity. Qed.
Example C135_line_ex : line_means " 4 -5 # x" [4; -5].
Proof.
  apply (LM_int " " NoSign "4" " -5 # x" [-5]); try (cbn; unfold space, blank, digit; cbn; repeat split; lia); try discriminate; try (unfold int_range; cbn; lia).
  apply (LM_int " " Minus "5" " # x" []); try (cbn; unfold space, blank, digit; cbn; repeat split; lia); try discriminate; try (unfold int_range; cbn; lia).
  apply (LM_junk " " NoSign "# x"); cbn; unfold space, blank, digit, plus_minus; cbn.
  - split; [lia | exact I].
  - lia.
  - intros [H|[H|H]]; try discriminate; lia.
Qed.

(** * C136: frozen occupations *)
Theorem C136_atomic : forall sh Nrad symm restricted nela nelb file f, at_readocc sh Nrad symm restricted nela nelb file = Ok f ->
  exists dsym occs, at_get_sym_idx sh Nrad symm = Ok dsym /\ read_raw_ascii_imat file = Ok occs /\
    ((symm = 1 /\ cols occs = 3%nat) \/ (symm = 2 /\ cols occs = 4%nat)) /\
    frozen_ok dsym (at_named sh Nrad symm) restricted nela nelb occs f.
Proof. exact at_frozen. Qed.
Theorem C136_diatomic : forall sh Nrad Z1 Z2 symm restricted nela nelb file f, di_readocc sh Nrad Z1 Z2 symm restricted nela nelb file = Ok f ->
  exists dsym occs, di_get_sym_idx sh Nrad symm = Ok dsym /\ read_raw_ascii_imat file = Ok occs /\
    symm <> 0 /\ (cols occs = 3%nat \/ (cols occs = 4%nat /\ Z1 = Z2 /\ symm = 2)) /\
    (cols occs = 4%nat -> forall row, In row occs -> nth 3 row 0 = 1 \/ nth 3 row 0 = -1) /\
    frozen_ok dsym (di_named sh Nrad) restricted nela nelb occs f.
Proof. exact di_frozen. Qed.
Theorem C136_accept : forall sh Nrad symm restricted nela nelb file dsym occs,
  at_get_sym_idx sh Nrad symm = Ok dsym -> read_raw_ascii_imat file = Ok occs ->
  ((symm = 1 /\ cols occs = 3%nat) \/ (symm = 2 /\ cols occs = 4%nat)) ->
  (forall row, In row occs -> at_named sh Nrad symm row <> [] /\ In (at_named sh Nrad symm row) dsym) ->
  (forall row, In row occs -> 0 <= alpha_of row /\ 0 <= beta_of row) -> (restricted = true -> forall row, In row occs -> alpha_of row = beta_of row) ->
  zsum (map alpha_of occs) = nela -> zsum (map beta_of occs) = nelb -> nela + nelb < 2 ^ 31 ->
  exists f, at_readocc sh Nrad symm restricted nela nelb file = Ok f.
Proof. exact at_accept. Qed.
(** A block named twice keeps the last row only, while the sums count both. *)
Theorem C136_duplicate_refuted : ~ (forall sh Nrad symm nela nelb file f dsym, at_get_sym_idx sh Nrad symm = Ok dsym ->
  at_readocc sh Nrad symm true nela nelb file = Ok f -> total (List.length dsym) f = nela + nelb).
Proof. exact duplicate_refuted. Qed.
(** Negative numbers of electrons pass. *)
Theorem C136_negative_refuted : ~ (forall sh Nrad symm nela nelb file f k, at_readocc sh Nrad symm true nela nelb file = Ok f -> 0 <= f k).
Proof. exact negative_refuted. Qed.
Example C136_ex : exists f, at_readocc [(0, 0); (1, -1); (1, 0); (1, 1)] 3%nat 1 false 4 2 (Some (text ["2 2 0"; "1 0 1"; "1 0 -1"]%string "")) = Ok f /\
  total 3 f = 4 /\ f 0%nat = 1 /\ f 1%nat = 2 /\ f 4%nat = 2 /\ f 5%nat = 0 /\ NoDup (map block_key [[2; 2; 0]; [1; 0; 1]; [1; 0; -1]]).
Proof.
  eexists. split; [vm_compute; reflexivity|]. repeat split; try (vm_compute; reflexivity).
  cbn. repeat constructor; cbn; intuition discriminate.
Qed.
Example C136_accept_ex : at_named [(0, 0); (1, -1); (1, 0); (1, 1)] 3%nat 1 [2; 2; 0] = [0; 1; 2; 6; 7; 8]%nat /\
  at_get_sym_idx [(0, 0); (1, -1); (1, 0); (1, 1)] 3%nat 1 = Ok [[3; 4; 5]; [0; 1; 2; 6; 7; 8]; [9; 10; 11]]%nat.
Proof. split; reflexivity. Qed.
Example C136_diatomic_ex : exists f, di_readocc [(0, 0); (1, 0); (1, 1)] 3%nat 1 1 2 true 2 2 (Some (text ["1 1 0 1"; "1 1 0 -1"]%string "")) = Ok f /\
  f 0%nat = 2 /\ f 1%nat = 2 /\ f 2%nat = 0.
Proof. eexists. split; [vm_compute; reflexivity|]. repeat split; vm_compute; reflexivity. Qed.

Print Assumptions C135_table.
Print Assumptions C135_shape.
Print Assumptions C135_junk_refuted.
Print Assumptions C136_atomic.
Print Assumptions C136_diatomic.
Print Assumptions C136_accept.
Print Assumptions C136_duplicate_refuted.
Print Assumptions C136_negative_refuted.
