(** Statements about the files of the jellium program, and cases that meet their hypotheses. *)
Require Import String Reals ZArith List Bool Arith Lia Lra.
Require Import Verif.Prelude Verif.AngModel Verif.AijModel Verif.AijSpec Verif.AoModel Verif.AoSpec Verif.AoProofs.
Import ListNotations.
Open Scope R_scope.

(** C146 *)
Theorem C146_roundtrip : forall nr nc fock, fock <> [] -> uniform nr nc fock ->
  exists f f', save_fock fock = Ok f /\ load_fock f = Ok f' /\ Forall2 same_mat fock f'.
Proof. exact roundtrip_ok. Qed.
Example C146_roundtrip_ex : uniform 2 3 [mkD 2 3 (fun r c => INR (r + 2 * c)); mkD 2 3 mid] /\
  save_fock [mkD 1 2 (fun _ c => INR c); mkD 1 2 mid] = Ok (2%nat, 1%nat, 2%nat, [0; 1; 1; 0]).
Proof. split; [intros A [<-|[<-|[]]]; split; reflexivity | reflexivity]. Qed.
Theorem C146_truncated : forall nb nr nc s, (List.length s < nb * (nr * nc))%nat -> load_fock (nb, nr, nc, s) = Throw RuntimeError.
Proof. exact truncated_ok. Qed.
Example C146_truncated_ex : load_fock (2%nat, 1%nat, 2%nat, [0; 1; 1]) = Throw RuntimeError.
Proof. apply C146_truncated. cbn. lia. Qed.
Theorem C146_ragged_refuted : exists fock f, save_fock fock = Ok f /\ load_fock f = Throw RuntimeError.
Proof. exact ragged. Qed.
Theorem C146_guess : forall lmax fock,
  (List.length fock = (lmax + 1)%nat -> guess_restricted lmax fock = Ok fock /\ guess_unrestricted lmax fock = Ok (fock ++ fock)) /\
  (List.length fock = (2 * lmax + 2)%nat -> guess_unrestricted lmax fock = Ok fock /\
     exists h, guess_restricted lmax fock = Ok h /\ List.length h = (lmax + 1)%nat /\ forall l d, (l <= lmax)%nat -> nth l h d = nth l fock d) /\
  (List.length fock <> (lmax + 1)%nat -> List.length fock <> (2 * lmax + 2)%nat -> guess_restricted lmax fock = Throw LogicError /\ (fock <> [] -> guess_unrestricted lmax fock = Throw LogicError)).
Proof. exact guess_ok. Qed.
Example C146_guess_ex : guess_restricted 0 [mkD 1 1 mid; mkD 1 1 mzero] = Ok [mkD 1 1 mid] /\ guess_restricted 1 [mkD 1 1 mid] = Throw LogicError /\
  guess_unrestricted 0 [mkD 1 1 mid] = Ok [mkD 1 1 mid; mkD 1 1 mid].
Proof. repeat split. Qed.

(** C147 *)
Theorem C147_density_restricted : forall lmax bs i k, List.length bs = (lmax + 1)%nat ->
  saved_density lmax bs i k * (4 * PI) = over_orbitals bs (fun _ C o => C i o * C k o).
Proof. exact saved_restricted. Qed.
Example C147_density_restricted_ex : saved_density 1 [(mid, [2]); (mid, [3])] 0%nat 0%nat * (4 * PI) = 5.
Proof. rewrite C147_density_restricted by reflexivity. unfold over_orbitals, mid. cbn. ring. Qed.
Theorem C147_density_alpha_only : forall lmax al be i k, List.length al = (lmax + 1)%nat ->
  saved_density lmax (al ++ be) i k * (4 * PI) = over_orbitals al (fun _ C o => C i o * C k o).
Proof. exact saved_alpha. Qed.
Example C147_density_alpha_only_ex : saved_density 0 ([(mid, [2])] ++ [(mid, [3])]) 0%nat 0%nat * (4 * PI) = 2.
Proof. rewrite C147_density_alpha_only by reflexivity. unfold over_orbitals, mid. cbn. ring. Qed.
Theorem C147_density_unrestricted_refuted : ~ (forall lmax al be i k, List.length al = (lmax + 1)%nat -> List.length be = (lmax + 1)%nat ->
  saved_density lmax (al ++ be) i k * (4 * PI) = over_orbitals (al ++ be) (fun _ C o => C i o * C k o)).
Proof. exact beta_not_saved. Qed.
Theorem C147_orbitals : forall thr np lmax bstart sel bs, exists ps, written thr bs ps /\
  let t := save_table thr np lmax bstart sel bs in
  t_norb t = List.length ps /\ t_l t = map (fun p => ((bstart + fst p) mod (lmax + 1))%nat) ps /\
  t_occ t = map (fun p => nth (snd p) (o_occ (nth (fst p) bs o0)) 0) ps /\ t_E t = map (fun p => o_E (nth (fst p) bs o0) (snd p)) ps /\
  forall ir, t_col t ir = map (fun p => phase np (o_val (nth (fst p) bs o0) (snd p)) * sel (nth (fst p) bs o0) (snd p) ir) ps.
Proof. exact table_ok. Qed.
Example C147_orbitals_ex : t_norb (save_table 0 1 1 2 o_val [mkO (fun _ _ => -5) (fun _ _ => 0) (fun _ _ => 0) (fun i => INR i) [0; 2]; mkO (fun _ _ => 3) (fun _ _ => 0) (fun _ _ => 0) (fun i => INR i) [1]]) = 2%nat /\
  t_l (save_table 0 1 1 2 o_val [mkO (fun _ _ => -5) (fun _ _ => 0) (fun _ _ => 0) (fun i => INR i) [0; 2]; mkO (fun _ _ => 3) (fun _ _ => 0) (fun _ _ => 0) (fun i => INR i) [1]]) = [0; 1]%nat.
Proof.
  unfold save_table, occ_idx. cbn [t_norb t_l o_occ List.length seq filter fold_left combine flat_map nth fst snd]. rewrite Rabs_R0, Rabs_R1, (Rabs_pos_eq 2) by lra.
  destruct (Rltb_spec 0 0), (Rltb_spec 0 1), (Rltb_spec 0 2); try lra. split; reflexivity.
Qed.
Theorem C147_phase : forall np v, (0 < np)%nat -> (phase np v = 1 \/ phase np v = -1) /\
  exists m, (m < np)%nat /\ 0 <= phase np v * v m /\ forall k, (k < np)%nat -> Rabs (phase np v * v k) <= phase np v * v m.
Proof. exact phase_ok. Qed.
Example C147_phase_ex : phase 2 (fun i => if Nat.eqb i 0 then 1 else -2) = -1.
Proof. unfold phase, argmax_sq. cbn. destruct (Rltb_spec (1 * 1) (-2 * -2)); [|lra]. cbn. destruct (Rltb_spec (-2) 0); lra. Qed.
Theorem C147_names : forall Z0 Q nj, (0 <= nj)%Z -> ((exists d p, file_names Z0 Q nj = Ok (d, p)) <-> (Q <= Z0 /\ 0 < Z0 - Q + nj)%Z) /\
  ((Z0 < Q)%Z \/ (Z0 = Q /\ nj = 0)%Z -> file_names Z0 Q nj = Throw LogicError).
Proof. exact names_ok. Qed.
Example C147_names_ex : file_names 1 0 7 = Ok ("density_aij.dat", "aij")%string /\ file_names 1 2 7 = Throw LogicError.
Proof. split; reflexivity. Qed.

Print Assumptions C146_roundtrip.
Print Assumptions C146_truncated.
Print Assumptions C146_ragged_refuted.
Print Assumptions C146_guess.
Print Assumptions C147_density_restricted.
Print Assumptions C147_density_alpha_only.
Print Assumptions C147_density_unrestricted_refuted.
Print Assumptions C147_orbitals.
Print Assumptions C147_phase.
Print Assumptions C147_names.
