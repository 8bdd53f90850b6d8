(** C32, C33: electron counts, and the blocks handed to the SCF solver. *)
Require Import Reals String ZArith List Bool.
Require Import Verif.Prelude Verif.AngModel Verif.AngSpec Verif.ElModel Verif.ElSpec Verif.ElProofs.
Import ListNotations.
Local Open Scope Z_scope.

(* ------------------------------- C32 -------------------------------- *)

(** Whatever the integers, if parse_nela_nelb returns, the counts, the charge and
    the multiplicity describe the same state; arguments that were given are kept. *)
Theorem electron_counts_consistent : forall c Zn c', parse_nela_nelb c Zn = Ok c' ->
  state_of Zn (c_Q c') (c_M c') (c_a c') (c_b c') /\ 1 <= c_M c' /\
  ((c_a c = 0 /\ c_b c = 0) -> c_Q c' = c_Q c /\ c_M c' = c_M c /\ 0 <= c_b c' <= c_a c') /\
  (~ (c_a c = 0 /\ c_b c = 0) -> c_a c' = c_a c /\ c_b c' = c_b c /\ c_b c' <= c_a c').
Proof. exact parse_sound. Qed.
Print Assumptions electron_counts_consistent.

(** From charge and multiplicity it finds the counts if there are any, and throws
    otherwise. *)
Theorem electron_counts_from_charge : forall Q M Zn, small Q -> small M -> small Zn ->
  (forall a b, parse_nela_nelb (mkCounts 0 0 Q M) Zn = Ok (mkCounts a b Q M) <->
     state_of Zn Q M a b /\ 1 <= M /\ 0 <= b) /\
  ((forall a b, ~ (state_of Zn Q M a b /\ 1 <= M /\ 0 <= b)) ->
     parse_nela_nelb (mkCounts 0 0 Q M) Zn = Throw RuntimeError).
Proof. exact parse_charge. Qed.
Print Assumptions electron_counts_from_charge.

(** Explicit counts give the charge and multiplicity, and throw for more beta than
    alpha electrons. *)
Theorem electron_counts_explicit : forall a b Q M Zn, small a -> small b -> small Zn -> ~ (a = 0 /\ b = 0) ->
  parse_nela_nelb (mkCounts a b Q M) Zn =
  if b <=? a then Ok (mkCounts a b (Zn - a - b) (1 + a - b)) else Throw RuntimeError.
Proof. exact parse_explicit. Qed.
Print Assumptions electron_counts_explicit.

(** Negative explicit counts are accepted. *)
Theorem negative_counts_rejected_refuted : parse_nela_nelb (mkCounts (-1) (-1) 0 1) 2 = Ok (mkCounts (-1) (-1) 4 1).
Proof. exact parse_negative. Qed.
Print Assumptions negative_counts_rejected_refuted.

(** The same for the driver, with the restricted flag: as requested, or for -1
    the closed shells and the runs without any multiplicity. *)
Theorem driver_counts : forall c restr Zt s, derive_nela_nelb_restricted c restr Zt = Ok s ->
  s_Ntot s = s_a s + s_b s /\ s_b s <= s_a s /\
  ((c_a c = 0 /\ c_b c = 0) -> s_Ntot s = Zt - c_Q c /\ 0 <= s_b s /\
     (c_M c = 0 -> s_restricted s = true /\ 0 < s_Ntot s /\ s_a s - s_b s <= 1) /\
     (c_M c <> 0 -> s_a s - s_b s = c_M c - 1)) /\
  (~ (c_a c = 0 /\ c_b c = 0) -> s_a s = c_a c /\ s_b s = c_b c) /\
  (s_restricted s = true <-> (restr <> 0 /\ restr <> -1) \/ (restr = -1 /\ (s_a s = s_b s \/ (c_M c = 0 /\ c_a c = 0 /\ c_b c = 0)))) /\
  (s_restricted s = true <-> s_restr s <> 0).
Proof. exact derive_sound. Qed.
Print Assumptions driver_counts.

(** It always returns or throws. *)
Theorem driver_counts_total : forall c restr Zt, small_counts c -> small Zt ->
  (exists s, derive_nela_nelb_restricted c restr Zt = Ok s) \/
  derive_nela_nelb_restricted c restr Zt = Throw LogicError \/
  derive_nela_nelb_restricted c restr Zt = Throw RuntimeError.
Proof. exact derive_total. Qed.
Print Assumptions driver_counts_total.

Example electron_count_examples :
  parse_nela_nelb (mkCounts 0 0 0 3) 8 = Ok (mkCounts 5 3 0 3) /\
  parse_nela_nelb (mkCounts 0 0 1 2) 8 = Ok (mkCounts 4 3 1 2) /\
  parse_nela_nelb (mkCounts 0 0 0 2) 8 = Throw RuntimeError /\
  parse_nela_nelb (mkCounts 2 1 0 0) 4 = Ok (mkCounts 2 1 1 2) /\
  derive_nela_nelb_restricted (mkCounts 0 0 0 0) (-1) 7 = Ok (mkSpins 4 3 1 true 7) /\
  derive_nela_nelb_restricted (mkCounts 0 0 0 2) (-1) 7 = Ok (mkSpins 4 3 0 false 7) /\
  derive_nela_nelb_restricted (mkCounts 0 0 0 0) 0 7 = Throw LogicError.
Proof. exact parse_examples. Qed.

(* ------------------------------- C33 -------------------------------- *)

(** One entry per particle type or per (particle type, block); the numbers of
    particles add up to all electrons; the blocks can hold two electrons per
    function and degenerate partner. *)
Theorem block_metadata : forall nsym restricted Ntot nela nelb labels deg,
  length labels = nsym -> length deg = nsym -> Ntot = nela + nelb ->
  let np := nparttype_of restricted in
  exists m, build_ooo_block_metadata nsym np restricted Ntot nela nelb labels deg = Ok m /\
  md_blocks m = repeat nsym np /\
  length (md_maxocc m) = (np * nsym)%nat /\ length (md_desc m) = (np * nsym)%nat /\ length (md_particles m) = np /\
  (forall t k, (t < np)%nat -> (k < nsym)%nat ->
     nth (t * nsym + k) (md_maxocc m) 0%R = ((if restricted then 2 else 1) * IZR (nth k deg 0%Z))%R /\
     nth (t * nsym + k) (md_desc m) EmptyString =
       append (if restricted then "" else if Nat.eqb t 0 then "a:" else "b:")%string (nth k labels EmptyString)) /\
  (restricted = false -> md_particles m = [IZR nela; IZR nelb]) /\
  lsum (md_particles m) (fun x => x) = IZR (nela + nelb) /\
  (forall sizes, length sizes = nsym ->
     capacity m sizes np = (2 * sum nsym (fun k => IZR (nth k deg 0%Z) * INR (nth k sizes 0%nat)))%R).
Proof. exact metadata_ok. Qed.
Print Assumptions block_metadata.

Theorem block_metadata_mismatch_throws : forall nsym np restricted Ntot nela nelb labels deg,
  length labels <> nsym \/ length deg <> nsym ->
  build_ooo_block_metadata nsym np restricted Ntot nela nelb labels deg = Throw LogicError.
Proof. exact metadata_mismatch. Qed.
Print Assumptions block_metadata_mismatch_throws.

(** With the |m| blocks of a diatomic basis and the degeneracies of the driver the
    capacity is two electrons per basis function. *)
Theorem absm_blocks_capacity : forall sh Nrad restricted Ntot nela nelb labels,
  sh <> [] -> (1 <= Nrad)%nat -> mirrored sh -> Ntot = nela + nelb ->
  exists blocks mirrors, di_get_sym_idx sh Nrad 3 = Ok blocks /\ di_get_sym_mirror_idx sh Nrad 3 = Ok mirrors /\
  (length labels = length blocks ->
   exists m, build_ooo_block_metadata (length blocks) (nparttype_of restricted) restricted Ntot nela nelb labels
     (diatomic_degeneracy mirrors) = Ok m /\
   capacity m (map (@length nat) blocks) (nparttype_of restricted) = (2 * INR (length (pure_functions sh Nrad)))%R).
Proof. exact absm_capacity. Qed.
Print Assumptions absm_blocks_capacity.
Example absm_capacity_example : lm_to_l_m [1; 1] <> [] /\ mirrored (lm_to_l_m [1; 1]) /\
  di_get_sym_idx (lm_to_l_m [1; 1]) 3 3 = Ok [[0; 1; 2; 3; 4; 5]; [6; 7]]%nat /\
  di_get_sym_mirror_idx (lm_to_l_m [1; 1]) 3 3 = Ok [[]; [8; 9]]%nat.
Proof. exact capacity_example. Qed.
