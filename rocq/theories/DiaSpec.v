(** Vocabulary for the Coulomb and exchange matrices of a diatomic basis. *)
Require Import Reals ZArith List Bool Arith Permutation.
Require Import Verif.Prelude Verif.AngModel Verif.AngSpec Verif.CholModel Verif.CholSpec Verif.JKModel Verif.JKSpec
  Verif.GauntModel Verif.GauntSpec Verif.TwoDModel Verif.TwoDSpec Verif.TeiModel Verif.TeiSpec Verif.DiaModel.
Import ListNotations.
Local Open Scope R_scope.

(** The two parts of the volume element are the channels 0 and 1: the coupling of
    shells (lj,mj) and (li,mi) to Y_L^M with and without cos^2, and the sign with
    which two channels interact. *)
Definition channel_coupling (eval : generator) (ch : nat) (lj mj L M li mi : Z) : R :=
  if Nat.eqb ch 0 then modified_gaunt_coefficient eval lj mj L M li mi else gaunt_coefficient eval lj mj L M li mi.
Definition channel_sign (ch ch' : nat) : R := if Nat.eqb ch ch' then 1 else -1.

(** The radial integrals of multipole (L,|M|): per channel and element those of the
    first and the second kind, and per element the two-channel kernel over
    (channel, pair of functions). *)
Record integrals := mkInt {
  in_P : Z -> Z -> nat -> nat -> mat;
  in_Q : Z -> Z -> nat -> nat -> mat;
  in_W : Z -> Z -> nat -> mat }.

(** The interaction of two elements in channels ch and ch'. *)
Definition two_block (lay : layout) (I : integrals) (L Ma : Z) (ch ch' i j a b c d : nat) : R :=
  if Nat.eqb i j then
    let n := count_of lay i in
    in_W I L Ma i (ch * (n * n) + pair_ix n a b)%nat (ch' * (n * n) + pair_ix n c d)%nat
  else channel_sign ch ch' *
    (if Nat.ltb i j then in_P I L Ma ch i a b * in_Q I L Ma ch' j c d
     else in_Q I L Ma ch i a b * in_P I L Ma ch' j c d).
Definition radial_tensor (lay : layout) (I : integrals) (L Ma : Z) (ch ch' : nat) : nat -> nat -> nat -> nat -> R :=
  tensor lay (two_block lay I L Ma ch ch').

(** (-1)^M 4 pi Rhalf^5 (L-|M|)!/(L+|M|)! *)
Definition multipole_factor (Rhalf : R) (L M : Z) : R :=
  (if Z.odd M then -1 else 1) * (4 * PI * Rhalf ^ 5 *
  (INR (fact (Z.to_nat (L - Z.abs M))) / INR (fact (Z.to_nat (L + Z.abs M))))).

(** The two-electron integral over the products of shells (i,j) and (k,l) with
    radial functions (a,b) and (c,d), from the multipoles up to Lcut. *)
Definition dia_tensor (b : dbasis) (I : integrals) (Lcut : Z) (i j k l a b' c d : nat) : R :=
  let sh := db_sh b in
  let M := (m_of sh j - m_of sh i)%Z in
  if (m_of sh k - m_of sh l =? M)%Z then
    lsum (zrange (Z.abs M) Lcut) (fun L => multipole_factor (db_Rhalf b) L M *
      sum 2 (fun ch => sum 2 (fun ch' =>
        channel_coupling (db_eval b) ch (l_of sh j) (m_of sh j) L M (l_of sh i) (m_of sh i) *
        channel_coupling (db_eval b) ch' (l_of sh k) (m_of sh k) L M (l_of sh l) (m_of sh l) *
        radial_tensor (db_lay b) I L (Z.abs M) ch ch' a b' c d)))
  else 0.

(** The basis functions are those that survive the condition at the nuclear axis:
    number r is radial function rad_ix r of shell sh_ix r. *)
Definition survivors (b : dbasis) : list nat := positions survives (all_functions (db_sh b) (lnbf (db_lay b))).
Definition dia_size (b : dbasis) : nat := length (survivors b).
Definition sh_ix (b : dbasis) (r : nat) : nat := (nth r (survivors b) 0 / lnbf (db_lay b))%nat.
Definition rad_ix (b : dbasis) (r : nat) : nat := (nth r (survivors b) 0 mod lnbf (db_lay b))%nat.
(** The integral over functions (r t| u v). *)
Definition dia_integral (b : dbasis) (I : integrals) (Lcut : Z) (r t u v : nat) : R :=
  dia_tensor b I Lcut (sh_ix b r) (sh_ix b t) (sh_ix b u) (sh_ix b v) (rad_ix b r) (rad_ix b t) (rad_ix b u) (rad_ix b v).

(** J(r,t) = sum (rt|uv) P(u,v), K(r,t) = - sum (ur|tv) P(u,v). *)
Definition dia_J (b : dbasis) (I : integrals) (Lcut : Z) (P : mat) (r t : nat) : R :=
  sum (dia_size b) (fun u => sum (dia_size b) (fun v => dia_integral b I Lcut r t u v * P u v)).
Definition dia_K (b : dbasis) (I : integrals) (Lcut : Z) (P : mat) (r t : nat) : R :=
  - sum (dia_size b) (fun u => sum (dia_size b) (fun v => dia_integral b I Lcut u r t v * P u v)).

(** The density without the blocks of two shells whose norm is below the threshold. *)
Definition shell_norm (b : dbasis) (P : mat) (i l : nat) : R :=
  sqrt (sum (dia_size b) (fun u => sum (dia_size b) (fun v =>
    if (Nat.eqb (sh_ix b u) i && Nat.eqb (sh_ix b v) l)%bool then P u v * P u v else 0))).
Definition dia_screened (b : dbasis) (P : mat) : mat := fun u v =>
  if Rltb (shell_norm b P (sh_ix b u) (sh_ix b v)) (db_thr b) then 0 else P u v.

(** The arrays hold the integrals: for entry ilm = (L,|M|) of the multipole table
    and element e, symmetric matrices of the first and second kind, and factors B,
    sigma with W = B diag(sigma) B^T. *)
Definition stores (b : dbasis) (s : dstate) (lm : list (Z * Z)) (I : integrals) : Prop :=
  let lay := db_lay b in
  ds_size s = (lnel lay * length lm)%nat /\
  forall ilm e L Ma, nth_error lm ilm = Some (L, Ma) -> (e < lnel lay)%nat ->
  let at_ := (ilm * lnel lay + e)%nat in let n := count_of lay e in
  (forall ch, (ch < 2)%nat ->
     supplies (fun e => arr s ch (ilm * lnel lay + e)) e n n (in_P I L Ma ch e) /\ symmetric n (in_P I L Ma ch e) /\
     supplies (fun e => arr s (2 + ch) (ilm * lnel lay + e)) e n n (in_Q I L Ma ch e) /\ symmetric n (in_Q I L Ma ch e)) /\
  let B := ds_mem s 4%nat at_ in let sigma := ds_mem s 5%nat at_ in
  drows B = (2 * (n * n))%nat /\ drows sigma = dcols B /\ dcols sigma = 1%nat /\
  forall x y, (x < 2 * (n * n))%nat -> (y < 2 * (n * n))%nat ->
    in_W I L Ma e x y = sum (dcols B) (fun p => dent sigma p 0%nat * (dent B x p * dent B y p)).

(** A basis. *)
Definition dbasis_ok (b : dbasis) : Prop :=
  shells_ok (db_sh b) /\ generator_ok (db_eval b) /\ fits (db_lay b) /\ (0 < lnel (db_lay b))%nat /\ (0 < lnbf (db_lay b))%nat.

(** The largest L of two shells, plus two for cos^2. *)
Definition Lmax_of (b : dbasis) : Z := (2 * lmax_of (db_sh b) + 2)%Z.

(** All pairs of shells in some order. *)
Definition all_pairs (b : dbasis) (order : list (nat * nat)) : Prop :=
  Permutation order (list_prod (seq 0 (length (db_sh b))) (seq 0 (length (db_sh b)))).

(** For the shortcut of +-m symmetric densities: shells come in pairs (l,m), (l,-m);
    the density couples equal m only, and is the same for both signs. *)
Definition paired_shells (sh : list (Z * Z)) : Prop := NoDup sh /\ forall l m, In (l, m) sh -> In (l, - m)%Z sh.
Definition mirror_functions (b : dbasis) (r r' : nat) : Prop :=
  (r < dia_size b)%nat /\ (r' < dia_size b)%nat /\ rad_ix b r' = rad_ix b r /\
  l_of (db_sh b) (sh_ix b r') = l_of (db_sh b) (sh_ix b r) /\
  m_of (db_sh b) (sh_ix b r') = (- m_of (db_sh b) (sh_ix b r))%Z.
Definition mirror_symmetric (b : dbasis) (P : mat) : Prop :=
  forall r t r' t', mirror_functions b r r' -> mirror_functions b t t' -> P r' t' = P r t.
Definition m_diagonal (b : dbasis) (P : mat) : Prop :=
  forall r t, (r < dia_size b)%nat -> (t < dia_size b)%nat ->
    m_of (db_sh b) (sh_ix b r) <> m_of (db_sh b) (sh_ix b t) -> P r t = 0.

(** What compute_tei leaves in the arrays, as integrals: those of the first and
    second kind are the element matrices at the order where refinement ends, the
    kernel is what the signed factors of the two-channel kernel stand for. *)
Definition computed (normal : R -> bool) (DP DQ : nat -> nat -> R -> R) (rb : dradial) (lm : list (Z * Z)) (thresh : R) (I : integrals) : Prop :=
  forall L M iel, In (L, M) lm -> (iel < d_Nel rb)%nat ->
  let P := exact_legendre normal DP DQ M true L in
  let Q := exact_legendre normal DP DQ M false L in
  let nstart := Z.max 5 (d_nquad rb) in
  (forall ch, (ch < 2)%nat ->
    (exists X n, refined rb (element_matrix rb iel (2 * ch) P) true nstart X n /\ in_P I L M ch iel = dent X) /\
    (exists X n, refined rb (element_matrix rb iel (2 * ch) Q) true nstart X n /\ in_Q I L M ch iel = dent X)) /\
  exists n, element_order normal DP DQ rb lm iel n /\
    let W := kernel_matrix rb iel n P Q in
    in_W I L M iel = BsBT (signed_cholesky (drows W) (dent W) thresh).

(** The radial basis the integrals are computed with is the one of b. *)
Definition radial_of (b : dbasis) (rb : dradial) : Prop :=
  d_Nel rb = lnel (db_lay b) /\ forall e, (e < d_Nel rb)%nat -> d_n rb e = count_of (db_lay b) e.

(** The kernel of an element does not change when the functions of a pair are
    exchanged: it is an integral over products of functions. *)
Definition pair_even (b : dbasis) (lm : list (Z * Z)) (I : integrals) : Prop :=
  forall L Ma e ch x y z, In (L, Ma) lm -> (e < lnel (db_lay b))%nat -> (ch < 2)%nat ->
  let n := count_of (db_lay b) e in (x < n)%nat -> (y < n)%nat -> (z < 2 * (n * n))%nat ->
  in_W I L Ma e (ch * (n * n) + pair_ix n x y)%nat z = in_W I L Ma e (ch * (n * n) + pair_ix n y x)%nat z.

(** The matrix a computation returns is symmetric. *)
Definition returns_symmetric (r : res dmat) (n : nat) : Prop := exists M, r = Ok M /\ density n M /\ symmetric n (dent M).

(** sum_rt A(r,t) B(r,t) *)
Definition pairing (n : nat) (A B : mat) : R := sum n (fun r => sum n (fun t => A r t * B r t)).
