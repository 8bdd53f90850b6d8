(** Properties C35, C36, C49, C50, C61-C64. *)
Require Import Reals List Arith Bool ZArith.
Require Import Verif.Prelude Verif.FEModel Verif.QuadModel Verif.QuadSpec.
Require Import Verif.QuadProofs Verif.QuadInt Verif.QuadCross Verif.QuadWit.
Import ListNotations.
Open Scope R_scope.

(* ------------------------------------------------------------------ *)
(** C35: whatever the integrand does, the radial and one-electron ladders return
    after k + 1 evaluations with 2^k below the cap, at orders n0, 2 n0, ...; they never
    exceed the cap (or the starting order), and what they return is the block of the last
    order, which is the cap or agrees with the one before. *)
Theorem C35_rule : forall (Blk : Type) (dist : Blk -> Blk -> fp) (scale : Blk -> fp) (tol sqrteps : R) (eval : nat -> Blk) nmax nstart,
  (forall a b, magnitude (dist a b)) -> (forall a, magnitude (scale a)) -> 0 <= tol -> tol <= sqrteps ->
  exists k tried, converge_rule Blk dist scale tol sqrteps eval nmax nstart
     = Ok (tried, eval (order nmax (Z.to_nat (Z.max nstart 2)) k)) /\
    tried = rev (map (order nmax (Z.to_nat (Z.max nstart 2))) (seq 0 (S k))) /\
    (forall n, In n tried -> (n <= Nat.max nmax (Z.to_nat (Z.max nstart 2)))%nat) /\
    (k = 0%nat \/ (2 ^ k < nmax)%nat) /\
    ((nmax <= order nmax (Z.to_nat (Z.max nstart 2)) k)%nat \/
     (1 <= k)%nat /\
     fle (dist (eval (order nmax (Z.to_nat (Z.max nstart 2)) k)) (eval (order nmax (Z.to_nat (Z.max nstart 2)) (k - 1))))
         (rel sqrteps tol (scale (eval (order nmax (Z.to_nat (Z.max nstart 2)) k))))).
Proof. exact rule_result. Qed.
Print Assumptions C35_rule.

(** The ladder stops at the first order that is accepted or reaches the cap. *)
Theorem C35_rule_stop : forall (Blk : Type) (dist : Blk -> Blk -> fp) (scale : Blk -> fp) (tol sqrteps : R) (eval : nat -> Blk) nmax nstart,
  (forall a b, magnitude (dist a b)) ->
  let n0 := Z.to_nat (Z.max nstart 2) in
  let o := order nmax n0 in
  exists k, converge_rule Blk dist scale tol sqrteps eval nmax nstart = Ok (rev (map o (seq 0 (S k))), eval (o k))
    /\ first_stop nmax n0 (settled tol sqrteps (fun i => dist (eval (o i)) (eval (o (i - 1)%nat))) (fun i => scale (eval (o i)))) k.
Proof. exact rule_runs. Qed.
Print Assumptions C35_rule_stop.

Example C35_rule_case : converge_rule R d_abs s_abs (1 / 1000) (1 / 30) jump order_cap 4 = Ok ([16; 8; 4]%nat, 1).
Proof. exact (jump_run order_cap (proj1 (Nat.leb_le 16 order_cap) eq_refl)). Qed.

(** At most nine evaluations below the cap of 512. *)
Theorem C35_evaluations : forall ok n0 k, (2 <= n0)%nat -> first_stop order_cap n0 ok k -> (S k <= 9)%nat.
Proof. exact first_stop_evals. Qed.
Print Assumptions C35_evaluations.

(** The ladder of the two-centre integrals. *)
Theorem C35_block : forall (Blk : Type) (dist : Blk -> Blk -> fp) (scale : Blk -> fp) (tol sqrteps floor_rel : R)
    (eval : nat -> Blk) nmax fallback nstart,
  (forall a b, magnitude (dist a b)) -> (forall a, magnitude (scale a)) -> 0 <= tol -> tol <= sqrteps ->
  let n0 := Z.to_nat (Z.max nstart 2) in
  exists k tried n, converge_block Blk dist scale tol sqrteps floor_rel eval nmax fallback nstart = Ok (tried, eval n, n) /\
    tried = rev (map (order nmax n0) (seq 0 (S k))) /\ In n tried /\
    (forall i, In i tried -> (i <= Nat.max nmax n0)%nat) /\
    (k = 0%nat \/ (2 ^ k < nmax)%nat) /\
    (n = order nmax n0 k /\ (1 <= k)%nat /\
       fle (dist (eval n) (eval (order nmax n0 (k - 1)))) (rel sqrteps tol (scale (eval n)))
     \/ (nmax <= order nmax n0 k)%nat /\ n = (if fallback then n0 else order nmax n0 k)).
Proof. exact block_result. Qed.
Print Assumptions C35_block.

Theorem C35_block_stop : forall (Blk : Type) (dist : Blk -> Blk -> fp) (scale : Blk -> fp) (tol sqrteps floor_rel : R)
    (eval : nat -> Blk) nmax fallback nstart,
  (forall a b, magnitude (dist a b)) ->
  let n0 := Z.to_nat (Z.max nstart 2) in
  let o := order nmax n0 in
  let ok := settled2 tol sqrteps floor_rel (fun i => dist (eval (o i)) (eval (o (i - 1)%nat))) (fun i => scale (eval (o i))) in
  exists k, first_stop nmax n0 ok k /\
    ((ok k \/ fallback = false) ->
       converge_block Blk dist scale tol sqrteps floor_rel eval nmax fallback nstart
       = Ok (rev (map o (seq 0 (S k))), eval (o k), o k)) /\
    (~ ok k -> fallback = true ->
       converge_block Blk dist scale tol sqrteps floor_rel eval nmax fallback nstart
       = Ok (rev (map o (seq 0 (S k))), eval n0, n0)).
Proof. exact block_runs. Qed.
Print Assumptions C35_block_stop.

Example C35_block_case : (forall a b, magnitude (d_abs a b)) /\ (forall a, magnitude (s_abs a)) /\ 0 <= 1 / 1000 /\ 1 / 1000 <= 1 / 30.
Proof. exact block_wit. Qed.

(** A rule that is exact from the starting order on is evaluated twice, and the exact
    value is returned. *)
Theorem C35_exact : forall (Blk : Type) (dist : Blk -> Blk -> fp) (scale : Blk -> fp) (tol sqrteps : R) (eval : nat -> Blk) nmax nstart (I : Blk),
  (forall a b, magnitude (dist a b)) -> 0 <= tol -> (forall a, dist a a = Fin 0) -> fle (Fin 0) (scale I) ->
  (Z.to_nat (Z.max nstart 2) < nmax)%nat ->
  (forall n, (Z.to_nat (Z.max nstart 2) <= n <= nmax)%nat -> eval n = I) ->
  exists n1, converge_rule Blk dist scale tol sqrteps eval nmax nstart = Ok ([n1; Z.to_nat (Z.max nstart 2)], I).
Proof. exact rule_exact. Qed.
Print Assumptions C35_exact.

Example C35_exact_case : exists n1, converge_rule R d_abs s_abs (1 / 1000) (1 / 30) (fun n => if (n <? 7)%nat then INR n else 5) order_cap 7 = Ok ([n1; 7]%nat, 5).
Proof. exact (exact_wit order_cap (proj1 (Nat.leb_le 14 order_cap) eq_refl)). Qed.

(** Blocks that are not comparable run up to the cap and no further. *)
Theorem C35_nan : forall (Blk : Type) (dist : Blk -> Blk -> fp) (scale : Blk -> fp) (tol sqrteps : R) (eval : nat -> Blk) nmax nstart,
  (forall a b, dist a b = NaN) -> (Z.to_nat (Z.max nstart 2) <= nmax)%nat ->
  exists tried, converge_rule Blk dist scale tol sqrteps eval nmax nstart = Ok (tried, eval nmax).
Proof. exact rule_nan. Qed.
Print Assumptions C35_nan.

(** The starting order integrates the polynomial degree it was asked for (2 n - 3 for
    Gauss-Lobatto), unless it is already at the cap. *)
Theorem C35_start : forall noverlap nnodes fdeg,
  (5 <= auto_nstart noverlap nnodes fdeg <= 512)%Z /\
  ((2 * Z.max 0 (noverlap * nnodes - 1) + Z.max 0 fdeg <= 2 * auto_nstart noverlap nnodes fdeg - 3)%Z
   \/ auto_nstart noverlap nnodes fdeg = 512%Z).
Proof. exact auto_nstart_ok. Qed.
Print Assumptions C35_start.

Theorem C35_start_twoe : forall n,
  (5 <= twoe_nstart n <= 512)%nat /\ ((n <= twoe_nstart n)%nat \/ twoe_nstart n = 512%nat) /\ ((5 <= n <= 512)%nat -> twoe_nstart n = n).
Proof. exact twoe_nstart_ok. Qed.
Print Assumptions C35_start_twoe.

(* ------------------------------------------------------------------ *)
(** C61: the panels of an element lie one after another from one end to the other, and
    no break point is inside one. *)
Theorem C61_panels : forall mid sf xl xr bps, 0 < sf -> xl <= xr ->
  tiles xl xr (panels mid sf xl xr bps) /\
  (forall p, In p (panels mid sf xl xr bps) -> smooth mid sf bps (fst p) (snd p)).
Proof. exact panel_list. Qed.
Print Assumptions C61_panels.

(** If every panel without a break point inside is integrated exactly, so is the element. *)
Theorem C61_exact : forall mid sf xl xr bps, 0 < sf -> xl <= xr ->
  forall (panel : R -> R -> mat) (F : R -> R) i j,
  (forall a b, xl <= a -> a <= b -> b <= xr -> smooth mid sf bps a b -> panel a b i j = F b - F a) ->
  matrix_element_auto panel mid sf xl xr bps i j = F xr - F xl.
Proof. exact auto_exact. Qed.
Print Assumptions C61_exact.

Example C61_case : forall i j, matrix_element_auto (fun a b _ _ => (b - a) * (Rabs a + Rabs b) / 2) 0 1 (-1) 1 [0; 5] i j = 1.
Proof. exact kink_run. Qed.
(** The same rule without the break point misses the kink. *)
Example C61_contrast : forall i j, matrix_element_auto (fun a b _ _ => (b - a) * (Rabs a + Rabs b) / 2) 0 1 (-1) 1 [] i j = 2.
Proof. exact kink_missed. Qed.

(* ------------------------------------------------------------------ *)
(** C36: the in-element integrals are symmetric between the two pairs and within a pair. *)
Theorem C36_symmetric : forall nq x w N bf lo hi k big a b, (a < N * N)%nat -> (b < N * N)%nat ->
  let T := twoe_integral nq x w N bf lo hi k big in
  T a b = T b a /\ T (flip N a) b = T a b /\ T a (flip N b) = T a b.
Proof. exact twoe_syms. Qed.
Print Assumptions C36_symmetric.

Theorem C36_flip : forall N i j, (i < N)%nat -> (j < N)%nat -> flip N (i * N + j) = (j * N + i)%nat.
Proof. exact flip_pair. Qed.
Print Assumptions C36_flip.

(** The running inner integral at point q is the kernel's outer factor times the integral
    over all pieces up to q. *)
Theorem C36_inner : forall nq x w N bf lo hi k small big q c, separates nq x lo hi k small big -> (q < nq)%nat ->
  inner_row nq x w N bf lo hi k big q c =
  big (node x lo hi q) * upto nq x w lo hi (fun t => small t * pair_density N bf lo hi c t) q.
Proof. exact upto_inner. Qed.
Print Assumptions C36_inner.

(** The Coulomb kernel r_<^L / r_>^(L+1) separates, also on an element that starts at the
    origin with a rule that includes its ends. *)
Theorem C36_coulomb : forall nq x lo hi L, 0 <= lo -> lo < hi ->
  (forall p, (p < nq)%nat -> -1 <= x p) -> (forall p, (0 < p < nq)%nat -> -1 < x p) ->
  separates nq x lo hi (coul_sb L) (fun t => t ^ L) (coul_big L).
Proof. exact coul_separates. Qed.
Print Assumptions C36_coulomb.

Example C36_coulomb_case : forall L, separates 3 sx 0 2 (coul_sb L) (fun t => t ^ L) (coul_big L).
Proof. exact simpson_sep. Qed.

(** With rules that integrate the pieces and the outer integrand exactly, the result is the
    double integral: the outer integral of big D_a times the inner integral of small D_b,
    plus the same with a and b exchanged. *)
Theorem C36_exact : forall nq x w N bf lo hi k big small Ga Gb Hab Hba a b, lo <> hi ->
  separates nq x lo hi k small big ->
  (forall p, (p < nq)%nat -> quad nq x w (piece_lo x lo hi p) (node x lo hi p) (fun t => small t * pair_density N bf lo hi a t)
                             = Ga (node x lo hi p) - Ga (piece_lo x lo hi p)) ->
  (forall p, (p < nq)%nat -> quad nq x w (piece_lo x lo hi p) (node x lo hi p) (fun t => small t * pair_density N bf lo hi b t)
                             = Gb (node x lo hi p) - Gb (piece_lo x lo hi p)) ->
  quad nq x w lo hi (fun t => big t * pair_density N bf lo hi a t * (Gb t - Gb lo)) = Hab hi - Hab lo ->
  quad nq x w lo hi (fun t => big t * pair_density N bf lo hi b t * (Ga t - Ga lo)) = Hba hi - Hba lo ->
  twoe_integral nq x w N bf lo hi k big a b = (Hab hi - Hab lo) + (Hba hi - Hba lo).
Proof. exact twoe_exact. Qed.
Print Assumptions C36_exact.

Example C36_exact_case : twoe_integral 1 mx mw 1 one 0 2 (coul_sb 0) (coul_big 0) 0%nat 0%nat = 4.
Proof. exact one_run. Qed.

(** The two-centre integrals: exchanging the electrons exchanges the powers of cosh. *)
Theorem C36_diatomic_symmetric : forall nq x w N bf P Q ch sh lo hi k l a b, (a < N * N)%nat -> (b < N * N)%nat ->
  let T := d_twoe nq x w N bf P Q ch sh lo hi in
  T k l a b = T l k b a /\ T k l (flip N a) b = T k l a b /\ T k l a (flip N b) = T k l a b.
Proof. exact d_twoe_syms. Qed.
Print Assumptions C36_diatomic_symmetric.

Theorem C36_diatomic_inner : forall nq x w N bf P ch sh lo hi l q c,
  d_inner_row nq x w N bf P ch sh lo hi l q c =
  upto nq x w lo hi (fun t => sh t * ch t ^ l * P (ch t) * pair_density N bf lo hi c t) q.
Proof. exact d_inner_running. Qed.
Print Assumptions C36_diatomic_inner.

Theorem C36_diatomic_value : forall nq x w N bf P Q ch sh lo hi k l a b, lo <> hi ->
  d_twoe nq x w N bf P Q ch sh lo hi k l a b =
  sum nq (fun q => w q * ((hi - lo) / 2) * (sh (node x lo hi q) * Q (ch (node x lo hi q)) *
     (ch (node x lo hi q) ^ k * pair_density N bf lo hi a (node x lo hi q)
        * upto nq x w lo hi (fun t => sh t * ch t ^ l * P (ch t) * pair_density N bf lo hi b t) q +
      ch (node x lo hi q) ^ l * pair_density N bf lo hi b (node x lo hi q)
        * upto nq x w lo hi (fun t => sh t * ch t ^ k * P (ch t) * pair_density N bf lo hi a t) q))).
Proof. exact d_twoe_value. Qed.
Print Assumptions C36_diatomic_value.

(** C62: the precomputed element gives the same integrals as the direct evaluation. *)
Theorem C62_cached : forall nq x w N bf P Q ch sh lo hi k l a b,
  c_twoe nq w N P Q (d_element x N bf ch sh lo hi) k l a b = d_twoe nq x w N bf P Q ch sh lo hi k l a b.
Proof. exact c_twoe_direct. Qed.
Print Assumptions C62_cached.

(* ------------------------------------------------------------------ *)
(** C63: the spherical potential at a point is the enclosed part divided by the radius plus
    the 1/r moment of the rest of the element. *)
Theorem C63_potential : forall nq x w N bf lo hi ip c, (ip < nq)%nat ->
  (forall p, (p <= ip)%nat -> node x lo hi p <> 0) ->
  spherical_potential nq x w N bf lo hi ip c =
  upto nq x w lo hi (fun t => pair_density N bf lo hi c t) ip / node x lo hi ip
  + sum (nq - ip) (fun k => quad nq x w (node x lo hi (ip + k)%nat)
                                (if (ip + k =? nq - 1)%nat then hi else node x lo hi (S (ip + k)))
                                (fun t => pair_density N bf lo hi c t / t)).
Proof. exact spherical_value. Qed.
Print Assumptions C63_potential.

Theorem C63_exact : forall nq x w N bf lo hi Z M ip c, (ip < nq)%nat ->
  (forall p, (p <= ip)%nat -> node x lo hi p <> 0) ->
  (forall p, (p <= ip)%nat -> quad nq x w (piece_lo x lo hi p) (node x lo hi p) (fun t => pair_density N bf lo hi c t)
                              = Z (node x lo hi p) - Z (piece_lo x lo hi p)) ->
  (forall p, (p < nq)%nat -> quad nq x w (node x lo hi p) (if (p =? nq - 1)%nat then hi else node x lo hi (S p))
                                  (fun t => pair_density N bf lo hi c t / t)
                 = M (if (p =? nq - 1)%nat then hi else node x lo hi (S p)) - M (node x lo hi p)) ->
  spherical_potential nq x w N bf lo hi ip c = (Z (node x lo hi ip) - Z lo) / node x lo hi ip + (M hi - M (node x lo hi ip)).
Proof. exact spherical_exact. Qed.
Print Assumptions C63_exact.

Example C63_case : spherical_potential 3 sx sw 1 ramp 1 3 1 0 = (8 / 3 - 1 / 3) / 2 + (9 / 2 - 4 / 2).
Proof. exact sph_run. Qed.

(** C64: exchanging the two elements of a range-separated integral transposes it, and the
    order within a pair does not matter. *)
Theorem C64_separated : forall Phi L mu nqi xi wi Ni bfi rmini rmaxi nqk xk wk Nk bfk rmink rmaxk a b,
  (forall u v, Phi L u v = Phi L v u) -> (a < Ni * Ni)%nat ->
  erfc_integral Phi L mu nqi xi wi Ni bfi rmini rmaxi nqk xk wk Nk bfk rmink rmaxk a b =
  erfc_integral Phi L mu nqk xk wk Nk bfk rmink rmaxk nqi xi wi Ni bfi rmini rmaxi b a /\
  erfc_integral Phi L mu nqi xi wi Ni bfi rmini rmaxi nqk xk wk Nk bfk rmink rmaxk (flip Ni a) b =
  erfc_integral Phi L mu nqi xi wi Ni bfi rmini rmaxi nqk xk wk Nk bfk rmink rmaxk a b.
Proof. exact exact_separated. Qed.
Print Assumptions C64_separated.

Example C64_case : forall (L : nat) u v, (fun (_ : nat) (a b : R) => a * b) L u v = (fun (_ : nat) (a b : R) => a * b) L v u.
Proof. exact (fun _ u v => Rmult_comm u v). Qed.

(* ------------------------------------------------------------------ *)
(** C49: every point common to both grids is in exactly one integration panel... *)
Theorem C49_cover : forall nA nB a b, increasing_upto nA a -> increasing_upto nB b ->
  forall t, Rmax (a 0%nat) (b 0%nat) <= t < Rmin (a nA) (b nB) ->
  exists i j, ((i < nA)%nat /\ In j (overlap_list nB a b i) /\ int_start a b i j <= t < int_end a b i j) /\
    forall i' j', (i' < nA)%nat -> In j' (overlap_list nB a b i') -> int_start a b i' j' <= t < int_end a b i' j' -> i' = i /\ j' = j.
Proof. exact panel_cover. Qed.
Print Assumptions C49_cover.

(** ... a panel lies in both of its elements and is not empty ... *)
Theorem C49_inside : forall nA nB a b, increasing_upto nA a -> increasing_upto nB b ->
  forall i j, (i < nA)%nat -> In j (overlap_list nB a b i) ->
  int_start a b i j < int_end a b i j /\
  a i <= int_start a b i j /\ int_end a b i j <= a (S i) /\ b j <= int_start a b i j /\ int_end a b i j <= b (S j).
Proof. exact panel_inside. Qed.
Print Assumptions C49_inside.

(** ... each entry collects the contributions of the pairs that have both functions ... *)
Theorem C49_entry : forall nA nB a b fa ca fb cb B u v,
  cross_matrix nA nB a b fa ca fb cb B u v
  = sum nA (fun i => lsum (overlap_list nB a b i) (share fa ca fb cb B u v i)).
Proof. exact cross_entry. Qed.
Print Assumptions C49_entry.

(** ... every block is the rule applied to the weighted product on its panel ... *)
Theorem C49_block : forall nA nB a b, increasing_upto nA a -> increasing_upto nB b ->
  forall nq (x w : vec) wt fi fj i j u v, (i < nA)%nat -> In j (overlap_list nB a b i) ->
  (forall q, (q < nq)%nat -> -1 <= x q <= 1) ->
  cross_block a b nq x w wt fi fj i j u v = quad nq x w (int_start a b i j) (int_end a b i j) (fun t => wt t * fi t u * fj t v).
Proof. exact block_quad. Qed.
Print Assumptions C49_block.

(** ... and exact panels add up to the integral over the common range. *)
Theorem C49_exact : forall nA nB a b fa ca fb cb, increasing_upto nA a -> increasing_upto nB b ->
  forall B u v (F : R -> R),
  (forall i j, (i < nA)%nat -> In j (overlap_list nB a b i) ->
     share fa ca fb cb B u v i j = F (int_end a b i j) - F (int_start a b i j)) ->
  cross_matrix nA nB a b fa ca fb cb B u v =
    if Rltb (Rmax (a 0%nat) (b 0%nat)) (Rmin (a nA) (b nB))
    then F (Rmin (a nA) (b nB)) - F (Rmax (a 0%nat) (b 0%nat)) else 0.
Proof. exact cross_exact. Qed.
Print Assumptions C49_exact.

Example C49_case : cross_matrix 2 2 ga gb (fun _ => 0%nat) (fun _ => 1%nat) (fun _ => 0%nat) (fun _ => 1%nat)
   (fun i j => cross_block ga gb 1 mx mw (fun _ => 1) one one i j) 0%nat 0%nat = 3 - 1 / 2.
Proof. exact cross_run. Qed.
Example C49_range_case : Rmax (ga 0%nat) (gb 0%nat) <= 1 < Rmin (ga 2%nat) (gb 2%nat).
Proof. exact range_wit. Qed.

(* ------------------------------------------------------------------ *)
(** C50: the product rule lists every combination once, with product weights. *)
Theorem C50_points : forall n xc wc nphi i j, (i < n)%nat -> (j < nphi)%nat ->
  let '(cth, phi, w) := compound_rule n xc wc nphi in
  cth (i * nphi + j)%nat = xc i /\ phi (i * nphi + j)%nat = INR j * (2 * PI / INR nphi) /\
  w (i * nphi + j)%nat = wc i * (2 * PI / INR nphi).
Proof. exact compound_points. Qed.
Print Assumptions C50_points.

Theorem C50_weights : forall n xc wc nphi, (1 <= nphi)%nat ->
  sum n wc = 2 -> let '(cth, phi, w) := compound_rule n xc wc nphi in sum (n * nphi) w = 4 * PI.
Proof. exact compound_weights. Qed.
Print Assumptions C50_weights.

Example C50_case : (1 <= 3)%nat /\ sum 1 mw = 2.
Proof. exact (conj (proj1 (Nat.leb_le 1 3) eq_refl) (Rplus_0_l 2)). Qed.

(** It integrates g(cos theta) cos(m phi) and g(cos theta) sin(m phi) exactly in phi for every
    m below the number of angles. *)
Theorem C50_harmonics : forall n xc wc nphi m (g : R -> R), (m < nphi)%nat ->
  let '(cth, phi, w) := compound_rule n xc wc nphi in
  sum (n * nphi) (fun k => w k * (g (cth k) * cos (INR m * phi k))) = (if (m =? 0)%nat then 2 * PI * sum n (fun i => wc i * g (xc i)) else 0) /\
  sum (n * nphi) (fun k => w k * (g (cth k) * sin (INR m * phi k))) = 0.
Proof. exact compound_harmonics. Qed.
Print Assumptions C50_harmonics.
