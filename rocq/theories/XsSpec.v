(** The exchange-correlation potential of a spherical density, stated with derivatives. *)
Require Import Reals List Arith Bool ZArith.
Require Import Verif.Prelude Verif.XsModel.
Require Verif.DftModel.
Import ListNotations.
Local Open Scope R_scope.

(** The derivative of the energy per volume with respect to the density of spin s, and with
    respect to the product k (up-up, up-down, down-down) of gradients, summed over the
    functionals of the list; the flag tells whether a functional depends on gradients. *)
Definition d_rho (fx : fxc) (fs : list (Z * bool)) (n sg : vec) (s : nat) : R :=
  lsum fs (fun f => if snd f then fx_vrho fx (fst f) n sg s else fx_lda fx (fst f) n s).
Definition d_sigma (fx : fxc) (fs : list (Z * bool)) (n sg : vec) (k : nat) : R :=
  lsum fs (fun f => if snd f then fx_vsigma fx (fst f) n sg k else 0).

(** The radial component of 2 (dE/dsigma_ss) grad n_s + (dE/dsigma_st) grad n_t at radius q,
    for densities na, nb with derivatives ga, gb. *)
Definition flux (fx : fxc) (fs : list (Z * bool)) (na nb ga gb : R -> R) (s : nat) (q : R) : R :=
  let vs := d_sigma fx fs (two (na q) (nb q)) (three (ga q * ga q) (ga q * gb q) (gb q * gb q)) in
  if (s =? 0)%nat then 2 * vs 0%nat * ga q + vs 1%nat * gb q else vs 1%nat * ga q + 2 * vs 2%nat * gb q.
(** v is the potential of spin s at r: the derivative with respect to the density minus the
    divergence of the flux, (1/q^2) d(q^2 flux)/dq at q = r. *)
Definition is_potential (fx : fxc) (fs : list (Z * bool)) (na nb ga gb : R -> R) (s : nat) (r v : R) : Prop :=
  exists div, derivable_pt_lim (fun q => q * q * flux fx fs na nb ga gb s q) r (r * r * div) /\
    v = d_rho fx fs (two (na r) (nb r)) (three (ga r * ga r) (ga r * gb r) (gb r * gb r)) s - div.

(** The order in which libxc stores the second derivatives of pairs of products. *)
Definition pair_index (j k : nat) : nat :=
  match j, k with
  | 0, 0 => 0 | 0, 1 => 1 | 1, 0 => 1 | 0, _ => 2 | _, 0 => 2 | 1, 1 => 3 | 1, _ => 4 | _, 1 => 4 | _, _ => 5
  end%nat.
(** What xc_gga_fxc returns at the densities n and products sg are the derivatives of what
    xc_gga_vxc returns in vsigma: the chain rule holds along every curve through them. *)
Definition second_derivatives (fx : fxc) (id : Z) (a b saa sab sbb : R) : Prop :=
  let rs := fx_v2rhosigma fx id (two a b) (three saa sab sbb) in
  let ss := fx_v2sigma2 fx id (two a b) (three saa sab sbb) in
  forall (na nb s0 s1 s2 : R -> R) t na' nb' s0' s1' s2',
  na t = a -> nb t = b -> s0 t = saa -> s1 t = sab -> s2 t = sbb ->
  derivable_pt_lim na t na' -> derivable_pt_lim nb t nb' ->
  derivable_pt_lim s0 t s0' -> derivable_pt_lim s1 t s1' -> derivable_pt_lim s2 t s2' ->
  forall k, (k < 3)%nat ->
  derivable_pt_lim (fun q => fx_vsigma fx id (two (na q) (nb q)) (three (s0 q) (s1 q) (s2 q)) k) t
    (rs k * na' + rs (3 + k)%nat * nb' + ss (pair_index 0 k) * s0' + ss (pair_index 1 k) * s1' + ss (pair_index 2 k) * s2').

(** The second derivatives with respect to products, summed over the functionals. *)
Definition d_sigma2 (fx : fxc) (fs : list (Z * bool)) (n sg : vec) (k : nat) : R :=
  lsum fs (fun f => if snd f then fx_v2sigma2 fx (fst f) n sg k else 0).
(** The radial component of 2 d_sigma_ss g_s + d_sigma_st g_t for values v of d_sigma. *)
Definition along (s : nat) (v : nat -> R) (ga gb : R) : R :=
  if (s =? 0)%nat then 2 * v 0%nat * ga + v 1%nat * gb else v 1%nat * ga + 2 * v 2%nat * gb.
(** What the code subtracts too much because it takes the Laplacian n'' + 2 n'/r for n'':
    2/r times the first derivative in the place of the second. *)
Definition laplacian_excess (fx : fxc) (fs : list (Z * bool)) (na nb ga gb r : R) (s : nat) : R :=
  let n := two na nb in let sg := three (ga * ga) (ga * gb) (gb * gb) in
  let ss := d_sigma2 fx fs n sg in
  2 / r * along s (fun k => 2 * (ga * ga * ss (pair_index 0 k) + 2 * (ga * gb) * ss (pair_index 1 k) + gb * gb * ss (pair_index 2 k))
                            + d_sigma fx fs n sg k) ga gb.
(** What it subtracts too much because the derivative ha gb + ga hb of the up-down product is
    counted twice; ha and hb are second derivatives of the densities. *)
Definition mixed_excess (fx : fxc) (fs : list (Z * bool)) (na nb ga gb ha hb : R) (s : nat) : R :=
  let ss := d_sigma2 fx fs (two na nb) (three (ga * ga) (ga * gb) (gb * gb)) in
  along s (fun k => (ha * gb + ga * hb) * ss (pair_index 1 k)) ga gb.

(** The stored handles, if any, are those of the functionals they are stored for. *)
Definition good (lib : DftModel.libxc) (h : handles) : Prop :=
  match h with None => True | Some (x, c, fs) => ask_both lib x c = Ok fs end.
