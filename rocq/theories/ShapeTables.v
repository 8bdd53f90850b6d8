(** The generated tables of the Hermite shape functions, one definition per
    block of /repo/libhelfem/include/HIP{,2,3}Basis_eval.h and
    HIP{,2,3}Basis_over_r.h, transcribed expression by expression: the local
    variables are kept; [L k] is the k-th derivative of the Lagrange polynomial
    (Lx, dLx, ddLx, d3Lx, ...; pr, dpr, ddpr for the reduced node set); [p1],
    [p2], [p3] are lipxi, lipxi2, lipxi3 of the node.  std::pow with an integer
    constant is [^]. *)
Require Import Reals.
Open Scope R_scope.

(** HIPBasis_eval.h:58-61 *)
Definition hip_dnf_0_0 (L : nat -> R) (xv xi p1 p2 p3 : R) : R :=
  let Lx := L 0%nat in
  let cse0 := 2*p1 in
  Lx*Lx*(cse0*xi - cse0*xv + 1).

(** HIPBasis_eval.h:62-64 *)
Definition hip_dnf_0_1 (L : nat -> R) (xv xi p1 p2 p3 : R) : R :=
  let Lx := L 0%nat in
  Lx*Lx*(-xi + xv).

(** HIPBasis_eval.h:82-85 *)
Definition hip_dnf_1_0 (L : nat -> R) (xv xi p1 p2 p3 : R) : R :=
  let Lx := L 0%nat in
  let dLx := L 1%nat in
  let cse0 := 2*p1 in
  -Lx*Lx*cse0 + 2*Lx*dLx*(cse0*xi - cse0*xv + 1).

(** HIPBasis_eval.h:86-88 *)
Definition hip_dnf_1_1 (L : nat -> R) (xv xi p1 p2 p3 : R) : R :=
  let Lx := L 0%nat in
  let dLx := L 1%nat in
  Lx*Lx + 2*Lx*dLx*(-xi + xv).

(** HIPBasis_eval.h:109-112 *)
Definition hip_dnf_2_0 (L : nat -> R) (xv xi p1 p2 p3 : R) : R :=
  let Lx := L 0%nat in
  let dLx := L 1%nat in
  let ddLx := L 2%nat in
  let cse0 := 2*p1 in
  -8*Lx*dLx*p1 + (2*Lx*ddLx + 2*dLx*dLx)*(cse0*xi - cse0*xv + 1).

(** HIPBasis_eval.h:113-115 *)
Definition hip_dnf_2_1 (L : nat -> R) (xv xi p1 p2 p3 : R) : R :=
  let Lx := L 0%nat in
  let dLx := L 1%nat in
  let ddLx := L 2%nat in
  4*Lx*dLx + (-xi + xv)*(2*Lx*ddLx + 2*dLx*dLx).

(** HIPBasis_eval.h:139-143 *)
Definition hip_dnf_3_0 (L : nat -> R) (xv xi p1 p2 p3 : R) : R :=
  let Lx := L 0%nat in
  let dLx := L 1%nat in
  let ddLx := L 2%nat in
  let d3Lx := L 3%nat in
  let cse0 := 6*ddLx in
  let cse1 := 2*p1 in
  -cse1*(Lx*cse0 + 6*dLx*dLx) + (2*Lx*d3Lx + cse0*dLx)*(cse1*xi - cse1*xv + 1).

(** HIPBasis_eval.h:144-147 *)
Definition hip_dnf_3_1 (L : nat -> R) (xv xi p1 p2 p3 : R) : R :=
  let Lx := L 0%nat in
  let dLx := L 1%nat in
  let ddLx := L 2%nat in
  let d3Lx := L 3%nat in
  let cse0 := 6*ddLx in
  Lx*cse0 + 6*dLx*dLx + (-xi + xv)*(2*Lx*d3Lx + cse0*dLx).

(** HIPBasis_eval.h:174-178 *)
Definition hip_dnf_4_0 (L : nat -> R) (xv xi p1 p2 p3 : R) : R :=
  let Lx := L 0%nat in
  let dLx := L 1%nat in
  let ddLx := L 2%nat in
  let d3Lx := L 3%nat in
  let d4Lx := L 4%nat in
  let cse0 := 8*d3Lx in
  let cse1 := 2*p1 in
  -cse1*(Lx*cse0 + 24*dLx*ddLx) + (2*Lx*d4Lx + cse0*dLx + 6*ddLx*ddLx)*(cse1*xi - cse1*xv + 1).

(** HIPBasis_eval.h:179-182 *)
Definition hip_dnf_4_1 (L : nat -> R) (xv xi p1 p2 p3 : R) : R :=
  let Lx := L 0%nat in
  let dLx := L 1%nat in
  let ddLx := L 2%nat in
  let d3Lx := L 3%nat in
  let d4Lx := L 4%nat in
  let cse0 := 8*d3Lx in
  Lx*cse0 + 24*dLx*ddLx + (-xi + xv)*(2*Lx*d4Lx + cse0*dLx + 6*ddLx*ddLx).

(** HIPBasis_eval.h:212-216 *)
Definition hip_dnf_5_0 (L : nat -> R) (xv xi p1 p2 p3 : R) : R :=
  let Lx := L 0%nat in
  let dLx := L 1%nat in
  let ddLx := L 2%nat in
  let d3Lx := L 3%nat in
  let d4Lx := L 4%nat in
  let d5Lx := L 5%nat in
  let cse0 := 10*d4Lx in
  let cse1 := 2*p1 in
  -cse1*(Lx*cse0 + 40*d3Lx*dLx + 30*ddLx*ddLx) + (2*Lx*d5Lx + cse0*dLx + 20*d3Lx*ddLx)*(cse1*xi - cse1*xv + 1).

(** HIPBasis_eval.h:217-220 *)
Definition hip_dnf_5_1 (L : nat -> R) (xv xi p1 p2 p3 : R) : R :=
  let Lx := L 0%nat in
  let dLx := L 1%nat in
  let ddLx := L 2%nat in
  let d3Lx := L 3%nat in
  let d4Lx := L 4%nat in
  let d5Lx := L 5%nat in
  let cse0 := 10*d4Lx in
  Lx*cse0 + 40*d3Lx*dLx + 30*ddLx*ddLx + (-xi + xv)*(2*Lx*d5Lx + cse0*dLx + 20*d3Lx*ddLx).

(** HIPBasis_eval.h:253-257 *)
Definition hip_dnf_6_0 (L : nat -> R) (xv xi p1 p2 p3 : R) : R :=
  let Lx := L 0%nat in
  let dLx := L 1%nat in
  let ddLx := L 2%nat in
  let d3Lx := L 3%nat in
  let d4Lx := L 4%nat in
  let d5Lx := L 5%nat in
  let d6Lx := L 6%nat in
  let cse0 := 12*d5Lx in
  let cse1 := 2*p1 in
  -cse1*(Lx*cse0 + 120*d3Lx*ddLx + 60*d4Lx*dLx) + (cse1*xi - cse1*xv + 1)*(2*Lx*d6Lx + cse0*dLx + 20*d3Lx*d3Lx + 30*d4Lx*ddLx).

(** HIPBasis_eval.h:258-261 *)
Definition hip_dnf_6_1 (L : nat -> R) (xv xi p1 p2 p3 : R) : R :=
  let Lx := L 0%nat in
  let dLx := L 1%nat in
  let ddLx := L 2%nat in
  let d3Lx := L 3%nat in
  let d4Lx := L 4%nat in
  let d5Lx := L 5%nat in
  let d6Lx := L 6%nat in
  let cse0 := 12*d5Lx in
  Lx*cse0 + 120*d3Lx*ddLx + 60*d4Lx*dLx + (-xi + xv)*(2*Lx*d6Lx + cse0*dLx + 20*d3Lx*d3Lx + 30*d4Lx*ddLx).

(** HIPBasis_eval.h:297-301 *)
Definition hip_dnf_7_0 (L : nat -> R) (xv xi p1 p2 p3 : R) : R :=
  let Lx := L 0%nat in
  let dLx := L 1%nat in
  let ddLx := L 2%nat in
  let d3Lx := L 3%nat in
  let d4Lx := L 4%nat in
  let d5Lx := L 5%nat in
  let d6Lx := L 6%nat in
  let d7Lx := L 7%nat in
  let cse0 := 14*d6Lx in
  let cse1 := 2*p1 in
  -cse1*(Lx*cse0 + 140*d3Lx*d3Lx + 210*d4Lx*ddLx + 84*d5Lx*dLx) + (cse1*xi - cse1*xv + 1)*(2*Lx*d7Lx + cse0*dLx + 70*d3Lx*d4Lx + 42*d5Lx*ddLx).

(** HIPBasis_eval.h:302-305 *)
Definition hip_dnf_7_1 (L : nat -> R) (xv xi p1 p2 p3 : R) : R :=
  let Lx := L 0%nat in
  let dLx := L 1%nat in
  let ddLx := L 2%nat in
  let d3Lx := L 3%nat in
  let d4Lx := L 4%nat in
  let d5Lx := L 5%nat in
  let d6Lx := L 6%nat in
  let d7Lx := L 7%nat in
  let cse0 := 14*d6Lx in
  Lx*cse0 + 140*d3Lx*d3Lx + 210*d4Lx*ddLx + 84*d5Lx*dLx + (-xi + xv)*(2*Lx*d7Lx + cse0*dLx + 70*d3Lx*d4Lx + 42*d5Lx*ddLx).

(** HIPBasis_eval.h:344-348 *)
Definition hip_dnf_8_0 (L : nat -> R) (xv xi p1 p2 p3 : R) : R :=
  let Lx := L 0%nat in
  let dLx := L 1%nat in
  let ddLx := L 2%nat in
  let d3Lx := L 3%nat in
  let d4Lx := L 4%nat in
  let d5Lx := L 5%nat in
  let d6Lx := L 6%nat in
  let d7Lx := L 7%nat in
  let d8Lx := L 8%nat in
  let cse0 := 16*d7Lx in
  let cse1 := 2*p1 in
  -cse1*(Lx*cse0 + 560*d3Lx*d4Lx + 336*d5Lx*ddLx + 112*d6Lx*dLx) + (cse1*xi - cse1*xv + 1)*(2*Lx*d8Lx + cse0*dLx + 112*d3Lx*d5Lx + 70*d4Lx*d4Lx + 56*d6Lx*ddLx).

(** HIPBasis_eval.h:349-352 *)
Definition hip_dnf_8_1 (L : nat -> R) (xv xi p1 p2 p3 : R) : R :=
  let Lx := L 0%nat in
  let dLx := L 1%nat in
  let ddLx := L 2%nat in
  let d3Lx := L 3%nat in
  let d4Lx := L 4%nat in
  let d5Lx := L 5%nat in
  let d6Lx := L 6%nat in
  let d7Lx := L 7%nat in
  let d8Lx := L 8%nat in
  let cse0 := 16*d7Lx in
  Lx*cse0 + 560*d3Lx*d4Lx + 336*d5Lx*ddLx + 112*d6Lx*dLx + (-xi + xv)*(2*Lx*d8Lx + cse0*dLx + 112*d3Lx*d5Lx + 70*d4Lx*d4Lx + 56*d6Lx*ddLx).

(** HIPBasis_eval.h:394-398 *)
Definition hip_dnf_9_0 (L : nat -> R) (xv xi p1 p2 p3 : R) : R :=
  let Lx := L 0%nat in
  let dLx := L 1%nat in
  let ddLx := L 2%nat in
  let d3Lx := L 3%nat in
  let d4Lx := L 4%nat in
  let d5Lx := L 5%nat in
  let d6Lx := L 6%nat in
  let d7Lx := L 7%nat in
  let d8Lx := L 8%nat in
  let d9Lx := L 9%nat in
  let cse0 := 18*d8Lx in
  let cse1 := 2*p1 in
  -cse1*(Lx*cse0 + 1008*d3Lx*d5Lx + 630*d4Lx*d4Lx + 504*d6Lx*ddLx + 144*d7Lx*dLx) + (cse1*xi - cse1*xv + 1)*(2*Lx*d9Lx + cse0*dLx + 168*d3Lx*d6Lx + 252*d4Lx*d5Lx + 72*d7Lx*ddLx).

(** HIPBasis_eval.h:399-402 *)
Definition hip_dnf_9_1 (L : nat -> R) (xv xi p1 p2 p3 : R) : R :=
  let Lx := L 0%nat in
  let dLx := L 1%nat in
  let ddLx := L 2%nat in
  let d3Lx := L 3%nat in
  let d4Lx := L 4%nat in
  let d5Lx := L 5%nat in
  let d6Lx := L 6%nat in
  let d7Lx := L 7%nat in
  let d8Lx := L 8%nat in
  let d9Lx := L 9%nat in
  let cse0 := 18*d8Lx in
  Lx*cse0 + 1008*d3Lx*d5Lx + 630*d4Lx*d4Lx + 504*d6Lx*ddLx + 144*d7Lx*dLx + (-xi + xv)*(2*Lx*d9Lx + cse0*dLx + 168*d3Lx*d6Lx + 252*d4Lx*d5Lx + 72*d7Lx*ddLx).

(** HIPBasis_eval.h:447-451 *)
Definition hip_dnf_10_0 (L : nat -> R) (xv xi p1 p2 p3 : R) : R :=
  let Lx := L 0%nat in
  let dLx := L 1%nat in
  let ddLx := L 2%nat in
  let d3Lx := L 3%nat in
  let d4Lx := L 4%nat in
  let d5Lx := L 5%nat in
  let d6Lx := L 6%nat in
  let d7Lx := L 7%nat in
  let d8Lx := L 8%nat in
  let d9Lx := L 9%nat in
  let d10Lx := L 10%nat in
  let cse0 := 20*d9Lx in
  let cse1 := 2*p1 in
  -cse1*(Lx*cse0 + 1680*d3Lx*d6Lx + 2520*d4Lx*d5Lx + 720*d7Lx*ddLx + 180*d8Lx*dLx) + (cse1*xi - cse1*xv + 1)*(2*Lx*d10Lx + cse0*dLx + 240*d3Lx*d7Lx + 420*d4Lx*d6Lx + 252*d5Lx*d5Lx + 90*d8Lx*ddLx).

(** HIPBasis_eval.h:452-455 *)
Definition hip_dnf_10_1 (L : nat -> R) (xv xi p1 p2 p3 : R) : R :=
  let Lx := L 0%nat in
  let dLx := L 1%nat in
  let ddLx := L 2%nat in
  let d3Lx := L 3%nat in
  let d4Lx := L 4%nat in
  let d5Lx := L 5%nat in
  let d6Lx := L 6%nat in
  let d7Lx := L 7%nat in
  let d8Lx := L 8%nat in
  let d9Lx := L 9%nat in
  let d10Lx := L 10%nat in
  let cse0 := 20*d9Lx in
  Lx*cse0 + 1680*d3Lx*d6Lx + 2520*d4Lx*d5Lx + 720*d7Lx*ddLx + 180*d8Lx*dLx + (-xi + xv)*(2*Lx*d10Lx + cse0*dLx + 240*d3Lx*d7Lx + 420*d4Lx*d6Lx + 252*d5Lx*d5Lx + 90*d8Lx*ddLx).

(** HIPBasis_eval.h:503-507 *)
Definition hip_dnf_11_0 (L : nat -> R) (xv xi p1 p2 p3 : R) : R :=
  let Lx := L 0%nat in
  let dLx := L 1%nat in
  let ddLx := L 2%nat in
  let d3Lx := L 3%nat in
  let d4Lx := L 4%nat in
  let d5Lx := L 5%nat in
  let d6Lx := L 6%nat in
  let d7Lx := L 7%nat in
  let d8Lx := L 8%nat in
  let d9Lx := L 9%nat in
  let d10Lx := L 10%nat in
  let d11Lx := L 11%nat in
  let cse0 := 22*d10Lx in
  let cse1 := 2*p1 in
  -cse1*(Lx*cse0 + 2640*d3Lx*d7Lx + 4620*d4Lx*d6Lx + 2772*d5Lx*d5Lx + 990*d8Lx*ddLx + 220*d9Lx*dLx) + (cse1*xi - cse1*xv + 1)*(2*Lx*d11Lx + cse0*dLx + 330*d3Lx*d8Lx + 660*d4Lx*d7Lx + 924*d5Lx*d6Lx + 110*d9Lx*ddLx).

(** HIPBasis_eval.h:508-511 *)
Definition hip_dnf_11_1 (L : nat -> R) (xv xi p1 p2 p3 : R) : R :=
  let Lx := L 0%nat in
  let dLx := L 1%nat in
  let ddLx := L 2%nat in
  let d3Lx := L 3%nat in
  let d4Lx := L 4%nat in
  let d5Lx := L 5%nat in
  let d6Lx := L 6%nat in
  let d7Lx := L 7%nat in
  let d8Lx := L 8%nat in
  let d9Lx := L 9%nat in
  let d10Lx := L 10%nat in
  let d11Lx := L 11%nat in
  let cse0 := 22*d10Lx in
  Lx*cse0 + 2640*d3Lx*d7Lx + 4620*d4Lx*d6Lx + 2772*d5Lx*d5Lx + 990*d8Lx*ddLx + 220*d9Lx*dLx + (-xi + xv)*(2*Lx*d11Lx + cse0*dLx + 330*d3Lx*d8Lx + 660*d4Lx*d7Lx + 924*d5Lx*d6Lx + 110*d9Lx*ddLx).

(** HIPBasis_eval.h:562-566 *)
Definition hip_dnf_12_0 (L : nat -> R) (xv xi p1 p2 p3 : R) : R :=
  let Lx := L 0%nat in
  let dLx := L 1%nat in
  let ddLx := L 2%nat in
  let d3Lx := L 3%nat in
  let d4Lx := L 4%nat in
  let d5Lx := L 5%nat in
  let d6Lx := L 6%nat in
  let d7Lx := L 7%nat in
  let d8Lx := L 8%nat in
  let d9Lx := L 9%nat in
  let d10Lx := L 10%nat in
  let d11Lx := L 11%nat in
  let d12Lx := L 12%nat in
  let cse0 := 24*d11Lx in
  let cse1 := 2*p1 in
  -cse1*(Lx*cse0 + 264*d10Lx*dLx + 3960*d3Lx*d8Lx + 7920*d4Lx*d7Lx + 11088*d5Lx*d6Lx + 1320*d9Lx*ddLx) + (cse1*xi - cse1*xv + 1)*(2*Lx*d12Lx + cse0*dLx + 132*d10Lx*ddLx + 440*d3Lx*d9Lx + 990*d4Lx*d8Lx + 1584*d5Lx*d7Lx + 924*d6Lx*d6Lx).

(** HIPBasis_eval.h:567-570 *)
Definition hip_dnf_12_1 (L : nat -> R) (xv xi p1 p2 p3 : R) : R :=
  let Lx := L 0%nat in
  let dLx := L 1%nat in
  let ddLx := L 2%nat in
  let d3Lx := L 3%nat in
  let d4Lx := L 4%nat in
  let d5Lx := L 5%nat in
  let d6Lx := L 6%nat in
  let d7Lx := L 7%nat in
  let d8Lx := L 8%nat in
  let d9Lx := L 9%nat in
  let d10Lx := L 10%nat in
  let d11Lx := L 11%nat in
  let d12Lx := L 12%nat in
  let cse0 := 24*d11Lx in
  Lx*cse0 + 264*d10Lx*dLx + 3960*d3Lx*d8Lx + 7920*d4Lx*d7Lx + 11088*d5Lx*d6Lx + 1320*d9Lx*ddLx + (-xi + xv)*(2*Lx*d12Lx + cse0*dLx + 132*d10Lx*ddLx + 440*d3Lx*d9Lx + 990*d4Lx*d8Lx + 1584*d5Lx*d7Lx + 924*d6Lx*d6Lx).

(** HIPBasis_eval.h:624-628 *)
Definition hip_dnf_13_0 (L : nat -> R) (xv xi p1 p2 p3 : R) : R :=
  let Lx := L 0%nat in
  let dLx := L 1%nat in
  let ddLx := L 2%nat in
  let d3Lx := L 3%nat in
  let d4Lx := L 4%nat in
  let d5Lx := L 5%nat in
  let d6Lx := L 6%nat in
  let d7Lx := L 7%nat in
  let d8Lx := L 8%nat in
  let d9Lx := L 9%nat in
  let d10Lx := L 10%nat in
  let d11Lx := L 11%nat in
  let d12Lx := L 12%nat in
  let d13Lx := L 13%nat in
  let cse0 := 26*d12Lx in
  let cse1 := 2*p1 in
  -cse1*(Lx*cse0 + 1716*d10Lx*ddLx + 312*d11Lx*dLx + 5720*d3Lx*d9Lx + 12870*d4Lx*d8Lx + 20592*d5Lx*d7Lx + 12012*d6Lx*d6Lx) + (cse1*xi - cse1*xv + 1)*(2*Lx*d13Lx + cse0*dLx + 572*d10Lx*d3Lx + 156*d11Lx*ddLx + 1430*d4Lx*d9Lx + 2574*d5Lx*d8Lx + 3432*d6Lx*d7Lx).

(** HIPBasis_eval.h:629-632 *)
Definition hip_dnf_13_1 (L : nat -> R) (xv xi p1 p2 p3 : R) : R :=
  let Lx := L 0%nat in
  let dLx := L 1%nat in
  let ddLx := L 2%nat in
  let d3Lx := L 3%nat in
  let d4Lx := L 4%nat in
  let d5Lx := L 5%nat in
  let d6Lx := L 6%nat in
  let d7Lx := L 7%nat in
  let d8Lx := L 8%nat in
  let d9Lx := L 9%nat in
  let d10Lx := L 10%nat in
  let d11Lx := L 11%nat in
  let d12Lx := L 12%nat in
  let d13Lx := L 13%nat in
  let cse0 := 26*d12Lx in
  Lx*cse0 + 1716*d10Lx*ddLx + 312*d11Lx*dLx + 5720*d3Lx*d9Lx + 12870*d4Lx*d8Lx + 20592*d5Lx*d7Lx + 12012*d6Lx*d6Lx + (-xi + xv)*(2*Lx*d13Lx + cse0*dLx + 572*d10Lx*d3Lx + 156*d11Lx*ddLx + 1430*d4Lx*d9Lx + 2574*d5Lx*d8Lx + 3432*d6Lx*d7Lx).

(** HIPBasis_eval.h:689-693 *)
Definition hip_dnf_14_0 (L : nat -> R) (xv xi p1 p2 p3 : R) : R :=
  let Lx := L 0%nat in
  let dLx := L 1%nat in
  let ddLx := L 2%nat in
  let d3Lx := L 3%nat in
  let d4Lx := L 4%nat in
  let d5Lx := L 5%nat in
  let d6Lx := L 6%nat in
  let d7Lx := L 7%nat in
  let d8Lx := L 8%nat in
  let d9Lx := L 9%nat in
  let d10Lx := L 10%nat in
  let d11Lx := L 11%nat in
  let d12Lx := L 12%nat in
  let d13Lx := L 13%nat in
  let d14Lx := L 14%nat in
  let cse0 := 28*d13Lx in
  let cse1 := 2*p1 in
  -cse1*(Lx*cse0 + 8008*d10Lx*d3Lx + 2184*d11Lx*ddLx + 364*d12Lx*dLx + 20020*d4Lx*d9Lx + 36036*d5Lx*d8Lx + 48048*d6Lx*d7Lx) + (cse1*xi - cse1*xv + 1)*(2*Lx*d14Lx + cse0*dLx + 2002*d10Lx*d4Lx + 728*d11Lx*d3Lx + 182*d12Lx*ddLx + 4004*d5Lx*d9Lx + 6006*d6Lx*d8Lx + 3432*d7Lx*d7Lx).

(** HIPBasis_eval.h:694-697 *)
Definition hip_dnf_14_1 (L : nat -> R) (xv xi p1 p2 p3 : R) : R :=
  let Lx := L 0%nat in
  let dLx := L 1%nat in
  let ddLx := L 2%nat in
  let d3Lx := L 3%nat in
  let d4Lx := L 4%nat in
  let d5Lx := L 5%nat in
  let d6Lx := L 6%nat in
  let d7Lx := L 7%nat in
  let d8Lx := L 8%nat in
  let d9Lx := L 9%nat in
  let d10Lx := L 10%nat in
  let d11Lx := L 11%nat in
  let d12Lx := L 12%nat in
  let d13Lx := L 13%nat in
  let d14Lx := L 14%nat in
  let cse0 := 28*d13Lx in
  Lx*cse0 + 8008*d10Lx*d3Lx + 2184*d11Lx*ddLx + 364*d12Lx*dLx + 20020*d4Lx*d9Lx + 36036*d5Lx*d8Lx + 48048*d6Lx*d7Lx + (-xi + xv)*(2*Lx*d14Lx + cse0*dLx + 2002*d10Lx*d4Lx + 728*d11Lx*d3Lx + 182*d12Lx*ddLx + 4004*d5Lx*d9Lx + 6006*d6Lx*d8Lx + 3432*d7Lx*d7Lx).

(** HIPBasis_eval.h:757-761 *)
Definition hip_dnf_15_0 (L : nat -> R) (xv xi p1 p2 p3 : R) : R :=
  let Lx := L 0%nat in
  let dLx := L 1%nat in
  let ddLx := L 2%nat in
  let d3Lx := L 3%nat in
  let d4Lx := L 4%nat in
  let d5Lx := L 5%nat in
  let d6Lx := L 6%nat in
  let d7Lx := L 7%nat in
  let d8Lx := L 8%nat in
  let d9Lx := L 9%nat in
  let d10Lx := L 10%nat in
  let d11Lx := L 11%nat in
  let d12Lx := L 12%nat in
  let d13Lx := L 13%nat in
  let d14Lx := L 14%nat in
  let d15Lx := L 15%nat in
  let cse0 := 30*d14Lx in
  let cse1 := 2*p1 in
  -cse1*(Lx*cse0 + 30030*d10Lx*d4Lx + 10920*d11Lx*d3Lx + 2730*d12Lx*ddLx + 420*d13Lx*dLx + 60060*d5Lx*d9Lx + 90090*d6Lx*d8Lx + 51480*d7Lx*d7Lx) + (cse1*xi - cse1*xv + 1)*(2*Lx*d15Lx + cse0*dLx + 6006*d10Lx*d5Lx + 2730*d11Lx*d4Lx + 910*d12Lx*d3Lx + 210*d13Lx*ddLx + 10010*d6Lx*d9Lx + 12870*d7Lx*d8Lx).

(** HIPBasis_eval.h:762-765 *)
Definition hip_dnf_15_1 (L : nat -> R) (xv xi p1 p2 p3 : R) : R :=
  let Lx := L 0%nat in
  let dLx := L 1%nat in
  let ddLx := L 2%nat in
  let d3Lx := L 3%nat in
  let d4Lx := L 4%nat in
  let d5Lx := L 5%nat in
  let d6Lx := L 6%nat in
  let d7Lx := L 7%nat in
  let d8Lx := L 8%nat in
  let d9Lx := L 9%nat in
  let d10Lx := L 10%nat in
  let d11Lx := L 11%nat in
  let d12Lx := L 12%nat in
  let d13Lx := L 13%nat in
  let d14Lx := L 14%nat in
  let d15Lx := L 15%nat in
  let cse0 := 30*d14Lx in
  Lx*cse0 + 30030*d10Lx*d4Lx + 10920*d11Lx*d3Lx + 2730*d12Lx*ddLx + 420*d13Lx*dLx + 60060*d5Lx*d9Lx + 90090*d6Lx*d8Lx + 51480*d7Lx*d7Lx + (-xi + xv)*(2*Lx*d15Lx + cse0*dLx + 6006*d10Lx*d5Lx + 2730*d11Lx*d4Lx + 910*d12Lx*d3Lx + 210*d13Lx*ddLx + 10010*d6Lx*d9Lx + 12870*d7Lx*d8Lx).

(** HIPBasis_eval.h:828-832 *)
Definition hip_dnf_16_0 (L : nat -> R) (xv xi p1 p2 p3 : R) : R :=
  let Lx := L 0%nat in
  let dLx := L 1%nat in
  let ddLx := L 2%nat in
  let d3Lx := L 3%nat in
  let d4Lx := L 4%nat in
  let d5Lx := L 5%nat in
  let d6Lx := L 6%nat in
  let d7Lx := L 7%nat in
  let d8Lx := L 8%nat in
  let d9Lx := L 9%nat in
  let d10Lx := L 10%nat in
  let d11Lx := L 11%nat in
  let d12Lx := L 12%nat in
  let d13Lx := L 13%nat in
  let d14Lx := L 14%nat in
  let d15Lx := L 15%nat in
  let d16Lx := L 16%nat in
  let cse0 := 32*d15Lx in
  let cse1 := 2*p1 in
  -cse1*(Lx*cse0 + 96096*d10Lx*d5Lx + 43680*d11Lx*d4Lx + 14560*d12Lx*d3Lx + 3360*d13Lx*ddLx + 480*d14Lx*dLx + 160160*d6Lx*d9Lx + 205920*d7Lx*d8Lx) + (cse1*xi - cse1*xv + 1)*(2*Lx*d16Lx + cse0*dLx + 16016*d10Lx*d6Lx + 8736*d11Lx*d5Lx + 3640*d12Lx*d4Lx + 1120*d13Lx*d3Lx + 240*d14Lx*ddLx + 22880*d7Lx*d9Lx + 12870*d8Lx*d8Lx).

(** HIPBasis_eval.h:833-836 *)
Definition hip_dnf_16_1 (L : nat -> R) (xv xi p1 p2 p3 : R) : R :=
  let Lx := L 0%nat in
  let dLx := L 1%nat in
  let ddLx := L 2%nat in
  let d3Lx := L 3%nat in
  let d4Lx := L 4%nat in
  let d5Lx := L 5%nat in
  let d6Lx := L 6%nat in
  let d7Lx := L 7%nat in
  let d8Lx := L 8%nat in
  let d9Lx := L 9%nat in
  let d10Lx := L 10%nat in
  let d11Lx := L 11%nat in
  let d12Lx := L 12%nat in
  let d13Lx := L 13%nat in
  let d14Lx := L 14%nat in
  let d15Lx := L 15%nat in
  let d16Lx := L 16%nat in
  let cse0 := 32*d15Lx in
  Lx*cse0 + 96096*d10Lx*d5Lx + 43680*d11Lx*d4Lx + 14560*d12Lx*d3Lx + 3360*d13Lx*ddLx + 480*d14Lx*dLx + 160160*d6Lx*d9Lx + 205920*d7Lx*d8Lx + (-xi + xv)*(2*Lx*d16Lx + cse0*dLx + 16016*d10Lx*d6Lx + 8736*d11Lx*d5Lx + 3640*d12Lx*d4Lx + 1120*d13Lx*d3Lx + 240*d14Lx*ddLx + 22880*d7Lx*d9Lx + 12870*d8Lx*d8Lx).

(** HIPBasis_eval.h:902-906 *)
Definition hip_dnf_17_0 (L : nat -> R) (xv xi p1 p2 p3 : R) : R :=
  let Lx := L 0%nat in
  let dLx := L 1%nat in
  let ddLx := L 2%nat in
  let d3Lx := L 3%nat in
  let d4Lx := L 4%nat in
  let d5Lx := L 5%nat in
  let d6Lx := L 6%nat in
  let d7Lx := L 7%nat in
  let d8Lx := L 8%nat in
  let d9Lx := L 9%nat in
  let d10Lx := L 10%nat in
  let d11Lx := L 11%nat in
  let d12Lx := L 12%nat in
  let d13Lx := L 13%nat in
  let d14Lx := L 14%nat in
  let d15Lx := L 15%nat in
  let d16Lx := L 16%nat in
  let d17Lx := L 17%nat in
  let cse0 := 34*d16Lx in
  let cse1 := 2*p1 in
  -cse1*(Lx*cse0 + 272272*d10Lx*d6Lx + 148512*d11Lx*d5Lx + 61880*d12Lx*d4Lx + 19040*d13Lx*d3Lx + 4080*d14Lx*ddLx + 544*d15Lx*dLx + 388960*d7Lx*d9Lx + 218790*d8Lx*d8Lx) + (cse1*xi - cse1*xv + 1)*(2*Lx*d17Lx + cse0*dLx + 38896*d10Lx*d7Lx + 24752*d11Lx*d6Lx + 12376*d12Lx*d5Lx + 4760*d13Lx*d4Lx + 1360*d14Lx*d3Lx + 272*d15Lx*ddLx + 48620*d8Lx*d9Lx).

(** HIPBasis_eval.h:907-910 *)
Definition hip_dnf_17_1 (L : nat -> R) (xv xi p1 p2 p3 : R) : R :=
  let Lx := L 0%nat in
  let dLx := L 1%nat in
  let ddLx := L 2%nat in
  let d3Lx := L 3%nat in
  let d4Lx := L 4%nat in
  let d5Lx := L 5%nat in
  let d6Lx := L 6%nat in
  let d7Lx := L 7%nat in
  let d8Lx := L 8%nat in
  let d9Lx := L 9%nat in
  let d10Lx := L 10%nat in
  let d11Lx := L 11%nat in
  let d12Lx := L 12%nat in
  let d13Lx := L 13%nat in
  let d14Lx := L 14%nat in
  let d15Lx := L 15%nat in
  let d16Lx := L 16%nat in
  let d17Lx := L 17%nat in
  let cse0 := 34*d16Lx in
  Lx*cse0 + 272272*d10Lx*d6Lx + 148512*d11Lx*d5Lx + 61880*d12Lx*d4Lx + 19040*d13Lx*d3Lx + 4080*d14Lx*ddLx + 544*d15Lx*dLx + 388960*d7Lx*d9Lx + 218790*d8Lx*d8Lx + (-xi + xv)*(2*Lx*d17Lx + cse0*dLx + 38896*d10Lx*d7Lx + 24752*d11Lx*d6Lx + 12376*d12Lx*d5Lx + 4760*d13Lx*d4Lx + 1360*d14Lx*d3Lx + 272*d15Lx*ddLx + 48620*d8Lx*d9Lx).

(** HIPBasis_eval.h:979-983 *)
Definition hip_dnf_18_0 (L : nat -> R) (xv xi p1 p2 p3 : R) : R :=
  let Lx := L 0%nat in
  let dLx := L 1%nat in
  let ddLx := L 2%nat in
  let d3Lx := L 3%nat in
  let d4Lx := L 4%nat in
  let d5Lx := L 5%nat in
  let d6Lx := L 6%nat in
  let d7Lx := L 7%nat in
  let d8Lx := L 8%nat in
  let d9Lx := L 9%nat in
  let d10Lx := L 10%nat in
  let d11Lx := L 11%nat in
  let d12Lx := L 12%nat in
  let d13Lx := L 13%nat in
  let d14Lx := L 14%nat in
  let d15Lx := L 15%nat in
  let d16Lx := L 16%nat in
  let d17Lx := L 17%nat in
  let d18Lx := L 18%nat in
  let cse0 := 36*d17Lx in
  let cse1 := 2*p1 in
  -cse1*(Lx*cse0 + 700128*d10Lx*d7Lx + 445536*d11Lx*d6Lx + 222768*d12Lx*d5Lx + 85680*d13Lx*d4Lx + 24480*d14Lx*d3Lx + 4896*d15Lx*ddLx + 612*d16Lx*dLx + 875160*d8Lx*d9Lx) + (cse1*xi - cse1*xv + 1)*(2*Lx*d18Lx + cse0*dLx + 87516*d10Lx*d8Lx + 63648*d11Lx*d7Lx + 37128*d12Lx*d6Lx + 17136*d13Lx*d5Lx + 6120*d14Lx*d4Lx + 1632*d15Lx*d3Lx + 306*d16Lx*ddLx + 48620*d9Lx*d9Lx).

(** HIPBasis_eval.h:984-987 *)
Definition hip_dnf_18_1 (L : nat -> R) (xv xi p1 p2 p3 : R) : R :=
  let Lx := L 0%nat in
  let dLx := L 1%nat in
  let ddLx := L 2%nat in
  let d3Lx := L 3%nat in
  let d4Lx := L 4%nat in
  let d5Lx := L 5%nat in
  let d6Lx := L 6%nat in
  let d7Lx := L 7%nat in
  let d8Lx := L 8%nat in
  let d9Lx := L 9%nat in
  let d10Lx := L 10%nat in
  let d11Lx := L 11%nat in
  let d12Lx := L 12%nat in
  let d13Lx := L 13%nat in
  let d14Lx := L 14%nat in
  let d15Lx := L 15%nat in
  let d16Lx := L 16%nat in
  let d17Lx := L 17%nat in
  let d18Lx := L 18%nat in
  let cse0 := 36*d17Lx in
  Lx*cse0 + 700128*d10Lx*d7Lx + 445536*d11Lx*d6Lx + 222768*d12Lx*d5Lx + 85680*d13Lx*d4Lx + 24480*d14Lx*d3Lx + 4896*d15Lx*ddLx + 612*d16Lx*dLx + 875160*d8Lx*d9Lx + (-xi + xv)*(2*Lx*d18Lx + cse0*dLx + 87516*d10Lx*d8Lx + 63648*d11Lx*d7Lx + 37128*d12Lx*d6Lx + 17136*d13Lx*d5Lx + 6120*d14Lx*d4Lx + 1632*d15Lx*d3Lx + 306*d16Lx*ddLx + 48620*d9Lx*d9Lx).

(** HIPBasis_eval.h:1059-1063 *)
Definition hip_dnf_19_0 (L : nat -> R) (xv xi p1 p2 p3 : R) : R :=
  let Lx := L 0%nat in
  let dLx := L 1%nat in
  let ddLx := L 2%nat in
  let d3Lx := L 3%nat in
  let d4Lx := L 4%nat in
  let d5Lx := L 5%nat in
  let d6Lx := L 6%nat in
  let d7Lx := L 7%nat in
  let d8Lx := L 8%nat in
  let d9Lx := L 9%nat in
  let d10Lx := L 10%nat in
  let d11Lx := L 11%nat in
  let d12Lx := L 12%nat in
  let d13Lx := L 13%nat in
  let d14Lx := L 14%nat in
  let d15Lx := L 15%nat in
  let d16Lx := L 16%nat in
  let d17Lx := L 17%nat in
  let d18Lx := L 18%nat in
  let d19Lx := L 19%nat in
  let cse0 := 38*d18Lx in
  let cse1 := 2*p1 in
  -cse1*(Lx*cse0 + 1662804*d10Lx*d8Lx + 1209312*d11Lx*d7Lx + 705432*d12Lx*d6Lx + 325584*d13Lx*d5Lx + 116280*d14Lx*d4Lx + 31008*d15Lx*d3Lx + 5814*d16Lx*ddLx + 684*d17Lx*dLx + 923780*d9Lx*d9Lx) + (cse1*xi - cse1*xv + 1)*(2*Lx*d19Lx + cse0*dLx + 184756*d10Lx*d9Lx + 151164*d11Lx*d8Lx + 100776*d12Lx*d7Lx + 54264*d13Lx*d6Lx + 23256*d14Lx*d5Lx + 7752*d15Lx*d4Lx + 1938*d16Lx*d3Lx + 342*d17Lx*ddLx).

(** HIPBasis_eval.h:1064-1067 *)
Definition hip_dnf_19_1 (L : nat -> R) (xv xi p1 p2 p3 : R) : R :=
  let Lx := L 0%nat in
  let dLx := L 1%nat in
  let ddLx := L 2%nat in
  let d3Lx := L 3%nat in
  let d4Lx := L 4%nat in
  let d5Lx := L 5%nat in
  let d6Lx := L 6%nat in
  let d7Lx := L 7%nat in
  let d8Lx := L 8%nat in
  let d9Lx := L 9%nat in
  let d10Lx := L 10%nat in
  let d11Lx := L 11%nat in
  let d12Lx := L 12%nat in
  let d13Lx := L 13%nat in
  let d14Lx := L 14%nat in
  let d15Lx := L 15%nat in
  let d16Lx := L 16%nat in
  let d17Lx := L 17%nat in
  let d18Lx := L 18%nat in
  let d19Lx := L 19%nat in
  let cse0 := 38*d18Lx in
  Lx*cse0 + 1662804*d10Lx*d8Lx + 1209312*d11Lx*d7Lx + 705432*d12Lx*d6Lx + 325584*d13Lx*d5Lx + 116280*d14Lx*d4Lx + 31008*d15Lx*d3Lx + 5814*d16Lx*ddLx + 684*d17Lx*dLx + 923780*d9Lx*d9Lx + (-xi + xv)*(2*Lx*d19Lx + cse0*dLx + 184756*d10Lx*d9Lx + 151164*d11Lx*d8Lx + 100776*d12Lx*d7Lx + 54264*d13Lx*d6Lx + 23256*d14Lx*d5Lx + 7752*d15Lx*d4Lx + 1938*d16Lx*d3Lx + 342*d17Lx*ddLx).

(** HIPBasis_eval.h:1142-1146 *)
Definition hip_dnf_20_0 (L : nat -> R) (xv xi p1 p2 p3 : R) : R :=
  let Lx := L 0%nat in
  let dLx := L 1%nat in
  let ddLx := L 2%nat in
  let d3Lx := L 3%nat in
  let d4Lx := L 4%nat in
  let d5Lx := L 5%nat in
  let d6Lx := L 6%nat in
  let d7Lx := L 7%nat in
  let d8Lx := L 8%nat in
  let d9Lx := L 9%nat in
  let d10Lx := L 10%nat in
  let d11Lx := L 11%nat in
  let d12Lx := L 12%nat in
  let d13Lx := L 13%nat in
  let d14Lx := L 14%nat in
  let d15Lx := L 15%nat in
  let d16Lx := L 16%nat in
  let d17Lx := L 17%nat in
  let d18Lx := L 18%nat in
  let d19Lx := L 19%nat in
  let d20Lx := L 20%nat in
  let cse0 := 40*d19Lx in
  let cse1 := 2*p1 in
  -cse1*(Lx*cse0 + 3695120*d10Lx*d9Lx + 3023280*d11Lx*d8Lx + 2015520*d12Lx*d7Lx + 1085280*d13Lx*d6Lx + 465120*d14Lx*d5Lx + 155040*d15Lx*d4Lx + 38760*d16Lx*d3Lx + 6840*d17Lx*ddLx + 760*d18Lx*dLx) + (cse1*xi - cse1*xv + 1)*(2*Lx*d20Lx + cse0*dLx + 184756*d10Lx*d10Lx + 335920*d11Lx*d9Lx + 251940*d12Lx*d8Lx + 155040*d13Lx*d7Lx + 77520*d14Lx*d6Lx + 31008*d15Lx*d5Lx + 9690*d16Lx*d4Lx + 2280*d17Lx*d3Lx + 380*d18Lx*ddLx).

(** HIPBasis_eval.h:1147-1150 *)
Definition hip_dnf_20_1 (L : nat -> R) (xv xi p1 p2 p3 : R) : R :=
  let Lx := L 0%nat in
  let dLx := L 1%nat in
  let ddLx := L 2%nat in
  let d3Lx := L 3%nat in
  let d4Lx := L 4%nat in
  let d5Lx := L 5%nat in
  let d6Lx := L 6%nat in
  let d7Lx := L 7%nat in
  let d8Lx := L 8%nat in
  let d9Lx := L 9%nat in
  let d10Lx := L 10%nat in
  let d11Lx := L 11%nat in
  let d12Lx := L 12%nat in
  let d13Lx := L 13%nat in
  let d14Lx := L 14%nat in
  let d15Lx := L 15%nat in
  let d16Lx := L 16%nat in
  let d17Lx := L 17%nat in
  let d18Lx := L 18%nat in
  let d19Lx := L 19%nat in
  let d20Lx := L 20%nat in
  let cse0 := 40*d19Lx in
  Lx*cse0 + 3695120*d10Lx*d9Lx + 3023280*d11Lx*d8Lx + 2015520*d12Lx*d7Lx + 1085280*d13Lx*d6Lx + 465120*d14Lx*d5Lx + 155040*d15Lx*d4Lx + 38760*d16Lx*d3Lx + 6840*d17Lx*ddLx + 760*d18Lx*dLx + (-xi + xv)*(2*Lx*d20Lx + cse0*dLx + 184756*d10Lx*d10Lx + 335920*d11Lx*d9Lx + 251940*d12Lx*d8Lx + 155040*d13Lx*d7Lx + 77520*d14Lx*d6Lx + 31008*d15Lx*d5Lx + 9690*d16Lx*d4Lx + 2280*d17Lx*d3Lx + 380*d18Lx*ddLx).

(** HIPBasis_eval.h: the switch over n and the column kind *)
Definition hip_dnf (n kind : nat) : (nat -> R) -> R -> R -> R -> R -> R -> R :=
  match n, kind with
  | 0%nat, 0%nat => hip_dnf_0_0
  | 0%nat, 1%nat => hip_dnf_0_1
  | 1%nat, 0%nat => hip_dnf_1_0
  | 1%nat, 1%nat => hip_dnf_1_1
  | 2%nat, 0%nat => hip_dnf_2_0
  | 2%nat, 1%nat => hip_dnf_2_1
  | 3%nat, 0%nat => hip_dnf_3_0
  | 3%nat, 1%nat => hip_dnf_3_1
  | 4%nat, 0%nat => hip_dnf_4_0
  | 4%nat, 1%nat => hip_dnf_4_1
  | 5%nat, 0%nat => hip_dnf_5_0
  | 5%nat, 1%nat => hip_dnf_5_1
  | 6%nat, 0%nat => hip_dnf_6_0
  | 6%nat, 1%nat => hip_dnf_6_1
  | 7%nat, 0%nat => hip_dnf_7_0
  | 7%nat, 1%nat => hip_dnf_7_1
  | 8%nat, 0%nat => hip_dnf_8_0
  | 8%nat, 1%nat => hip_dnf_8_1
  | 9%nat, 0%nat => hip_dnf_9_0
  | 9%nat, 1%nat => hip_dnf_9_1
  | 10%nat, 0%nat => hip_dnf_10_0
  | 10%nat, 1%nat => hip_dnf_10_1
  | 11%nat, 0%nat => hip_dnf_11_0
  | 11%nat, 1%nat => hip_dnf_11_1
  | 12%nat, 0%nat => hip_dnf_12_0
  | 12%nat, 1%nat => hip_dnf_12_1
  | 13%nat, 0%nat => hip_dnf_13_0
  | 13%nat, 1%nat => hip_dnf_13_1
  | 14%nat, 0%nat => hip_dnf_14_0
  | 14%nat, 1%nat => hip_dnf_14_1
  | 15%nat, 0%nat => hip_dnf_15_0
  | 15%nat, 1%nat => hip_dnf_15_1
  | 16%nat, 0%nat => hip_dnf_16_0
  | 16%nat, 1%nat => hip_dnf_16_1
  | 17%nat, 0%nat => hip_dnf_17_0
  | 17%nat, 1%nat => hip_dnf_17_1
  | 18%nat, 0%nat => hip_dnf_18_0
  | 18%nat, 1%nat => hip_dnf_18_1
  | 19%nat, 0%nat => hip_dnf_19_0
  | 19%nat, 1%nat => hip_dnf_19_1
  | 20%nat, 0%nat => hip_dnf_20_0
  | 20%nat, 1%nat => hip_dnf_20_1
  | _, _ => fun _ _ _ _ _ _ => 0
  end.

(** HIPBasis_over_r.h:93-95 *)
Definition hip_or_z_0_1 (L : nat -> R) (xv xi p1 p2 p3 : R) : R :=
  let Lx := L 0%nat in
  Lx*Lx.

(** HIPBasis_over_r.h:100-102 *)
Definition hip_or_z_1_1 (L : nat -> R) (xv xi p1 p2 p3 : R) : R :=
  let Lx := L 0%nat in
  let dLx := L 1%nat in
  2*Lx*dLx.

(** HIPBasis_over_r.h:107-109 *)
Definition hip_or_z_2_1 (L : nat -> R) (xv xi p1 p2 p3 : R) : R :=
  let Lx := L 0%nat in
  let dLx := L 1%nat in
  let ddLx := L 2%nat in
  2*Lx*ddLx + 2*dLx*dLx.

(** HIPBasis_over_r.h:121-124 *)
Definition hip_or_p_0_0 (L : nat -> R) (xv xi p1 p2 p3 : R) : R :=
  let pr := L 0%nat in
  let cse0 := 2*p1 in
  pr*pr*(xv + 1)*(cse0*xi - cse0*xv + 1)/(xi + 1) ^ 2.

(** HIPBasis_over_r.h:125-127 *)
Definition hip_or_p_0_1 (L : nat -> R) (xv xi p1 p2 p3 : R) : R :=
  let pr := L 0%nat in
  pr*pr*(-xi + xv)*(xv + 1)/(xi + 1) ^ 2.

(** HIPBasis_over_r.h:132-138 *)
Definition hip_or_p_1_0 (L : nat -> R) (xv xi p1 p2 p3 : R) : R :=
  let pr := L 0%nat in
  let dpr := L 1%nat in
  let cse0 := pr*pr in
  let cse1 := xv + 1 in
  let cse2 := 2*p1 in
  let cse3 := cse2*xi - cse2*xv + 1 in
  (-cse0*cse1*cse2 + cse0*cse3 + 2*cse1*cse3*dpr*pr)/(xi + 1) ^ 2.

(** HIPBasis_over_r.h:139-144 *)
Definition hip_or_p_1_1 (L : nat -> R) (xv xi p1 p2 p3 : R) : R :=
  let pr := L 0%nat in
  let dpr := L 1%nat in
  let cse0 := pr*pr in
  let cse1 := xv + 1 in
  let cse2 := -xi + xv in
  (cse0*cse1 + cse0*cse2 + 2*cse1*cse2*dpr*pr)/(xi + 1) ^ 2.

(** HIPBasis_over_r.h:149-154 *)
Definition hip_or_p_2_0 (L : nat -> R) (xv xi p1 p2 p3 : R) : R :=
  let pr := L 0%nat in
  let dpr := L 1%nat in
  let ddpr := L 2%nat in
  let cse0 := 4*p1 in
  let cse1 := 2*xv in
  let cse2 := -cse1*p1 + 2*p1*xi + 1 in
  (-cse0*dpr*pr*(cse1 + 2) - cse0*pr*pr + 4*cse2*dpr*pr + cse2*(xv + 1)*(2*ddpr*pr + 2*dpr*dpr))/(xi + 1) ^ 2.

(** HIPBasis_over_r.h:155-159 *)
Definition hip_or_p_2_1 (L : nat -> R) (xv xi p1 p2 p3 : R) : R :=
  let pr := L 0%nat in
  let dpr := L 1%nat in
  let ddpr := L 2%nat in
  let cse0 := -xi + xv in
  let cse1 := 2*pr in
  (4*cse0*dpr*pr + cse0*(xv + 1)*(cse1*ddpr + 2*dpr*dpr) + cse1*dpr*(2*xv + 2) + 2*pr*pr)/(xi + 1) ^ 2.

(** HIPBasis_over_r.h: node 0 *)
Definition hip_or_first (n kind : nat) : (nat -> R) -> R -> R -> R -> R -> R -> R :=
  match n, kind with
  | 0%nat, 1%nat => hip_or_z_0_1
  | 1%nat, 1%nat => hip_or_z_1_1
  | 2%nat, 1%nat => hip_or_z_2_1
  | _, _ => fun _ _ _ _ _ _ => 0
  end.

(** HIPBasis_over_r.h: nodes 1, 2, ... *)
Definition hip_or_rest (n kind : nat) : (nat -> R) -> R -> R -> R -> R -> R -> R :=
  match n, kind with
  | 0%nat, 0%nat => hip_or_p_0_0
  | 0%nat, 1%nat => hip_or_p_0_1
  | 1%nat, 0%nat => hip_or_p_1_0
  | 1%nat, 1%nat => hip_or_p_1_1
  | 2%nat, 0%nat => hip_or_p_2_0
  | 2%nat, 1%nat => hip_or_p_2_1
  | _, _ => fun _ _ _ _ _ _ => 0
  end.

(** HIP2Basis_eval.h:61-70 *)
Definition hip2_dnf_0_0 (L : nat -> R) (xv xi p1 p2 p3 : R) : R :=
  let Lx := L 0%nat in
  let cse0 := 3*p1 in
  let cse1 := xi*xv in
  let cse2 := xi*xi in
  let cse3 := (3/2)*p2 in
  let cse4 := xv*xv in
  let cse5 := p1*p1 in
  let cse6 := 6*cse5 in
  Lx*Lx*Lx*(cse0*xi - cse0*xv - 12*cse1*cse5 + 3*cse1*p2 - cse2*cse3 + cse2*cse6 - cse3*cse4 + cse4*cse6 + 1).

(** HIP2Basis_eval.h:71-74 *)
Definition hip2_dnf_0_1 (L : nat -> R) (xv xi p1 p2 p3 : R) : R :=
  let Lx := L 0%nat in
  let cse0 := 3*p1 in
  Lx*Lx*Lx*(-cse0*xi*xi - cse0*xv*xv + 6*p1*xi*xv - xi + xv).

(** HIP2Basis_eval.h:75-77 *)
Definition hip2_dnf_0_2 (L : nat -> R) (xv xi p1 p2 p3 : R) : R :=
  let Lx := L 0%nat in
  Lx*Lx*Lx*((1/2)*xi*xi - xi*xv + (1/2)*xv*xv).

(** HIP2Basis_eval.h:97-107 *)
Definition hip2_dnf_1_0 (L : nat -> R) (xv xi p1 p2 p3 : R) : R :=
  let Lx := L 0%nat in
  let dLx := L 1%nat in
  let cse0 := 3*p1 in
  let cse1 := 3*p2*xv in
  let cse2 := p1*p1 in
  let cse3 := 12*cse2*xi in
  let cse4 := xi*xi in
  let cse5 := (3/2)*p2 in
  let cse6 := xv*xv in
  let cse7 := 6*cse2 in
  Lx*Lx*Lx*(-cse0 - cse1 + 12*cse2*xv - cse3 + 3*p2*xi) + 3*Lx*Lx*dLx*(cse0*xi - cse0*xv + cse1*xi - cse3*xv - cse4*cse5 + cse4*cse7 - cse5*cse6 + cse6*cse7 + 1).

(** HIP2Basis_eval.h:108-112 *)
Definition hip2_dnf_1_1 (L : nat -> R) (xv xi p1 p2 p3 : R) : R :=
  let Lx := L 0%nat in
  let dLx := L 1%nat in
  let cse0 := 6*p1 in
  let cse1 := 3*p1 in
  Lx*Lx*Lx*(cse0*xi - cse0*xv + 1) + 3*Lx*Lx*dLx*(-cse1*xi*xi - cse1*xv*xv + 6*p1*xi*xv - xi + xv).

(** HIP2Basis_eval.h:113-115 *)
Definition hip2_dnf_1_2 (L : nat -> R) (xv xi p1 p2 p3 : R) : R :=
  let Lx := L 0%nat in
  let dLx := L 1%nat in
  Lx*Lx*Lx*(-xi + xv) + 3*Lx*Lx*dLx*((1/2)*xi*xi - xi*xv + (1/2)*xv*xv).

(** HIP2Basis_eval.h:138-148 *)
Definition hip2_dnf_2_0 (L : nat -> R) (xv xi p1 p2 p3 : R) : R :=
  let Lx := L 0%nat in
  let dLx := L 1%nat in
  let ddLx := L 2%nat in
  let cse0 := p1*p1 in
  let cse1 := 3*p1 in
  let cse2 := 3*p2*xv in
  let cse3 := 12*cse0*xi in
  let cse4 := xi*xi in
  let cse5 := (3/2)*p2 in
  let cse6 := xv*xv in
  let cse7 := 6*cse0 in
  3*Lx*Lx*Lx*(4*cse0 - p2) + 6*Lx*Lx*dLx*(12*cse0*xv - cse1 - cse2 - cse3 + 3*p2*xi) + 3*Lx*(Lx*ddLx + 2*dLx*dLx)*(cse1*xi - cse1*xv + cse2*xi - cse3*xv - cse4*cse5 + cse4*cse7 - cse5*cse6 + cse6*cse7 + 1).

(** HIP2Basis_eval.h:149-153 *)
Definition hip2_dnf_2_1 (L : nat -> R) (xv xi p1 p2 p3 : R) : R :=
  let Lx := L 0%nat in
  let dLx := L 1%nat in
  let ddLx := L 2%nat in
  let cse0 := 6*p1 in
  let cse1 := 3*p1 in
  -Lx*Lx*Lx*cse0 + 6*Lx*Lx*dLx*(cse0*xi - cse0*xv + 1) + 3*Lx*(Lx*ddLx + 2*dLx*dLx)*(-cse1*xi*xi - cse1*xv*xv + 6*p1*xi*xv - xi + xv).

(** HIP2Basis_eval.h:154-156 *)
Definition hip2_dnf_2_2 (L : nat -> R) (xv xi p1 p2 p3 : R) : R :=
  let Lx := L 0%nat in
  let dLx := L 1%nat in
  let ddLx := L 2%nat in
  Lx*Lx*Lx + 6*Lx*Lx*dLx*(-xi + xv) + 3*Lx*(Lx*ddLx + 2*dLx*dLx)*((1/2)*xi*xi - xi*xv + (1/2)*xv*xv).

(** HIP2Basis_eval.h:182-194 *)
Definition hip2_dnf_3_0 (L : nat -> R) (xv xi p1 p2 p3 : R) : R :=
  let Lx := L 0%nat in
  let dLx := L 1%nat in
  let ddLx := L 2%nat in
  let d3Lx := L 3%nat in
  let cse0 := Lx*Lx in
  let cse1 := p1*p1 in
  let cse2 := Lx*ddLx in
  let cse3 := 3*p1 in
  let cse4 := 3*p2*xv in
  let cse5 := 12*cse1*xi in
  let cse6 := xi*xi in
  let cse7 := (3/2)*p2 in
  let cse8 := xv*xv in
  let cse9 := 6*cse1 in
  9*Lx*(cse2 + 2*dLx*dLx)*(12*cse1*xv - cse3 - cse4 - cse5 + 3*p2*xi) + 27*cse0*dLx*(4*cse1 - p2) + (3*cse0*d3Lx + 18*cse2*dLx + 6*dLx*dLx*dLx)*(cse3*xi - cse3*xv + cse4*xi - cse5*xv - cse6*cse7 + cse6*cse9 - cse7*cse8 + cse8*cse9 + 1).

(** HIP2Basis_eval.h:195-201 *)
Definition hip2_dnf_3_1 (L : nat -> R) (xv xi p1 p2 p3 : R) : R :=
  let Lx := L 0%nat in
  let dLx := L 1%nat in
  let ddLx := L 2%nat in
  let d3Lx := L 3%nat in
  let cse0 := Lx*Lx in
  let cse1 := Lx*ddLx in
  let cse2 := 6*p1 in
  let cse3 := 3*p1 in
  9*Lx*(cse1 + 2*dLx*dLx)*(cse2*xi - cse2*xv + 1) - 54*cse0*dLx*p1 + (3*cse0*d3Lx + 18*cse1*dLx + 6*dLx*dLx*dLx)*(-cse3*xi*xi - cse3*xv*xv + 6*p1*xi*xv - xi + xv).

(** HIP2Basis_eval.h:202-206 *)
Definition hip2_dnf_3_2 (L : nat -> R) (xv xi p1 p2 p3 : R) : R :=
  let Lx := L 0%nat in
  let dLx := L 1%nat in
  let ddLx := L 2%nat in
  let d3Lx := L 3%nat in
  let cse0 := Lx*Lx in
  let cse1 := Lx*ddLx in
  9*Lx*(cse1 + 2*dLx*dLx)*(-xi + xv) + 9*cse0*dLx + ((1/2)*xi*xi - xi*xv + (1/2)*xv*xv)*(3*cse0*d3Lx + 18*cse1*dLx + 6*dLx*dLx*dLx).

(** HIP2Basis_eval.h:235-248 *)
Definition hip2_dnf_4_0 (L : nat -> R) (xv xi p1 p2 p3 : R) : R :=
  let Lx := L 0%nat in
  let dLx := L 1%nat in
  let ddLx := L 2%nat in
  let d3Lx := L 3%nat in
  let d4Lx := L 4%nat in
  let cse0 := p1*p1 in
  let cse1 := Lx*ddLx in
  let cse2 := dLx*dLx in
  let cse3 := Lx*Lx in
  let cse4 := 3*p1 in
  let cse5 := 3*p2*xv in
  let cse6 := 12*cse0*xi in
  let cse7 := xi*xi in
  let cse8 := (3/2)*p2 in
  let cse9 := xv*xv in
  let cse10 := 6*cse0 in
  54*Lx*(4*cse0 - p2)*(cse1 + 2*cse2) + (72*cse1*dLx + 12*cse3*d3Lx + 24*dLx*dLx*dLx)*(12*cse0*xv - cse4 - cse5 - cse6 + 3*p2*xi) + (24*Lx*d3Lx*dLx + 18*Lx*ddLx*ddLx + 36*cse2*ddLx + 3*cse3*d4Lx)*(cse10*cse7 + cse10*cse9 + cse4*xi - cse4*xv + cse5*xi - cse6*xv - cse7*cse8 - cse8*cse9 + 1).

(** HIP2Basis_eval.h:249-256 *)
Definition hip2_dnf_4_1 (L : nat -> R) (xv xi p1 p2 p3 : R) : R :=
  let Lx := L 0%nat in
  let dLx := L 1%nat in
  let ddLx := L 2%nat in
  let d3Lx := L 3%nat in
  let d4Lx := L 4%nat in
  let cse0 := Lx*ddLx in
  let cse1 := dLx*dLx in
  let cse2 := 6*p1 in
  let cse3 := Lx*Lx in
  let cse4 := 3*p1 in
  -108*Lx*p1*(cse0 + 2*cse1) + (72*cse0*dLx + 12*cse3*d3Lx + 24*dLx*dLx*dLx)*(cse2*xi - cse2*xv + 1) + (24*Lx*d3Lx*dLx + 18*Lx*ddLx*ddLx + 36*cse1*ddLx + 3*cse3*d4Lx)*(-cse4*xi*xi - cse4*xv*xv + 6*p1*xi*xv - xi + xv).

(** HIP2Basis_eval.h:257-263 *)
Definition hip2_dnf_4_2 (L : nat -> R) (xv xi p1 p2 p3 : R) : R :=
  let Lx := L 0%nat in
  let dLx := L 1%nat in
  let ddLx := L 2%nat in
  let d3Lx := L 3%nat in
  let d4Lx := L 4%nat in
  let cse0 := Lx*ddLx in
  let cse1 := dLx*dLx in
  let cse2 := 18*Lx in
  let cse3 := Lx*Lx in
  cse2*(cse0 + 2*cse1) + (-xi + xv)*(72*cse0*dLx + 12*cse3*d3Lx + 24*dLx*dLx*dLx) + ((1/2)*xi*xi - xi*xv + (1/2)*xv*xv)*(24*Lx*d3Lx*dLx + 36*cse1*ddLx + cse2*ddLx*ddLx + 3*cse3*d4Lx).

(** HIP2Basis_eval.h:295-311 *)
Definition hip2_dnf_5_0 (L : nat -> R) (xv xi p1 p2 p3 : R) : R :=
  let Lx := L 0%nat in
  let dLx := L 1%nat in
  let ddLx := L 2%nat in
  let d3Lx := L 3%nat in
  let d4Lx := L 4%nat in
  let d5Lx := L 5%nat in
  let cse0 := p1*p1 in
  let cse1 := 180*ddLx in
  let cse2 := Lx*dLx in
  let cse3 := Lx*Lx in
  let cse4 := 90*ddLx*ddLx in
  let cse5 := dLx*dLx in
  let cse6 := 3*p1 in
  let cse7 := 3*p2*xv in
  let cse8 := 12*cse0*xi in
  let cse9 := 60*d3Lx in
  let cse10 := xi*xi in
  let cse11 := (3/2)*p2 in
  let cse12 := xv*xv in
  let cse13 := 6*cse0 in
  3*(4*cse0 - p2)*(cse1*cse2 + 30*cse3*d3Lx + 60*dLx*dLx*dLx) + (Lx*cse4 + cse1*cse5 + 120*cse2*d3Lx + 15*cse3*d4Lx)*(12*cse0*xv - cse6 - cse7 - cse8 + 3*p2*xi) + (Lx*cse9*ddLx + 30*cse2*d4Lx + 3*cse3*d5Lx + cse4*dLx + cse5*cse9)*(-cse10*cse11 + cse10*cse13 - cse11*cse12 + cse12*cse13 + cse6*xi - cse6*xv + cse7*xi - cse8*xv + 1).

(** HIP2Basis_eval.h:312-322 *)
Definition hip2_dnf_5_1 (L : nat -> R) (xv xi p1 p2 p3 : R) : R :=
  let Lx := L 0%nat in
  let dLx := L 1%nat in
  let ddLx := L 2%nat in
  let d3Lx := L 3%nat in
  let d4Lx := L 4%nat in
  let d5Lx := L 5%nat in
  let cse0 := 180*ddLx in
  let cse1 := Lx*dLx in
  let cse2 := Lx*Lx in
  let cse3 := 6*p1 in
  let cse4 := 90*ddLx*ddLx in
  let cse5 := dLx*dLx in
  let cse6 := 3*p1 in
  let cse7 := 60*d3Lx in
  -cse3*(cse0*cse1 + 30*cse2*d3Lx + 60*dLx*dLx*dLx) + (cse3*xi - cse3*xv + 1)*(Lx*cse4 + cse0*cse5 + 120*cse1*d3Lx + 15*cse2*d4Lx) + (-cse6*xi*xi - cse6*xv*xv + 6*p1*xi*xv - xi + xv)*(Lx*cse7*ddLx + 30*cse1*d4Lx + 3*cse2*d5Lx + cse4*dLx + cse5*cse7).

(** HIP2Basis_eval.h:323-331 *)
Definition hip2_dnf_5_2 (L : nat -> R) (xv xi p1 p2 p3 : R) : R :=
  let Lx := L 0%nat in
  let dLx := L 1%nat in
  let ddLx := L 2%nat in
  let d3Lx := L 3%nat in
  let d4Lx := L 4%nat in
  let d5Lx := L 5%nat in
  let cse0 := 180*ddLx in
  let cse1 := Lx*dLx in
  let cse2 := Lx*Lx in
  let cse3 := 90*ddLx*ddLx in
  let cse4 := dLx*dLx in
  let cse5 := 60*d3Lx in
  cse0*cse1 + 30*cse2*d3Lx + 60*dLx*dLx*dLx + (-xi + xv)*(Lx*cse3 + cse0*cse4 + 120*cse1*d3Lx + 15*cse2*d4Lx) + ((1/2)*xi*xi - xi*xv + (1/2)*xv*xv)*(Lx*cse5*ddLx + 30*cse1*d4Lx + 3*cse2*d5Lx + cse3*dLx + cse4*cse5).

(** HIP2Basis_eval.h: the switch over n and the column kind *)
Definition hip2_dnf (n kind : nat) : (nat -> R) -> R -> R -> R -> R -> R -> R :=
  match n, kind with
  | 0%nat, 0%nat => hip2_dnf_0_0
  | 0%nat, 1%nat => hip2_dnf_0_1
  | 0%nat, 2%nat => hip2_dnf_0_2
  | 1%nat, 0%nat => hip2_dnf_1_0
  | 1%nat, 1%nat => hip2_dnf_1_1
  | 1%nat, 2%nat => hip2_dnf_1_2
  | 2%nat, 0%nat => hip2_dnf_2_0
  | 2%nat, 1%nat => hip2_dnf_2_1
  | 2%nat, 2%nat => hip2_dnf_2_2
  | 3%nat, 0%nat => hip2_dnf_3_0
  | 3%nat, 1%nat => hip2_dnf_3_1
  | 3%nat, 2%nat => hip2_dnf_3_2
  | 4%nat, 0%nat => hip2_dnf_4_0
  | 4%nat, 1%nat => hip2_dnf_4_1
  | 4%nat, 2%nat => hip2_dnf_4_2
  | 5%nat, 0%nat => hip2_dnf_5_0
  | 5%nat, 1%nat => hip2_dnf_5_1
  | 5%nat, 2%nat => hip2_dnf_5_2
  | _, _ => fun _ _ _ _ _ _ => 0
  end.

(** HIP2Basis_over_r.h:94-97 *)
Definition hip2_or_z_0_1 (L : nat -> R) (xv xi p1 p2 p3 : R) : R :=
  let Lx := L 0%nat in
  let cse0 := 3*p1 in
  Lx*Lx*Lx*(cse0*xi - cse0*xv + 1).

(** HIP2Basis_over_r.h:98-100 *)
Definition hip2_or_z_0_2 (L : nat -> R) (xv xi p1 p2 p3 : R) : R :=
  let Lx := L 0%nat in
  Lx*Lx*Lx*(-1/2*xi + (1/2)*xv).

(** HIP2Basis_over_r.h:105-108 *)
Definition hip2_or_z_1_1 (L : nat -> R) (xv xi p1 p2 p3 : R) : R :=
  let Lx := L 0%nat in
  let dLx := L 1%nat in
  let cse0 := 3*p1 in
  -Lx*Lx*Lx*cse0 + 3*Lx*Lx*dLx*(cse0*xi - cse0*xv + 1).

(** HIP2Basis_over_r.h:109-111 *)
Definition hip2_or_z_1_2 (L : nat -> R) (xv xi p1 p2 p3 : R) : R :=
  let Lx := L 0%nat in
  let dLx := L 1%nat in
  (1/2)*Lx*Lx*Lx + 3*Lx*Lx*dLx*(-1/2*xi + (1/2)*xv).

(** HIP2Basis_over_r.h:116-119 *)
Definition hip2_or_z_2_1 (L : nat -> R) (xv xi p1 p2 p3 : R) : R :=
  let Lx := L 0%nat in
  let dLx := L 1%nat in
  let ddLx := L 2%nat in
  let cse0 := 3*p1 in
  -18*Lx*Lx*dLx*p1 + 3*Lx*(Lx*ddLx + 2*dLx*dLx)*(cse0*xi - cse0*xv + 1).

(** HIP2Basis_over_r.h:120-122 *)
Definition hip2_or_z_2_2 (L : nat -> R) (xv xi p1 p2 p3 : R) : R :=
  let Lx := L 0%nat in
  let dLx := L 1%nat in
  let ddLx := L 2%nat in
  3*Lx*Lx*dLx + 3*Lx*(-1/2*xi + (1/2)*xv)*(Lx*ddLx + 2*dLx*dLx).

(** HIP2Basis_over_r.h:135-144 *)
Definition hip2_or_p_0_0 (L : nat -> R) (xv xi p1 p2 p3 : R) : R :=
  let pr := L 0%nat in
  let cse0 := 3*p1 in
  let cse1 := xi*xv in
  let cse2 := xi*xi in
  let cse3 := (3/2)*p2 in
  let cse4 := xv*xv in
  let cse5 := p1*p1 in
  let cse6 := 6*cse5 in
  pr*pr*pr*(xv + 1) ^ 2*(cse0*xi - cse0*xv - 12*cse1*cse5 + 3*cse1*p2 - cse2*cse3 + cse2*cse6 - cse3*cse4 + cse4*cse6 + 1)/(xi + 1) ^ 3.

(** HIP2Basis_over_r.h:145-148 *)
Definition hip2_or_p_0_1 (L : nat -> R) (xv xi p1 p2 p3 : R) : R :=
  let pr := L 0%nat in
  let cse0 := 3*p1 in
  pr*pr*pr*(xv + 1) ^ 2*(-cse0*xi*xi - cse0*xv*xv + 6*p1*xi*xv - xi + xv)/(xi + 1) ^ 3.

(** HIP2Basis_over_r.h:149-151 *)
Definition hip2_or_p_0_2 (L : nat -> R) (xv xi p1 p2 p3 : R) : R :=
  let pr := L 0%nat in
  pr*pr*pr*(xv + 1) ^ 2*((1/2)*xi*xi - xi*xv + (1/2)*xv*xv)/(xi + 1) ^ 3.

(** HIP2Basis_over_r.h:156-169 *)
Definition hip2_or_p_1_0 (L : nat -> R) (xv xi p1 p2 p3 : R) : R :=
  let pr := L 0%nat in
  let dpr := L 1%nat in
  let cse0 := pr*pr*pr in
  let cse1 := (xv + 1) ^ 2 in
  let cse2 := 3*p1 in
  let cse3 := 3*p2*xv in
  let cse4 := p1*p1 in
  let cse5 := 12*cse4*xi in
  let cse6 := xi*xi in
  let cse7 := (3/2)*p2 in
  let cse8 := xv*xv in
  let cse9 := 6*cse4 in
  let cse10 := cse2*xi - cse2*xv + cse3*xi - cse5*xv - cse6*cse7 + cse6*cse9 - cse7*cse8 + cse8*cse9 + 1 in
  (cse0*cse1*(-cse2 - cse3 + 12*cse4*xv - cse5 + 3*p2*xi) + cse0*cse10*(2*xv + 2) + 3*cse1*cse10*dpr*pr*pr)/(xi + 1) ^ 3.

(** HIP2Basis_over_r.h:170-177 *)
Definition hip2_or_p_1_1 (L : nat -> R) (xv xi p1 p2 p3 : R) : R :=
  let pr := L 0%nat in
  let dpr := L 1%nat in
  let cse0 := pr*pr*pr in
  let cse1 := (xv + 1) ^ 2 in
  let cse2 := 6*p1 in
  let cse3 := 3*p1 in
  let cse4 := -cse3*xi*xi - cse3*xv*xv + 6*p1*xi*xv - xi + xv in
  (cse0*cse1*(cse2*xi - cse2*xv + 1) + cse0*cse4*(2*xv + 2) + 3*cse1*cse4*dpr*pr*pr)/(xi + 1) ^ 3.

(** HIP2Basis_over_r.h:178-183 *)
Definition hip2_or_p_1_2 (L : nat -> R) (xv xi p1 p2 p3 : R) : R :=
  let pr := L 0%nat in
  let dpr := L 1%nat in
  let cse0 := pr*pr*pr in
  let cse1 := (xv + 1) ^ 2 in
  let cse2 := (1/2)*xi*xi - xi*xv + (1/2)*xv*xv in
  (cse0*cse1*(-xi + xv) + cse0*cse2*(2*xv + 2) + 3*cse1*cse2*dpr*pr*pr)/(xi + 1) ^ 3.

(** HIP2Basis_over_r.h:188-205 *)
Definition hip2_or_p_2_0 (L : nat -> R) (xv xi p1 p2 p3 : R) : R :=
  let pr := L 0%nat in
  let dpr := L 1%nat in
  let ddpr := L 2%nat in
  let cse0 := pr*pr*pr in
  let cse1 := p1*p1 in
  let cse2 := (xv + 1) ^ 2 in
  let cse3 := 3*cse2 in
  let cse4 := 4*xv + 4 in
  let cse5 := 3*p1 in
  let cse6 := 3*p2*xv in
  let cse7 := 12*cse1*xi in
  let cse8 := 12*cse1*xv - cse5 - cse6 - cse7 + 3*p2*xi in
  let cse9 := dpr*pr*pr in
  let cse10 := xi*xi in
  let cse11 := (3/2)*p2 in
  let cse12 := xv*xv in
  let cse13 := 6*cse1 in
  let cse14 := -cse10*cse11 + cse10*cse13 - cse11*cse12 + cse12*cse13 + cse5*xi - cse5*xv + cse6*xi - cse7*xv + 1 in
  (2*cse0*cse14 + cse0*cse3*(4*cse1 - p2) + cse0*cse4*cse8 + cse14*cse3*pr*(ddpr*pr + 2*dpr*dpr) + 3*cse14*cse4*cse9 + 6*cse2*cse8*cse9)/(xi + 1) ^ 3.

(** HIP2Basis_over_r.h:206-217 *)
Definition hip2_or_p_2_1 (L : nat -> R) (xv xi p1 p2 p3 : R) : R :=
  let pr := L 0%nat in
  let dpr := L 1%nat in
  let ddpr := L 2%nat in
  let cse0 := pr*pr*pr in
  let cse1 := (xv + 1) ^ 2 in
  let cse2 := 6*p1 in
  let cse3 := 4*xv + 4 in
  let cse4 := cse2*xi - cse2*xv + 1 in
  let cse5 := dpr*pr*pr in
  let cse6 := 3*p1 in
  let cse7 := -cse6*xi*xi - cse6*xv*xv + 6*p1*xi*xv - xi + xv in
  let cse8 := 3*cse7 in
  (-cse0*cse1*cse2 + cse0*cse3*cse4 + 2*cse0*cse7 + 6*cse1*cse4*cse5 + cse1*cse8*pr*(ddpr*pr + 2*dpr*dpr) + cse3*cse5*cse8)/(xi + 1) ^ 3.

(** HIP2Basis_over_r.h:218-227 *)
Definition hip2_or_p_2_2 (L : nat -> R) (xv xi p1 p2 p3 : R) : R :=
  let pr := L 0%nat in
  let dpr := L 1%nat in
  let ddpr := L 2%nat in
  let cse0 := pr*pr*pr in
  let cse1 := (xv + 1) ^ 2 in
  let cse2 := -xi + xv in
  let cse3 := 4*xv + 4 in
  let cse4 := dpr*pr*pr in
  let cse5 := (1/2)*xi*xi - xi*xv + (1/2)*xv*xv in
  let cse6 := 3*cse5 in
  (cse0*cse1 + cse0*cse2*cse3 + 2*cse0*cse5 + 6*cse1*cse2*cse4 + cse1*cse6*pr*(ddpr*pr + 2*dpr*dpr) + cse3*cse4*cse6)/(xi + 1) ^ 3.

(** HIP2Basis_over_r.h: node 0 *)
Definition hip2_or_first (n kind : nat) : (nat -> R) -> R -> R -> R -> R -> R -> R :=
  match n, kind with
  | 0%nat, 1%nat => hip2_or_z_0_1
  | 0%nat, 2%nat => hip2_or_z_0_2
  | 1%nat, 1%nat => hip2_or_z_1_1
  | 1%nat, 2%nat => hip2_or_z_1_2
  | 2%nat, 1%nat => hip2_or_z_2_1
  | 2%nat, 2%nat => hip2_or_z_2_2
  | _, _ => fun _ _ _ _ _ _ => 0
  end.

(** HIP2Basis_over_r.h: nodes 1, 2, ... *)
Definition hip2_or_rest (n kind : nat) : (nat -> R) -> R -> R -> R -> R -> R -> R :=
  match n, kind with
  | 0%nat, 0%nat => hip2_or_p_0_0
  | 0%nat, 1%nat => hip2_or_p_0_1
  | 0%nat, 2%nat => hip2_or_p_0_2
  | 1%nat, 0%nat => hip2_or_p_1_0
  | 1%nat, 1%nat => hip2_or_p_1_1
  | 1%nat, 2%nat => hip2_or_p_1_2
  | 2%nat, 0%nat => hip2_or_p_2_0
  | 2%nat, 1%nat => hip2_or_p_2_1
  | 2%nat, 2%nat => hip2_or_p_2_2
  | _, _ => fun _ _ _ _ _ _ => 0
  end.

(** HIP3Basis_eval.h:64-85 *)
Definition hip3_dnf_0_0 (L : nat -> R) (xv xi p1 p2 p3 : R) : R :=
  let Lx := L 0%nat in
  let cse0 := 4*p1 in
  let cse1 := xi*xv in
  let cse2 := xi*xi*xi in
  let cse3 := (2/3)*p3 in
  let cse4 := xv*xv*xv in
  let cse5 := xi*xi in
  let cse6 := 2*p2 in
  let cse7 := xv*xv in
  let cse8 := 2*p3 in
  let cse9 := cse7*xi in
  let cse10 := cse5*xv in
  let cse11 := p1*p2 in
  let cse12 := 10*cse11 in
  let cse13 := p1*p1 in
  let cse14 := 10*cse13 in
  let cse15 := p1*p1*p1 in
  let cse16 := 20*cse15 in
  let cse17 := 30*cse11 in
  let cse18 := 60*cse15 in
  Lx*Lx*Lx*Lx*(cse0*xi - cse0*xv - 20*cse1*cse13 + 4*cse1*p2 + cse10*cse17 - cse10*cse18 - cse10*cse8 - cse12*cse2 + cse12*cse4 + cse14*cse5 + cse14*cse7 + cse16*cse2 - cse16*cse4 - cse17*cse9 + cse18*cse9 + cse2*cse3 - cse3*cse4 - cse5*cse6 - cse6*cse7 + cse8*cse9 + 1).

(** HIP3Basis_eval.h:86-94 *)
Definition hip3_dnf_0_1 (L : nat -> R) (xv xi p1 p2 p3 : R) : R :=
  let Lx := L 0%nat in
  let cse0 := xi*xi in
  let cse1 := 4*p1 in
  let cse2 := xv*xv in
  let cse3 := xi*xi*xi in
  let cse4 := xv*xv*xv in
  let cse5 := p1*p1 in
  Lx*Lx*Lx*Lx*(-cse0*cse1 + 30*cse0*cse5*xv - 6*cse0*p2*xv - cse1*cse2 - 30*cse2*cse5*xi + 6*cse2*p2*xi - 10*cse3*cse5 + 2*cse3*p2 + 10*cse4*cse5 - 2*cse4*p2 + 8*p1*xi*xv - xi + xv).

(** HIP3Basis_eval.h:95-101 *)
Definition hip3_dnf_0_2 (L : nat -> R) (xv xi p1 p2 p3 : R) : R :=
  let Lx := L 0%nat in
  let cse0 := xi*xi in
  let cse1 := xv*xv in
  let cse2 := 2*p1 in
  let cse3 := 6*p1 in
  Lx*Lx*Lx*Lx*(-cse0*cse3*xv + (1/2)*cse0 + cse1*cse3*xi + (1/2)*cse1 + cse2*xi*xi*xi - cse2*xv*xv*xv - xi*xv).

(** HIP3Basis_eval.h:102-104 *)
Definition hip3_dnf_0_3 (L : nat -> R) (xv xi p1 p2 p3 : R) : R :=
  let Lx := L 0%nat in
  Lx*Lx*Lx*Lx*(-1/6*xi*xi*xi + (1/2)*xi*xi*xv - 1/2*xi*xv*xv + (1/6)*xv*xv*xv).

(** HIP3Basis_eval.h:126-150 *)
Definition hip3_dnf_1_0 (L : nat -> R) (xv xi p1 p2 p3 : R) : R :=
  let Lx := L 0%nat in
  let dLx := L 1%nat in
  let cse0 := 4*p1 in
  let cse1 := 4*p2*xv in
  let cse2 := xi*xi in
  let cse3 := 2*p3 in
  let cse4 := cse2*cse3 in
  let cse5 := xv*xv in
  let cse6 := cse3*cse5 in
  let cse7 := p1*p1 in
  let cse8 := 20*cse7*xi in
  let cse9 := p1*p2 in
  let cse10 := p1*p1*p1 in
  let cse11 := 60*cse10 in
  let cse12 := cse11*cse2 in
  let cse13 := cse11*cse5 in
  let cse14 := xi*xi*xi in
  let cse15 := (2/3)*p3 in
  let cse16 := xv*xv*xv in
  let cse17 := 2*p2 in
  let cse18 := 10*cse9 in
  let cse19 := 10*cse7 in
  let cse20 := 20*cse10 in
  let cse21 := 30*cse9 in
  Lx*Lx*Lx*Lx*(-cse0 - cse1 + 120*cse10*xi*xv - cse12 - cse13 + 30*cse2*p1*p2 - cse4 + 30*cse5*p1*p2 - cse6 + 20*cse7*xv - cse8 - 60*cse9*xi*xv + 4*p3*xi*xv + 4*p2*xi) + 4*Lx*Lx*Lx*dLx*(cse0*xi - cse0*xv + cse1*xi - cse12*xv + cse13*xi + cse14*cse15 - cse14*cse18 + cse14*cse20 - cse15*cse16 + cse16*cse18 - cse16*cse20 - cse17*cse2 - cse17*cse5 + cse19*cse2 + cse19*cse5 + cse2*cse21*xv - cse21*cse5*xi - cse4*xv + cse6*xi - cse8*xv + 1).

(** HIP3Basis_eval.h:151-165 *)
Definition hip3_dnf_1_1 (L : nat -> R) (xv xi p1 p2 p3 : R) : R :=
  let Lx := L 0%nat in
  let dLx := L 1%nat in
  let cse0 := 8*p1 in
  let cse1 := xi*xv in
  let cse2 := xi*xi in
  let cse3 := 6*p2 in
  let cse4 := cse2*cse3 in
  let cse5 := xv*xv in
  let cse6 := p1*p1 in
  let cse7 := 30*cse6 in
  let cse8 := cse5*cse7 in
  let cse9 := 4*p1 in
  let cse10 := xi*xi*xi in
  let cse11 := xv*xv*xv in
  Lx*Lx*Lx*Lx*(cse0*xi - cse0*xv - 60*cse1*cse6 + 12*cse1*p2 + cse2*cse7 - cse3*cse5 - cse4 + cse8 + 1) + 4*Lx*Lx*Lx*dLx*(-10*cse10*cse6 + 2*cse10*p2 + 10*cse11*cse6 - 2*cse11*p2 + 30*cse2*cse6*xv - cse2*cse9 - cse4*xv - cse5*cse9 + 6*cse5*p2*xi - cse8*xi + 8*p1*xi*xv - xi + xv).

(** HIP3Basis_eval.h:166-174 *)
Definition hip3_dnf_1_2 (L : nat -> R) (xv xi p1 p2 p3 : R) : R :=
  let Lx := L 0%nat in
  let dLx := L 1%nat in
  let cse0 := xi*xi in
  let cse1 := 6*p1 in
  let cse2 := cse0*cse1 in
  let cse3 := xv*xv in
  let cse4 := cse1*cse3 in
  let cse5 := 2*p1 in
  Lx*Lx*Lx*Lx*(-cse2 - cse4 + 12*p1*xi*xv - xi + xv) + 4*Lx*Lx*Lx*dLx*((1/2)*cse0 - cse2*xv + (1/2)*cse3 + cse4*xi + cse5*xi*xi*xi - cse5*xv*xv*xv - xi*xv).

(** HIP3Basis_eval.h:175-179 *)
Definition hip3_dnf_1_3 (L : nat -> R) (xv xi p1 p2 p3 : R) : R :=
  let Lx := L 0%nat in
  let dLx := L 1%nat in
  let cse0 := xi*xi in
  let cse1 := (1/2)*xv*xv in
  Lx*Lx*Lx*Lx*((1/2)*cse0 + cse1 - xi*xv) + 4*Lx*Lx*Lx*dLx*((1/2)*cse0*xv - cse1*xi - 1/6*xi*xi*xi + (1/6)*xv*xv*xv).

(** HIP3Basis_eval.h:204-230 *)
Definition hip3_dnf_2_0 (L : nat -> R) (xv xi p1 p2 p3 : R) : R :=
  let Lx := L 0%nat in
  let dLx := L 1%nat in
  let ddLx := L 2%nat in
  let cse0 := p3*xi in
  let cse1 := p3*xv in
  let cse2 := p1*p1 in
  let cse3 := p1*p2 in
  let cse4 := 15*cse3 in
  let cse5 := p1*p1*p1 in
  let cse6 := 30*cse5 in
  let cse7 := 4*p1 in
  let cse8 := 4*p2*xv in
  let cse9 := xi*xi in
  let cse10 := 2*p3 in
  let cse11 := xv*xv in
  let cse12 := 20*cse2*xi in
  let cse13 := 60*cse5 in
  let cse14 := cse13*cse9 in
  let cse15 := cse11*cse13 in
  let cse16 := xi*xi*xi in
  let cse17 := (2/3)*p3 in
  let cse18 := xv*xv*xv in
  let cse19 := 2*p2 in
  let cse20 := 10*cse3 in
  let cse21 := 10*cse2 in
  let cse22 := 20*cse5 in
  let cse23 := 30*cse3 in
  4*Lx*Lx*Lx*Lx*(cse0 - cse1 + 5*cse2 - cse4*xi + cse4*xv + cse6*xi - cse6*xv - p2) + 8*Lx*Lx*Lx*dLx*(-cse10*cse11 - cse10*cse9 + 30*cse11*p1*p2 - cse12 - cse14 - cse15 + 20*cse2*xv - 60*cse3*xi*xv + 120*cse5*xi*xv - cse7 - cse8 + 30*cse9*p1*p2 + 4*p3*xi*xv + 4*p2*xi) + 4*Lx*Lx*(Lx*ddLx + 3*dLx*dLx)*(2*cse0*cse11 - 2*cse1*cse9 - cse11*cse19 + cse11*cse21 - cse11*cse23*xi - cse12*xv - cse14*xv + cse15*xi + cse16*cse17 - cse16*cse20 + cse16*cse22 - cse17*cse18 + cse18*cse20 - cse18*cse22 - cse19*cse9 + cse21*cse9 + cse23*cse9*xv + cse7*xi - cse7*xv + cse8*xi + 1).

(** HIP3Basis_eval.h:231-245 *)
Definition hip3_dnf_2_1 (L : nat -> R) (xv xi p1 p2 p3 : R) : R :=
  let Lx := L 0%nat in
  let dLx := L 1%nat in
  let ddLx := L 2%nat in
  let cse0 := p1*p1 in
  let cse1 := 8*p1 in
  let cse2 := xi*xv in
  let cse3 := xi*xi in
  let cse4 := 6*p2 in
  let cse5 := cse3*cse4 in
  let cse6 := xv*xv in
  let cse7 := 30*cse0 in
  let cse8 := cse6*cse7 in
  let cse9 := 4*p1 in
  let cse10 := xi*xi*xi in
  let cse11 := xv*xv*xv in
  4*Lx*Lx*Lx*Lx*(-15*cse0*xi + 15*cse0*xv - 2*p1 + 3*p2*xi - 3*p2*xv) + 8*Lx*Lx*Lx*dLx*(-60*cse0*cse2 + cse1*xi - cse1*xv + 12*cse2*p2 + cse3*cse7 - cse4*cse6 - cse5 + cse8 + 1) + 4*Lx*Lx*(Lx*ddLx + 3*dLx*dLx)*(-10*cse0*cse10 + 10*cse0*cse11 + 30*cse0*cse3*xv + 2*cse10*p2 - 2*cse11*p2 - cse3*cse9 - cse5*xv - cse6*cse9 + 6*cse6*p2*xi - cse8*xi + 8*p1*xi*xv - xi + xv).

(** HIP3Basis_eval.h:246-255 *)
Definition hip3_dnf_2_2 (L : nat -> R) (xv xi p1 p2 p3 : R) : R :=
  let Lx := L 0%nat in
  let dLx := L 1%nat in
  let ddLx := L 2%nat in
  let cse0 := 12*p1 in
  let cse1 := xi*xi in
  let cse2 := 6*p1 in
  let cse3 := cse1*cse2 in
  let cse4 := xv*xv in
  let cse5 := cse2*cse4 in
  let cse6 := 2*p1 in
  Lx*Lx*Lx*Lx*(cse0*xi - cse0*xv + 1) + 8*Lx*Lx*Lx*dLx*(-cse3 - cse5 + 12*p1*xi*xv - xi + xv) + 4*Lx*Lx*(Lx*ddLx + 3*dLx*dLx)*((1/2)*cse1 - cse3*xv + (1/2)*cse4 + cse5*xi + cse6*xi*xi*xi - cse6*xv*xv*xv - xi*xv).

(** HIP3Basis_eval.h:256-260 *)
Definition hip3_dnf_2_3 (L : nat -> R) (xv xi p1 p2 p3 : R) : R :=
  let Lx := L 0%nat in
  let dLx := L 1%nat in
  let ddLx := L 2%nat in
  let cse0 := xi*xi in
  let cse1 := (1/2)*xv*xv in
  Lx*Lx*Lx*Lx*(-xi + xv) + 8*Lx*Lx*Lx*dLx*((1/2)*cse0 + cse1 - xi*xv) + 4*Lx*Lx*(Lx*ddLx + 3*dLx*dLx)*((1/2)*cse0*xv - cse1*xi - 1/6*xi*xi*xi + (1/6)*xv*xv*xv).

(** HIP3Basis_eval.h:288-316 *)
Definition hip3_dnf_3_0 (L : nat -> R) (xv xi p1 p2 p3 : R) : R :=
  let Lx := L 0%nat in
  let dLx := L 1%nat in
  let ddLx := L 2%nat in
  let d3Lx := L 3%nat in
  let cse0 := p1*p1*p1 in
  let cse1 := 30*cse0 in
  let cse2 := p3*xi in
  let cse3 := p3*xv in
  let cse4 := p1*p1 in
  let cse5 := p1*p2 in
  let cse6 := 15*cse5 in
  let cse7 := Lx*Lx in
  let cse8 := Lx*ddLx in
  let cse9 := 4*p1 in
  let cse10 := 4*p2*xv in
  let cse11 := xi*xi in
  let cse12 := 2*p3 in
  let cse13 := xv*xv in
  let cse14 := 20*cse4*xi in
  let cse15 := 60*cse0 in
  let cse16 := cse11*cse15 in
  let cse17 := cse13*cse15 in
  let cse18 := xi*xi*xi in
  let cse19 := (2/3)*p3 in
  let cse20 := xv*xv*xv in
  let cse21 := 2*p2 in
  let cse22 := 10*cse5 in
  let cse23 := 10*cse4 in
  let cse24 := 20*cse0 in
  let cse25 := 30*cse5 in
  4*Lx*Lx*Lx*Lx*(-cse1 - p3 + 15*p1*p2) + 48*Lx*Lx*Lx*dLx*(cse1*xi - cse1*xv + cse2 - cse3 + 5*cse4 - cse6*xi + cse6*xv - p2) + 4*Lx*(cse7*d3Lx + 9*cse8*dLx + 6*dLx*dLx*dLx)*(cse10*xi - cse11*cse21 + cse11*cse23 + cse11*cse25*xv - 2*cse11*cse3 + 2*cse13*cse2 - cse13*cse21 + cse13*cse23 - cse13*cse25*xi - cse14*xv - cse16*xv + cse17*xi + cse18*cse19 - cse18*cse22 + cse18*cse24 - cse19*cse20 + cse20*cse22 - cse20*cse24 + cse9*xi - cse9*xv + 1) + 12*cse7*(cse8 + 3*dLx*dLx)*(120*cse0*xi*xv - cse10 - cse11*cse12 + 30*cse11*p1*p2 - cse12*cse13 + 30*cse13*p1*p2 - cse14 - cse16 - cse17 + 20*cse4*xv - 60*cse5*xi*xv - cse9 + 4*p3*xi*xv + 4*p2*xi).

(** HIP3Basis_eval.h:317-333 *)
Definition hip3_dnf_3_1 (L : nat -> R) (xv xi p1 p2 p3 : R) : R :=
  let Lx := L 0%nat in
  let dLx := L 1%nat in
  let ddLx := L 2%nat in
  let d3Lx := L 3%nat in
  let cse0 := p1*p1 in
  let cse1 := Lx*Lx in
  let cse2 := Lx*ddLx in
  let cse3 := 8*p1 in
  let cse4 := xi*xv in
  let cse5 := xi*xi in
  let cse6 := 6*p2 in
  let cse7 := cse5*cse6 in
  let cse8 := xv*xv in
  let cse9 := 30*cse0 in
  let cse10 := cse8*cse9 in
  let cse11 := 4*p1 in
  let cse12 := xi*xi*xi in
  let cse13 := xv*xv*xv in
  12*Lx*Lx*Lx*Lx*(5*cse0 - p2) + 48*Lx*Lx*Lx*dLx*(-15*cse0*xi + 15*cse0*xv - 2*p1 + 3*p2*xi - 3*p2*xv) + 4*Lx*(cse1*d3Lx + 9*cse2*dLx + 6*dLx*dLx*dLx)*(-10*cse0*cse12 + 10*cse0*cse13 + 30*cse0*cse5*xv - cse10*xi - cse11*cse5 - cse11*cse8 + 2*cse12*p2 - 2*cse13*p2 - cse7*xv + 6*cse8*p2*xi + 8*p1*xi*xv - xi + xv) + 12*cse1*(cse2 + 3*dLx*dLx)*(-60*cse0*cse4 + cse10 + cse3*xi - cse3*xv + 12*cse4*p2 + cse5*cse9 - cse6*cse8 - cse7 + 1).

(** HIP3Basis_eval.h:334-345 *)
Definition hip3_dnf_3_2 (L : nat -> R) (xv xi p1 p2 p3 : R) : R :=
  let Lx := L 0%nat in
  let dLx := L 1%nat in
  let ddLx := L 2%nat in
  let d3Lx := L 3%nat in
  let cse0 := 12*p1 in
  let cse1 := Lx*Lx in
  let cse2 := Lx*ddLx in
  let cse3 := xi*xi in
  let cse4 := 6*p1 in
  let cse5 := cse3*cse4 in
  let cse6 := xv*xv in
  let cse7 := cse4*cse6 in
  let cse8 := 2*p1 in
  -Lx*Lx*Lx*Lx*cse0 + 12*Lx*Lx*Lx*dLx*(cse0*xi - cse0*xv + 1) + 4*Lx*(cse1*d3Lx + 9*cse2*dLx + 6*dLx*dLx*dLx)*((1/2)*cse3 - cse5*xv + (1/2)*cse6 + cse7*xi + cse8*xi*xi*xi - cse8*xv*xv*xv - xi*xv) + 12*cse1*(cse2 + 3*dLx*dLx)*(-cse5 - cse7 + 12*p1*xi*xv - xi + xv).

(** HIP3Basis_eval.h:346-352 *)
Definition hip3_dnf_3_3 (L : nat -> R) (xv xi p1 p2 p3 : R) : R :=
  let Lx := L 0%nat in
  let dLx := L 1%nat in
  let ddLx := L 2%nat in
  let d3Lx := L 3%nat in
  let cse0 := Lx*Lx in
  let cse1 := Lx*ddLx in
  let cse2 := xi*xi in
  let cse3 := (1/2)*xv*xv in
  Lx*Lx*Lx*Lx + 12*Lx*Lx*Lx*dLx*(-xi + xv) + 4*Lx*(cse0*d3Lx + 9*cse1*dLx + 6*dLx*dLx*dLx)*((1/2)*cse2*xv - cse3*xi - 1/6*xi*xi*xi + (1/6)*xv*xv*xv) + 12*cse0*(cse1 + 3*dLx*dLx)*((1/2)*cse2 + cse3 - xi*xv).

(** HIP3Basis_eval.h:383-414 *)
Definition hip3_dnf_4_0 (L : nat -> R) (xv xi p1 p2 p3 : R) : R :=
  let Lx := L 0%nat in
  let dLx := L 1%nat in
  let ddLx := L 2%nat in
  let d3Lx := L 3%nat in
  let d4Lx := L 4%nat in
  let cse0 := Lx*Lx*Lx in
  let cse1 := p1*p1*p1 in
  let cse2 := 30*cse1 in
  let cse3 := Lx*Lx in
  let cse4 := Lx*ddLx in
  let cse5 := dLx*dLx in
  let cse6 := p3*xi in
  let cse7 := p3*xv in
  let cse8 := p1*p1 in
  let cse9 := p1*p2 in
  let cse10 := 15*cse9 in
  let cse11 := cse3*d3Lx in
  let cse12 := 4*p1 in
  let cse13 := 4*p2*xv in
  let cse14 := xi*xi in
  let cse15 := 2*p3 in
  let cse16 := xv*xv in
  let cse17 := 20*cse8*xi in
  let cse18 := 60*cse1 in
  let cse19 := cse14*cse18 in
  let cse20 := cse16*cse18 in
  let cse21 := xi*xi*xi in
  let cse22 := (2/3)*p3 in
  let cse23 := xv*xv*xv in
  let cse24 := 2*p2 in
  let cse25 := 10*cse9 in
  let cse26 := 10*cse8 in
  let cse27 := 20*cse1 in
  let cse28 := 30*cse9 in
  16*Lx*(cse11 + 9*cse4*dLx + 6*dLx*dLx*dLx)*(120*cse1*xi*xv - cse12 - cse13 - cse14*cse15 + 30*cse14*p1*p2 - cse15*cse16 + 30*cse16*p1*p2 - cse17 - cse19 - cse20 + 20*cse8*xv - 60*cse9*xi*xv + 4*p3*xi*xv + 4*p2*xi) + 64*cse0*dLx*(-cse2 - p3 + 15*p1*p2) + 96*cse3*(cse4 + 3*cse5)*(-cse10*xi + cse10*xv + cse2*xi - cse2*xv + cse6 - cse7 + 5*cse8 - p2) + (4*cse0*d4Lx + 48*cse11*dLx + 36*cse3*ddLx*ddLx + 144*cse4*cse5 + 24*dLx*dLx*dLx*dLx)*(cse12*xi - cse12*xv + cse13*xi - cse14*cse24 + cse14*cse26 + cse14*cse28*xv - 2*cse14*cse7 - cse16*cse24 + cse16*cse26 - cse16*cse28*xi + 2*cse16*cse6 - cse17*xv - cse19*xv + cse20*xi + cse21*cse22 - cse21*cse25 + cse21*cse27 - cse22*cse23 + cse23*cse25 - cse23*cse27 + 1).

(** HIP3Basis_eval.h:415-434 *)
Definition hip3_dnf_4_1 (L : nat -> R) (xv xi p1 p2 p3 : R) : R :=
  let Lx := L 0%nat in
  let dLx := L 1%nat in
  let ddLx := L 2%nat in
  let d3Lx := L 3%nat in
  let d4Lx := L 4%nat in
  let cse0 := Lx*Lx*Lx in
  let cse1 := p1*p1 in
  let cse2 := Lx*Lx in
  let cse3 := Lx*ddLx in
  let cse4 := dLx*dLx in
  let cse5 := cse2*d3Lx in
  let cse6 := 8*p1 in
  let cse7 := xi*xv in
  let cse8 := xi*xi in
  let cse9 := 6*p2 in
  let cse10 := cse8*cse9 in
  let cse11 := xv*xv in
  let cse12 := 30*cse1 in
  let cse13 := cse11*cse12 in
  let cse14 := 4*p1 in
  let cse15 := xi*xi*xi in
  let cse16 := xv*xv*xv in
  16*Lx*(9*cse3*dLx + cse5 + 6*dLx*dLx*dLx)*(-60*cse1*cse7 - cse10 - cse11*cse9 + cse12*cse8 + cse13 + cse6*xi - cse6*xv + 12*cse7*p2 + 1) + 192*cse0*dLx*(5*cse1 - p2) + 96*cse2*(cse3 + 3*cse4)*(-15*cse1*xi + 15*cse1*xv - 2*p1 + 3*p2*xi - 3*p2*xv) + (4*cse0*d4Lx + 36*cse2*ddLx*ddLx + 144*cse3*cse4 + 48*cse5*dLx + 24*dLx*dLx*dLx*dLx)*(-10*cse1*cse15 + 10*cse1*cse16 + 30*cse1*cse8*xv - cse10*xv - cse11*cse14 + 6*cse11*p2*xi - cse13*xi - cse14*cse8 + 2*cse15*p2 - 2*cse16*p2 + 8*p1*xi*xv - xi + xv).

(** HIP3Basis_eval.h:435-449 *)
Definition hip3_dnf_4_2 (L : nat -> R) (xv xi p1 p2 p3 : R) : R :=
  let Lx := L 0%nat in
  let dLx := L 1%nat in
  let ddLx := L 2%nat in
  let d3Lx := L 3%nat in
  let d4Lx := L 4%nat in
  let cse0 := Lx*Lx*Lx in
  let cse1 := Lx*Lx in
  let cse2 := Lx*ddLx in
  let cse3 := dLx*dLx in
  let cse4 := 12*p1 in
  let cse5 := cse1*d3Lx in
  let cse6 := xi*xi in
  let cse7 := 6*p1 in
  let cse8 := cse6*cse7 in
  let cse9 := xv*xv in
  let cse10 := cse7*cse9 in
  let cse11 := 2*p1 in
  16*Lx*(9*cse2*dLx + cse5 + 6*dLx*dLx*dLx)*(-cse10 - cse8 + 12*p1*xi*xv - xi + xv) - 192*cse0*dLx*p1 + 24*cse1*(cse2 + 3*cse3)*(cse4*xi - cse4*xv + 1) + (4*cse0*d4Lx + 36*cse1*ddLx*ddLx + 144*cse2*cse3 + 48*cse5*dLx + 24*dLx*dLx*dLx*dLx)*(cse10*xi + cse11*xi*xi*xi - cse11*xv*xv*xv + (1/2)*cse6 - cse8*xv + (1/2)*cse9 - xi*xv).

(** HIP3Basis_eval.h:450-459 *)
Definition hip3_dnf_4_3 (L : nat -> R) (xv xi p1 p2 p3 : R) : R :=
  let Lx := L 0%nat in
  let dLx := L 1%nat in
  let ddLx := L 2%nat in
  let d3Lx := L 3%nat in
  let d4Lx := L 4%nat in
  let cse0 := Lx*Lx*Lx in
  let cse1 := Lx*Lx in
  let cse2 := Lx*ddLx in
  let cse3 := dLx*dLx in
  let cse4 := xi*xi in
  let cse5 := (1/2)*xv*xv in
  let cse6 := cse1*d3Lx in
  16*Lx*((1/2)*cse4 + cse5 - xi*xv)*(9*cse2*dLx + cse6 + 6*dLx*dLx*dLx) + 16*cse0*dLx + 24*cse1*(cse2 + 3*cse3)*(-xi + xv) + ((1/2)*cse4*xv - cse5*xi - 1/6*xi*xi*xi + (1/6)*xv*xv*xv)*(4*cse0*d4Lx + 36*cse1*ddLx*ddLx + 144*cse2*cse3 + 48*cse6*dLx + 24*dLx*dLx*dLx*dLx).

(** HIP3Basis_eval.h:493-526 *)
Definition hip3_dnf_5_0 (L : nat -> R) (xv xi p1 p2 p3 : R) : R :=
  let Lx := L 0%nat in
  let dLx := L 1%nat in
  let ddLx := L 2%nat in
  let d3Lx := L 3%nat in
  let d4Lx := L 4%nat in
  let d5Lx := L 5%nat in
  let cse0 := Lx*Lx in
  let cse1 := Lx*ddLx in
  let cse2 := dLx*dLx in
  let cse3 := p1*p1*p1 in
  let cse4 := 30*cse3 in
  let cse5 := dLx*dLx*dLx in
  let cse6 := cse0*d3Lx in
  let cse7 := p3*xi in
  let cse8 := p3*xv in
  let cse9 := p1*p1 in
  let cse10 := p1*p2 in
  let cse11 := 15*cse10 in
  let cse12 := Lx*Lx*Lx in
  let cse13 := ddLx*ddLx in
  let cse14 := 4*p1 in
  let cse15 := 4*p2*xv in
  let cse16 := xi*xi in
  let cse17 := 2*p3 in
  let cse18 := xv*xv in
  let cse19 := 20*cse9*xi in
  let cse20 := 60*cse3 in
  let cse21 := cse16*cse20 in
  let cse22 := cse18*cse20 in
  let cse23 := xi*xi*xi in
  let cse24 := (2/3)*p3 in
  let cse25 := xv*xv*xv in
  let cse26 := 2*p2 in
  let cse27 := 10*cse10 in
  let cse28 := 10*cse9 in
  let cse29 := 20*cse3 in
  let cse30 := 30*cse10 in
  160*Lx*(9*cse1*dLx + 6*cse5 + cse6)*(-cse11*xi + cse11*xv + cse4*xi - cse4*xv + cse7 - cse8 + 5*cse9 - p2) + 160*cse0*(cse1 + 3*cse2)*(-cse4 - p3 + 15*p1*p2) + (180*cse0*cse13 + 720*cse1*cse2 + 20*cse12*d4Lx + 240*cse6*dLx + 120*dLx*dLx*dLx*dLx)*(-60*cse10*xi*xv - cse14 - cse15 - cse16*cse17 + 30*cse16*p1*p2 - cse17*cse18 + 30*cse18*p1*p2 - cse19 - cse21 - cse22 + 120*cse3*xi*xv + 20*cse9*xv + 4*p3*xi*xv + 4*p2*xi) + (360*Lx*cse13*dLx + 240*Lx*cse2*d3Lx + 60*cse0*d4Lx*dLx + 4*cse12*d5Lx + 240*cse5*ddLx + 120*cse6*ddLx)*(cse14*xi - cse14*xv + cse15*xi - cse16*cse26 + cse16*cse28 + cse16*cse30*xv - 2*cse16*cse8 - cse18*cse26 + cse18*cse28 - cse18*cse30*xi + 2*cse18*cse7 - cse19*xv - cse21*xv + cse22*xi + cse23*cse24 - cse23*cse27 + cse23*cse29 - cse24*cse25 + cse25*cse27 - cse25*cse29 + 1).

(** HIP3Basis_eval.h:527-548 *)
Definition hip3_dnf_5_1 (L : nat -> R) (xv xi p1 p2 p3 : R) : R :=
  let Lx := L 0%nat in
  let dLx := L 1%nat in
  let ddLx := L 2%nat in
  let d3Lx := L 3%nat in
  let d4Lx := L 4%nat in
  let d5Lx := L 5%nat in
  let cse0 := Lx*Lx in
  let cse1 := p1*p1 in
  let cse2 := Lx*ddLx in
  let cse3 := dLx*dLx in
  let cse4 := dLx*dLx*dLx in
  let cse5 := cse0*d3Lx in
  let cse6 := Lx*Lx*Lx in
  let cse7 := ddLx*ddLx in
  let cse8 := 8*p1 in
  let cse9 := xi*xv in
  let cse10 := xi*xi in
  let cse11 := 6*p2 in
  let cse12 := cse10*cse11 in
  let cse13 := xv*xv in
  let cse14 := 30*cse1 in
  let cse15 := cse13*cse14 in
  let cse16 := 4*p1 in
  let cse17 := xi*xi*xi in
  let cse18 := xv*xv*xv in
  160*Lx*(9*cse2*dLx + 6*cse4 + cse5)*(-15*cse1*xi + 15*cse1*xv - 2*p1 + 3*p2*xi - 3*p2*xv) + 480*cse0*(5*cse1 - p2)*(cse2 + 3*cse3) + (180*cse0*cse7 + 720*cse2*cse3 + 240*cse5*dLx + 20*cse6*d4Lx + 120*dLx*dLx*dLx*dLx)*(-60*cse1*cse9 + cse10*cse14 - cse11*cse13 - cse12 + cse15 + cse8*xi - cse8*xv + 12*cse9*p2 + 1) + (240*Lx*cse3*d3Lx + 360*Lx*cse7*dLx + 60*cse0*d4Lx*dLx + 240*cse4*ddLx + 120*cse5*ddLx + 4*cse6*d5Lx)*(30*cse1*cse10*xv - 10*cse1*cse17 + 10*cse1*cse18 - cse10*cse16 - cse12*xv - cse13*cse16 + 6*cse13*p2*xi - cse15*xi + 2*cse17*p2 - 2*cse18*p2 + 8*p1*xi*xv - xi + xv).

(** HIP3Basis_eval.h:549-565 *)
Definition hip3_dnf_5_2 (L : nat -> R) (xv xi p1 p2 p3 : R) : R :=
  let Lx := L 0%nat in
  let dLx := L 1%nat in
  let ddLx := L 2%nat in
  let d3Lx := L 3%nat in
  let d4Lx := L 4%nat in
  let d5Lx := L 5%nat in
  let cse0 := Lx*Lx in
  let cse1 := Lx*ddLx in
  let cse2 := dLx*dLx in
  let cse3 := 12*p1 in
  let cse4 := dLx*dLx*dLx in
  let cse5 := cse0*d3Lx in
  let cse6 := xi*xi in
  let cse7 := 6*p1 in
  let cse8 := cse6*cse7 in
  let cse9 := xv*xv in
  let cse10 := cse7*cse9 in
  let cse11 := Lx*Lx*Lx in
  let cse12 := ddLx*ddLx in
  let cse13 := 2*p1 in
  40*Lx*(9*cse1*dLx + 6*cse4 + cse5)*(cse3*xi - cse3*xv + 1) - 480*cse0*p1*(cse1 + 3*cse2) + (-cse10 - cse8 + 12*p1*xi*xv - xi + xv)*(180*cse0*cse12 + 720*cse1*cse2 + 20*cse11*d4Lx + 240*cse5*dLx + 120*dLx*dLx*dLx*dLx) + (360*Lx*cse12*dLx + 240*Lx*cse2*d3Lx + 60*cse0*d4Lx*dLx + 4*cse11*d5Lx + 240*cse4*ddLx + 120*cse5*ddLx)*(cse10*xi + cse13*xi*xi*xi - cse13*xv*xv*xv + (1/2)*cse6 - cse8*xv + (1/2)*cse9 - xi*xv).

(** HIP3Basis_eval.h:566-577 *)
Definition hip3_dnf_5_3 (L : nat -> R) (xv xi p1 p2 p3 : R) : R :=
  let Lx := L 0%nat in
  let dLx := L 1%nat in
  let ddLx := L 2%nat in
  let d3Lx := L 3%nat in
  let d4Lx := L 4%nat in
  let d5Lx := L 5%nat in
  let cse0 := Lx*Lx in
  let cse1 := Lx*ddLx in
  let cse2 := dLx*dLx in
  let cse3 := dLx*dLx*dLx in
  let cse4 := cse0*d3Lx in
  let cse5 := xi*xi in
  let cse6 := (1/2)*xv*xv in
  let cse7 := Lx*Lx*Lx in
  let cse8 := ddLx*ddLx in
  40*Lx*(-xi + xv)*(9*cse1*dLx + 6*cse3 + cse4) + 40*cse0*(cse1 + 3*cse2) + ((1/2)*cse5 + cse6 - xi*xv)*(180*cse0*cse8 + 720*cse1*cse2 + 240*cse4*dLx + 20*cse7*d4Lx + 120*dLx*dLx*dLx*dLx) + ((1/2)*cse5*xv - cse6*xi - 1/6*xi*xi*xi + (1/6)*xv*xv*xv)*(240*Lx*cse2*d3Lx + 360*Lx*cse8*dLx + 60*cse0*d4Lx*dLx + 240*cse3*ddLx + 120*cse4*ddLx + 4*cse7*d5Lx).

(** HIP3Basis_eval.h: the switch over n and the column kind *)
Definition hip3_dnf (n kind : nat) : (nat -> R) -> R -> R -> R -> R -> R -> R :=
  match n, kind with
  | 0%nat, 0%nat => hip3_dnf_0_0
  | 0%nat, 1%nat => hip3_dnf_0_1
  | 0%nat, 2%nat => hip3_dnf_0_2
  | 0%nat, 3%nat => hip3_dnf_0_3
  | 1%nat, 0%nat => hip3_dnf_1_0
  | 1%nat, 1%nat => hip3_dnf_1_1
  | 1%nat, 2%nat => hip3_dnf_1_2
  | 1%nat, 3%nat => hip3_dnf_1_3
  | 2%nat, 0%nat => hip3_dnf_2_0
  | 2%nat, 1%nat => hip3_dnf_2_1
  | 2%nat, 2%nat => hip3_dnf_2_2
  | 2%nat, 3%nat => hip3_dnf_2_3
  | 3%nat, 0%nat => hip3_dnf_3_0
  | 3%nat, 1%nat => hip3_dnf_3_1
  | 3%nat, 2%nat => hip3_dnf_3_2
  | 3%nat, 3%nat => hip3_dnf_3_3
  | 4%nat, 0%nat => hip3_dnf_4_0
  | 4%nat, 1%nat => hip3_dnf_4_1
  | 4%nat, 2%nat => hip3_dnf_4_2
  | 4%nat, 3%nat => hip3_dnf_4_3
  | 5%nat, 0%nat => hip3_dnf_5_0
  | 5%nat, 1%nat => hip3_dnf_5_1
  | 5%nat, 2%nat => hip3_dnf_5_2
  | 5%nat, 3%nat => hip3_dnf_5_3
  | _, _ => fun _ _ _ _ _ _ => 0
  end.

(** HIP3Basis_over_r.h:95-104 *)
Definition hip3_or_z_0_1 (L : nat -> R) (xv xi p1 p2 p3 : R) : R :=
  let Lx := L 0%nat in
  let cse0 := 4*p1 in
  let cse1 := xi*xv in
  let cse2 := xi*xi in
  let cse3 := 2*p2 in
  let cse4 := xv*xv in
  let cse5 := p1*p1 in
  let cse6 := 10*cse5 in
  Lx*Lx*Lx*Lx*(cse0*xi - cse0*xv - 20*cse1*cse5 + 4*cse1*p2 - cse2*cse3 + cse2*cse6 - cse3*cse4 + cse4*cse6 + 1).

(** HIP3Basis_over_r.h:105-108 *)
Definition hip3_or_z_0_2 (L : nat -> R) (xv xi p1 p2 p3 : R) : R :=
  let Lx := L 0%nat in
  let cse0 := 2*p1 in
  Lx*Lx*Lx*Lx*(-cse0*xi*xi - cse0*xv*xv + 4*p1*xi*xv - 1/2*xi + (1/2)*xv).

(** HIP3Basis_over_r.h:109-111 *)
Definition hip3_or_z_0_3 (L : nat -> R) (xv xi p1 p2 p3 : R) : R :=
  let Lx := L 0%nat in
  Lx*Lx*Lx*Lx*((1/6)*xi*xi - 1/3*xi*xv + (1/6)*xv*xv).

(** HIP3Basis_over_r.h:116-126 *)
Definition hip3_or_z_1_1 (L : nat -> R) (xv xi p1 p2 p3 : R) : R :=
  let Lx := L 0%nat in
  let dLx := L 1%nat in
  let cse0 := 4*p1 in
  let cse1 := 4*p2*xv in
  let cse2 := p1*p1 in
  let cse3 := 20*cse2*xi in
  let cse4 := xi*xi in
  let cse5 := 2*p2 in
  let cse6 := xv*xv in
  let cse7 := 10*cse2 in
  Lx*Lx*Lx*Lx*(-cse0 - cse1 + 20*cse2*xv - cse3 + 4*p2*xi) + 4*Lx*Lx*Lx*dLx*(cse0*xi - cse0*xv + cse1*xi - cse3*xv - cse4*cse5 + cse4*cse7 - cse5*cse6 + cse6*cse7 + 1).

(** HIP3Basis_over_r.h:127-131 *)
Definition hip3_or_z_1_2 (L : nat -> R) (xv xi p1 p2 p3 : R) : R :=
  let Lx := L 0%nat in
  let dLx := L 1%nat in
  let cse0 := 4*p1 in
  let cse1 := 2*p1 in
  Lx*Lx*Lx*Lx*(cse0*xi - cse0*xv + 1/2) + 4*Lx*Lx*Lx*dLx*(-cse1*xi*xi - cse1*xv*xv + 4*p1*xi*xv - 1/2*xi + (1/2)*xv).

(** HIP3Basis_over_r.h:132-135 *)
Definition hip3_or_z_1_3 (L : nat -> R) (xv xi p1 p2 p3 : R) : R :=
  let Lx := L 0%nat in
  let dLx := L 1%nat in
  let cse0 := (1/3)*xi in
  Lx*Lx*Lx*Lx*(-cse0 + (1/3)*xv) + 4*Lx*Lx*Lx*dLx*(-cse0*xv + (1/6)*xi*xi + (1/6)*xv*xv).

(** HIP3Basis_over_r.h:140-150 *)
Definition hip3_or_z_2_1 (L : nat -> R) (xv xi p1 p2 p3 : R) : R :=
  let Lx := L 0%nat in
  let dLx := L 1%nat in
  let ddLx := L 2%nat in
  let cse0 := p1*p1 in
  let cse1 := 4*p1 in
  let cse2 := 4*p2*xv in
  let cse3 := 20*cse0*xi in
  let cse4 := xi*xi in
  let cse5 := 2*p2 in
  let cse6 := xv*xv in
  let cse7 := 10*cse0 in
  4*Lx*Lx*Lx*Lx*(5*cse0 - p2) + 8*Lx*Lx*Lx*dLx*(20*cse0*xv - cse1 - cse2 - cse3 + 4*p2*xi) + 4*Lx*Lx*(Lx*ddLx + 3*dLx*dLx)*(cse1*xi - cse1*xv + cse2*xi - cse3*xv - cse4*cse5 + cse4*cse7 - cse5*cse6 + cse6*cse7 + 1).

(** HIP3Basis_over_r.h:151-155 *)
Definition hip3_or_z_2_2 (L : nat -> R) (xv xi p1 p2 p3 : R) : R :=
  let Lx := L 0%nat in
  let dLx := L 1%nat in
  let ddLx := L 2%nat in
  let cse0 := 4*p1 in
  let cse1 := 2*p1 in
  -Lx*Lx*Lx*Lx*cse0 + 8*Lx*Lx*Lx*dLx*(cse0*xi - cse0*xv + 1/2) + 4*Lx*Lx*(Lx*ddLx + 3*dLx*dLx)*(-cse1*xi*xi - cse1*xv*xv + 4*p1*xi*xv - 1/2*xi + (1/2)*xv).

(** HIP3Basis_over_r.h:156-159 *)
Definition hip3_or_z_2_3 (L : nat -> R) (xv xi p1 p2 p3 : R) : R :=
  let Lx := L 0%nat in
  let dLx := L 1%nat in
  let ddLx := L 2%nat in
  let cse0 := (1/3)*xi in
  (1/3)*Lx*Lx*Lx*Lx + 8*Lx*Lx*Lx*dLx*(-cse0 + (1/3)*xv) + 4*Lx*Lx*(Lx*ddLx + 3*dLx*dLx)*(-cse0*xv + (1/6)*xi*xi + (1/6)*xv*xv).

(** HIP3Basis_over_r.h:173-194 *)
Definition hip3_or_p_0_0 (L : nat -> R) (xv xi p1 p2 p3 : R) : R :=
  let pr := L 0%nat in
  let cse0 := 4*p1 in
  let cse1 := xi*xv in
  let cse2 := xi*xi*xi in
  let cse3 := (2/3)*p3 in
  let cse4 := xv*xv*xv in
  let cse5 := xi*xi in
  let cse6 := 2*p2 in
  let cse7 := xv*xv in
  let cse8 := 2*p3 in
  let cse9 := cse7*xi in
  let cse10 := cse5*xv in
  let cse11 := p1*p2 in
  let cse12 := 10*cse11 in
  let cse13 := p1*p1 in
  let cse14 := 10*cse13 in
  let cse15 := p1*p1*p1 in
  let cse16 := 20*cse15 in
  let cse17 := 30*cse11 in
  let cse18 := 60*cse15 in
  pr*pr*pr*pr*(xv + 1) ^ 3*(cse0*xi - cse0*xv - 20*cse1*cse13 + 4*cse1*p2 + cse10*cse17 - cse10*cse18 - cse10*cse8 - cse12*cse2 + cse12*cse4 + cse14*cse5 + cse14*cse7 + cse16*cse2 - cse16*cse4 - cse17*cse9 + cse18*cse9 + cse2*cse3 - cse3*cse4 - cse5*cse6 - cse6*cse7 + cse8*cse9 + 1)/(xi + 1) ^ 4.

(** HIP3Basis_over_r.h:195-203 *)
Definition hip3_or_p_0_1 (L : nat -> R) (xv xi p1 p2 p3 : R) : R :=
  let pr := L 0%nat in
  let cse0 := xi*xi in
  let cse1 := 4*p1 in
  let cse2 := xv*xv in
  let cse3 := xi*xi*xi in
  let cse4 := xv*xv*xv in
  let cse5 := p1*p1 in
  pr*pr*pr*pr*(xv + 1) ^ 3*(-cse0*cse1 + 30*cse0*cse5*xv - 6*cse0*p2*xv - cse1*cse2 - 30*cse2*cse5*xi + 6*cse2*p2*xi - 10*cse3*cse5 + 2*cse3*p2 + 10*cse4*cse5 - 2*cse4*p2 + 8*p1*xi*xv - xi + xv)/(xi + 1) ^ 4.

(** HIP3Basis_over_r.h:204-210 *)
Definition hip3_or_p_0_2 (L : nat -> R) (xv xi p1 p2 p3 : R) : R :=
  let pr := L 0%nat in
  let cse0 := xi*xi in
  let cse1 := xv*xv in
  let cse2 := 2*p1 in
  let cse3 := 6*p1 in
  pr*pr*pr*pr*(xv + 1) ^ 3*(-cse0*cse3*xv + (1/2)*cse0 + cse1*cse3*xi + (1/2)*cse1 + cse2*xi*xi*xi - cse2*xv*xv*xv - xi*xv)/(xi + 1) ^ 4.

(** HIP3Basis_over_r.h:211-213 *)
Definition hip3_or_p_0_3 (L : nat -> R) (xv xi p1 p2 p3 : R) : R :=
  let pr := L 0%nat in
  pr*pr*pr*pr*(xv + 1) ^ 3*(-1/6*xi*xi*xi + (1/2)*xi*xi*xv - 1/2*xi*xv*xv + (1/6)*xv*xv*xv)/(xi + 1) ^ 4.

(** HIP3Basis_over_r.h:218-246 *)
Definition hip3_or_p_1_0 (L : nat -> R) (xv xi p1 p2 p3 : R) : R :=
  let pr := L 0%nat in
  let dpr := L 1%nat in
  let cse0 := pr*pr*pr*pr in
  let cse1 := xv + 1 in
  let cse2 := cse1*cse1*cse1 in
  let cse3 := 4*p1 in
  let cse4 := 4*p2*xv in
  let cse5 := xi*xi in
  let cse6 := 2*p3 in
  let cse7 := cse5*cse6 in
  let cse8 := xv*xv in
  let cse9 := cse6*cse8 in
  let cse10 := p1*p1 in
  let cse11 := 20*cse10*xi in
  let cse12 := p1*p2 in
  let cse13 := p1*p1*p1 in
  let cse14 := 60*cse13 in
  let cse15 := cse14*cse5 in
  let cse16 := cse14*cse8 in
  let cse17 := xi*xi*xi in
  let cse18 := (2/3)*p3 in
  let cse19 := xv*xv*xv in
  let cse20 := 2*p2 in
  let cse21 := 10*cse12 in
  let cse22 := 10*cse10 in
  let cse23 := 20*cse13 in
  let cse24 := 30*cse12 in
  let cse25 := -cse11*xv - cse15*xv + cse16*xi + cse17*cse18 - cse17*cse21 + cse17*cse23 - cse18*cse19 + cse19*cse21 - cse19*cse23 - cse20*cse5 - cse20*cse8 + cse22*cse5 + cse22*cse8 + cse24*cse5*xv - cse24*cse8*xi + cse3*xi - cse3*xv + cse4*xi - cse7*xv + cse9*xi + 1 in
  (3*cse0*cse1*cse1*cse25 + cse0*cse2*(20*cse10*xv - cse11 - 60*cse12*xi*xv + 120*cse13*xi*xv - cse15 - cse16 - cse3 - cse4 + 30*cse5*p1*p2 - cse7 + 30*cse8*p1*p2 - cse9 + 4*p3*xi*xv + 4*p2*xi) + 4*cse2*cse25*dpr*pr*pr*pr)/(xi + 1) ^ 4.

(** HIP3Basis_over_r.h:247-265 *)
Definition hip3_or_p_1_1 (L : nat -> R) (xv xi p1 p2 p3 : R) : R :=
  let pr := L 0%nat in
  let dpr := L 1%nat in
  let cse0 := pr*pr*pr*pr in
  let cse1 := xv + 1 in
  let cse2 := cse1*cse1*cse1 in
  let cse3 := 8*p1 in
  let cse4 := xi*xv in
  let cse5 := xi*xi in
  let cse6 := 6*p2 in
  let cse7 := cse5*cse6 in
  let cse8 := xv*xv in
  let cse9 := p1*p1 in
  let cse10 := 30*cse9 in
  let cse11 := cse10*cse8 in
  let cse12 := 4*p1 in
  let cse13 := xi*xi*xi in
  let cse14 := xv*xv*xv in
  let cse15 := -cse11*xi - cse12*cse5 - cse12*cse8 - 10*cse13*cse9 + 2*cse13*p2 + 10*cse14*cse9 - 2*cse14*p2 + 30*cse5*cse9*xv - cse7*xv + 6*cse8*p2*xi + 8*p1*xi*xv - xi + xv in
  (3*cse0*cse1*cse1*cse15 + cse0*cse2*(cse10*cse5 + cse11 + cse3*xi - cse3*xv - 60*cse4*cse9 + 12*cse4*p2 - cse6*cse8 - cse7 + 1) + 4*cse15*cse2*dpr*pr*pr*pr)/(xi + 1) ^ 4.

(** HIP3Basis_over_r.h:266-278 *)
Definition hip3_or_p_1_2 (L : nat -> R) (xv xi p1 p2 p3 : R) : R :=
  let pr := L 0%nat in
  let dpr := L 1%nat in
  let cse0 := pr*pr*pr*pr in
  let cse1 := xv + 1 in
  let cse2 := cse1*cse1*cse1 in
  let cse3 := xi*xi in
  let cse4 := 6*p1 in
  let cse5 := cse3*cse4 in
  let cse6 := xv*xv in
  let cse7 := cse4*cse6 in
  let cse8 := 2*p1 in
  let cse9 := (1/2)*cse3 - cse5*xv + (1/2)*cse6 + cse7*xi + cse8*xi*xi*xi - cse8*xv*xv*xv - xi*xv in
  (3*cse0*cse1*cse1*cse9 + cse0*cse2*(-cse5 - cse7 + 12*p1*xi*xv - xi + xv) + 4*cse2*cse9*dpr*pr*pr*pr)/(xi + 1) ^ 4.

(** HIP3Basis_over_r.h:279-287 *)
Definition hip3_or_p_1_3 (L : nat -> R) (xv xi p1 p2 p3 : R) : R :=
  let pr := L 0%nat in
  let dpr := L 1%nat in
  let cse0 := pr*pr*pr*pr in
  let cse1 := xv + 1 in
  let cse2 := cse1*cse1*cse1 in
  let cse3 := xi*xi in
  let cse4 := (1/2)*xv*xv in
  let cse5 := (1/2)*cse3*xv - cse4*xi - 1/6*xi*xi*xi + (1/6)*xv*xv*xv in
  (3*cse0*cse1*cse1*cse5 + cse0*cse2*((1/2)*cse3 + cse4 - xi*xv) + 4*cse2*cse5*dpr*pr*pr*pr)/(xi + 1) ^ 4.

(** HIP3Basis_over_r.h:292-327 *)
Definition hip3_or_p_2_0 (L : nat -> R) (xv xi p1 p2 p3 : R) : R :=
  let pr := L 0%nat in
  let dpr := L 1%nat in
  let ddpr := L 2%nat in
  let cse0 := pr*pr*pr*pr in
  let cse1 := p3*xi in
  let cse2 := p3*xv in
  let cse3 := p1*p1 in
  let cse4 := p1*p2 in
  let cse5 := 15*cse4 in
  let cse6 := p1*p1*p1 in
  let cse7 := 30*cse6 in
  let cse8 := xv + 1 in
  let cse9 := cse8*cse8*cse8 in
  let cse10 := 4*cse9 in
  let cse11 := cse8*cse8 in
  let cse12 := 4*p1 in
  let cse13 := 4*p2*xv in
  let cse14 := xi*xi in
  let cse15 := 2*p3 in
  let cse16 := xv*xv in
  let cse17 := 20*cse3*xi in
  let cse18 := 60*cse6 in
  let cse19 := cse14*cse18 in
  let cse20 := cse16*cse18 in
  let cse21 := -cse12 - cse13 - cse14*cse15 + 30*cse14*p1*p2 - cse15*cse16 + 30*cse16*p1*p2 - cse17 - cse19 - cse20 + 20*cse3*xv - 60*cse4*xi*xv + 120*cse6*xi*xv + 4*p3*xi*xv + 4*p2*xi in
  let cse22 := 6*cse0 in
  let cse23 := dpr*pr*pr*pr in
  let cse24 := xi*xi*xi in
  let cse25 := (2/3)*p3 in
  let cse26 := xv*xv*xv in
  let cse27 := 2*p2 in
  let cse28 := 10*cse4 in
  let cse29 := 10*cse3 in
  let cse30 := 20*cse6 in
  let cse31 := 30*cse4 in
  let cse32 := 2*cse1*cse16 + cse12*xi - cse12*xv + cse13*xi - 2*cse14*cse2 - cse14*cse27 + cse14*cse29 + cse14*cse31*xv - cse16*cse27 + cse16*cse29 - cse16*cse31*xi - cse17*xv - cse19*xv + cse20*xi + cse24*cse25 - cse24*cse28 + cse24*cse30 - cse25*cse26 + cse26*cse28 - cse26*cse30 + 1 in
  (cse0*cse10*(cse1 - cse2 + 5*cse3 - cse5*xi + cse5*xv + cse7*xi - cse7*xv - p2) + cse10*cse32*pr*pr*(ddpr*pr + 3*dpr*dpr) + cse11*cse21*cse22 + 24*cse11*cse23*cse32 + 8*cse21*cse23*cse9 + cse22*cse32*cse8)/(xi + 1) ^ 4.

(** HIP3Basis_over_r.h:328-351 *)
Definition hip3_or_p_2_1 (L : nat -> R) (xv xi p1 p2 p3 : R) : R :=
  let pr := L 0%nat in
  let dpr := L 1%nat in
  let ddpr := L 2%nat in
  let cse0 := pr*pr*pr*pr in
  let cse1 := p1*p1 in
  let cse2 := xv + 1 in
  let cse3 := cse2*cse2*cse2 in
  let cse4 := 4*cse3 in
  let cse5 := cse2*cse2 in
  let cse6 := 8*p1 in
  let cse7 := xi*xv in
  let cse8 := xi*xi in
  let cse9 := 6*p2 in
  let cse10 := cse8*cse9 in
  let cse11 := xv*xv in
  let cse12 := 30*cse1 in
  let cse13 := cse11*cse12 in
  let cse14 := -60*cse1*cse7 - cse10 - cse11*cse9 + cse12*cse8 + cse13 + cse6*xi - cse6*xv + 12*cse7*p2 + 1 in
  let cse15 := 6*cse0 in
  let cse16 := dpr*pr*pr*pr in
  let cse17 := 4*p1 in
  let cse18 := xi*xi*xi in
  let cse19 := xv*xv*xv in
  let cse20 := -10*cse1*cse18 + 10*cse1*cse19 + 30*cse1*cse8*xv - cse10*xv - cse11*cse17 + 6*cse11*p2*xi - cse13*xi - cse17*cse8 + 2*cse18*p2 - 2*cse19*p2 + 8*p1*xi*xv - xi + xv in
  (cse0*cse4*(-15*cse1*xi + 15*cse1*xv - 2*p1 + 3*p2*xi - 3*p2*xv) + cse14*cse15*cse5 + 8*cse14*cse16*cse3 + cse15*cse2*cse20 + 24*cse16*cse20*cse5 + cse20*cse4*pr*pr*(ddpr*pr + 3*dpr*dpr))/(xi + 1) ^ 4.

(** HIP3Basis_over_r.h:352-369 *)
Definition hip3_or_p_2_2 (L : nat -> R) (xv xi p1 p2 p3 : R) : R :=
  let pr := L 0%nat in
  let dpr := L 1%nat in
  let ddpr := L 2%nat in
  let cse0 := pr*pr*pr*pr in
  let cse1 := xv + 1 in
  let cse2 := cse1*cse1*cse1 in
  let cse3 := 12*p1 in
  let cse4 := cse1*cse1 in
  let cse5 := xi*xi in
  let cse6 := 6*p1 in
  let cse7 := cse5*cse6 in
  let cse8 := xv*xv in
  let cse9 := cse6*cse8 in
  let cse10 := -cse7 - cse9 + 12*p1*xi*xv - xi + xv in
  let cse11 := 6*cse0 in
  let cse12 := dpr*pr*pr*pr in
  let cse13 := 2*p1 in
  let cse14 := cse13*xi*xi*xi - cse13*xv*xv*xv + (1/2)*cse5 - cse7*xv + (1/2)*cse8 + cse9*xi - xi*xv in
  (cse0*cse2*(cse3*xi - cse3*xv + 1) + cse1*cse11*cse14 + cse10*cse11*cse4 + 8*cse10*cse12*cse2 + 24*cse12*cse14*cse4 + 4*cse14*cse2*pr*pr*(ddpr*pr + 3*dpr*dpr))/(xi + 1) ^ 4.

(** HIP3Basis_over_r.h:370-382 *)
Definition hip3_or_p_2_3 (L : nat -> R) (xv xi p1 p2 p3 : R) : R :=
  let pr := L 0%nat in
  let dpr := L 1%nat in
  let ddpr := L 2%nat in
  let cse0 := pr*pr*pr*pr in
  let cse1 := xv + 1 in
  let cse2 := cse1*cse1*cse1 in
  let cse3 := cse1*cse1 in
  let cse4 := xi*xi in
  let cse5 := (1/2)*xv*xv in
  let cse6 := (1/2)*cse4 + cse5 - xi*xv in
  let cse7 := 6*cse0 in
  let cse8 := dpr*pr*pr*pr in
  let cse9 := (1/2)*cse4*xv - cse5*xi - 1/6*xi*xi*xi + (1/6)*xv*xv*xv in
  (cse0*cse2*(-xi + xv) + cse1*cse7*cse9 + 8*cse2*cse6*cse8 + 4*cse2*cse9*pr*pr*(ddpr*pr + 3*dpr*dpr) + cse3*cse6*cse7 + 24*cse3*cse8*cse9)/(xi + 1) ^ 4.

(** HIP3Basis_over_r.h: node 0 *)
Definition hip3_or_first (n kind : nat) : (nat -> R) -> R -> R -> R -> R -> R -> R :=
  match n, kind with
  | 0%nat, 1%nat => hip3_or_z_0_1
  | 0%nat, 2%nat => hip3_or_z_0_2
  | 0%nat, 3%nat => hip3_or_z_0_3
  | 1%nat, 1%nat => hip3_or_z_1_1
  | 1%nat, 2%nat => hip3_or_z_1_2
  | 1%nat, 3%nat => hip3_or_z_1_3
  | 2%nat, 1%nat => hip3_or_z_2_1
  | 2%nat, 2%nat => hip3_or_z_2_2
  | 2%nat, 3%nat => hip3_or_z_2_3
  | _, _ => fun _ _ _ _ _ _ => 0
  end.

(** HIP3Basis_over_r.h: nodes 1, 2, ... *)
Definition hip3_or_rest (n kind : nat) : (nat -> R) -> R -> R -> R -> R -> R -> R :=
  match n, kind with
  | 0%nat, 0%nat => hip3_or_p_0_0
  | 0%nat, 1%nat => hip3_or_p_0_1
  | 0%nat, 2%nat => hip3_or_p_0_2
  | 0%nat, 3%nat => hip3_or_p_0_3
  | 1%nat, 0%nat => hip3_or_p_1_0
  | 1%nat, 1%nat => hip3_or_p_1_1
  | 1%nat, 2%nat => hip3_or_p_1_2
  | 1%nat, 3%nat => hip3_or_p_1_3
  | 2%nat, 0%nat => hip3_or_p_2_0
  | 2%nat, 1%nat => hip3_or_p_2_1
  | 2%nat, 2%nat => hip3_or_p_2_2
  | 2%nat, 3%nat => hip3_or_p_2_3
  | _, _ => fun _ _ _ _ _ _ => 0
  end.
