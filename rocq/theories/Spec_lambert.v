(** The real branches of the Lambert W function, as scipy.special.lambertw returns their real part: branch 0 (the principal one)
    and branch -1 on [-1/e, 0). *)
From Coq Require Import Reals ZArith.
From Verif Require Import PyBase M_champ.
Open Scope R_scope.

Record lambert (W : Z -> R -> npf) : Prop := {
  lambert_principal : forall z, - exp (-1) <= z < 0 -> exists w, W 0%Z z = Fin w /\ -1 <= w < 0 /\ w * exp w = z;
  lambert_lower : forall z, - exp (-1) <= z < 0 -> exists w, W (-1)%Z z = Fin w /\ w <= -1 /\ w * exp w = z;
  lambert_principal_0 : W 0%Z 0 = Fin 0;
  lambert_lower_0 : W (-1)%Z 0 = NonFinite
}.
