(** What the frequency band, the low-frequency skip and the automatic integration step must achieve
    (command line help of -H, -N and -L). *)
From Verif Require Import Model.Base Model.Mod1d.
From Coquelicot Require Import Complex.

(** a limit that is not positive is no limit *)
Definition in_band (f1 f2 f : R) : Prop := (0 < f1 -> f1 <= f) /\ (0 < f2 -> f <= f2).
(** the [i]-th frequency of a real transform of [nt] samples *)
Definition grid_freq (nt : nat) (dt : R) (i : Z) : R := IZR i / (INR nt * dt).
Definition on_grid (nt : nat) (i : Z) : Prop := (0 <= i <= Z.of_nat (nt / 2))%Z.

(** modulus of the complex circular frequency *)
Definition omega_abs (nt : nat) (dt wI : R) (i : Z) : R := sqrt ((2 * PI * grid_freq nt dt i) ^ 2 + wI ^ 2).

(** distance travelled at least from the [n]-th periodic image source, at horizontal distance
    [n L] from the source and on the far side, to a receiver at distance [r] *)
Definition image_path (L r dz : R) (n : nat) : R := sqrt ((INR n * L - r) ^ 2 + dz ^ 2).

(** a component of a source order that vanishes identically: transverse motion of the axisymmetric
    sources EX (0), VF (1) and DD (3) *)
Definition no_component (src comp : nat) : Prop := comp = 2%nat /\ (src = 0 \/ src = 1 \/ src = 3)%nat.

(** velocities of an accepted model (C14-C17); liquids have no shear velocity *)
Definition good_model (ls : list lay) : Prop := ls <> [] /\ forall l, In l ls -> 0 < va l /\ 0 <= vb l /\ va l < 9 * 10 ^ 30.
(** a half-space for the examples *)
Definition rock : lay := mkLay 0 10 5 1 0 0.
