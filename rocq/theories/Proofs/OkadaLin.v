(** Sums of the four sources. *)
From Verif Require Import Model.Base Model.Okada Proofs.OkadaExpr Proofs.OkadaPoly Proofs.OkadaId Proofs.OkadaNavier.
From Coquelicot Require Import Coquelicot.
Open Scope R_scope.

Definition srcs (c : nat -> R) (l : nat -> nat -> ex) (i : nat) : ex :=
  Ead (Ead (Ead (Emu (EK (c 0%nat)) (l 0%nat i)) (Emu (EK (c 1%nat)) (l 1%nat i))) (Emu (EK (c 2%nat)) (l 2%nat i))) (Emu (EK (c 3%nat)) (l 3%nat i)).
Lemma srcs_ev c l i x y d z r w : evp (srcs c l i) x y d z r w =
  c 0%nat * evp (l 0%nat i) x y d z r w + c 1%nat * evp (l 1%nat i) x y d z r w +
  c 2%nat * evp (l 2%nat i) x y d z r w + c 3%nat * evp (l 3%nat i) x y d z r w.
Proof. reflexivity. Qed.
Lemma srcs_dP dx dy dd dz c l i x y d z r w : evp (dP dx dy dd dz (srcs c l i)) x y d z r w =
  c 0%nat * evp (dP dx dy dd dz (l 0%nat i)) x y d z r w + c 1%nat * evp (dP dx dy dd dz (l 1%nat i)) x y d z r w +
  c 2%nat * evp (dP dx dy dd dz (l 2%nat i)) x y d z r w + c 3%nat * evp (dP dx dy dd dz (l 3%nat i)) x y d z r w.
Proof. unfold srcs. cbn [dP]. rewrite !ad_ok, !mu_ok. cbn [evp]. ring. Qed.
Lemma strx_ev la m l i j x y d z r w : evp (strx la m l i j) x y d z r w =
  m * (evp (l (3 + 3 * i + j)%nat) x y d z r w + evp (l (3 + 3 * j + i)%nat) x y d z r w) +
  (if Nat.eqb i j then la * (evp (l 3%nat) x y d z r w + evp (l 7%nat) x y d z r w + evp (l 11%nat) x y d z r w) else 0).
Proof. unfold strx. destruct (Nat.eqb i j); cbn [evp]; ring. Qed.
Lemma strx_dP dx dy dd dz la m l i j x y d z r w : evp (dP dx dy dd dz (strx la m l i j)) x y d z r w =
  m * (evp (dP dx dy dd dz (l (3 + 3 * i + j)%nat)) x y d z r w + evp (dP dx dy dd dz (l (3 + 3 * j + i)%nat)) x y d z r w) +
  (if Nat.eqb i j then la * (evp (dP dx dy dd dz (l 3%nat)) x y d z r w + evp (dP dx dy dd dz (l 7%nat)) x y d z r w + evp (dP dx dy dd dz (l 11%nat)) x y d z r w) else 0).
Proof. unfold strx. destruct (Nat.eqb i j); cbn [dP]; rewrite ?ad_ok, ?mu_ok; rewrite ?ad_ok; cbn [evp]; ring. Qed.
Lemma divx_lin s la m c l i x y d z r w : evp (divx s la m (srcs c l) i) x y d z r w =
  c 0%nat * evp (divx s la m (l 0%nat) i) x y d z r w + c 1%nat * evp (divx s la m (l 1%nat) i) x y d z r w +
  c 2%nat * evp (divx s la m (l 2%nat) i) x y d z r w + c 3%nat * evp (divx s la m (l 3%nat) i) x y d z r w.
Proof.
  unfold divx. cbn [evp]. rewrite !strx_dP, !srcs_dP. destruct (Nat.eqb i 0), (Nat.eqb i 1), (Nat.eqb i 2); ring.
Qed.

(** statements that hold for each source hold for their sums *)
Lemma lin4 c0 c1 c2 c3 a0 a1 a2 a3 b0 b1 b2 b3 : a0 + - b0 = 0 -> a1 + - b1 = 0 -> a2 + - b2 = 0 -> a3 + - b3 = 0 ->
  c0 * a0 + c1 * a1 + c2 * a2 + c3 * a3 + - (c0 * b0 + c1 * b1 + c2 * b2 + c3 * b3) = 0.
Proof.
  intros. replace a0 with b0 by lra. replace a1 with b1 by lra. replace a2 with b2 by lra. replace a3 with b3 by lra. ring.
Qed.
Lemma diff_ev a b x y d z r w : evp (diff a b) x y d z r w = evp a x y d z r w + - evp b x y d z r w.
Proof. reflexivity. Qed.
Definition closed4 (pz : ex -> Prop) : Prop := forall dx dy dd dz c l i j,
  (forall k, (k < 4)%nat -> pz (diff (dP dx dy dd dz (l k i)) (l k j))) -> pz (diff (dP dx dy dd dz (srcs c l i)) (srcs c l j)).
Lemma closed_R : closed4 pzeroR.
Proof.
  intros dx dy dd dz c l i j H X Y D r rho z w h1 h3. rewrite diff_ev, srcs_dP, srcs_ev.
  apply lin4; rewrite <- diff_ev; apply H; solve [lia|assumption].
Qed.
Lemma closed_I : closed4 pzero.
Proof.
  intros dx dy dd dz c l i j H X Y D W r rho z h1 h2 h3. rewrite diff_ev, srcs_dP, srcs_ev.
  apply lin4; rewrite <- diff_ev; apply H; solve [lia|assumption].
Qed.
Lemma grad_lin pz s c l : closed4 pz -> (forall k, (k < 4)%nat -> grad_ok pz s (l k)) -> grad_ok pz s (srcs c l).
Proof.
  intros Q H n Hn. split; [|split]; apply Q; intros k Hk; destruct (H k Hk n Hn) as (A & B & C); assumption.
Qed.
Lemma nav_R s la m c l : (forall k, (k < 4)%nat -> nav_ok pzeroR s la m (l k)) -> nav_ok pzeroR s la m (srcs c l).
Proof.
  intros H n Hn X Y D r rho z w h1 h3. rewrite divx_lin.
  rewrite (H 0%nat ltac:(lia) n Hn _ _ _ _ _ _ _ h1 h3), (H 1%nat ltac:(lia) n Hn _ _ _ _ _ _ _ h1 h3),
   (H 2%nat ltac:(lia) n Hn _ _ _ _ _ _ _ h1 h3), (H 3%nat ltac:(lia) n Hn _ _ _ _ _ _ _ h1 h3). ring.
Qed.
Lemma nav_I s la m c l : (forall k, (k < 4)%nat -> nav_ok pzero s la m (l k)) -> nav_ok pzero s la m (srcs c l).
Proof.
  intros H n Hn X Y D W r rho z h1 h2 h3. rewrite divx_lin.
  rewrite (H 0%nat ltac:(lia) n Hn _ _ _ _ _ _ _ h1 h2 h3), (H 1%nat ltac:(lia) n Hn _ _ _ _ _ _ _ h1 h2 h3),
   (H 2%nat ltac:(lia) n Hn _ _ _ _ _ _ _ h1 h2 h3), (H 3%nat ltac:(lia) n Hn _ _ _ _ _ _ _ h1 h2 h3). ring.
Qed.
Lemma free_lin la m c l l' : (forall k, (k < 4)%nat -> free_ok la m (fun i => Ead (l k i) (l' k i))) ->
  free_ok la m (fun i => Ead (srcs c l i) (srcs c l' i)).
Proof.
  intros H n Hn X Y D W r rho h1 h2 h3.
  transitivity (c 0%nat * evp (strx la m (fun i => Ead (l 0%nat i) (l' 0%nat i)) n 2) (r * X) (r * Y) (r * D) 0 rho (rho * W) +
    c 1%nat * evp (strx la m (fun i => Ead (l 1%nat i) (l' 1%nat i)) n 2) (r * X) (r * Y) (r * D) 0 rho (rho * W) +
    c 2%nat * evp (strx la m (fun i => Ead (l 2%nat i) (l' 2%nat i)) n 2) (r * X) (r * Y) (r * D) 0 rho (rho * W) +
    c 3%nat * evp (strx la m (fun i => Ead (l 3%nat i) (l' 3%nat i)) n 2) (r * X) (r * Y) (r * D) 0 rho (rho * W)).
  - rewrite !strx_ev. cbn [evp]. rewrite !srcs_ev. destruct (Nat.eqb n 2); ring.
  - rewrite !H by (assumption || lia). ring.
Qed.
