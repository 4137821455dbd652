(** Polynomials that are positive on an interval, as sums of products of the distances to its ends: the estimates
    behind the failure of Newton's iteration in Proofs/HalfRoots.v *)
From Coq Require Import Reals Lra.
Open Scope R_scope.

Lemma lo_a (e : R) : (7/25) <= e <= (133/100) -> 0 <= (e - (7/25)) * (e * (6 * e ^ 4 - 32 * e ^ 2 + 16 * (3 - 2 * (1/6)))) - (e ^ 6 - 8 * e ^ 4 + 8 * (3 - 2 * (1/6)) * e ^ 2 - 16 * (1 - (1/6))).
Proof.
  intros [H1 H2].
  replace ((e - (7/25)) * (e * (6 * e ^ 4 - 32 * e ^ 2 + 16 * (3 - 2 * (1/6)))) - (e ^ 6 - 8 * e ^ 4 + 8 * (3 - 2 * (1/6)) * e ^ 2 - 16 * (1 - (1/6)))) with
    ((11709490589696/1340095640625) * ((e - (7/25)) ^ 0 * ((133/100) - e) ^ 6)
 + (23418981179392/446698546875) * ((e - (7/25)) ^ 1 * ((133/100) - e) ^ 5)
 + (13007671972096/89339709375) * ((e - (7/25)) ^ 2 * ((133/100) - e) ^ 4)
 + (58470508419584/268019128125) * ((e - (7/25)) ^ 3 * ((133/100) - e) ^ 3)
 + (13894025426096/89339709375) * ((e - (7/25)) ^ 4 * ((133/100) - e) ^ 2)
 + (15924097587392/446698546875) * ((e - (7/25)) ^ 5 * ((133/100) - e) ^ 1)
 + (1847305038821/1340095640625) * ((e - (7/25)) ^ 6 * ((133/100) - e) ^ 0)) by field.
  assert (A : 0 <= e - (7/25)) by lra. assert (B : 0 <= (133/100) - e) by lra.
  repeat apply Rplus_le_le_0_compat; (apply Rmult_le_pos; [lra | apply Rmult_le_pos; apply pow_le; assumption]).
Qed.

Lemma hi_a (e : R) : (7/25) <= e <= (133/100) -> 0 <= ((133/100) - e) * (e * (6 * e ^ 4 - 32 * e ^ 2 + 16 * (3 - 2 * (1/6)))) + (e ^ 6 - 8 * e ^ 4 + 8 * (3 - 2 * (1/6)) * e ^ 2 - 16 * (1 - (1/6))).
Proof.
  intros [H1 H2].
  replace (((133/100) - e) * (e * (6 * e ^ 4 - 32 * e ^ 2 + 16 * (3 - 2 * (1/6)))) + (e ^ 6 - 8 * e ^ 4 + 8 * (3 - 2 * (1/6)) * e ^ 2 - 16 * (1 - (1/6)))) with
    ((107764742144/1340095640625) * ((e - (7/25)) ^ 0 * ((133/100) - e) ^ 6)
 + (4399114436096/148899515625) * ((e - (7/25)) ^ 1 * ((133/100) - e) ^ 5)
 + (9818581919744/89339709375) * ((e - (7/25)) ^ 2 * ((133/100) - e) ^ 4)
 + (36379920963776/268019128125) * ((e - (7/25)) ^ 3 * ((133/100) - e) ^ 3)
 + (2042997308248/29779903125) * ((e - (7/25)) ^ 4 * ((133/100) - e) ^ 2)
 + (9812086347538/446698546875) * ((e - (7/25)) ^ 5 * ((133/100) - e) ^ 1)
 + (4906043173769/1340095640625) * ((e - (7/25)) ^ 6 * ((133/100) - e) ^ 0)) by field.
  assert (A : 0 <= e - (7/25)) by lra. assert (B : 0 <= (133/100) - e) by lra.
  repeat apply Rplus_le_le_0_compat; (apply Rmult_le_pos; [lra | apply Rmult_le_pos; apply pow_le; assumption]).
Qed.

Lemma dd_a (e : R) : (7/25) <= e <= (133/100) -> 0 <= e * (6 * e ^ 4 - 32 * e ^ 2 + 16 * (3 - 2 * (1/6))) - 1.
Proof.
  intros [H1 H2].
  replace (e * (6 * e ^ 4 - 32 * e ^ 2 + 16 * (3 - 2 * (1/6))) - 1) with
    ((307635866624/38288446875) * ((e - (7/25)) ^ 0 * ((133/100) - e) ^ 5)
 + (530181246464/7657689375) * ((e - (7/25)) ^ 1 * ((133/100) - e) ^ 4)
 + (1336354801408/7657689375) * ((e - (7/25)) ^ 2 * ((133/100) - e) ^ 3)
 + (1253657466688/7657689375) * ((e - (7/25)) ^ 3 * ((133/100) - e) ^ 2)
 + (372601163384/7657689375) * ((e - (7/25)) ^ 4 * ((133/100) - e) ^ 1)
 + (162952806074/38288446875) * ((e - (7/25)) ^ 5 * ((133/100) - e) ^ 0)) by field.
  assert (A : 0 <= e - (7/25)) by lra. assert (B : 0 <= (133/100) - e) by lra.
  repeat apply Rplus_le_le_0_compat; (apply Rmult_le_pos; [lra | apply Rmult_le_pos; apply pow_le; assumption]).
Qed.

Lemma lo_b (e : R) : (7/25) <= e <= (133/100) -> 0 <= (e - (7/25)) * (e * (6 * e ^ 4 - 32 * e ^ 2 + 16 * (3 - 2 * (169/1000)))) - (e ^ 6 - 8 * e ^ 4 + 8 * (3 - 2 * (169/1000)) * e ^ 2 - 16 * (1 - (169/1000))).
Proof.
  intros [H1 H2].
  replace ((e - (7/25)) * (e * (6 * e ^ 4 - 32 * e ^ 2 + 16 * (3 - 2 * (169/1000)))) - (e ^ 6 - 8 * e ^ 4 + 8 * (3 - 2 * (169/1000)) * e ^ 2 - 16 * (1 - (169/1000)))) with
    ((11675084189696/1340095640625) * ((e - (7/25)) ^ 0 * ((133/100) - e) ^ 6)
 + (23350168379392/446698546875) * ((e - (7/25)) ^ 1 * ((133/100) - e) ^ 5)
 + (12970521572096/89339709375) * ((e - (7/25)) ^ 2 * ((133/100) - e) ^ 4)
 + (58299954819584/268019128125) * ((e - (7/25)) ^ 3 * ((133/100) - e) ^ 3)
 + (13843155026096/89339709375) * ((e - (7/25)) ^ 4 * ((133/100) - e) ^ 2)
 + (15800404787392/446698546875) * ((e - (7/25)) ^ 5 * ((133/100) - e) ^ 1)
 + (1771738638821/1340095640625) * ((e - (7/25)) ^ 6 * ((133/100) - e) ^ 0)) by field.
  assert (A : 0 <= e - (7/25)) by lra. assert (B : 0 <= (133/100) - e) by lra.
  repeat apply Rplus_le_le_0_compat; (apply Rmult_le_pos; [lra | apply Rmult_le_pos; apply pow_le; assumption]).
Qed.

Lemma hi_b (e : R) : (7/25) <= e <= (133/100) -> 0 <= ((133/100) - e) * (e * (6 * e ^ 4 - 32 * e ^ 2 + 16 * (3 - 2 * (169/1000)))) + (e ^ 6 - 8 * e ^ 4 + 8 * (3 - 2 * (169/1000)) * e ^ 2 - 16 * (1 - (169/1000))).
Proof.
  intros [H1 H2].
  replace (((133/100) - e) * (e * (6 * e ^ 4 - 32 * e ^ 2 + 16 * (3 - 2 * (169/1000)))) + (e ^ 6 - 8 * e ^ 4 + 8 * (3 - 2 * (169/1000)) * e ^ 2 - 16 * (1 - (169/1000)))) with
    ((120219142144/1340095640625) * ((e - (7/25)) ^ 0 * ((133/100) - e) ^ 6)
 + (13194812108288/446698546875) * ((e - (7/25)) ^ 1 * ((133/100) - e) ^ 5)
 + (9806340319744/89339709375) * ((e - (7/25)) ^ 2 * ((133/100) - e) ^ 4)
 + (36298026563776/268019128125) * ((e - (7/25)) ^ 3 * ((133/100) - e) ^ 3)
 + (6103030324744/89339709375) * ((e - (7/25)) ^ 4 * ((133/100) - e) ^ 2)
 + (9754675147538/446698546875) * ((e - (7/25)) ^ 5 * ((133/100) - e) ^ 1)
 + (4877337573769/1340095640625) * ((e - (7/25)) ^ 6 * ((133/100) - e) ^ 0)) by field.
  assert (A : 0 <= e - (7/25)) by lra. assert (B : 0 <= (133/100) - e) by lra.
  repeat apply Rplus_le_le_0_compat; (apply Rmult_le_pos; [lra | apply Rmult_le_pos; apply pow_le; assumption]).
Qed.

Lemma dd_b (e : R) : (7/25) <= e <= (133/100) -> 0 <= e * (6 * e ^ 4 - 32 * e ^ 2 + 16 * (3 - 2 * (169/1000))) - 1.
Proof.
  intros [H1 H2].
  replace (e * (6 * e ^ 4 - 32 * e ^ 2 + 16 * (3 - 2 * (169/1000))) - 1) with
    ((102336222208/12762815625) * ((e - (7/25)) ^ 0 * ((133/100) - e) ^ 5)
 + (176361215488/2552563125) * ((e - (7/25)) ^ 1 * ((133/100) - e) ^ 4)
 + (444406267136/2552563125) * ((e - (7/25)) ^ 2 * ((133/100) - e) ^ 3)
 + (416526888896/2552563125) * ((e - (7/25)) ^ 3 * ((133/100) - e) ^ 2)
 + (123364121128/2552563125) * ((e - (7/25)) ^ 4 * ((133/100) - e) ^ 1)
 + (53324535358/12762815625) * ((e - (7/25)) ^ 5 * ((133/100) - e) ^ 0)) by field.
  assert (A : 0 <= e - (7/25)) by lra. assert (B : 0 <= (133/100) - e) by lra.
  repeat apply Rplus_le_le_0_compat; (apply Rmult_le_pos; [lra | apply Rmult_le_pos; apply pow_le; assumption]).
Qed.

Lemma t_hi (t : R) : (51/20) <= t <= (8/3) -> 0 <= (8 - 16 * t + 107112/10000 * t ^ 2 - 1898559/1000000 * t ^ 3) - (162/100 * t * (t * (304/100 - 10317/10000 * t)) + 56/100 * (147/100) * (t * (304/100 - 10317/10000 * t))).
Proof.
  intros [H1 H2].
  replace ((8 - 16 * t + 107112/10000 * t ^ 2 - 1898559/1000000 * t ^ 3) - (162/100 * t * (t * (304/100 - 10317/10000 * t)) + 56/100 * (147/100) * (t * (304/100 - 10317/10000 * t)))) with
    ((215775243063/1715000000) * ((t - (51/20)) ^ 0 * ((8/3) - t) ^ 3)
 + (252705962151/214375000) * ((t - (51/20)) ^ 1 * ((8/3) - t) ^ 2)
 + (10837387656/5359375) * ((t - (51/20)) ^ 2 * ((8/3) - t) ^ 1)
 + (1038563712/1071875) * ((t - (51/20)) ^ 3 * ((8/3) - t) ^ 0)) by field.
  assert (A : 0 <= t - (51/20)) by lra. assert (B : 0 <= (8/3) - t) by lra.
  repeat apply Rplus_le_le_0_compat; (apply Rmult_le_pos; [lra | apply Rmult_le_pos; apply pow_le; assumption]).
Qed.

Lemma t_lo (t : R) : (51/20) <= t <= (8/3) -> 0 <= 162/100 * t * (t * (304/100 - 10317/10000 * t)) + 266/100 * (143/100) * (t * (304/100 - 10317/10000 * t)) - (8 - 16 * t + 107112/10000 * t ^ 2 - 1898559/1000000 * t ^ 3).
Proof.
  intros [H1 H2].
  replace (162/100 * t * (t * (304/100 - 10317/10000 * t)) + 266/100 * (143/100) * (t * (304/100 - 10317/10000 * t)) - (8 - 16 * t + 107112/10000 * t ^ 2 - 1898559/1000000 * t ^ 3)) with
    ((3142885282983/1715000000) * ((t - (51/20)) ^ 0 * ((8/3) - t) ^ 3)
 + (3609986635539/857500000) * ((t - (51/20)) ^ 1 * ((8/3) - t) ^ 2)
 + (15294039246/5359375) * ((t - (51/20)) ^ 2 * ((8/3) - t) ^ 1)
 + (510871392/1071875) * ((t - (51/20)) ^ 3 * ((8/3) - t) ^ 0)) by field.
  assert (A : 0 <= t - (51/20)) by lra. assert (B : 0 <= (8/3) - t) by lra.
  repeat apply Rplus_le_le_0_compat; (apply Rmult_le_pos; [lra | apply Rmult_le_pos; apply pow_le; assumption]).
Qed.

Lemma t_d (t : R) : (51/20) <= t <= (8/3) -> 0 <= (t * (304/100 - 10317/10000 * t)) - 1/2.
Proof.
  intros [H1 H2].
  replace ((t * (304/100 - 10317/10000 * t)) - 1/2) with
    ((19561347/490000) * ((t - (51/20)) ^ 0 * ((8/3) - t) ^ 2)
 + (372396/6125) * ((t - (51/20)) ^ 1 * ((8/3) - t) ^ 1)
 + (24312/1225) * ((t - (51/20)) ^ 2 * ((8/3) - t) ^ 0)) by field.
  assert (A : 0 <= t - (51/20)) by lra. assert (B : 0 <= (8/3) - t) by lra.
  repeat apply Rplus_le_le_0_compat; (apply Rmult_le_pos; [lra | apply Rmult_le_pos; apply pow_le; assumption]).
Qed.

