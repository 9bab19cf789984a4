(** Rotation matrices: rows, conversion to quaternions, inverses, Euler angles. *)
From Verif Require Import Outcome BoxModel GeoModel RotSpec RotProofs.
From Coq Require Import Reals Lra Psatz Nsatz.
Local Open Scope R_scope.

(** The entries of a rotation matrix are its own cofactors. *)
Lemma rotm_entries m : rotm m →
  ∃ a b c d e f g h i, m = Mat (V3 a b c) (V3 d e f) (V3 g h i) ∧
  (a * a + d * d + g * g = 1 ∧ b * b + e * e + h * h = 1 ∧ c * c + f * f + i * i = 1) ∧
  (a * b + d * e + g * h = 0 ∧ a * c + d * f + g * i = 0 ∧ b * c + e * f + h * i = 0) ∧
  (a = e * i - h * f ∧ d = h * c - b * i ∧ g = b * f - e * c) ∧
  (b = f * g - i * d ∧ e = i * a - c * g ∧ h = c * d - f * a) ∧
  (c = d * h - g * e ∧ f = g * b - a * h ∧ i = a * e - d * b) ∧
  (a * a + b * b + c * c = 1 ∧ d * d + e * e + f * f = 1 ∧ g * g + h * h + i * i = 1) ∧
  (a * d + b * e + c * f = 0 ∧ a * g + b * h + c * i = 0 ∧ d * g + e * h + f * i = 0).
Proof.
  destruct m as [[a b c] [d e f] [g h i]]. intros [A00 A11 A22 A01 A02 A12 C0 C1 C2].
  exists a, b, c, d, e, f, g, h, i. unf.
  pose proof (f_equal vx C0) as C0x. pose proof (f_equal vy C0) as C0y. pose proof (f_equal vz C0) as C0z.
  pose proof (f_equal vx C1) as C1x. pose proof (f_equal vy C1) as C1y. pose proof (f_equal vz C1) as C1z.
  pose proof (f_equal vx C2) as C2x. pose proof (f_equal vy C2) as C2y. pose proof (f_equal vz C2) as C2z.
  clear C0 C1 C2. cbn [vx vy vz] in *.
  split; [done|]. repeat split; try lra.
  all: clear A01 A02 A12 A11 A22; nsatz.
Qed.

Lemma sqrt_sq x : 0 <= x → sqrt x * sqrt x = x.
Proof. apply sqrt_sqrt. Qed.

Lemma to_quat_ok m : rotm m → unitq (to_quat m) ∧ to_matrix (to_quat m) = m.
Proof.
  intros (a & b & c & d & e & f & g & h & i & -> & (A1 & A2 & A3) & (B1 & B2 & B3) & (C1 & C2 & C3) &
    (D1 & D2 & D3) & (E1 & E2 & E3) & (F1 & F2 & F3) & (G1 & G2 & G3))%rotm_entries.
  (* a generic step: a quaternion whose pairwise products are right *)
  assert (∀ q, unitq q →
     1 - 2 * (qy q * qy q + qz q * qz q) = a → 2 * (qx q * qy q - qw q * qz q) = b → 2 * (qx q * qz q + qw q * qy q) = c →
     2 * (qx q * qy q + qw q * qz q) = d → 1 - 2 * (qx q * qx q + qz q * qz q) = e → 2 * (qy q * qz q - qw q * qx q) = f →
     2 * (qx q * qz q - qw q * qy q) = g → 2 * (qy q * qz q + qw q * qx q) = h → 1 - 2 * (qx q * qx q + qy q * qy q) = i →
     unitq q ∧ to_matrix q = Mat (V3 a b c) (V3 d e f) (V3 g h i)) as K.
  { clear. intros q U Ea Eb Ec Ed Ee Ef Eg Eh Ei. split; [done|]. unfold to_matrix. unfold unitq in U. rewrite U.
    apply m_eq; apply v3_eq; cbn [r0 r1 r2 vx vy vz]; lra. }
  unfold to_quat. cbn [r0 r1 r2 vx vy vz].
  assert (∀ s2, 0 < s2 → ∃ s, s * s = s2 ∧ 0 < s ∧ sqrt s2 = s) as SQ.
  { intros s2 Hs. exists (sqrt s2). split_and!; [apply sqrt_sqrt; lra|by apply sqrt_lt_R0|done]. }
  assert (∀ s, 0 < s → ∃ t, 1 / 2 / s = t ∧ t * s = 1 / 2) as TT.
  { intros s Hs. exists (1 / 2 / s). split; [done|]. field. lra. }
  assert ((b + d) * (b + d) = (1 + a - e - i) * (1 + e - a - i) ∧
    (c + g) * (c + g) = (1 + a - e - i) * (1 + i - a - e) ∧
    (h - f) * (h - f) = (1 + a - e - i) * (1 + a + e + i) ∧
    (b + d) * (c + g) = (1 + a - e - i) * (f + h) ∧
    (b + d) * (h - f) = (1 + a - e - i) * (c - g) ∧
    (c + g) * (h - f) = (1 + a - e - i) * (d - b)) as Ix.
  { clear SQ TT K. split_and!; lra. }
  assert ((b + d) * (b + d) = (1 + e - a - i) * (1 + a - e - i) ∧
    (f + h) * (f + h) = (1 + e - a - i) * (1 + i - a - e) ∧
    (c - g) * (c - g) = (1 + e - a - i) * (1 + a + e + i) ∧
    (b + d) * (f + h) = (1 + e - a - i) * (c + g) ∧
    (b + d) * (c - g) = (1 + e - a - i) * (h - f) ∧
    (f + h) * (c - g) = (1 + e - a - i) * (d - b)) as Iy.
  { clear SQ TT K. split_and!; lra. }
  assert ((c + g) * (c + g) = (1 + i - a - e) * (1 + a - e - i) ∧
    (f + h) * (f + h) = (1 + i - a - e) * (1 + e - a - i) ∧
    (d - b) * (d - b) = (1 + i - a - e) * (1 + a + e + i) ∧
    (c + g) * (f + h) = (1 + i - a - e) * (b + d) ∧
    (c + g) * (d - b) = (1 + i - a - e) * (h - f) ∧
    (f + h) * (d - b) = (1 + i - a - e) * (c - g)) as Iz.
  { clear SQ TT K. split_and!; lra. }
  assert ((h - f) * (h - f) = (1 + a + e + i) * (1 + a - e - i) ∧
    (c - g) * (c - g) = (1 + a + e + i) * (1 + e - a - i) ∧
    (d - b) * (d - b) = (1 + a + e + i) * (1 + i - a - e) ∧
    (h - f) * (c - g) = (1 + a + e + i) * (b + d) ∧
    (h - f) * (d - b) = (1 + a + e + i) * (c + g) ∧
    (c - g) * (d - b) = (1 + a + e + i) * (f + h)) as Iw.
  { clear SQ TT K. split_and!; lra. }
  clear A1 A2 A3 B1 B2 B3 C1 C2 C3 D1 D2 D3 E1 E2 E3 F1 F2 F3 G1 G2 G3.
  destruct (Rlt_dec 0 (a + e + i)) as [T|T].
  - destruct (SQ (a + e + i + 1)) as (s & Hs & Ps & ->); [lra|].
    destruct (TT s Ps) as (t & -> & Ht). assert (4 * (t * t) * (s * s) = 1) as Htt by nra. rewrite Hs in Htt.
    destruct Iw as (J1 & J2 & J3 & J4 & J5 & J6).
    clear T Ps SQ TT Ix Iy Iz. apply K; unf; cbn [qx qy qz qw]; clear K; nsatz.
  - destruct (Rlt_dec a e) as [L1|L1]; [destruct (Rlt_dec e i) as [L2|L2]|destruct (Rlt_dec a i) as [L2|L2]].
    + destruct (SQ (i - a - e + 1)) as (s & Hs & Ps & ->); [lra|].
    destruct (TT s Ps) as (t & -> & Ht). assert (4 * (t * t) * (s * s) = 1) as Htt by nra. rewrite Hs in Htt.
    destruct Iz as (J1 & J2 & J3 & J4 & J5 & J6).
    clear L1 L2 T Ps SQ TT Ix Iy Iw. apply K; unf; cbn [qx qy qz qw]; clear K; nsatz.
    + destruct (SQ (e - i - a + 1)) as (s & Hs & Ps & ->); [lra|].
    destruct (TT s Ps) as (t & -> & Ht). assert (4 * (t * t) * (s * s) = 1) as Htt by nra. rewrite Hs in Htt.
    destruct Iy as (J1 & J2 & J3 & J4 & J5 & J6).
    clear L1 L2 T Ps SQ TT Ix Iz Iw. apply K; unf; cbn [qx qy qz qw]; clear K; nsatz.
    + destruct (SQ (i - a - e + 1)) as (s & Hs & Ps & ->); [lra|].
    destruct (TT s Ps) as (t & -> & Ht). assert (4 * (t * t) * (s * s) = 1) as Htt by nra. rewrite Hs in Htt.
    destruct Iz as (J1 & J2 & J3 & J4 & J5 & J6).
    clear L1 L2 T Ps SQ TT Ix Iy Iw. apply K; unf; cbn [qx qy qz qw]; clear K; nsatz.
    + destruct (SQ (a - e - i + 1)) as (s & Hs & Ps & ->); [lra|].
    destruct (TT s Ps) as (t & -> & Ht). assert (4 * (t * t) * (s * s) = 1) as Htt by nra. rewrite Hs in Htt.
    destruct Ix as (J1 & J2 & J3 & J4 & J5 & J6).
    clear L1 L2 T Ps SQ TT Iy Iz Iw. apply K; unf; cbn [qx qy qz qw]; clear K; nsatz.
Qed.
