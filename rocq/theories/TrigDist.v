(** The table of 2 / pi, and how close a double can come to a multiple of pi / 2. *)
From Coq Require Import ZArith Reals Bool List Lia Lra Psatz.
From Flocq Require Import Core.
From Verif Require Import Base TrigModel FloatErr TrigPi.
Import ListNotations.
Open Scope Z_scope.

(** The integer whose digits in base 2^24 are a list *)
Definition digits (l : list Z) : Z := fold_left (fun a d => a * 2 ^ 24 + d) l 0.
Definition TWO_PI : Z := Eval vm_compute in digits IPIO2_32.
Lemma TWO_PI_eq : digits IPIO2_32 = TWO_PI. Proof. vm_compute. reflexivity. Qed.
Definition tau : R := (2 / PI)%R.

(** The table is 2/pi truncated to 1584 bits *)
Lemma table_ok : (fx 1584 TWO_PI <= tau <= fx 1584 (TWO_PI + 1))%R.
Proof.
  assert (L : (TWO_PI * (qpi + qpi_err) <=? 2 ^ (1584 + PP - 1)) = true) by (vm_compute; reflexivity).
  assert (H : (2 ^ (1584 + PP - 1) <=? (TWO_PI + 1) * (qpi - qpi_err)) = true) by (vm_compute; reflexivity).
  apply Z.leb_le in L, H. pose proof qpi_ok as Q. set (h := qpi + qpi_err) in *. set (l := qpi - qpi_err) in *.
  assert (M : forall a b, (fx 1584 a * fx PP b)%R = (IZR (a * b) * bpow radix2 (- (1584 + PP)))%R).
  { intros a b. unfold fx. rewrite mult_IZR. replace (- (1584 + PP)) with (- (1584) + - PP) by lia. rewrite bpow_plus. ring. }
  assert (HB : (IZR (2 ^ (1584 + PP - 1)) * bpow radix2 (- (1584 + PP)) = / 2)%R).
  { rewrite (IZR_Zpower radix2) by (unfold PP; lia). rewrite <- bpow_plus. replace (1584 + PP - 1 + - (1584 + PP)) with (-1) by lia. reflexivity. }
  pose proof PI_RGT_0 as P0. assert (T2 : (tau * (PI / 4) = / 2)%R) by (unfold tau; field; lra).
  assert (b0 := bpow_gt_0 radix2 (- (1584 + PP))).
  assert (LL : (fx 1584 TWO_PI * fx PP h <= / 2)%R) by (rewrite M, <- HB; apply Rmult_le_compat_r; [lra|apply IZR_le, L]).
  assert (HH : (/ 2 <= fx 1584 (TWO_PI + 1) * fx PP l)%R) by (rewrite M, <- HB; apply Rmult_le_compat_r; [lra|apply IZR_le, H]).
  assert (t0 : (0 <= fx 1584 TWO_PI)%R) by (apply fx_nonneg; discriminate).
  assert (t1 : (0 <= fx 1584 (TWO_PI + 1))%R) by (apply fx_nonneg; discriminate).
  split; apply (Rmult_le_reg_r (PI / 4)); try lra; rewrite T2; nra.
Qed.

(** * Distance to an integer *)
(** Two fractions that enclose a in [A/D, (A+1)/D], with a lower bound d/D on the distance of the first. *)
Definition cert (D A d p q p' q' : Z) : bool :=
  (1 <=? q) && (2 ^ 53 <=? q') &&
  ((q' * p - q * p' =? 1) && (p' * D <=? q' * A) && (q * (A + 1) + d <=? p * D)
   || (q * p' - q' * p =? 1) && (q' * (A + 1) <=? p' * D) && (p * D + d <=? q * A)).
Lemma cert_ok D A d p q p' q' a m n : 0 < D -> cert D A d p q p' q' = true -> (IZR A <= a * IZR D <= IZR (A + 1))%R -> 1 <= m < 2 ^ 53 ->
  (IZR d <= Rabs (IZR m * a - IZR n) * IZR D)%R.
Proof.
  intros HD. unfold cert. rewrite !Bool.andb_true_iff, Bool.orb_true_iff, !Bool.andb_true_iff, !Z.leb_le, !Z.eqb_eq. intros ((Hq & Hq') & HC) HA Hm.
  assert (D0 : (0 < IZR D)%R) by (apply IZR_lt; lia).
  (* coordinates of (m, n) *)
  set (sg := q' * p - q * p'). set (u := sg * (q' * n - p' * m)). set (v := sg * (p * m - q * n)).
  assert (S1 : sg * sg = 1) by (unfold sg; destruct HC as [((-> & _) & _)|((E & _) & _)]; [lia|replace (q' * p - q * p') with (-1) by lia; reflexivity]).
  assert (EM : m = u * q + v * q') by (transitivity (sg * sg * m); [rewrite S1; lia|unfold u, v, sg; ring]).
  assert (EN : n = u * p + v * p') by (transitivity (sg * sg * n); [rewrite S1; lia|unfold u, v, sg; ring]).
  clearbody u v.
  assert (U0 : u <> 0). { intros ->. assert (v <> 0) by (intros ->; lia). assert (1 <= v \/ v <= -1) as [|] by lia; nia. }
  assert (UV : 1 <= u /\ v <= 0 \/ u <= -1 /\ 0 <= v). {
    assert (VQ : forall k w, 0 <= k -> 0 <= w -> 0 <= k * w) by (intros; apply Z.mul_nonneg_nonneg; assumption).
    assert (G : 1 <= u \/ u <= -1) by lia. destruct G as [G|G]; [left|right]; (split; [exact G|]).
    - destruct (Z.le_gt_cases v 0) as [L|L]; [exact L|exfalso]. pose proof (VQ (v - 1) q' ltac:(lia) ltac:(lia)). pose proof (VQ u q ltac:(lia) ltac:(lia)). lia.
    - destruct (Z.le_gt_cases 0 v) as [L|L]; [exact L|exfalso]. pose proof (VQ (- v) q' ltac:(lia) ltac:(lia)). pose proof (VQ (- u) q ltac:(lia) ltac:(lia)). lia. }
  assert (X : (IZR m * a - IZR n = IZR u * (IZR q * a - IZR p) + IZR v * (IZR q' * a - IZR p'))%R).
  { rewrite EM, EN, !plus_IZR, !mult_IZR. ring. }
  set (x := (IZR q * a - IZR p)%R) in *. set (y := (IZR q' * a - IZR p')%R) in *.
  assert (Q0 : (1 <= IZR q)%R) by (apply IZR_le; lia). assert (Q1 : (0 < IZR q')%R) by (apply IZR_lt; lia).
  rewrite plus_IZR in HA.
  assert (HXY : (x * IZR D <= - IZR d /\ 0 <= y * IZR D \/ IZR d <= x * IZR D /\ y * IZR D <= 0)%R).
  { assert (XD : (x * IZR D = IZR q * (a * IZR D) - IZR p * IZR D)%R) by (unfold x; ring). assert (YD : (y * IZR D = IZR q' * (a * IZR D) - IZR p' * IZR D)%R) by (unfold y; ring).
    rewrite XD, YD. set (t := (a * IZR D)%R) in *.
    assert (L1 : (IZR q * IZR A <= IZR q * t <= IZR q * (IZR A + 1))%R) by (split; apply Rmult_le_compat_l; lra).
    assert (L2 : (IZR q' * IZR A <= IZR q' * t <= IZR q' * (IZR A + 1))%R) by (split; apply Rmult_le_compat_l; lra).
    destruct HC as [((_ & B1) & B2)|((_ & B1) & B2)]; [left|right]; apply IZR_le in B1, B2; repeat rewrite ?plus_IZR, ?mult_IZR in B1; repeat rewrite ?plus_IZR, ?mult_IZR in B2; split; lra. }
  destruct (Rle_lt_dec (IZR d) 0) as [dn|dp]; [apply Rle_trans with 0%R; [exact dn|apply Rmult_le_pos; [apply Rabs_pos|lra]]|].
  rewrite <- (Rabs_pos_eq (IZR D)) by lra. rewrite <- Rabs_mult, X. 
  replace ((IZR u * x + IZR v * y) * IZR D)%R with (IZR u * (x * IZR D) + IZR v * (y * IZR D))%R by ring. set (X' := (x * IZR D)%R) in *. set (Y' := (y * IZR D)%R) in *.
  destruct UV as [[A1 A2]|[A1 A2]]; apply IZR_le in A1, A2; destruct HXY as [[B1 B2]|[B1 B2]].
  - rewrite Rabs_left1; nra.
  - rewrite Rabs_pos_eq; nra.
  - rewrite Rabs_pos_eq; nra.
  - rewrite Rabs_left1; nra.
Qed.

(** One pair of fractions (neighbours in Euclid's algorithm) for each exponent, from 2^971 down to 2^-53. *)
Definition KD : Z := 140.
Definition KD_pow : Z := Eval vm_compute in 2 ^ KD.
Definition KD_ones : Z := Eval vm_compute in 2 ^ KD - 1.
Definition KD_dist : Z := Eval vm_compute in 2 ^ (KD - 62).
Fixpoint chk_dist (t : Z) (l : list (Z * Z * Z * Z)) : bool :=
  match l with
  | nil => true
  | (p, q, p', q') :: l => if cert KD_pow (Z.land t KD_ones) KD_dist p q p' q' then chk_dist (Z.div2 t) l else false
  end.
Lemma chk_dist_nth : forall l t k, chk_dist t l = true -> (k < length l)%nat ->
  exists p q p' q', cert (2 ^ KD) (Z.shiftr t (Z.of_nat k) mod 2 ^ KD) (2 ^ (KD - 62)) p q p' q' = true.
Proof.
  induction l as [|[[[p q] p'] q'] l IH]; intros t k H Hk; cbn [length] in Hk; [lia|]. cbn [chk_dist] in H.
  destruct (cert KD_pow (Z.land t KD_ones) KD_dist p q p' q') eqn:E; [|discriminate]. destruct k as [|k].
  - exists p, q, p', q'. rewrite <- Z.land_ones by (unfold KD; lia). exact E.
  - destruct (IH _ k H ltac:(lia)) as (a & b & c & d & F). exists a, b, c, d. rewrite Z.div2_spec, Z.shiftr_shiftr in F by lia. replace (Z.of_nat (S k)) with (1 + Z.of_nat k) by lia. exact F.
Qed.
Definition CERTS : list (Z * Z * Z * Z) := [
  (0x556c01d4d59fb, 0x161a3db8c8d129, 0x31cb3725554ff0, 0xce247c4aba7683);
  (0xdb87eeb0b1592, 0x161a3db8c8d129, 0xffefb3700fc673, 0x19c48f89574ed06);
  (0x6dc3f75858ac9, 0x161a3db8c8d129, 0x106cbf2e595513c, 0x34eac2ee3b2ab35);
  (0x10d43b9e15bb3, 0x6c70575e39f1f, 0x6dc3f75858ac9, 0x2c347b7191a252);
  (0x3ea2497e27d69, 0x6c70575e39f1f, 0x3310bae7172d1b, 0x5868f6e32344a4);
  (0x3ea2497e27d69, 0xd8e0aebc73e3e, 0x17934b279a57d9, 0x51a1f16d3fa585);
  (0x11782f83a9bba7, 0x1b1c15d78e7c7c, 0x349a9e4a6cfeaf, 0x51a1f16d3fa585);
  (0x1907dfb7e5dd, 0x4dafe6943011, 0x11782f83a9bba7, 0x36382baf1cf8f8);
  (0x335be3260af7, 0x4dafe6943011, 0x47e3b715ecbf96, 0x6cbe0744ce2201);
  (0x4085e4dd1d84, 0x4dafe6943011, 0xb4a1be5abae197, 0xd97c0e899c4402);
  (0x8e35cb714d95, 0x9b5fcd286022, 0xc6c7cb8c72ec02, 0xd92e5ea30813f1);
  (0x8e35cb714d95, 0x136bf9a50c044, 0x6363e5c6397601, 0xd92e5ea30813f1);
  (0x1c4f565c20dd9, 0x26d7f34a18088, 0x9e492234a0c4f9, 0xd92e5ea30813f1);
  (0x1c4f565c20dd9, 0x4dafe69430110, 0x4e4216676f5b90, 0xd6c0df6e669369);
  (0x69ff3cf050ee9, 0x9b5fcd2860220, 0x8f318103687008, 0xd1e5e105239259);
  (0x1055f0a18b1109, 0x136bf9a50c0440, 0xa860b8b38078ac, 0xc82fe4329d9039);
  (0x282a93208e729, 0x5f823c02565b9, 0x1055f0a18b1109, 0x26d7f34a180880);
  (0x43d6679172671, 0x5f823c02565b9, 0x372de3eba31989, 0x4dafe694301100);
  (0x43d6679172671, 0xbf047804acb72, 0x19783eb945f98c, 0x47b7c2d40aab47);
  (0x43d6679172671, 0x17e08f009596e4, 0xcbc1f5ca2fcc6, 0x47b7c2d40aab47);
  (0x220a9353a57f2, 0x17f6a4d2df7d7f, 0x43d6679172671, 0x2fc11e012b2dc8);
  (0xcf39b39143f64, 0x17ca792e4bb049, 0x270ae9412e14d5, 0x47b7c2d40aab47);
  (0x679cd9c8a1fb2, 0x17ca792e4bb049, 0x270ae9412e14d5, 0x8f6f85a815568e);
  (0xf9286798b2dbe, 0x187b27c09ae521, 0x1e4446cad5cffb, 0x2f94f25c976092);
  (0x7c9433cc596df, 0x187b27c09ae521, 0x1e4446cad5cffb, 0x5f29e4b92ec124);
  (0x1022357eb03e00, 0x187b27c09ae521, 0x8d906102b4cf1f, 0xd6cef132f86769);
  (0xfba341daa0ec0, 0x12f5b32e213e61, 0x289d5d3f4b2321, 0x30f64f8135ca42);
  (0x1b71e2ba5ad021, 0x1e009c53148be1, 0x3e21ca06261d42, 0x43ec02af5708a3);
  (0x1cb93f86b7ae01, 0x1e009c53148be1, 0x9ec70c3c34d3e6, 0xa5d8a1b1c29d27);
  (0x1d5cedece61cf1, 0x1e009c53148be1, 0x1449fadedf7710d, 0x14bb14363853a4e);
  (0x1daec51ffd5469, 0x1e009c53148be1, 0x29050f1517cab5b, 0x2976286c70a749c);
  (0x1dd7b0b988f025, 0x1e009c53148be1, 0x5458b28d210101c, 0x54cc5a9e1297519);
  (0x1dec26864ebe03, 0x1e009c53148be1, 0xab03cf939884338, 0xab78bf015677613);
  (0x8506f856202ee, 0x10ac3dc5facec9, 0x159bb700ecbb15, 0x2b54fae02e48f9);
  (0x77baba530b050, 0x9fc7f5438ab67, 0x18fcad4b5cd1b7, 0x21587b8bf59d92);
  (0x3bdd5d2985828, 0x9fc7f5438ab67, 0x1cba831df529df, 0x4cad766c23e68b);
  (0x1deeae94c2c14, 0x9fc7f5438ab67, 0x1cba831df529df, 0x995aecd847cd16);
  (0xbdb6a3d84d77b, 0x13f8fea87156ce, 0x551d02dc5c0fbd, 0x8f5e6d840f21af);
  (0x12c07d7e530ddb, 0x178875916718db, 0x1fd468e5f62e49, 0x27f1fd50e2ad9c);
  (0x15247987dd135b, 0x178875916718db, 0x47c66636d8dbe5, 0x4fe3faa1c55b38);
  (0x1656778ca2161b, 0x178875916718db, 0xae00d865404d38, 0xb7506ad4f1cf4b);
  (0x25971ffe831d0, 0x4f341b646f78d, 0x13fd058cb9e44b, 0x2a1da96c873a29);
  (0x12cb8fff418e8, 0x4f341b646f78d, 0x1529be8cadfd33, 0x592e948f556bdf);
  (0x61ffab63b1075, 0x9e6836c8def1a, 0x372c298e01b489, 0x592e948f556bdf);
  (0x61ffab63b1075, 0x13cd06d91bde34, 0x1886176be3520a, 0x4f481122c77cc5);
  (0xd0391f053016a, 0x13e0fc9773e229, 0x19ed018f56eea9, 0x279a0db237bc68);
  (0x1051405ce3e3bf, 0x13b9111ac3da3f, 0x3135cee4aac752, 0x3b7b0a49ab9e91);
  (0x849a715717fea, 0x1408e81423ea13, 0x1051405ce3e3bf, 0x2772223587b47e);
  (0x424d38ab8bff5, 0x1408e81423ea13, 0x147613e79ca3b4, 0x62ed2c7f33530f);
  (0xc16ddcf6e5504, 0x1408e81423ea13, 0x837a1e363e4bc7, 0xd9e341128a9031);
  (0xe0fd232893289, 0x118a3049236b73, 0x201fc5e3923f17, 0x2811d02847d426);
  (0x907f9d8848647, 0x16879fdf2468b3, 0x1717cc0b0db8d0, 0x399c00716b3f99);
  (0xfc7ccdbd4777d, 0x16879fdf2468b3, 0x607b99584d6fe6, 0x89bfa0c1fae7e5);
  (0x1327b65d7c7018, 0x16879fdf2468b3, 0xea3b3a1a4857cb, 0x1137f4183f5cfca);
  (0x1998e381aa6b6e, 0x1bab62ed655019, 0x29af563ca0d8cb, 0x2d0f3fbe48d166);
  (0x10bd27c5ecf755, 0x1163dcd0e3814d, 0x46016e34fcb2dc, 0x48baa2abae217f);
  (0x1110824b683c51, 0x1163dcd0e3814d, 0x9fcc932c1310ac, 0xa2d922283fc44b);
  (0x113a2f8e25decf, 0x1163dcd0e3814d, 0x142a5b55452d4f7, 0x145b244507f8896);
  (0xee44671e7849c, 0x1e109a7163f279, 0x113a2f8e25decf, 0x22c7b9a1c7029a);
  (0x7722338f3c24e, 0x1e109a7163f279, 0x113a2f8e25decf, 0x458f73438e0534);
  (0x3b9119c79e127, 0x1e109a7163f279, 0x113a2f8e25decf, 0x8b1ee6871c0a68);
  (0x10e4d606eee9d0, 0x1e109a7163f279, 0x9c59161541e937, 0x1163dcd0e3814d0);
  (0x5faf774481fbb, 0x7a85f11b48e8f, 0x2ef5707852dc49, 0x3c2134e2c7e4f2);
  (0x5faf774481fbb, 0xf50be23691d1e, 0x147d3c82055e47, 0x3478d5d1135663);
  (0x5faf774481fbb, 0x1ea17c46d23a3c, 0x7412286de9f46, 0x252817adaa3945);
  (0x25a6630d8d018, 0x181ae0dffa3b33, 0x3a091436f4fa3, 0x252817adaa3945);
  (0x610f2984646d7, 0xb0daa124a3d21, 0x146454788cc474, 0x252817adaa3945);
  (0x610f2984646d7, 0x161b5424947a42, 0xa322a3c46623a, 0x252817adaa3945);
  (0x996fd968aed33, 0xf0cc38915bf03, 0x25c3445365ae4c, 0x3b436bd23eb387);
  (0xc51e08fd0561b, 0xf0cc38915bf03, 0x6d5890b574b7ee, 0x85939b2d932611);
  (0xdaf520c730a8f, 0xf0cc38915bf03, 0x1009b7def7ae88e, 0x11a33f9e43c0b25);
  (0xe5e0acac464c9, 0xf0cc38915bf03, 0x2292d829e7b587c, 0x24374b7518dd54d);
  (0xe5e0acac464c9, 0x1e1987122b7e06, 0x11496c14f3dac3e, 0x24374b7518dd54d);
  (0x5610b440d19bb, 0x1689d619d8032b, 0x8fcff86b74b0e, 0x25a9380a7ef8e1);
  (0xdf570aef28e73, 0x1689d619d8032b, 0x3c9ba84028d262, 0x61dc462ed5f4ed);
  (0x262f2c22f4c4b, 0x7b4edc775e841, 0xdf570aef28e73, 0x2d13ac33b00656);
  (0x50bf044d29a46, 0x7b4edc775e841, 0x3b091ce2a294c9, 0x5a275867600cac);
  (0xcc0de0c488287, 0xf69db8eebd082, 0x4437cb9edd0f77, 0x52726a9fea246b);
  (0x1c2ab99b345309, 0x1ed3b71dd7a104, 0x4b551b1f6399f1, 0x52726a9fea246b);
  (0x49588d91caf95, 0xa08bab99cbea1, 0x179530c217a374, 0x339eb382128367);
  (0x74f21c95cb71b, 0xa08bab99cbea1, 0x4b33e4442a26db, 0x673d67042506ce);
  (0x8abee417cbade, 0xa08bab99cbea1, 0xbb1d3989cbe887, 0xd88388c1e6cc3d);
  (0x455f720be5d6f, 0xa08bab99cbea1, 0xbf7330aa8a45f6, 0x1bb0fcc3d6a571b);
  (0x72f58ed2d8e08, 0xa08bab99cbea1, 0x27a82fce7f49d11, 0x3761f987ad4ae36);
  (0x113813a6ca4ca9, 0x14117573397d42, 0x2efb540ddff7f4f, 0x36c16ddc137ef95);
  (0x5a4f9ed024f76, 0xd2823668fe57f, 0x113813a6ca4ca9, 0x2822eae672fa84);
  (0x2d27cf68127bb, 0xd2823668fe57f, 0x113813a6ca4ca9, 0x5045d5cce5f508);
  (0x7fd502e88869d, 0xd2823668fe57f, 0x617de973b041b1, 0xa08bab99cbea10);
  (0x7fd502e88869d, 0x1a5046cd1fcafe, 0x2cc04ca293dd8a, 0x936388333c0491);
  (0x197ca3a4fa512, 0xa7e209b82bd63, 0x66585f438e18b, 0x2a226cfebcd899);
  (0xcbe51d27d289, 0xa7e209b82bd63, 0x7316b1160b414, 0x5ec2fa98fc6e95);
  (0xcbe51d27d289, 0x14fc4137057ac6, 0x398b588b05a0a, 0x5ec2fa98fc6e95);
  (0x10819e92927059, 0x1fce36f3ebfe43, 0x15c826542d4d4f, 0x29f8826e0af58c);
  (0x1827eac33f374e, 0x1fce36f3ebfe43, 0x57e89385777a29, 0x73bf3bd001e95b);
  (0xc13f5619f9ba7, 0x1fce36f3ebfe43, 0x57e89385777a29, 0xe77e77a003d2b6);
  (0x15f1162ac5ccf5, 0x1fce36f3ebfe43, 0x1555821504119d4, 0x1eecb2633f3a3af);
  (0x4dca0ae0ddabe, 0xe18490acc4081, 0x1114757cb7f237, 0x318424dd0bbc05);
  (0x26e505706ed5f, 0xe18490acc4081, 0x1382c5d3bedf96, 0x712092c4e3b88b);
  (0x8434cb0e996f0, 0xe18490acc4081, 0x8ce6a5498c2f11, 0xf0596e9493b197);
  (0x165b95bbb5d771, 0x1c309215988102, 0xbea009ef0ff054, 0xf0596e9493b197);
  (0xbf9f6ec0ebd10, 0xd5bb42dc8d77b, 0x269230e53f9b63, 0x2b056ffd682a89);
  (0x1955ab19d7948b, 0x1ab7685b91aef6, 0x28cbd07153e2f6, 0x2b056ffd682a89);
  (0xfe2167ca964ff, 0x104e07a1d67b93, 0x43ef29f212a880, 0x45bcd858f9d97f);
  (0x23367ffb68a42, 0x484b9d19feb33, 0xfe2167ca964ff, 0x209c0f43acf726);
  (0x119b3ffdb4521, 0x484b9d19feb33, 0xfe2167ca964ff, 0x41381e8759ee4c);
  (0x2cf36e8bd982a, 0x484b9d19feb33, 0x53e96becc0eb75, 0x86f4f6e053c7cb);
  (0x1679b745ecc15, 0x484b9d19feb33, 0x555107611fb78a, 0x1126ea792477ac9);
  (0x1679b745ecc15, 0x90973a33fd666, 0x2aa883b08fdbc5, 0x1126ea792477ac9);
  (0xa710f179ea27b, 0x1212e7467faccc, 0x9e8b95a16bab47, 0x1126ea792477ac9);
  (0x10e16207056817, 0x156601b74c07a1, 0x1c83f65e1e4f47, 0x2425ce8cff5998);
  (0x1323b1df28b7dc, 0x156601b74c07a1, 0x40a9c4eb1da8df, 0x484b9d19feb330);
  (0x7ac23a0df0ecc, 0x81997f41a9c4d, 0x2889b39674bf7d, 0x2acc036e980f42);
  (0x3d611d06f8766, 0x81997f41a9c4d, 0x2c5fc566e446e3, 0x5db19ed14abad1);
  (0x1eb08e837c3b3, 0x81997f41a9c4d, 0x2c5fc566e446e3, 0xbb633da29575a2);
  (0x502506e293000, 0x81997f41a9c4d, 0xe7c3030979bc85, 0x176c67b452aeb44);
  (0xd1be86243cc4d, 0x10332fe835389a, 0x128b6caf6306dbe, 0x16eace351104ef7);
  (0x42869422e6f90, 0xa46c55c7d71bb, 0xd1be86243cc4d, 0x20665fd06a7134);
  (0xf898cca012e1b, 0x161f9a73ecff79, 0x1df8bb68ad0f66, 0x2aad252ce7e2ef);
  (0x12d4939ef716ca, 0x161f9a73ecff79, 0x5b7a74348c091f, 0x6b79e4cdbcc557);
  (0x1191d05b5c3ab5, 0x12fb7afe08c773, 0x28f42e12e41643, 0x2c3f34e7d9fef2);
  (0x1246a5acb28114, 0x12fb7afe08c773, 0x553362fabe1535, 0x587e69cfb3fde4);
  (0x1ef5b565201cc2, 0x1f8bf8d599a78b, 0x254220aabb4887, 0x25f6f5fc118ee6);
  (0x65bb436098990, 0x66afd2677e75b, 0x44dd6270c34ddd, 0x4582eed1ab3671);
  (0x32dda1b04c4c8, 0x66afd2677e75b, 0x44dd6270c34ddd, 0x8b05dda3566ce2);
  (0x196ed0d826264, 0x66afd2677e75b, 0x46744f7e45b041, 0x11c76b86d24c11f);
  (0x801ea33fa49bf, 0xcd5fa4cefceb6, 0xb17583f5b538b0, 0x11c76b86d24c11f);
  (0x14d7e480ea1875, 0x19abf499df9d6c, 0xdc8a2bf0f7f0ad, 0x10fa0be2034f269);
  (0x45e52cc8b8e2d, 0xac2c47c66d13b, 0x107991b45e8a48, 0x289524b758699d);
  (0x7908ba4792fb4, 0xac2c47c66d13b, 0x409f4210302399, 0x5bed0deb17a475);
  (0x12535020e000ef, 0x158588f8cda276, 0x4e4627fda3e407, 0x5bed0deb17a475);
  (0xba61bcd81f09d, 0x1b5c7300aebd13, 0x12535020e000ef, 0x2b0b11f19b44ec);
  (0x3569a29af0829, 0xfae9ef0ec87d9, 0xefcb5f730f8c6, 0x466784f24a01ff);
  (0x9829c8d4dc801, 0xfae9ef0ec87d9, 0x55643ae97afac5, 0x8ccf09e49403fe);
  (0x9829c8d4dc801, 0x1f5d3de1d90fb2, 0x25f0cf2e169962, 0x7d206af3a77c25);
  (0x1438d56a24c737, 0x1f08b14e1c4d0f, 0x28dfda6f26d7b3, 0x3eba7bc3b21f64);
  (0x19a0c35c208a23, 0x1f08b14e1c4d0f, 0x813b198ef9813a, 0x9c7da8d5808bd7);
  (0xc44bd4ce4ddcc, 0x1db67eff294283, 0xd5c060f3bac57, 0x205ae39d0f579b);
  (0x131fc775e89e56, 0x1b121a61432d6b, 0x16db74d62581f9, 0x205ae39d0f579b);
  (0x1296b59d915ef7, 0x15c9512577033b, 0x1b9b2c399a6cca, 0x205ae39d0f579b);
  (0x4c91f80c42892, 0xb37beaddeaedb, 0xdcd961ccd3665, 0x205ae39d0f579b);
  (0x1000de2ea2d76d, 0x166f7d5bbd5db6, 0x17143cdcee4700, 0x205ae39d0f579b);
  (0x87f6277ceb4bc, 0x9eb664151f9e5, 0x2eefbe022ee9df, 0x36ca60f8ccb551);
  (0x126ac8b920aea1, 0x13d6cc82a3f3ca, 0x32dd0f7d7dcf98, 0x36ca60f8ccb551);
  (0x48ea79e81b12c, 0x4ba048f1f260d, 0x21b2ed9d42f13f, 0x22f3947628c187);
  (0x948ac2da0d739, 0x974091e3e4c1a, 0x22534109b5d963, 0x22f3947628c187);
  (0xc854a6e0a8115, 0x197f8b57ea756d, 0x15cdf69bab584e, 0x2c679d94670da1);
  (0x19e4f2034d4ee, 0x697791b6ddd39, 0xae6fb4dd5ac27, 0x2c679d94670da1);
  (0xcf27901a6a77, 0x697791b6ddd39, 0xae6fb4dd5ac27, 0x58cf3b28ce1b42);
  (0x3b35055c423d8, 0x697791b6ddd39, 0x63b63676a3c769, 0xb19e76519c3684);
  (0x1d9a82ae211ec, 0x697791b6ddd39, 0x658fdea185d955, 0x169d465bea64a41);
  (0x87121464fef25, 0xd2ef236dbba72, 0xe7b222301611cb, 0x169d465bea64a41);
  (0x15a0137d2ba997, 0x1a5de46db774e4, 0x128c343f75e2e06, 0x169d465bea64a41);
  (0x2fee670828c1e, 0x74e1841621a37, 0x12a12d0ca91d79, 0x2d6db09a0ccf91);
  (0xa4cfeb1e4a655, 0xe9c3082c4346e, 0x20076ed35af685, 0x2d6db09a0ccf91);
  (0x18e92f34a8dac3, 0x1d3861058868dc, 0x26ba8fb6b3e30b, 0x2d6db09a0ccf91);
  (0x6e8b041058424, 0x10354f948466b5, 0x1fd1df75ae5ee7, 0x4aa6119f95386d);
  (0x374582082c212, 0x10354f948466b5, 0x234637963120f9, 0xa58172d3aed78f);
  (0x2138eabcc3061, 0x36c570682d47d, 0x13a9a7b50728c7, 0x206a9f2908cd6a);
  (0x8cb0c849d7c33, 0x1cfe482285f8ed, 0xade9b3069ac94, 0x23d6f62f8ba1e7);
  (0x12e4aa5391ba90, 0x1cfe482285f8ed, 0x419a3bb387090b, 0x64ac34819d3cbb);
  (0x9725529c8dd48, 0x1cfe482285f8ed, 0x419a3bb387090b, 0xc95869033a7976);
  (0x4b92a94e46ea4, 0x1cfe482285f8ed, 0x465366486b77af, 0x1afaf1a28faebd9);
  (0x25c954a723752, 0x1cfe482285f8ed, 0x465366486b77af, 0x35f5e3451f5d7b2);
  (0x12e4aa5391ba9, 0x1cfe482285f8ed, 0x4781b0eda49358, 0x6dbbab0c671a851);
  (0x54191a210bde, 0x1021c8af0b50c5, 0x12e4aa5391ba9, 0x39fc90450bf1da);
  (0x4e49ac75ffbcd, 0x9973637e9ff8b, 0x1075e1c92c5ca3, 0x2043915e16a18a);
  (0x5c8a380e6306b, 0x16ac5b262ca1ff, 0xaad3e48462c38, 0x29dac79600a115);
  (0xe3a7f53896935, 0x16ac5b262ca1ff, 0x348805de46cd4d, 0x53b58f2c01422a);
  (0x12736d3cdb059a, 0x16ac5b262ca1ff, 0x883d950a480f77, 0xa76b1e58028454);
  (0x939b69e6d82cd, 0x16ac5b262ca1ff, 0x91774ba8b59244, 0x1658297d631aaa7);
  (0xff308e24d1266, 0x16ac5b262ca1ff, 0x206ecec61344f51, 0x2e1b18ad28ff74d);
  (0x7f98471268933, 0x16ac5b262ca1ff, 0x206ecec61344f51, 0x5c36315a51fee9a);
  (0xf52efcba99599, 0x16ac5b262ca1ff, 0x7d9a2f1d1fdd384, 0xb9d7286706c7f33);
  (0x12ffa578eb1bcc, 0x16ac5b262ca1ff, 0x13771578426a52b7, 0x173ae50ce0d8fe66);
  (0x97fd2bc758de6, 0x16ac5b262ca1ff, 0x13771578426a52b7, 0x2e75ca19c1b1fccc);
  (0x6dd43e13ff48f, 0x9acd387d63b27, 0x194eea01623b56, 0x23abe2c48308d7);
  (0x6dd43e13ff48f, 0x1359a70fac764e, 0xca77500b11dab, 0x23abe2c48308d7);
  (0x2e5188fb8948e, 0x10523bb4d69289, 0x9c25c70f8891d, 0x370589d42f7f25);
  (0x1728c47dc4a47, 0x10523bb4d69289, 0x9c25c70f8891d, 0x6e0b13a85efe4a);
  (0x8e263fe596e68, 0x10523bb4d69289, 0x80afd417b0f5cf, 0xec686305948f1d);
  (0x61bbda852bbdf, 0x7e91f21d88b9f, 0x19349fb33000f1, 0x20a47769ad2512);
  (0x98c71056ea289, 0x18bb5847d49973, 0xfa82eadc15e68, 0x288d968b85b0b1);
  (0x1b859ae8df355, 0x8e91a04238235, 0x7d41756e0af34, 0x288d968b85b0b1);
  (0x1b859ae8df355, 0x11d2340847046a, 0x3ea0bab70579a, 0x288d968b85b0b1);
  (0xc768a40108846, 0x16bb62833eac47, 0x200117f6e58005, 0x3a5fca93ccb51b);
  (0x63b4520084423, 0x16bb62833eac47, 0x263c5d16edc428, 0x8b7af7aad8167d);
  (0x6c5f2b5e15ab, 0x316a897600cd3, 0x63b4520084423, 0x2d76c5067d588e);
  (0x6c5f2b5e15ab, 0x62d512ec019a6, 0x2e772fa55173c, 0x2a601c6f1d4bbb);
  (0x699b05a1e2f51, 0xc5aa25d80334c, 0x1356ef87aa19d3, 0x2432cb405d3215);
  (0x12f452b79e629d, 0x18b544bb006698, 0x1bc4dd6403a5f4, 0x2432cb405d3215);
  (0xa270898e1076a, 0xb7d86855ccb7d, 0x35d0a00b7fd09f, 0x3ce80ffb5d98ad);
  (0x15a48f1e3dd2e7, 0x16fb0d0ab996fa, 0x395c58036eb4a6, 0x3ce80ffb5d98ad);
  (0x7099ce379876c, 0xef1f5e5ea6ab9, 0x15a48f1e3dd2e7, 0x2df61a15732df4);
  (0x16cf8b3526875b, 0x1f04242f88c33b, 0x2ccb1dfe8a7980, 0x3ce80ffb5d98ad);
  (0x69fc35e14a9b, 0x1203863b3edc9, 0x16658eff453cc0, 0x3ce80ffb5d98ad);
  (0x69fc35e14a9b, 0x24070c767db92, 0xb32c77fa29e60, 0x3ce80ffb5d98ad);
  (0x2aa6cfd49262d, 0x480e18ecfb724, 0x22b8353edb8870, 0x3aa79f33f5bd1b);
  (0x72b4e8c18dd51, 0x901c31d9f6e48, 0x2b1a42f35c341d, 0x3626bda52605f7);
  (0x102d11a9b84b99, 0x1203863b3edc90, 0x30a0804c411d0a, 0x3626bda52605f7);
  (0x1abb2140d543, 0x1c2af3697047, 0x223097e4f72829, 0x24070c767db920);
  (0x1abb2140d543, 0x3855e6d2e08e, 0x110aee61db2973, 0x23eae1831448d9);
  (0x53110813b5d1, 0x70abcda5c11c, 0x1a7ae7f277b926, 0x23eae1831448d9);
  (0xc3bcd5b976ed, 0xe1579b4b8238, 0x1ed1064fe94589, 0x237a35b56e87bd);
  (0x1a5147104f925, 0x1c2af36970470, 0x21259e02abe6a3, 0x237a35b56e87bd);
  (0x367c3a79bfd95, 0x3855e6d2e08e0, 0x224fe9dc0d3730, 0x237a35b56e87bd);
  (0x1f6e7ebe58dc3c, 0x1ff4d748407edd, 0x265ba0d322e2b1, 0x26ff94229c909d);
  (0x18b5bb8bb9a172, 0x18ea1a6de46d1d, 0x26ad9a7adfb9a7, 0x26ff94229c909d);
  (0xac93eaadfe96d, 0xad4a0b92c499d, 0x26d6974ebe2522, 0x26ff94229c909d);
  (0xac93eaadfe96d, 0x15a9417258933a, 0x136b4ba75f1291, 0x26ff94229c909d);
  (0x451067e3f9492, 0x115652b043fd63, 0xf1a45291f7dff, 0x3ca8d594f523d7);
  (0x228833f1fca49, 0x115652b043fd63, 0x1142c8683f4848, 0x8aa7fdda2e4511);
  (0xa8c85f8500, 0xa97a7f1a607, 0x227da76c04549, 0x22a20db89654bf);
  (0x54642fc280, 0xa97a7f1a607, 0x2282edaf007c9, 0x454eb3191e4f85);
  (0x2a3217e140, 0xa97a7f1a607, 0x228590d07e909, 0x8aa7fdda2e4511);
  (0x15190bf0a0, 0xa97a7f1a607, 0x228590d07e909, 0x1154ffbb45c8a22);
  (0xaacc0fd96a7, 0x152f4fe34c0e, 0x8bb6d400336e42, 0x11545640c6ae41b);
  (0x1fdc10e0e2b5, 0x2a5e9fc6981c, 0xd06e2dfddeb7d4, 0x1153034bc87980d);
  (0x1fdc10e0e2b5, 0x54bd3f8d3038, 0x683716feef5bea, 0x1153034bc87980d);
  (0x1fdc10e0e2b5, 0xa97a7f1a6070, 0x341b8b7f77adf5, 0x1153034bc87980d);
  (0xc9568ffb4325, 0x152f4fe34c0e0, 0xa4a5e01dffa301, 0x1153034bc87980d);
  (0x21c4b8e300405, 0x2a5e9fc6981c0, 0xdceb0a6d439d87, 0x1153034bc87980d);
  (0x21c4b8e300405, 0x54bd3f8d30380, 0x6d675f6f89ccc1, 0x1128a4ac01e164d);
  (0x7681f87030785, 0xa97a7f1a60700, 0xbff8d517d3f187, 0x1128a4ac01e164d);
  (0x7681f87030785, 0x152f4fe34c0e00, 0x5c485ac8687501, 0x107f2a2ce780f4d);
  (0x5677ffda39125, 0x1eea340a33754d, 0x7681f87030785, 0x2a5e9fc6981c00);
  (0x1004fc4afbb30, 0xb746bbc64a6b3, 0x667cfc2534c55, 0x4948d3d0cb914d);
  (0x8027e257dd98, 0xb746bbc64a6b3, 0x6e7f7a4ab29ed, 0x9e06135dfbc94d);
  (0x4013f12beecc, 0xb746bbc64a6b3, 0x6e7f7a4ab29ed, 0x13c0c26bbf7929a);
  (0x2009f895f766, 0xb746bbc64a6b3, 0x708019d412153, 0x2838cb93453cbe7);
  (0xb9475b4fa9e19, 0x16e8d778c94d66, 0x1454a5d68ca769d, 0x2838cb93453cbe7);
  (0x19152cdd84050, 0x21527fe4f54bf, 0x227d4d2dc3eb7f, 0x2dd1aef1929acc);
  (0x3a67acc27950f, 0x42a4ffc9ea97e, 0x265440a997789e, 0x2bbc86f343460d);
  (0x7d0cac8c63e8d, 0x8549ff93d52fc, 0x251ffe6a0a400f, 0x279236f6a49c8f);
  (0xea799d0a200c1, 0x1f3d96fd674993, 0x16786499683f4e, 0x2fe6d6efe1ef8b);
  (0x16f2986704a52a, 0x1f3d96fd674993, 0x465f3b894a2ed9, 0x5fcdaddfc3df16);
  (0x1ce2d9de520dc, 0x214e8e78e025d, 0x36302f646beebd, 0x3e7b2dface9326);
  (0x3e31685732339, 0x429d1cf1c04ba, 0x3864236ce3af55, 0x3c6645134090c9);
  (0x80ce8548f27f3, 0x853a39e380974, 0x3a65344012200f, 0x3c6645134090c9);
  (0x10608bf2c73167, 0x10a7473c7012e8, 0x3b65bca9a9586c, 0x3c6645134090c9);
  (0xa5a4417a20e24, 0xa706f5df05811, 0x2107d32f37444f, 0x214e8e78e025d0);
  (0x16c5d7194281f5, 0x16de1f1aefcdbf, 0x2b908a8ed4e82a, 0x2bbefdd6d07de1);
  (0x16d1fb1a1927da, 0x16de1f1aefcdbf, 0x574f8865a5660b, 0x577dfbada0fbc2);
  (0x12de9aba15c081, 0x12e39e5cd19285, 0x2db01a3508f599, 0x2dbc3e35df9b7e);
  (0x12e11c8b73a983, 0x12e39e5cd19285, 0x6e4d74f65c3a9a, 0x6e5c1ac890c981);
  (0x12e25d74229e04, 0x12e39e5cd19285, 0xdca98fbeed041b, 0xdcb83591219302);
  (0xceff9aac8409d, 0xcf0679420474b, 0x25c5fbd0f43089, 0x25c73cb9a3250a);
  (0xcf0309f7443f4, 0xcf0679420474b, 0x4b8d388a975593, 0x4b8e7973464a14);
  (0x678184fba21fa, 0xcf0679420474b, 0x4b8d388a975593, 0x971cf2e68c9428);
  (0x13687fe3da6945, 0x19e0cf28408e96, 0x67a0d5c6a4c03b, 0x8a2c8b526c4cdd);
  (0x34b2b29b058f1, 0x8c87f892983ef, 0x13687fe3da6945, 0x33c19e50811d2c);
  (0x34b2b29b058f1, 0x1190ff125307de, 0x80eaa5d15082a, 0x2af91ec757993d);
  (0xf15cf7434a04c, 0x19681fb504915f, 0x23f1f9b038011b, 0x3c8a1dd9aaa11b);
  (0x78ae7ba1a5026, 0x19681fb504915f, 0x23f1f9b038011b, 0x79143bb3554236);
  (0x3c573dd0d2813, 0x19681fb504915f, 0x23f1f9b038011b, 0xf2287766aa846c);
  (0x100737560cc38, 0xd7f5a09816815, 0x3c573dd0d2813, 0x32d03f6a0922be);
  (0xe7fcd7ee2344d, 0x1afeb41302d02a, 0x140af2e41a0b42, 0x2550e56087baa9);
  (0x7eeab595e60ba, 0xa52314d84ea7f, 0x316d2ceb436531, 0x404f99738a8ad3);
  (0x1240dca6e34b39, 0x14a4629b09d4fe, 0x38de632f66f802, 0x404f99738a8ad3);
  (0x23f1f6e951118, 0x26271a26d0bd9, 0x26e53f41ed2037, 0x2948c53613a9fc);
  (0x4a19111021cf1, 0x4c4e344da17b2, 0x25c639b37f56a1, 0x26e65393a69e23);
  (0x9667455dc34a3, 0x989c689b42f64, 0x265646a392fa62, 0x26e65393a69e23);
  (0x1d262fabd49a3f, 0x1d5c8d09f26ebf, 0x30166a8b64fe46, 0x30701a1d5acd87);
  (0x1d415e5ae3847f, 0x1d5c8d09f26ebf, 0x608684a8bfcbcd, 0x60e0343ab59b0e);
  (0x1d4ef5b26af99f, 0x1d5c8d09f26ebf, 0xdeb5ae95e0607a, 0xdf1cf57f5da4db);
  (0x1d55c15e2eb42f, 0x1d5c8d09f26ebf, 0x1db2865736cb984, 0x1db967808adb875);
  (0x2e627c840bb4a, 0x5cda76986cc85, 0x1d55c15e2eb42f, 0x3ab91a13e4dd7e);
  (0x17313e4205da5, 0x5cda76986cc85, 0x1d55c15e2eb42f, 0x75723427c9bafc);
  (0x17313e4205da5, 0xb9b4ed30d990a, 0xdf156bd072b45, 0x6fa48cbe42ee77);
  (0xd0e62b72df6af, 0x17369da61b3214, 0x3ecaf1bda50cde, 0x6fa48cbe42ee77);
  (0x374c1ab42e83d, 0x46c8780450bed, 0x20d03eb2064086, 0x2a00b3cbf1583b);
  (0x374c1ab42e83d, 0x8d90f008a17da, 0x10681f59032043, 0x2a00b3cbf1583b);
  (0xc4dd0abcd0017, 0x11b21e01142fb4, 0x1d3469927a3c3f, 0x2a00b3cbf1583b);
  (0x59aa002549a72, 0x69c77c9c8f8d3, 0x1dffeeace12fcb, 0x23643c02285f68);
  (0x1a96897175fdf7, 0x1cc7c4385f6695, 0x26cda13d93913c, 0x2a00b3cbf1583b);
  (0x72fb8d2ac3559, 0xf8ed4a4cd74ef, 0x1366d09ec9c89e, 0x2a00b3cbf1583b);
  (0x72fb8d2ac3559, 0x1f1da9499ae9de, 0x9b3684f64e44f, 0x2a00b3cbf1583b);
  (0x141d7be5c577b, 0xae30a82566e5d, 0x8719091088cd4, 0x491e5d158c4219);
  (0x141d7be5c577b, 0x15c61504acdcba, 0x438c84884466a, 0x491e5d158c4219);
  (0xda8c65e5cbba, 0x1d92330c3288a5, 0x141d7be5c577b, 0x2b8c2a0959b974);
  (0x730a12acede48, 0xdf9f6fd2730cf, 0x259d609ce732a7, 0x491e5d158c4219);
  (0x3985095676f24, 0xdf9f6fd2730cf, 0x259d609ce732a7, 0x923cba2b188432);
  (0x119247928e9ff3, 0x1bf3edfa4e619e, 0x5323e99ab88b73, 0x8442c32df15363);
  (0x25bbe21084a26, 0x780e2b59694b3, 0xf3689718655cd, 0x3066f93f062e89);
  (0x12ddf10842513, 0x780e2b59694b3, 0x106468820a7ae0, 0x684ed533a2f1c5);
  (0x45760e30d5ce3, 0x780e2b59694b3, 0x78b33db5ad6ca5, 0xd09daa6745e38a);
  (0x45760e30d5ce3, 0xf01c56b2d2966, 0x3a2dee695007e1, 0xc91cc7b1af4ed7);
  (0x45760e30d5ce3, 0x1e038ad65a52cc, 0x1aeb46c321557f, 0xba1b0246822571);
  (0x37261589aae6b, 0x605c1406434a9, 0x225aebb967afaf, 0x3c0715acb4a598);
  (0x4bc114c7f718a, 0x605c1406434a9, 0x5e6201661c5547, 0x780e2b59694b30);
  (0xac1d28ce3a633, 0xc0b8280c86952, 0x65d72d1950fd22, 0x72086a19051687);
  (0x16cd550dac0f85, 0x1817050190d2a4, 0x60892112550212, 0x65fce7983cad35);
  (0x1cec7d3e6d8466, 0x1db7d8938a3549, 0x2ee45a0f3ce229, 0x302e0a0321a548);
  (0x123707203366e1, 0x1276316f976fff, 0x4cdb5cf22b2090, 0x4de5e296abda91);
  (0x1ffa038aec286, 0x40d1cd84e1a95, 0x123707203366e1, 0x24ec62df2edffe);
  (0x60cbd10fcdd1b, 0x81a39b09c352a, 0x188b567732b4e2, 0x20df4606e0c569);
  (0x15a1d2de3d3403, 0x18c50c5644903f, 0x23c8c99fd64648, 0x28f97fb77cfa93);
  (0x17336f9a40e221, 0x18c50c5644903f, 0x4cc249575340db, 0x51f2ff6ef9f526);
  (0x17fc3df842b930, 0x18c50c5644903f, 0x9eb548c64d3601, 0xa3e5feddf3ea4c);
  (0xbfe1efc215c98, 0x18c50c5644903f, 0xaab367c26e9299, 0x160910a122c64d7);
  (0x44c09a98401d7, 0x5ca5d5a6c8165, 0x24c32b5265ecd7, 0x318a18ac89207e);
  (0x50b3381f8419e, 0x5ca5d5a6c8165, 0x564d43feef0d55, 0x631431591240fc);
  (0xad590dc64c303, 0xb94bab4d902ca, 0x5745f23dce45a7, 0x5d49d3fea5bf97);
  (0xad590dc64c303, 0x17297569b20594, 0x263830b0b4c152, 0x51b51949ccbccd);
  (0x8f81b941e922d, 0xc38b90cb6ac11, 0x21ff064616c897, 0x2e52ead3640b28);
  (0x8f81b941e922d, 0x187172196d5822, 0xc837558fc1b35, 0x221a31c6ad5f17);
  (0x1c5ace26ec484, 0x9a8bfad4006f5, 0xabdc8768d56b1, 0x3a8ba3e01ab739);
  (0xe2d671376242, 0x9a8bfad4006f5, 0xabdc8768d56b1, 0x751747c0356e72);
  (0xa8b961e776937, 0x13517f5a800dea, 0x3aa4bd0c25adf6, 0x6b6e8812f5677d);
  (0x860ece122e0e7, 0xad70b4e7521eb, 0x1ddd1578f77721, 0x26a2feb5001bd4);
  (0x99bfc17cc0169, 0xad70b4e7521eb, 0x4480142df792f5, 0x4d45fd6a0037a8);
  (0xa3983b32091aa, 0xad70b4e7521eb, 0x9bff954b185c47, 0xa563062275913b);
  (0x15108f0195b395, 0x15ae169cea43d6, 0xa0b14db6c6f6c1, 0xa563062275913b);
  (0x7f06c8d6199ae, 0x80daec4dc8d75, 0x22ce39111e5dbd, 0x234e7e74f7fa37);
  (0x3f83646b0ccd7, 0x80daec4dc8d75, 0x26c66f57cf2a94, 0x4eaaabaecc81e3);
  (0x602f285c6ad26, 0x80daec4dc8d75, 0x7b740d8c62599d, 0xa563062275913b);
  (0x3017942e35693, 0x80daec4dc8d75, 0x7b740d8c62599d, 0x14ac60c44eb2276);
  (0x3017942e35693, 0x101b5d89b91aea, 0x3c394a24bf8185, 0x142b85d800e9501);
  (0x18ea516f00a4e, 0x10b06c475195a3, 0x3017942e35693, 0x2036bb137235d4);
  (0x87c917c09f63b, 0xf864ecc20a031, 0x1abba2da4b962c, 0x30e7275ac3cb77);
  (0x87c917c09f63b, 0x1f0c9d98414062, 0xd5dd16d25cb16, 0x30e7275ac3cb77);
  (0x1cda8c57710b0, 0xd3213d5beb54d, 0x6aee8b692e58b, 0x30e7275ac3cb77);
  (0xe6d462bb8858, 0xd3213d5beb54d, 0x6aee8b692e58b, 0x61ce4eb58796ee);
  (0x736a315dc42c, 0xd3213d5beb54d, 0x6aee8b692e58b, 0xc39c9d6b0f2ddc);
  (0xda57e071c7979, 0x1a6427ab7d6a9a, 0x5e53040d42ccf7, 0xb66a899550788f);
  (0x99b7124242ac, 0x2528c1b1d71a7, 0xd0bc6f4da36cd, 0x3275c33bdd638d);
  (0x4cdb89212156, 0x2528c1b1d71a7, 0xd58a27dfb5823, 0x673e1292d838c1);
  (0x29f67a43e92fd, 0x4a518363ae34e, 0x3a4b5a8869c872, 0x673e1292d838c1);
  (0x7447fda79764b, 0x94a306c75c69c, 0x4d2276a0644574, 0x6298fa5c9d5573);
  (0x108eb046ef3ce7, 0x129460d8eb8d38, 0x4f96605b092f00, 0x594ec9f0278ed7);
  (0x6adcf9fa61db2, 0xefd468c7959f7, 0x108eb046ef3ce7, 0x2528c1b1d71a70);
  (0x356e7cfd30ed9, 0xefd468c7959f7, 0x108eb046ef3ce7, 0x4a518363ae34e0);
  (0x92a172e263468, 0xefd468c7959f7, 0x640a4ad8c3a62f, 0xa3a04d53d5c3b7);
  (0x4950b97131a34, 0xefd468c7959f7, 0x689f566fd6c063, 0x1563de13424e165);
  (0x24a85cb898d1a, 0xefd468c7959f7, 0x689f566fd6c063, 0x2ac7bc26849c2ca);
  (0x1147cc5802e711, 0x1dfa8d18f2b3ee, 0x181e9a6400ece0e, 0x29d7e7bdbd068d3);
  (0x2df0b57e7794c, 0x9f65bb6f4f25f, 0x1147cc5802e711, 0x3bf51a31e567dc);
  (0xcd5670edc6bab, 0x13ecb76de9e4be, 0x2033bfbd85f1a1, 0x31febe7af0757d);
  (0x857209f74e326, 0xa254f9f1cac01, 0x20c21e7cc65069, 0x27d96edbd3c97c);
  (0x1b0f8e8d04455f, 0x1db41f3cb71d7b, 0x2d8bfecb95d486, 0x31febe7af0757d);
  (0x1c61d6e4ddb16d, 0x1db41f3cb71d7b, 0x5f8abd46864a03, 0x63fd7cf5e0eafa);
  (0x1d0afb10ca6774, 0x1db41f3cb71d7b, 0xc3883a3c6734fd, 0xc7faf9ebc1d5f4);
  (0xe857d886533ba, 0x1db41f3cb71d7b, 0xc3883a3c6734fd, 0x18ff5f3d783abe8);
  (0x742bec43299dd, 0x1db41f3cb71d7b, 0xcacaf90099ceda, 0x33da006ebbe754b);
  (0x127b6f0074dbac, 0x1db41f3cb71d7b, 0x41ae66eeccd1fd1, 0x698f42d14340811);
  (0x14b9bf4fb153ad, 0x198d57cc259529, 0x302f8e3d2bf927, 0x3b683e796e3af6);
  (0x17238b8deb746b, 0x198d57cc259529, 0x6b97ccb69a341d, 0x76d07cf2dc75ec);
  (0x40cf6877f88fd, 0x8f23a09df73e1, 0x131695066beb6e, 0x2a28758e6bb671);
  (0x40cf6877f88fd, 0x11e47413bee7c2, 0x98b4a8335f5b7, 0x2a28758e6bb671);
  (0x3e8756d926555, 0x65f8d66ede6ed, 0x15f16a9b3e70bf, 0x23c8e8277dcf84);
  (0x524016a402621, 0x65f8d66ede6ed, 0x3ede542cfc6664, 0x4df15db5e985f5);
  (0x524016a402621, 0xcbf1acddbcdda, 0x1f6f2a167e3332, 0x4df15db5e985f5);
  (0x524016a402621, 0x197e359bb79bb4, 0xfb7950b3f1999, 0x4df15db5e985f5);
  (0x1032425a9c8df2, 0x1af4f27e7a4e8d, 0x1ea23705f7c1d5, 0x32fc6b376f3768);
  (0x819212d4e46f9, 0x1af4f27e7a4e8d, 0x26bb58334608ce, 0x80edc8ed58bd5d);
  (0x118709d5e44ac3, 0x1af4f27e7a4e8d, 0xb9302af68310ee, 0x11cd084592bc947);
  (0x4f4e44dcc12a8, 0xf3f0b6864b7c5, 0x118709d5e44ac3, 0x35e9e4fcf49d1a);
  (0x1433efb630ca6d, 0x1e7e16d0c96f8a, 0x199e7f8e540eb8, 0x26aad9948fe555);
  (0x6cba94df4dd0b, 0x82cc2c3c675cb, 0x397dafd4ef1702, 0x4528f0655954df);
  (0x6cba94df4dd0b, 0x105985878ceb96, 0x1cbed7ea778b81, 0x4528f0655954df);
  (0x42dee004c7a30, 0x141c5fceb2921d, 0x6cba94df4dd0b, 0x20b30b0f19d72c);
  (0x216f700263d18, 0x141c5fceb2921d, 0x8e2a04e1b1a23, 0x558275ece64075);
  (0x10b7b80131e8c, 0x141c5fceb2921d, 0x8e2a04e1b1a23, 0xab04ebd9cc80ea);
  (0x85bdc0098f46, 0x141c5fceb2921d, 0x9685e0e24a969, 0x16a2637824b93f1);
  (0x1440c39af232, 0x277af9bd4de7, 0x14a21d8ebc2163, 0x2838bf9d65243a);
  (0x3bbbbd584019, 0x4ef5f37a9bce, 0x1e4f90b76482c2, 0x281144a3a7d653);
  (0x3bbbbd584019, 0x9debe6f5379c, 0xf27c85bb24161, 0x281144a3a7d653);
  (0x3bbbbd584019, 0x13bd7cdea6f38, 0x776064f2d00a4, 0x277358bcb29eb7);
  (0x177938b42af51, 0x277af9bd4de70, 0x16b8e5c04e7805, 0x263780eec82f7f);
  (0x3ef4327178dc1, 0x4ef5f37a9bce0, 0x1e7833578b53c2, 0x263780eec82f7f);
  (0x8dea25ec14aa1, 0x9debe6f5379c0, 0x1de888f3c91c50, 0x214821b71e729f);
  (0x8dea25ec14aa1, 0x13bd7cdea6f380, 0xef44479e48e28, 0x214821b71e729f);
  (0x1648021cf038d, 0x632d8062f7461, 0x77a223cf24714, 0x214821b71e729f);
  (0x1648021cf038d, 0xc65b00c5ee8c2, 0x3bd111e79238a, 0x214821b71e729f);
  (0xb9d8153b4d4ed, 0x14e271aabf89dd, 0x1967b181e2c13c, 0x2dadd1c37d5b61);
  (0x103ff97f3a2f65, 0x14e271aabf89dd, 0x57557cc49a4c02, 0x703e1531ba409f);
  (0xb2acb63d8c737, 0x1cb44e86bc192b, 0x103ff97f3a2f65, 0x29c4e3557f13ba);
  (0x13ef8cf54a7031, 0x1cb44e86bc192b, 0x3a04dcd4b9431f, 0x5389c6aafe2774);
  (0xe4e5059306ba, 0x29324e936240d, 0x130aa7efb76977, 0x36d57824420e49);
  (0x37809eec92ac7, 0x52649d26c481a, 0x24f01009fcbbe0, 0x36d57824420e49);
  (0x89e53c13572e1, 0xa4c93a4d89034, 0x29939a3684aba4, 0x31af2e51d5c62f);
  (0x12eae7660e0315, 0x14992749b12068, 0x242bf09126375f, 0x27629aacfd35fb);
  (0x8a084958c1a25, 0x12c973634c1593, 0x1b8b6bfb9a1d3a, 0x3bfbc1f6ae5663);
  (0x525316840f478, 0x1668db30162b3d, 0x8a084958c1a25, 0x2592e6c6982b26);
  (0x29298b4207a3c, 0x1668db30162b3d, 0xb331d49ac9461, 0x618ea8bd468189);
  (0x469fb3b0c4003, 0x7eb3bfcedd495, 0x18fb73e436a579, 0x2cd1b6602c567a);
  (0x469fb3b0c4003, 0xfd677f9dba92a, 0xa48bc549532bb, 0x24e67a633e81e5);
  (0x2ef608cc4795c, 0x1510026962d8bb, 0x7595bc7d0b95f, 0x34bcf25d1a2b0f);
  (0x60bc41c4e2020, 0xa9ced8a547999, 0x17ff62f6275217, 0x2a2004d2c5b176);
  (0x18bb5b112534ea, 0x1f8317487137dd, 0x29640cb7c7cea3, 0x34bcf25d1a2b0f);
  (0xc5dad88929a75, 0x1f8317487137dd, 0x29640cb7c7cea3, 0x6979e4ba34561e);
  (0x225820f07ffa2, 0xaf09ee0e0ae87, 0xc5dad88929a75, 0x3f062e90e26fba);
  (0xd1620efe8ae29, 0x15e13dc1c15d0e, 0x1f26dd94c62e03, 0x34158fb001c133);
  (0x6a6d7f0b9ec64, 0x853142c7f0717, 0x22f75eb1aa0b37, 0x2bc27b8382ba1c);
  (0xef9ec1d38f37b, 0x10a62858fe0e2e, 0x1fdff70bf9e8ec, 0x236f675703b305);
  (0xf60f68c400fb, 0x22316a50796a9, 0xef9ec1d38f37b, 0x214c50b1fc1c5c);
  (0x701ee5a3a7940, 0x1f293a0cf485b3, 0x7f7fdc2fe7a3b, 0x236f675703b305);
  (0x107775da2de853, 0x1ae30cc2e55861, 0x15b3b28d0116a0, 0x236f675703b305);
  (0x59d9c93ad5d03, 0x1256b22ec6fdbd, 0xad9d946808b50, 0x236f675703b305);
  (0x30aff06d175b, 0x13dfd068a4875, 0x56ceca34045a8, 0x236f675703b305);
  (0x30aff06d175b, 0x27bfa0d1490ea, 0x2b67651a022d4, 0x236f675703b305);
  (0x30aff06d175b, 0x4f7f41a2921d4, 0x15b3b28d0116a, 0x236f675703b305);
  (0x30aff06d175b, 0x9efe8345243a8, 0xad9d946808b5, 0x236f675703b305);
  (0xa209824bf5b03, 0x13dfd068a48750, 0x120e8275b5dddd, 0x236f675703b305);
  (0x3f6f5287b416d, 0xf8f96ee5f2bb5, 0xe178d4d3a9c70, 0x374f37bfa83a55);
  (0x3f6f5287b416d, 0x1f1f2ddcbe576a, 0x70bc6a69d4e38, 0x374f37bfa83a55);
  (0xda26db085f7db, 0x183009e2e9e2eb, 0x30b890b5bf90b2, 0x566e659c6691bf);
  (0x12e93bc9b7ed63, 0x183009e2e9e2eb, 0x8726f652262271, 0xacdccb38cd237e);
  (0x158ca2d650e827, 0x183009e2e9e2eb, 0x149906461442e16, 0x171e9a0548429e7);
  (0x16de565c9d6589, 0x183009e2e9e2eb, 0x2bb7a04b5c857fd, 0x2e3d340a90853ce);
  (0x1787301fc3a43a, 0x183009e2e9e2eb, 0x5b6d4757e945005, 0x5dfd68b34fa8a87);
  (0x4257a06c40fcb, 0x434264055959d, 0x2fb73a02ad8725, 0x306013c5d3c5d6);
  (0x4257a06c40fcb, 0x8684c80ab2b3a, 0x15c8dffdf4bbad, 0x2c2bed857e3039);
  (0xc8dc6876f3b05, 0x10d09901565674, 0x20fa66c1b975f3, 0x2c2bed857e3039);
  (0x934ca9ad6419d, 0xa8abb82d18351, 0x1d5e5f88c59179, 0x21a13202acace8);
  (0x9dfc30ed3e277, 0xa8abb82d18351, 0x48df549a4620d8, 0x4dcd1f882add21);
  (0xa353f48d2b2e4, 0xa8abb82d18351, 0xa0e1b36b43b0dd, 0xa624fa93273d93);
  (0x14bffacba43635, 0x15157705a306a2, 0xa38356ff357738, 0xa624fa93273d93);
  (0x13e3faef61d38, 0x286bd99f0f77d, 0x1381bb1cae18fd, 0x27a430715515c7);
  (0x3c4fd48e714b5, 0x50d7b33e1eefa, 0x1d92f5c7019762, 0x27a430715515c7);
  (0x3c4fd48e714b5, 0xa1af667c3ddf4, 0xec97ae380cbb1, 0x27a430715515c7);
  (0x5823ecd4cdb7e, 0x1d893a099137d3, 0x9473c1633f033, 0x31bf26d918f3bb);
  (0x2c11f66a66dbf, 0x1d893a099137d3, 0xc085b7cda5df2, 0x810787bbc31f49);
  (0x10252cb81bd2c9, 0x1d893a099137d3, 0x8d0fe3389d7d3b, 0x1020f0f77863e92);
  (0x21f57a02e75eb, 0x7c3fade94b7d9, 0xe05d517ed5cde, 0x334e79348db7cd);
  (0x4f1a93f6196e2, 0x7c3fade94b7d9, 0x4645f78bdcab8d, 0x6e60ed47b02773);
  (0xcb5a41df64ebb, 0xf87f5bd296fb2, 0x5a537269c66980, 0x6e60ed47b02773);
  (0xcb5a41df64ebb, 0x1f0feb7a52df64, 0x2d29b934e334c0, 0x6e60ed47b02773);
  (0xc1cfbd9dbe8eb, 0x11312ad8b78947, 0x2bc58f98492e1f, 0x3e1fd6f4a5bec8);
  (0x3b74e055ab9af, 0xa8c566a7f22f3, 0xc1cfbd9dbe8eb, 0x226255b16f128e);
  (0x721d237ecee51, 0xa8c566a7f22f3, 0x35a123c337e9ca, 0x4f5101cd5d480f);
  (0x8d714513608a2, 0xa8c566a7f22f3, 0x84f225909531d9, 0x9ea2039aba901e);
  (0x46b8a289b0451, 0xa8c566a7f22f3, 0x84f225909531d9, 0x13d44073575203c);
  (0x46b8a289b0451, 0x1518acd4fe45e6, 0x40434db3fd16c4, 0x132b7b0caf5fd49);
  (0x5e21d2e842296, 0x9ba6faff01b31, 0x13a219cf1527a1, 0x2076e9fa0c709b);
  (0x2f10e9742114b, 0x9ba6faff01b31, 0x169328665738ec, 0x4aa843a408fc67);
  (0x2f10e9742114b, 0x1374df5fe03662, 0xb4994332b9c76, 0x4aa843a408fc67);
  (0x3d5314ee545b, 0x32b39db77dd21, 0x2b3bb8253bcf0, 0x23be84e4488fa3);
  (0x3d5314ee545b, 0x65673b6efba42, 0x159ddc129de78, 0x23be84e4488fa3);
  (0x3d5314ee545b, 0xcace76ddf7484, 0xaceee094ef3c, 0x23be84e4488fa3);
  (0x3d5314ee545b, 0x1959cedbbee908, 0x5677704a779e, 0x23be84e4488fa3);
  (0x53eed31f2e4ef, 0xa64b60889a69b, 0x1ed60f22a02252, 0x3d1853c00778ab);
  (0x7d1d19d3e45c5, 0xa64b60889a69b, 0x63c0347fe5e0c2, 0x84955d889897f1);
  (0x91b43d2e3f630, 0xa64b60889a69b, 0xf170d5db626ee3, 0x1138f7119bad67d);
  (0x48da1e971fb18, 0xa64b60889a69b, 0xf170d5db626ee3, 0x2271ee23375acfa);
  (0x246d0f4b8fd8c, 0xa64b60889a69b, 0xf3b7a6d01b6c6f, 0x458a27a6f75008f);
  (0x123687a5c7ec6, 0xa64b60889a69b, 0xf4db0f4a77eb35, 0x8bba9aae773a7b9);
  (0xb881e82e62561, 0x14c96c11134d36, 0x4d8425d18f5c977, 0x8bba9aae773a7b9);
  (0x73d3736697342, 0x94fec4cb0eb0f, 0x1914535d8fff55, 0x2042ebd575af5d);
  (0x108d23831a5e51, 0x129fd89961d61e, 0x1cab9f9982d759, 0x2042ebd575af5d);
  (0x60f3e0b343c84, 0xda3133c13d93f, 0x169c618e4e9ad5, 0x32e2c46ed7857b);
  (0x3079f059a1e42, 0xda3133c13d93f, 0x169c618e4e9ad5, 0x65c588ddaf0af6);
  (0x10aab241adf781, 0x1b46267827b27e, 0x35db9c1527d725, 0x582275a19b31b7);
  (0x10e2a89849cf90, 0x14f6243f039841, 0x1b0e30218bda6f, 0x219628b14bccbb);
  (0x871544c24e7c8, 0x14f6243f039841, 0x237f846db0c237, 0x582275a19b31b7);
  (0x438aa261273e4, 0x14f6243f039841, 0x237f846db0c237, 0xb044eb4336636e);
  (0x11be6576a66851, 0x1d89ed8a1d39a7, 0x192ece65160c25, 0x29ec487e073082);
  (0x3b8347737d1ea, 0xc625af3e9f6db, 0x157699edde3a3b, 0x47763608246a29);
  (0x101a8f6b21c8c5, 0x18c4b5e7d3edb6, 0x2e7667fb015232, 0x47763608246a29);
  (0x25898faddb38b, 0x2d7ebaf575ef9, 0x2686ac581802f0, 0x2eb18020507c73);
  (0x29842551a8942, 0x2d7ebaf575ef9, 0x55382c78687f63, 0x5d630040a0f8e6);
  (0x14c212a8d44a1, 0x2d7ebaf575ef9, 0x56844da2f5c404, 0xbd9dec309950c5);
  (0x14c212a8d44a1, 0x5afd75eaebdf2, 0x2b4226d17ae202, 0xbd9dec309950c5);
  (0x6fbf8893c0293, 0xb5faebd5d7be4, 0x70f20d3c6c181a, 0xb7ee14d1ea92d3);
  (0x6fbf8893c0293, 0x16bf5d7abaf7c8, 0x3879069e360c0d, 0xb7ee14d1ea92d3);
  (0x3ca9d6ec8fd04, 0x18b28676cdcc5b, 0x6fbf8893c0293, 0x2d7ebaf575ef90);
  (0x1e54eb7647e82, 0x18b28676cdcc5b, 0x6fbf8893c0293, 0x5afd75eaebdf20);
  (0xf2a75bb23f41, 0x18b28676cdcc5b, 0x7ee9fe4ee41d4, 0xcead724ca58a9b);
  (0xcd296e94005ce, 0x18b28676cdcc5b, 0xd69c123193cc6f, 0x19d5ae4994b1536);
  (0x6694b74a002e7, 0x18b28676cdcc5b, 0xd69c123193cc6f, 0x33ab5c932962a6c);
  (0x184ac1479b654, 0xbb273e20ed2b1, 0x6694b74a002e7, 0x31650ced9b98b6);
  (0xd371ff6888905, 0x1764e7c41da562, 0x154b9c35d9894c, 0x25b2990b8cc605);
  (0x29151db9bc45f, 0x917367cae84bf, 0xaa5ce1aecc4a6, 0x25b2990b8cc605);
  (0x29151db9bc45f, 0x122e6cf95d097e, 0x552e70d766253, 0x25b2990b8cc605);
  (0x160ca98ed4efa, 0x13842c122fbc87, 0x3f21c74891359, 0x37e10604e9cf83);
  (0x9049a919c65ed, 0x10d8ade08a5675, 0x14e4f6ab1d0b81, 0x270858245f790e);
  (0x5f02e0cc052ca, 0x162faa43d52299, 0xef4c89e5cb8b7, 0x37e10604e9cf83);
  (0x74b0f010dceba, 0xb81b17d3f8a51, 0x1c1fd850957563, 0x2c5f5487aa4532);
  (0x12ccc07e4d590b, 0x170362fa7f14a2, 0x1ad9362cf930c5, 0x20dda30a6abae1);
  (0x4063ad755ebdd, 0x9da400feba63f, 0x16d2fb55a344e8, 0x37e10604e9cf83);
  (0x6f03d73a0c90e, 0x9da400feba63f, 0x4eb4015a8d146b, 0x6fc20c09d39f06);
  (0x10ca7d838c6f4d, 0x13b4801fd74c7e, 0x56d5c7f06a2212, 0x65e7cbf9e7f8c7);
  (0x3214fdcafb7f1, 0x3614b5ab37a51, 0x247efda363bbcb, 0x2769003fae98fc);
  (0x3214fdcafb7f1, 0x6c296b566f4a2, 0x10aed6e35a01ed, 0x2407b4e4fb1eab);
  (0x9e3e69216ac93, 0xd852d6acde944, 0x1a5b45e42a904c, 0x2407b4e4fb1eab);
  (0x9e3e69216ac93, 0x1b0a5ad59bd288, 0xd2da2f2154826, 0x2407b4e4fb1eab);
  (0x6238b37aef3db, 0x8fd5a0f5f4c23, 0x2b11cc9f6172f6, 0x3f120fba96f133);
  (0x79072a3871fff, 0x8fd5a0f5f4c23, 0x71b44efd7f8428, 0x872179848d2e89);
  (0x846e659733611, 0x8fd5a0f5f4c23, 0xf8d5c8820cb2b1, 0x10e42f3091a5d12);
  (0x846e659733611, 0x11fab41ebe9846, 0x784771144cbe50, 0x1054598f9bb10ef);
  (0x141c18f9c02a6a, 0x1b8a736a0d5561, 0x1a419a7831ce57, 0x23f5683d7d308c);
  (0xa0e0c7ce01535, 0x1b8a736a0d5561, 0x1a419a7831ce57, 0x47ead07afa6118);
  (0x1f4457f3738a4, 0xab489c32d9f0b, 0x819c6fda8dc91, 0x2c605d10ed0bb7);
  (0xca8cf4264d7af, 0x156913865b3e16, 0x1a3d12074af424, 0x2c605d10ed0bb7);
  (0x75b9c140a263, 0x18e3604368f8b, 0xca8cf4264d7af, 0x2ad2270cb67c2c);
  (0x101f7e2bb98f7, 0x18e3604368f8b, 0x387cee31d6ecd2, 0x5732841da387e3);
  (0x101f7e2bb98f7, 0x31c6c086d1f16, 0x1c3e7718eb7669, 0x5732841da387e3);
  (0x41e63eb28b80d, 0x638d810da3e2c, 0x39b87d9b477f26, 0x5732841da387e3);
  (0xa573bfc02f639, 0xc71b021b47c58, 0x4349e2de740868, 0x50f9ac0cc949b7);
  (0x16c8ec1db77291, 0x18e3604368f8b0, 0x3ebd5166c2efc7, 0x4487fbeb14cd5f);
  (0x11f65a47cb7352, 0x12c13b6442dbff, 0x2fac4c61206b41, 0x31c6c086d1f160);
  (0x1e5dbb9df206a8, 0x1f0585228f1561, 0x4315514a0055f9, 0x4487fbeb14cd5f);
  (0xf2eddcef90354, 0x1f0585228f1561, 0x4315514a0055f9, 0x890ff7d6299abe);
  (0xd7052cbbf4569, 0x120ba1d6a1d027, 0x20c41025c8d34c, 0x2bff686e7c5a9b);
  (0x2f1b54725243d, 0x7e824c138ba4d, 0xd7052cbbf4569, 0x241743ad43a04e);
  (0x56ced042eef45, 0x7e824c138ba4d, 0x36f4837d31d4fc, 0x5016ac1bbffae9);
  (0x6aa88e2b3d4c9, 0x7e824c138ba4d, 0x8db5b87ba5a4ae, 0xa8157cf8b8b01f);
  (0x6aa88e2b3d4c9, 0xfd0498271749a, 0x46dadc3dd2d257, 0xa8157cf8b8b01f);
  (0x6aa88e2b3d4c9, 0x1fa09304e2e934, 0x201829ad8f7ec7, 0x98453376473b85);
  (0x9e415ff9d493, 0x5ddaba227527f, 0x60c4782ba0036, 0x39637a679e7fe9);
  (0x33df681109389, 0x5ddaba227527f, 0x42adb86b6913a8, 0x78a4a071645251);
  (0x33df681109389, 0xbbb57444ea4fe, 0x2156dc35b489d4, 0x78a4a071645251);
  (0x33df681109389, 0x1776ae889d49fc, 0x10ab6e1ada44ea, 0x78a4a071645251);
  (0x1d9ca0b4bfb63, 0x1ac9e64eef2a61, 0x33df681109389, 0x2eed5d113a93f8);
  (0xb2163ae24c13, 0x142376c24b6997, 0x28be0462e4776, 0x49b7436029be59);
  (0x1e3c52ad746b, 0x6d697a903e803, 0x93d9e834d7a8, 0x217055db92eb2b);
  (0x37a69fdd8ae37, 0x6d697a903e803, 0x257e99c1a0710a, 0x49b7436029be59);
  (0x37a69fdd8ae37, 0xdad2f5207d006, 0x12bf4ce0d03885, 0x49b7436029be59);
  (0x37a69fdd8ae37, 0x1b5a5ea40fa00c, 0x7a271717bc527, 0x3c0a140e21ee53);
  (0x16666440722bf, 0x160507de0cf1d1, 0x21403b9d18b78, 0x20afb56a124e47);
  (0xbb5b7110a0a48, 0x160507de0cf1d1, 0x22c3b923e3d9bf, 0x415f6ad4249c8e);
  (0x5dadb88850524, 0x160507de0cf1d1, 0x289e94ac68dee3, 0x98c3dd86562aed);
  (0xd118ee5a9a009, 0x14a5ae52088007, 0x1bdfe36691f6f5, 0x2c0a0fbc19e3a2);
  (0x10db9e9bd91008, 0x14a5ae52088007, 0x47e9f322abda97, 0x58141f7833c744);
  (0x17bd15e89d78d7, 0x1a2314821a472f, 0x25814cede1900f, 0x294b5ca411000e);
  (0x6e21b82a20b9c, 0xf284821f6b8df, 0x1e9f316b3f8473, 0x436e71262b473d);
  (0x160a63a498c47b, 0x1e509043ed71be, 0x3106d148b565d8, 0x436e71262b473d);
  (0x144dcca558facb, 0x17833fa59d0dfd, 0x200d27432d3b6e, 0x251de0e23dd57f);
  (0x15e886257b0464, 0x17833fa59d0dfd, 0x452b08256b10ed, 0x4a3bc1c47baafe);
  (0x391bc444f4264, 0x3b202d3a48107, 0x2d6bc5cb181261, 0x2f067f4b3a1bfa);
  (0x743bf17f3c36b, 0x76405a749020e, 0x2a9742ff2f3578, 0x2b547c77959af3);
  (0x743bf17f3c36b, 0xec80b4e92041c, 0x154ba17f979abc, 0x2b547c77959af3);
  (0x743bf17f3c36b, 0x1d90169d240838, 0xaa5d0bfcbcd5e, 0x2b547c77959af3);
  (0x8933bc124ce57, 0xdc465da7192bb, 0x2d6711763c99fa, 0x48e49314b9a32b);
  (0xb2bd0cdcb3089, 0xdc465da7192bb, 0x81777558c16dae, 0x9f8d8c03e4d911);
  (0xc781b541e61a2, 0xdc465da7192bb, 0x12105015ca646bf, 0x13f1b1807c9b222);
  (0x63c0daa0f30d1, 0xdc465da7192bb, 0x127410f06b57790, 0x28bfa95ea04f6ff);
  (0x63c0daa0f30d1, 0x1b88cbb4e32576, 0x93a087835abbc8, 0x28bfa95ea04f6ff);
  (0xb75caf2ccf933, 0x12b048a99c9965, 0x21c4d95ef25647, 0x37119769c64aec);
  (0x4e43bcba4aa9, 0xff42930f8143, 0xb27873612ae8a, 0x24614ec029b187);
  (0xa6c327e4e5f6, 0xff42930f8143, 0x2f88d5f63c6011, 0x48c29d8053630e);
  (0x1a605baf46739, 0x1fe85261f0286, 0x3b52b6ddcdadf3, 0x47c35aed43e1cb);
  (0x1a605baf46739, 0x3fd0a4c3e050c, 0x1cd658916ca35d, 0x45c4d5c724df45);
  (0x1a605baf46739, 0x7fa14987c0a18, 0xd98296b3c1e12, 0x41c7cb7ae6da39);
  (0x9a01a53707151, 0xff42930f81430, 0x22dfed4959437d, 0x39cdb6e26ad021);
  (0x9a01a53707151, 0x1fe85261f02860, 0xc9fe97af46916, 0x29d98db172bbf1);
  (0x678853b8345ab, 0x9f13b4f829391, 0x3000f1f0e3df5c, 0x49c1e01362e451);
  (0x678853b8345ab, 0x13e2769f052722, 0x180078f871efae, 0x49c1e01362e451);
  (0xf0cdfacd937f, 0x5c7fa68b1b837, 0x587b740b5b22c, 0x21fcf2d558960d);
  (0x35c6431bfa5db, 0x5c7fa68b1b837, 0x2ae10e47cdee14, 0x49c1e01362e451);
  (0x35c6431bfa5db, 0xb8ff4d163706e, 0x15708723e6f70a, 0x49c1e01362e451);
  (0x35c6431bfa5db, 0x171fe9a2c6e0dc, 0xab84391f37b85, 0x49c1e01362e451);
  (0x518b7e5a44fa, 0x462232b0e41bd, 0x35c6431bfa5db, 0x2e3fd3458dc1b8);
  (0x4b3aea96886b7, 0x8c446561c837a, 0x16744466f2706e, 0x29ddb01a7f7ffb);
  (0xd77f4ff850a31, 0x11888cac3906f4, 0x196cffc0f6731c, 0x211969c462fc81);
  (0xc1751f09d0a3, 0x1f7af940f1167, 0xcb67fe07b398e, 0x211969c462fc81);
  (0x15c92598c7105, 0x1f7af940f1167, 0x2dcfe9a4de360f, 0x4232d388c5f902);
  (0x15c92598c7105, 0x3ef5f281e22ce, 0x1639aba5a8e285, 0x403b23f4b6e79b);
  (0x15c92598c7105, 0x7debe503c459c, 0xa6e8ca60e38c0, 0x3c4bc4cc98c4cd);
  (0x93b50a9c8b6a1, 0xfbd7ca0788b38, 0x1ebf80646f2376, 0x346d067c5c7f31);
  (0x18f8cd4a4141d9, 0x1f7af940f11670, 0x1d19dccb453067, 0x24af89dbe3f3f9);
  (0x178f13379dc619, 0x1a4668a5fe38e7, 0x20e4b353949230, 0x24af89dbe3f3f9);
  (0x71cb98dd37d01, 0xfdd4770187dd5, 0x107259a9ca4918, 0x24af89dbe3f3f9);
  (0x71cb98dd37d01, 0x1fba8ee030fbaa, 0x8392cd4e5248c, 0x24af89dbe3f3f9);
  (0x300232360eabb, 0x1ac593e47e035b, 0x41c966a729246, 0x24af89dbe3f3f9);
  (0xee2db83ef770b, 0x1ac593e47e035b, 0x28cc204656863f, 0x495f13b7c7e7f2);
  (0x14d437b436bd33, 0x1ac593e47e035b, 0x722b33fe1e6e31, 0x92be276f8fcfe4);
  (0x5030ebc865e19, 0xce243f919bf1d, 0x14d437b436bd33, 0x358b27c8fc06b6);
  (0x8f2a95ad00e9b, 0xce243f919bf1d, 0x4a5f5f7d32c3e9, 0x6b164f91f80d6c);
  (0x8f2a95ad00e9b, 0x19c487f2337e3a, 0x20b65b11315aa7, 0x5e340b98de4e4f);
  (0x5f92f44ff452f, 0x8de142fefaa99, 0x1cbe02080447a6, 0x2aaafbb47751db);
  (0x76ba1ba7777e4, 0x8de142fefaa99, 0x4ed49f76f31165, 0x5e340b98de4e4f);
  (0x1049b5ea67227d, 0x11bc285fdf5532, 0x56845587e8afda, 0x5e340b98de4e4f);
  (0x54d84d6b353df, 0x58741b981a455, 0x2205de4a4677af, 0x237850bfbeaa64);
  (0xe5c2cb9c991e8, 0x1df10f063d060f, 0x13a9b1907ce5c7, 0x28ff9279404eb9);
  (0xdf899bb27fdb7, 0x12e28b9339bd65, 0x1e54a204de9a40, 0x28ff9279404eb9);
  (0x106d92a730dd8e, 0x12e28b9339bd65, 0x4754347e1ee8f9, 0x51ff24f2809d72);
  (0x17b17f60afdac9, 0x19578238d36543, 0x23501e3a6a9af3, 0x25c51726737aca);
  (0x5cf4f6cdd6015, 0xc6d94eda01587, 0x1d80cecd8d3ade, 0x3f1c995f46e00d);
  (0x5cf4f6cdd6015, 0x18db29db402b0e, 0xec06766c69d6f, 0x3f1c995f46e00d);
  (0x156c36fe8c168, 0xb74e43279a11d, 0x4788bfcf49ead, 0x26416f8406b4ff);
  (0xab61b7f460b4, 0xb74e43279a11d, 0x4788bfcf49ead, 0x4c82df080d69fe);
  (0xc2045ea6e01d1, 0x16e9c864f3423a, 0x226d928d4a036d, 0x410dfad593c8e1);
  (0xeb3b8620da21c, 0x133a6a0bad446d, 0x230a0e4f61440b, 0x2dd390c9e68474);
  (0x1777be55c670fb, 0x1a9926be394007, 0x3965e0c3815784, 0x410dfad593c8e1);
  (0x19087289ffd881, 0x1a9926be394007, 0x7a73db99152065, 0x821bf5ab2791c2);
  (0x19d0cca41c8c44, 0x1a9926be394007, 0xfc8fd1443cb227, 0x10437eb564f2384);
  (0x14871712c3d384, 0x14d58ea64be345, 0x3469f36255cc4b, 0x35324d7c72800e);
  (0x93cd826336c01, 0x94e5e767129c1, 0x201fcd92dc4ac8, 0x205cbed6269cc9);
  (0x93cd826336c01, 0x129cbcece25382, 0x100fe6c96e2564, 0x205cbed6269cc9);
  (0x134e4c17c594f, 0x4dcbb039e0a3b, 0x807f364b712b2, 0x205cbed6269cc9);
  (0x308cfe28d31c5, 0x4dcbb039e0a3b, 0x2864b23addaf7b, 0x40b97dac4d3992);
  (0x3f2c573159e00, 0x4dcbb039e0a3b, 0x691e2fe72ae90d, 0x8172fb589a7324);
  (0x8cf8076b3a83b, 0x9b976073c1476, 0x70e0d56488d9fb, 0x7c964054fc68e9);
  (0x8cf8076b3a83b, 0x1372ec0e7828ec, 0x3408aa76ea98e0, 0x72dcca4dc05473);
  (0x6a2c28a5ac41, 0x1d4be0910a115, 0x865544e0dfbfa, 0x25111a13dfb0c3);
  (0x6a2c28a5ac41, 0x3a97c1221422a, 0x432aa2706fdfd, 0x25111a13dfb0c3);
  (0x6a2c28a5ac41, 0x752f824428454, 0x1e43eff30a8de, 0x21679e01be6e99);
  (0xdc75c5a037371, 0x1a14a5dd7bea45, 0x158480a6eba406, 0x28ba962600f2ed);
  (0x3051c068da16e, 0xb6eb594f6e19d, 0xac2405375d203, 0x28ba962600f2ed);
  (0x1828e0346d0b7, 0xb6eb594f6e19d, 0xac2405375d203, 0x51752c4c01e5da);
  (0x678a1cc1ed92a, 0xb6eb594f6e19d, 0x5c376c9f77b7dd, 0xa2ea589803cbb4);
  (0x33c50e60f6c95, 0xb6eb594f6e19d, 0x5c376c9f77b7dd, 0x145d4b130079768);
  (0x33c50e60f6c95, 0x16dd6b29edc33a, 0x2c7d8ddcb425a4, 0x13a65fb9b10b5cb);
  (0x9ca7e53f4b6f6, 0x11278a79fdcbd9, 0x1a19bc0ffd2fcf, 0x2dbad653db8674);
  (0x167144caf319ba, 0x1c934bd9ddba9b, 0x31634d98e59c89, 0x3ee260cdd9524d);
  (0xb38a265798cdd, 0x1c934bd9ddba9b, 0x3c9beffe5f2966, 0x9a580d75905f35);
  (0x35bef313d11e4, 0x111bb9a5a2006d, 0x7dcb3343c7af9, 0x280ade0e1974c9);
  (0x1adf7989e88f2, 0x111bb9a5a2006d, 0x98aaaccdb03eb, 0x613175c1d4e9ff);
  (0xfcaadcad6e437, 0x1cc28f2b4ce84b, 0x12c9b13e40895f, 0x2237734b4400da);
  (0x17f81b9b4d294, 0x574e41ff7188f, 0x114a2f848bb6cb, 0x3efa027690e925);
  (0x6f465d9abeb23, 0xae9c83fee311e, 0x282218fd8e4ff8, 0x3efa027690e925);
  (0x11de2e199a1c41, 0x15d3907fdc623c, 0x2a9ef6ad428e6e, 0x34103a36a2b807);
  (0x1b7eb9253763fc, 0x1e3ca9b6c655cb, 0x433077beade279, 0x49e3cab67f1a43);
  (0xdbf5c929bb1fe, 0x1e3ca9b6c655cb, 0x433077beade279, 0x93c7956cfe3486);
  (0x6dfae494dd8ff, 0x1e3ca9b6c655cb, 0x4a102607fbbb78, 0x145cbd490c2bed7);
  (0x128e2c000a1765, 0x1e3ca9b6c655cb, 0x18fdbfa98be7a4f, 0x28b97a921857dae);
  (0x5192f4bf54783, 0x109dbd23407407, 0x128e2c000a1765, 0x3c79536d8cab96);
  (0x1a14f0e15206e, 0xaa01c03cb4f81, 0x5192f4bf54783, 0x213b7a4680e80e);
  (0xd0a7870a9037, 0xaa01c03cb4f81, 0x5e9d6d2ffd7ba, 0x4d171090cd1f9d);
  (0xd0a7870a9037, 0x15403807969f02, 0x2f4eb697febdd, 0x4d171090cd1f9d);
  (0x417a6a301d9c, 0xd56687a094297, 0xd0a7870a9037, 0x2a80700f2d3e04);
  (0xedc9a58ff3704, 0x1d2a079523fb6d, 0x1c747d3d389737, 0x37d6d88936809b);
  (0x76e4d2c7f9b82, 0x1d2a079523fb6d, 0x1c747d3d389737, 0x6fadb1126d0136);
  (0xf2c98055d69d0, 0x182f9a53010eef, 0x249854c1a396ef, 0x3a540f2a47f6da);
  (0x7964c02aeb4e8, 0x182f9a53010eef, 0x2c2ea0c4524bd7, 0x8cd7b8a790fca3);
  (0x2ce864b1da748, 0x445e54a755cf7, 0x1cf7600a921c8f, 0x2c194f5b8cc0e7);
  (0x7146b9593043f, 0x88bca94eab9ee, 0x248857b30f6ebb, 0x2c194f5b8cc0e7);
  (0xfa0362a7dbe2d, 0x11179529d573dc, 0x2850d3874e17d1, 0x2c194f5b8cc0e7);
  (0xc584eae682cd2, 0x1b01ba31b74d0b, 0x1bf884d8e5eaff, 0x3d30e4856234c3);
  (0x53aabcf049604, 0x72d7021f39aad, 0x275a08e01f79dd, 0x360374636e9a16);
  (0xc681bf0f830b1, 0xe5ae043e7355a, 0x287ab0a94af1a1, 0x2ed604417aff69);
  (0x1ac2fc34df660b, 0x1cb5c087ce6ab4, 0x2ba85a7562f885, 0x2ed604417aff69);
  (0x872af2041c93d, 0x122043b9ac94b5, 0x2335ab55212f48, 0x4b8bc4c9496a1d);
  (0xd49796cf72ef9, 0x122043b9ac94b5, 0x6ec1701e6a9965, 0x9717899292d43a);
  (0x8df8f11d4284b, 0x1835af7edac347, 0xd49796cf72ef9, 0x2440877359296a);
  (0x234f52d918357, 0xc0ad7f47e6623, 0xb14843f65aba2, 0x3c7636f233ecb1);
  (0x71fe69107f4bd, 0xc0ad7f47e6623, 0x4eaaa1c2a18d10, 0x84f745d8e63f85);
  (0x71fe69107f4bd, 0x1815afe8fccc46, 0x275550e150c688, 0x84f745d8e63f85);
  (0x1b50b426f7af3, 0xb8ad99d068a1f, 0x56adb4e9879ca, 0x24a08634f30e6d);
  (0x69ff26fbb0289, 0xb8ad99d068a1f, 0x30ab53f3468ac0, 0x54cbe606eca6f9);
  (0x69ff26fbb0289, 0x1715b33a0d143e, 0x1855a9f9a34560, 0x54cbe606eca6f9);
  (0x1150fe2a46262, 0x78ae6e147a9ff, 0x58ae28d16a027, 0x26a07f92d27e7d);
  (0x89ff6c3ec0c61, 0xf15cdc28f53fe, 0x1615b10ff48f52, 0x26a07f92d27e7d);
  (0x89ff6c3ec0c61, 0x1e2b9b851ea7fc, 0xb0ad887fa47a9, 0x26a07f92d27e7d);
  (0x13570e2071da4, 0x874e40db3d681, 0x9d567a5f32a05, 0x44cc1b17f12679);
  (0x9aa54efbaf425, 0x10e9c81b67ad02, 0x2750c15ef2283f, 0x44cc1b17f12679);
  (0xe634252c650e, 0x124faaa527271, 0x1a941d0b22a127, 0x21d39036cf5a04);
  (0x731a12963287, 0x124faaa527271, 0x1a941d0b22a127, 0x43a7206d9eb408);
  (0x731a12963287, 0x249f554a4e4e2, 0xd10817c463750, 0x428225c34c4197);
  (0x731a12963287, 0x493eaa949c9c4, 0x68840be231ba8, 0x428225c34c4197);
  (0x731a12963287, 0x927d552939388, 0x344205f118dd4, 0x428225c34c4197);
  (0x731a12963287, 0x124faaa5272710, 0x1a2102f88c6ea, 0x428225c34c4197);
  (0x5dee052e30ee, 0x1de2d078fdf377, 0x731a12963287, 0x249f554a4e4e20);
  (0x2ef702971877, 0x1de2d078fdf377, 0xa211152d4afe, 0x67217b0d9a8fb7);
  (0xce57a978b6f, 0x1069c6d65d3e25, 0x221187ff8d08, 0x2b5bda1b9ea8c9);
  (0x42349683b15, 0xa884c6ee42c7f, 0xce57a978b6f, 0x20d38dacba7c4a);
  (0x4611897a82d, 0x164b413dd64fcb, 0x88461ffe342, 0x2b5bda1b9ea8c9);
  (0xb27d12b36fbfc, 0x164b413dd64fcb, 0x2b645e7d9e8c0b, 0x56b7b4373d5192);
  (0xee16dbcd9fd24, 0x13d5f07dba6231, 0x217312690d4bc7, 0x2c96827bac9f96);
  (0x15a91b5512c604, 0x18c091fdf23d65, 0x3860798fa72559, 0x406c72f96701c7);
  (0xad48daa896302, 0x18c091fdf23d65, 0x3860798fa72559, 0x80d8e5f2ce038e);
  (0x3a7e09c058372, 0x5160bfd12d095, 0x23951fa87ba067, 0x318123fbe47aca);
  (0x1d3f04e02c1b9, 0x5160bfd12d095, 0x23951fa87ba067, 0x630247f7c8f594);
  (0x1d3f04e02c1b9, 0xa2c17fa25a12a, 0x10e097ad3c6f57, 0x5dec3bfab624ff);
  (0xc0008482862e3, 0x14582ff44b4254, 0x376669d3f94a2b, 0x5dec3bfab624ff);
  (0x24cdfca685222, 0x7ccb3cac226a5, 0x9b3287dc010c1, 0x20e3ac1dd45e03);
  (0xa1993952a78c7, 0xf996795844d4a, 0x154b6a4dca3762, 0x20e3ac1dd45e03);
  (0xe3e0da077e7aa, 0x114a44885010b9, 0x27f108cb26adbb, 0x307d13b358ab4d);
  (0xcaebc1677b421, 0xde88aa2b889db, 0x1f885228c7f863, 0x22948910a02172);
  (0x96ccb09282221, 0x14abfe6de79797, 0x161b871f9fd642, 0x307d13b358ab4d);
  (0xf0c64bb87dcdc, 0x14abfe6de79797, 0x46989ad2f8818f, 0x60fa2766b1569a);
  (0x58396cac1b70b, 0x661d0bed49f59, 0x1e34cc5eadbd68, 0x22f62c1cfa8fd5);
  (0x58396cac1b70b, 0xcc3a17da93eb2, 0xf1a662f56deb4, 0x22f62c1cfa8fd5);
  (0x58396cac1b70b, 0x198742fb527d64, 0x78d3317ab6f5a, 0x22f62c1cfa8fd5);
  (0x5bc42b748e560, 0x96ee921a81271, 0x24c71c7d5d19cf, 0x3c7d6f184d0d39);
  (0x2de215ba472b0, 0x96ee921a81271, 0x27a53dd9018c7f, 0x8269c752422ce3);
  (0x16f10add23958, 0x96ee921a81271, 0x27a53dd9018c7f, 0x104d38ea48459c6);
  (0xaddf9cf7a4bc9, 0x12ddd2435024e2, 0x90cd695705cd3e, 0xfb64a582dc4755);
  (0x732d9cea51fe9, 0x18feca5b1a8cbd, 0xaddf9cf7a4bc9, 0x25bba486a049c4);
  (0x1d590006a95f0, 0xcbcda2b85bd07, 0x90869cf0fb5d9, 0x3eba6ee1bad681);
  (0xeac800354af8, 0xcbcda2b85bd07, 0x9f331cf4500d1, 0x8a31b7eefb6a09);
  (0x7564001aa57c, 0xcbcda2b85bd07, 0x9f331cf4500d1, 0x114636fddf6d412);
  (0xd323e2ba06283, 0x1979b4570b7a0e, 0x889231c0cdb930, 0x107a695b271170b);
  (0x24de20644f009, 0x8e58a4bfe527f, 0xd323e2ba06283, 0x32f368ae16f41c);
  (0x24de20644f009, 0x11cb1497fca4fe, 0x5722e12adb93d, 0x2a0dde6218a19d);
  (0x3a70f9c219866, 0x677b5321f57a1, 0x1418f69e419507, 0x2396292ff949fc);
  (0x1d387ce10cc33, 0x677b5321f57a1, 0x15ec7e6c52613a, 0x4da4079211eb99);
  (0x4259e801811ea, 0x677b5321f57a1, 0x67b6247e7c5ebd, 0xa1bfc456432ed3);
  (0xa9d53b237698b, 0xcef6a643eaf42, 0x84baf46a5fc6c8, 0xa1bfc456432ed3);
  (0x178cbe167618cd, 0x19ded4c87d5e84, 0x8776fd55166e67, 0x94d059f2047f91);
  (0x8dba37263f933, 0x1376320791a6fd, 0x178cbe167618cd, 0x33bda990fabd08);
  (0x18316205ae966, 0x6a4ec85ba37ef, 0x7588d52090fcd, 0x2047778969160b);
  (0xc18b102d74b3, 0x6a4ec85ba37ef, 0x7588d52090fcd, 0x408eef12d22c16);
  (0x3b33bcaf3d651, 0x6a4ec85ba37ef, 0x4b9ab82fcf1234, 0x87c2caab5e901b);
  (0x52c1428570720, 0x6a4ec85ba37ef, 0xd889970384a96f, 0x1162a81dc775825);
  (0xbd100ae113f0f, 0xd49d90b746fde, 0xf75a0c6ffe00ca, 0x1162a81dc775825);
  (0xbd100ae113f0f, 0x1a93b216e8dfbc, 0x7bad0637ff0065, 0x1162a81dc775825);
  (0x8f4463158924e, 0xc658cf75e9acd, 0x2664b2c4fa1ecb, 0x3527642dd1bf78);
  (0x1559d328b72d1b, 0x18cb19eebd359a, 0x231921e50a5894, 0x28c1d7367324ab);
  (0x3cd42363200d1, 0x8d45ca7074689, 0x118c90f2852c4a, 0x28c1d7367324ab);
  (0x3cd42363200d1, 0x11a8b94e0e8d12, 0x8c64879429625, 0x28c1d7367324ab);
  (0x27c8321884aaa, 0x17191de8649799, 0x649c557ba4b7b, 0x3a6a908481b1bd);
  (0x6c489e4311c59, 0xc3854b3b8828b, 0x1995a109ece243, 0x2e323bd0c92f32);
  (0x6c489e4311c59, 0x1870a967710516, 0x9688b92dde2f5, 0x21f9e71d10aca7);
  (0x15200d756634e, 0x9893db59fa791, 0x8168abb877fa7, 0x3a6a908481b1bd);
  (0xadb3e8cf60adf, 0x13127b6b3f4f22, 0x21408da00498b2, 0x3a6a908481b1bd);
  (0x5c508430c417a, 0x144599ae031379, 0xadb3e8cf60adf, 0x2624f6d67e9e44);
  (0x2e284218620bd, 0x144599ae031379, 0xdbdc2ae7c2b9c, 0x608f875b005001);
  (0xb940ee7c49a1b, 0x144599ae031379, 0x79e158f14115b8, 0xd564a86403b37b);
  (0xfecd44ae3d6ca, 0x144599ae031379, 0x15f32d5a0289ffd, 0x1bf0eea760a7a6f);
  (0xf626592d7c55, 0x113b581c6ce09, 0x24326df8e6ea43, 0x288b335c0626f2);
  (0xf626592d7c55, 0x2276b038d9c12, 0x119e23cfdcb6f7, 0x27777dda3f58e9);
  (0x31d915cbb1867, 0x44ed6071b3824, 0x1c8ad0d50e07f0, 0x27777dda3f58e9);
  (0x76c6763d6508b, 0x89dac0e367048, 0x1e4af3a5bb8827, 0x2328a7d32420c5);
  (0xb6f4620f29bce, 0x1a8afbc4edb07d, 0x12dbad84c8ec59, 0x2bc653e15a910d);
  (0x6a94132ce8d98, 0x94fa3a880cfed, 0x1f5100b311beb3, 0x2bc653e15a910d);
  (0xff8e4db4f5d85, 0x129f4751019fda, 0x258baa4a3627e0, 0x2bc653e15a910d);
  (0x2ccf049cbb66b, 0x687c53f575159, 0xff8e4db4f5d85, 0x253e8ea2033fb4);
  (0x695fa48c1d38d, 0x1eb6c962abee5b, 0x962ea928d89f8, 0x2bc653e15a910d);
  (0x1e484ff7b0e91, 0x11a73ee3fd4ba9, 0x4b1754946c4fc, 0x2bc653e15a910d);
  (0x7435a52853ed, 0x877d6195ff9bb, 0x1e484ff7b0e91, 0x234e7dc7fa9752);
  (0x47605df4426d4, 0x877d6195ff9bb, 0x29a908a6b9ccb7, 0x4f14d1a955285f);
  (0xceddbf8a4208f, 0x10efac32bff376, 0x3c5eed28077a8b, 0x4f14d1a955285f);
  (0xacaac9f0d8c6f, 0x1c45cd11154dfd, 0xceddbf8a4208f, 0x21df58657fe6ec);
  (0x13883cd8116d36, 0x1c45cd11154dfd, 0x425571363574b1, 0x60047ddc151bd5);
  (0x9c41e6c08b69b, 0x1c45cd11154dfd, 0x425571363574b1, 0xc008fbb82a37aa);
  (0x1304f5be8f024c, 0x1c45cd11154dfd, 0x1025e6cee5fac5b, 0x18011f770546f54);
  (0x9827adf478126, 0x1c45cd11154dfd, 0x10be0e7cda72d81, 0x31c69bbf1be2ca5);
  (0x4c13d6fa3c093, 0x1c45cd11154dfd, 0x10be0e7cda72d81, 0x638d377e37c594a);
  (0x192e306e7599d, 0x12b730ea42040b, 0x32e5a68bc66f6, 0x25d46937e897ef);
  (0xa2509f894aed4, 0x12b730ea42040b, 0x3327cd9939adb9, 0x5e60035a1333e9);
  (0xf0b72b3f90b13, 0x13833fb10b23bd, 0x1cdc3ae2d6b2df, 0x256e61d4840816);
  (0x11475932821768, 0x13833fb10b23bd, 0x424a9cb75abaf5, 0x4adcc3a908102c);
  (0xf63cadadd8cd9, 0x10530495e6a4f5, 0x24ca98e38d3b25, 0x27067f6216477a);
  (0xab3670457d726, 0x16b37acc2fa285, 0x1a1731df3563ff, 0x375983f7fcec6f);
  (0x751791b11ae8c, 0x9f28e5f9da765, 0x2166e1d08779ab, 0x2d66f5985f450a);
  (0x1144077aaf55f1, 0x13e51cbf3b4eca, 0x1ec4e7f71bb462, 0x23746738c19da5);
  (0xe88157af956a6, 0xf8f4a79864edb, 0x33b139b4e3fb61, 0x375983f7fcec6f);
  (0x7440abd7cab53, 0xf8f4a79864edb, 0x33b139b4e3fb61, 0x6eb307eff9d8de);
  (0xb69aa9b817d17, 0xf8f4a79864edb, 0xa26441a4ddd43f, 0xdd660fdff3b1bc);
  (0xb69aa9b817d17, 0x1f1e94f30c9db6, 0x4b7d4b84ae2b94, 0xcdd6c5666d62e1);
  (0x832d5fd639693, 0xbff4d3eeaed19, 0x225569912a843a, 0x323ddca72e4e53);
  (0xa19119e2741d6, 0xbff4d3eeaed19, 0x5eac57d6801463, 0x707b068d4789bf);
  (0x16185edd122eef, 0x17fe9a7dd5da32, 0x6793af31e3cf11, 0x707b068d4789bf);
  (0xfd96829c59a26, 0x10809c95f020f7, 0x2e16f95ae80921, 0x2ffd34fbabb464);
  (0x7ecb414e2cd13, 0x10809c95f020f7, 0x2e16f95ae80921, 0x5ffa69f75768c8);
  (0xc36a855697705, 0x10809c95f020f7, 0x9a480ba7a8e8ee, 0xd07570849ef287);
  (0xe5ba275accbfe, 0x10809c95f020f7, 0x179191ea1f4a773, 0x1b16b7d9f2e0605);
  (0x4131a89994e4b, 0x45b9664caacef, 0x1edc3f0b9cecf5, 0x2101392be041ee);
  (0x437587731fd9d, 0x45b9664caacef, 0x3fdd78377d2ee3, 0x42027257c083dc);
  (0x437587731fd9d, 0x8b72cc99559de, 0x1dd30fe02598a3, 0x3da6dbf2f5d6ed);
  (0xcee8540c7577b, 0x116e59932ab3bc, 0x2dbcf5e98db7c8, 0x3da6dbf2f5d6ed);
  (0x9eff5b3ff8469, 0x1aca28cca06f75, 0xcee8540c7577b, 0x22dcb326556778);
  (0x125d0f404ff9ef, 0x1aca28cca06f75, 0x422847a76cb8e2, 0x60838f194b3e65);
  (0x3a5faace9976d, 0xaa51419367f6f, 0xeb71493666282, 0x2aef3d800a5f7b);
  (0x7258763100b6e, 0xaa51419367f6f, 0x40cbd97680cd6b, 0x60838f194b3e65);
  (0x11ca9b7c468add, 0x154a28326cfede, 0x50a7b447e605e8, 0x60838f194b3e65);
  (0x91e478428362d, 0x9ef39e2d5bbf1, 0x1df67c2a8b538e, 0x20a516820441cb);
  (0x91e478428362d, 0x13de73c5ab77e2, 0xefb3e1545a9c7, 0x20a516820441cb);
  (0x2ee7b488eb9cd, 0xcc6a2bc58c9e9, 0xc0cc2ccb6effa, 0x34838a47afb9ad);
  (0x2ee7b488eb9cd, 0x198d4578b193d2, 0x60661665b77fd, 0x34838a47afb9ad);
  (0xc93515c54b36, 0x168ff564c9209, 0x1c7bc0c1404d9f, 0x331a8af16327a4);
  (0x232346c11dd3f, 0x2d1feac992412, 0x26b20ba348cc02, 0x31b18b9b16959b);
  (0x232346c11dd3f, 0x5a3fd59324824, 0x135905d1a46601, 0x31b18b9b16959b);
  (0x7d631c5442563, 0xb47fab2649048, 0x228548b65d7dce, 0x31b18b9b16959b);
  (0x7d631c5442563, 0x168ff564c92090, 0x1142a45b2ebee7, 0x31b18b9b16959b);
  (0x4b6394af54cc2, 0x1b2196364d750b, 0xc8c6b10397225, 0x484180ffdfb62b);
  (0x25b1ca57aa661, 0x1b2196364d750b, 0xee787b5b41886, 0xaba498360ce161);
  (0xebe596de40db6, 0x1b2196364d750b, 0xc94a7959a5079d, 0x1726ac6a26737cd);
  (0x75f2cb6f206db, 0x1b2196364d750b, 0xc94a7959a5079d, 0x2e4d58d44ce6f9a);
  (0x114061769fbdf3, 0x1b2196364d750b, 0x3ae20069e737737, 0x5c9ab1a899cdf34);
  (0x35a74eeef2bff, 0xa8c2b21074629, 0xde5ec87b091f4, 0x2bb7014b93a3ed);
  (0x35a74eeef2bff, 0x151856420e8c52, 0x6f2f643d848fa, 0x2bb7014b93a3ed);
  (0xd1b962f371a4b, 0x169eab0985179b, 0x258e616034d29c, 0x40cf578da2303f);
  (0x11dd209c5e18f3, 0x169eab0985179b, 0x665db8edd702db, 0x819eaf1b44607e);
  (0x143de5d2f19847, 0x169eab0985179b, 0xfc3a4ddc0cfba0, 0x119dc09400dd897);
  (0x156e486e3b57f1, 0x169eab0985179b, 0x21616571c1ad437, 0x233b812801bb12e);
  (0x160679bbe037c6, 0x169eab0985179b, 0x45fd4e35816bd2b, 0x47e0ed009bc79f7);
  (0x12d1426a04db18, 0x1311682dbdddb1, 0x2ca524c5654f61, 0x2d3d56130a2f36);
  (0x19ffe8205662e7, 0x1a2bede54c5185, 0x3fe292b8191bb0, 0x404ebe40c80ce7);
  (0x1a15eb02d15a36, 0x1a2bede54c5185, 0x9a473bfbb282cd, 0x9ac96a66dc6b53);
  (0xd0af58168ad1b, 0x1a2bede54c5185, 0xa752317d1b2fe8, 0x14fbec2b305282b);
  (0x56757b6198952, 0x15af9bf37155ef, 0xd0af58168ad1b, 0x3457dbca98a30a);
  (0x2b3abdb0cc4a9, 0x15af9bf37155ef, 0xd0af58168ad1b, 0x68afb795314614);
  (0x3bb2e2eb9519, 0x3be542c056797, 0x277f8f8212f90, 0x27a0e3badd4447);
  (0x3bb2e2eb9519, 0x77ca8580acf2e, 0x13bfc7c1097c8, 0x27a0e3badd4447);
  (0x7b85b3af66447, 0xef950b0159e5c, 0x1092427dfbbbe4, 0x20243b62d27519);
  (0x7b85b3af66447, 0x1df2a1602b3cb8, 0x849213efdddf2, 0x20243b62d27519);
  (0x393ca9b77754e, 0x1bc1075d840457, 0x424909f7eeef9, 0x20243b62d27519);
  (0x1c9e54dbbbaa7, 0x1bc1075d840457, 0x424909f7eeef9, 0x404876c5a4ea32);
  (0x9c8fa4da207e, 0x12fa9f52e722d3, 0x12d55a8e19a29, 0x24876f6820e5db);
  (0x4e47d26d103f, 0x12fa9f52e722d3, 0x12d55a8e19a29, 0x490eded041cbb6);
  (0x9a47392aa1989, 0x12fa9f52e722d3, 0x53e0a80bcd7f68, 0xa5185cf36aba3f);
  (0x35e85bb3e5990, 0xd43625c31a3a7, 0x9a47392aa1989, 0x25f53ea5ce45a6);
  (0x1af42dd9f2cc8, 0xd43625c31a3a7, 0x9a47392aa1989, 0x4bea7d4b9c8b4c);
  (0xef2a539d0d06f, 0x1a86c4b863474e, 0x234e25d23aea33, 0x3ea71aef6ae7a5);
  (0x781366e9ed12f, 0x999917ea45909, 0x297969f23417bd, 0x350d8970c68e9c);
  (0x88d63f6a1951c, 0x999917ea45909, 0x671457599c3b75, 0x73b4a460317641);
  (0x446b1fb50ca8e, 0x999917ea45909, 0x671457599c3b75, 0xe76948c062ec82);
  (0x22358fda86547, 0x999917ea45909, 0x6937b05744a0bc, 0x1d86c22ff6a320d);
  (0x22358fda86547, 0x133322fd48b212, 0x349bd82ba2505e, 0x1d86c22ff6a320d);
  (0xa5c031ec68db, 0xba0db4099805d, 0x22358fda86547, 0x266645fa916424);
  (0x6234db942f49c, 0xba0db4099805d, 0x28899ef839c96b, 0x4ccc8bf522c848);
  (0x311a6dca17a4e, 0xba0db4099805d, 0x28899ef839c96b, 0x999917ea459090);
  (0x188d36e50bd27, 0xba0db4099805d, 0x28899ef839c96b, 0x133322fd48b2120);
  (0x188d36e50bd27, 0x1741b6813300ba, 0x138065c4f48622, 0x127915493f1a0c3);
  (0x39ba368653ec4, 0x6c4effba568af, 0x152ee6871e7f1d, 0x27be7d06c098c5);
  (0xa6093640aa773, 0xd89dff74ad15e, 0x1e76b1c6ef8bf1, 0x27be7d06c098c5);
  (0x17ea735b5578d1, 0x1b13bfee95a2bc, 0x231a9766d8125b, 0x27be7d06c098c5);
  (0xd91a9131ec5fd, 0xe6902d66aacb3, 0x256c8a36cc5590, 0x27be7d06c098c5);
  (0xd91a9131ec5fd, 0x1cd205acd55966, 0x12b6451b662ac8, 0x27be7d06c098c5);
  (0x43686856bb099, 0x11e58e52ea1a07, 0x95b228db31564, 0x27be7d06c098c5);
  (0xb0e0a6c2ae550, 0x11e58e52ea1a07, 0x31199f9473ae29, 0x4f7cfa0d81318a);
  (0x58705361572a8, 0x11e58e52ea1a07, 0x31199f9473ae29, 0x9ef9f41b026314);
  (0x2c3829b0ab954, 0x11e58e52ea1a07, 0x31199f9473ae29, 0x13df3e83604c628);
  (0x7e9b3fe9b35a3, 0xdb574b4790bb1, 0x14a910edf4d35b, 0x23cb1ca5d4340e);
  (0xacf94598a20aa, 0xdb574b4790bb1, 0x38742d93c90769, 0x4796394ba8681c);
  (0x567ca2cc51055, 0xdb574b4790bb1, 0x38742d93c90769, 0x8f2c729750d038);
  (0x567ca2cc51055, 0x1b6ae968f21762, 0x198631b381fb8a, 0x8176fde2d7c487);
  (0x490292b1d0341, 0x79f9129e2b063, 0x1c428a6a9a2476, 0x2f3641a8017e61);
  (0x617dd2a7fd9d2, 0x79f9129e2b063, 0x5190a93d1b7ca9, 0x660c1479e5ad25);
  (0x30bee953fece9, 0x79f9129e2b063, 0x5190a93d1b7ca9, 0xcc1828f3cb5a4a);
  (0x555bfdf914ea6, 0x79f9129e2b063, 0x122fe9210782599, 0x19fcfe3117964f7);
  (0x2aadfefc8a753, 0x79f9129e2b063, 0x122fe9210782599, 0x33f9fc622f2c9ee);
  (0x525388cd5abdb, 0x79f9129e2b063, 0x4629e58336aef87, 0x67f3f8c45e593dc);
  (0x525388cd5abdb, 0xf3f2253c560c6, 0x22ebc8fd34aa1d6, 0x6779ffb1c02e379);
  (0x525388cd5abdb, 0x1e7e44a78ac18c, 0x1175e47e9a550eb, 0x6779ffb1c02e379);
  (0x540ecfca89055, 0x8fd7fc4be0ff1, 0x23a37d34606d67, 0x3cfc894f158318);
  (0x540ecfca89055, 0x11faff897c1fe2, 0xf31481bdbee89, 0x33ff098a577327);
  (0xa5c3c4cf500a1, 0x10090a775f3363, 0x173bec8624b037, 0x23f5ff12f83fc4);
  (0x66fd81c97d7cb, 0x13ecf49b990c61, 0x10cc14698cd86c, 0x33ff098a577327);
  (0x1f632182e946b, 0xc252053255a65, 0x66fd81c97d7cb, 0x27d9e9373218c2);
  (0x23cd30234a1b0, 0x1bb4c8e40cbe5d, 0x433051a63361b, 0x33ff098a577327);
  (0x1d89493e40b6c, 0x36a883dc20993, 0x1c1907525d54a1, 0x33ff098a577327);
  (0x5431cd1a614ff, 0x6d5107b841326, 0x280c086e5a63e4, 0x33ff098a577327);
  (0x5431cd1a614ff, 0xdaa20f708264c, 0x140604372d31f2, 0x33ff098a577327);
  (0x12ed3dc8ae3b4b, 0x1b5441ee104c98, 0x1a8be7fc6b34e7, 0x2654e8934f4cdb);
  (0xdd1176ee14702, 0x10539b48d14c55, 0x20706847dd40e1, 0x2654e8934f4cdb);
  (0x6e88bb770a381, 0x10539b48d14c55, 0x20706847dd40e1, 0x4ca9d1269e99b6);
  (0xb9e138020f7eb, 0x10539b48d14c55, 0x6d1a396e7bda97, 0x9953a24d3d336c);
  (0xdf8d764792220, 0x10539b48d14c55, 0x11466b320323023, 0x142fadfe34bb32d);
  (0x6fc6bb23c9110, 0x10539b48d14c55, 0x11b631ed26ec133, 0x296495b0f68b2af);
  (0x695b153d66e0d, 0x93917aeb4c567, 0x175006fb0ddd65, 0x20a73691a298aa);
  (0x7e764814599ba, 0x93917aeb4c567, 0x37f73d8cb0760f, 0x414e6d23453154);
  (0x3f3b240a2ccdd, 0x93917aeb4c567, 0x37f73d8cb0760f, 0x829cda468a62a8);
  (0x3f3b240a2ccdd, 0x12722f5d698ace, 0x1a01c5a606d499, 0x7963c297d59d41);
  (0x31fa5316c6a24, 0x1d28d5c4c5e73b, 0x3f3b240a2ccdd, 0x24e45ebad3159c);
  (0x18fd298b63512, 0x1d28d5c4c5e73b, 0x3f3b240a2ccdd, 0x49c8bd75a62b38);
  (0xc7e94c5b1a89, 0x1d28d5c4c5e73b, 0x4bb9b8cfde766, 0xb0ba50b0123dab);
  (0x611e16da418, 0x1c54e136ed249, 0xc7e94c5b1a89, 0x3a51ab898bce76);
  (0x1cb5ff4dc7661, 0x38a9c26dda492, 0x1ca71a7085394f, 0x388c5d761cfc2d);
  (0x555fc1bba1af3, 0x715384dbb4924, 0x2a99bbf3511abe, 0x388c5d761cfc2d);
  (0xc6b3469756417, 0xe2a709b769248, 0x2b5d727ffc596a, 0x3177252861b309);
  (0xc6b3469756417, 0x1c54e136ed2490, 0x15aeb93ffe2cb5, 0x3177252861b309);
  (0x52d266c3298c8, 0x7329d45789617, 0x2392ef342fefdf, 0x3177252861b309);
  (0xc5fc3b1ab2edf, 0xe653a8af12c2e, 0x2a850a2e48d174, 0x3177252861b309);
  (0x1ac4fe3c9c5b0d, 0x1cca7515e2585c, 0x209b988d0714b8, 0x2311ea9d7086db);
  (0xa7731f618d0b1, 0x1682ff8e5429dd, 0x104dcc46838a5c, 0x2311ea9d7086db);
  (0x107d18c2367d47, 0x1682ff8e5429dd, 0x335fb6e3f41137, 0x4623d53ae10db6);
  (0x13800c28455392, 0x1682ff8e5429dd, 0x79838c1ed51eed, 0x8c47aa75c21b6c);
  (0x9c0061422a9c9, 0x1682ff8e5429dd, 0x83439232f7c8b6, 0x12f125479d860b5);
  (0x29e617376c024, 0xc17a54ec1e961, 0x721a4a0abe9a5, 0x20ee59cde66a59);
  (0xeb606c238a985, 0x182f4a9d83d2c2, 0x1407ff374929ff, 0x20ee59cde66a59);
  (0x2a8fc3a88403d, 0x8bf0f30629797, 0x115f02fcc0e9c2, 0x391da46b6a3d1b);
  (0x5b405b5756bea, 0x8bf0f30629797, 0x4a7ca7682b26dd, 0x723b48d6d47a36);
  (0xe7314e5d80381, 0x117e1e60c52f2e, 0x57226dac93cec9, 0x697c39a671e29f);
  (0x7718297addea2, 0x1205a1c297f6b9, 0xe7314e5d80381, 0x22fc3cc18a5e5c);
  (0x3b8c14bd6ef51, 0x1205a1c297f6b9, 0xe7314e5d80381, 0x45f8798314bcb8);
  (0xadf3187377305, 0x1205a1c297f6b9, 0x5f4abff024333e, 0x9df694c8c17029);
  (0x42899db344d8b, 0xdc986b401ba61, 0xadf3187377305, 0x240b43852fed72);
  (0x8f910479b03f6, 0xdc986b401ba61, 0x2eea750c676077, 0x4816870a5fdae4);
  (0x47c8823cd81fb, 0xdc986b401ba61, 0x2eea750c676077, 0x902d0e14bfb5c8);
  (0x923076be79e2e, 0xdc986b401ba61, 0xc83a8a8d0eb46d, 0x12e23a2dd8125f1);
  (0x16ec8e1fe9588f, 0x1b930d680374c2, 0xfb2f16b547ed2f, 0x12e23a2dd8125f1);
  (0x182b5321c486fb, 0x1a651ccd5e965d, 0x327f9b87eccd51, 0x37261ad006e984);
  (0x194837f7918eac, 0x1a651ccd5e965d, 0x69a5b657f3b6d5, 0x6e4c35a00dd308);
  (0x1e74f6d4988d61, 0x1f1cdf37f20ff1, 0x33ad54c4f02509, 0x34ca399abd2cba);
  (0xa9c2ef82bcbd4, 0x15ad5a62cb1cc9, 0x291125ccc45935, 0x53e718d2af3cab);
  (0x54e177c15e5ea, 0x15ad5a62cb1cc9, 0x291125ccc45935, 0xa7ce31a55e7956);
  (0x2a70bbe0af2f5, 0x15ad5a62cb1cc9, 0x2bb8318acf4c2a, 0x16549bdad880f75);
  (0xc2a33106b07df, 0x15ad5a62cb1cc9, 0x19101ef38575b9f, 0x2ca937b5b101eea);
  (0x3752f2ba5410, 0xc52b611e96ff, 0xbf2e01db0b3cf, 0x2a95896477a293);
  (0xfc7e53d8eb0f, 0x18a56c23d2dfe, 0x1b4434c1142b31, 0x2a95896477a293);
  (0x286d51616190d, 0x314ad847a5bfc, 0x22ecdf12c5e6e2, 0x2a95896477a293);
  (0x59b829a907509, 0x6295b08f4b7f8, 0x23f372ee568a36, 0x2780dbdffd4697);
  (0xbc4dda3852d01, 0xc52b611e96ff0, 0x1fd7b8956751e6, 0x215780d7088e9f);
  (0x148bd2db80a1ca, 0x1504cac51f1eaf, 0x2ca36690ef3ebb, 0x2daa36e8f1fe8f);
  (0xa45e96dc050e5, 0x1504cac51f1eaf, 0x2ca36690ef3ebb, 0x5b546dd1e3fd1e);
  (0xfa55a196fb7ca, 0x1504cac51f1eaf, 0x87f7d462d33bd9, 0xb6a8dba3c7fa3c);
  (0x7d2ad0cb7dbe5, 0x1504cac51f1eaf, 0x87f7d462d33bd9, 0x16d51b7478ff478);
  (0xe6bbbe8eb7d4a, 0x1504cac51f1eaf, 0x203b547934ead9b, 0x2efa839543f079f);
  (0x735ddf475bea5, 0x1504cac51f1eaf, 0x20aeb2587c46c40, 0x5f4553d6d9d2ded);
  (0xe1d545cca6eaa, 0x1504cac51f1eaf, 0x7ff4062f5619a2d, 0xbe8aa7adb3a5bda);
  (0xcb9dcda9734f, 0xf3a13499fabb, 0x23221f21e98d59, 0x2a09958a3e3d5e);
  (0xdf9f8121b705, 0xf3a13499fabb, 0x4d2bb4ac27cab7, 0x54132b147c7abc);
  (0xdf9f8121b705, 0x1e7426933f576, 0x26260a958309d9, 0x531f89dfe28001);
  (0xdf9f8121b705, 0x3ce84d267eaec, 0x12a3358a30a96a, 0x51384776ae8a8b);
  (0x4ae245389a1f1, 0x79d09a4cfd5d8, 0x2f96ac56aac902, 0x4d69c2a4469f9f);
  (0x4ae245389a1f1, 0xf3a13499fabb0, 0x17cb562b556481, 0x4d69c2a4469f9f);
  (0x4ae245389a1f1, 0x1e7426933f5760, 0x98e98ebe5e148, 0x3e2faf5aa6f3ef);
  (0x192822694eb3, 0x147623428452f, 0x4ae245389a1f1, 0x3ce84d267eaec0);
  (0x192822694eb3, 0x28ec468508a5e, 0x24a7e1890299f, 0x3ba0eaf2566991);
  (0x2a7ec8ab9d911, 0x51d88d0a114bc, 0x1ef5b485734998, 0x3ba0eaf2566991);
  (0x7c5755b5aedcd, 0xa3b11a1422978, 0x2968950e3762ae, 0x36836221b554d5);
  (0x120086fc9d1745, 0x147623428452f0, 0x26f5b819a7d01f, 0x2c485080732b5d);
  (0x3285a0dec1389, 0x35c09fb6a857d, 0x2676aa3f216a35, 0x28ec468508a5e0);
  (0x3423204ab4c83, 0x35c09fb6a857d, 0x52a522c8d55c98, 0x553497057bd13d);
  (0x34f1e000ae900, 0x35c09fb6a857d, 0xa7d9b9ce512dd5, 0xaa692e0af7a27a);
  (0x6ab27fb756e7d, 0x6b813f6d50afa, 0xa5cbdfeee9b0e9, 0xa70d240f8d1cfd);
  (0x6ab27fb756e7d, 0xd7027edaa15f4, 0x4f905bf9ba2136, 0xa0551018b81203);
  (0x6ab27fb756e7d, 0x1ae04fdb542be8, 0x27c82dfcdd109b, 0xa0551018b81203);
  (0x93c879923de0, 0xeccf0b40f56d, 0x20f7af5d375c85, 0x34d3d0ab676263);
  (0x49e43cc91ef0, 0xeccf0b40f56d, 0x2141939a007b75, 0x6a9470620fba33);
  (0x136b3480a145d, 0x1d99e1681eada, 0x45eb01fe081ad4, 0x6a9470620fba33);
  (0x136b3480a145d, 0x3b33c2d03d5b4, 0x22f580ff040d6a, 0x6a9470620fba33);
  (0x136b3480a145d, 0x766785a07ab68, 0x117ac07f8206b5, 0x6a9470620fba33);
  (0x89d2ba211bfc5, 0xeccf0b40f56d0, 0x3e079870c8e074, 0x6a9470620fba33);
  (0x89d2ba211bfc5, 0x1d99e1681eada0, 0x1f03cc3864703a, 0x6a9470620fba33);
  (0xb798abdf1711f, 0x11c6cc29b3b153, 0x26370d0a306d65, 0x3b33c2d03d5b40);
  (0x1e536682e0d04, 0x5df5e53224747, 0xb798abdf1711f, 0x238d98536762a6);
  (0x13a1472b043fbd, 0x1dae3a00451b5f, 0x1b65dbe6549408, 0x296cf6a689a9ed);
  (0x5ee5937d9f5b9, 0x11ef7d5a008cd1, 0xdb2edf32a4a04, 0x296cf6a689a9ed);
  (0xeb1dc1bb2f49, 0x58dfbf288904b, 0x5ee5937d9f5b9, 0x23defab40119a2);
  (0x2819dbb0f6338, 0x1e50fec1788957, 0x36cbb7cca9281, 0x296cf6a689a9ed);
  (0x140cedd87b19c, 0x1e50fec1788957, 0x36cbb7cca9281, 0x52d9ed4d1353da);
  (0xa0676ec3d8ce, 0x1e50fec1788957, 0x36cbb7cca9281, 0xa5b3da9a26a7b4);
  (0x734cb92e1a7be, 0xe1ee0d2cbf901, 0x1ef166303c6225, 0x3ca1fd82f112ae);
  (0x39a65c970d3df, 0xe1ee0d2cbf901, 0x1ef166303c6225, 0x7943fb05e2255c);
  (0x39a65c970d3df, 0x1c3dc1a597f202, 0xdab803365c723, 0x6b251a33162c5b);
  (0x16e276b89a5c3, 0x166bd5424e5655, 0x39a65c970d3df, 0x387b834b2fe404);
  (0xbecfe56ebfe0c, 0x166bd5424e5655, 0x4802e76b8cb5ef, 0x8762dbd8ae1e5d);
  (0x5f67f2b75ff06, 0x166bd5424e5655, 0x4802e76b8cb5ef, 0x10ec5b7b15c3cba);
  (0x2fb3f95baff83, 0x166bd5424e5655, 0x4802e76b8cb5ef, 0x21d8b6f62b87974);
  (0xcb38a6c04aaec, 0x166bd5424e5655, 0x2658e56ce452f63, 0x43b16dec570f2e8);
  (0x16f152493c73ae, 0x1d4ab7990f194d, 0x231f5fae530141, 0x2cd7aa849cacaa);
  (0xddd8028521078, 0xf8cf2eb8d935d, 0x42198a0a9d9d73, 0x4a22621dabc5f7);
  (0x6eec01429083c, 0xf8cf2eb8d935d, 0x49084a1ec6a5af, 0xa3d1b726e51f4b);
  (0x377600a14841e, 0xf8cf2eb8d935d, 0x4c7faa28db29cd, 0x15730613957d1f3);
  (0x130452f5a2177b, 0x1f19e5d71b26ba, 0xd1d805b1197de0, 0x15730613957d1f3);
  (0x92deee93fcdf2, 0x1e0664dbedfec5, 0x9d6640c624989, 0x202d66d2484eaf);
  (0x496f7749fe6f9, 0x1e0664dbedfec5, 0xe6d5b81023082, 0x5e6132807e9c23);
  (0x114eae2846f2df, 0x1e0664dbedfec5, 0x7e1d3c29c7bf84, 0xdac8c9dceb370b);
  (0x17aa89821a78d2, 0x1e0664dbedfec5, 0x158e60606b2f68f, 0x1b59193b9d66e16);
  (0xb732ee0face9a, 0xcce55291b7f75, 0x2a3dbf7d0da8fd, 0x2f3e748ec07e15);
  (0x5b997707d674d, 0xcce55291b7f75, 0x2ff756ed8b104a, 0x6b4b3e469c7b9f);
  (0x943f64ccc7361, 0xcce55291b7f75, 0xa4868b80f3ff4a, 0xe364d1b65476b3);
  (0xb0925baf3f96b, 0xcce55291b7f75, 0x187eb5d374875fd, 0x1c6c9a36ca8ed66);
  (0xb0925baf3f96b, 0x199caa5236feea, 0xbe711bbe2a3e49, 0x1b9fb4e438d6df1);
  (0xd9e1b75a6e4e0, 0x1308ab84507e83, 0x1707b497841375, 0x2030a9201d7f51);
  (0x50a981e269a00, 0x5e0ade8837db5, 0x1b9c2edbd0c963, 0x2030a9201d7f51);
  (0x2854c0f134d00, 0x5e0ade8837db5, 0x1b9c2edbd0c963, 0x406152403afea2);
  (0x142a60789a680, 0x5e0ade8837db5, 0x1cded4e35a6fe3, 0x86a35268f97af9);
  (0xa15303c4d340, 0x5e0ade8837db5, 0x1cded4e35a6fe3, 0x10d46a4d1f2f5f2);
  (0x50a981e269a0, 0x5e0ade8837db5, 0x1cded4e35a6fe3, 0x21a8d49a3e5ebe4);
  (0x2854c0f134d0, 0x5e0ade8837db5, 0x1d0729a44ba4b3, 0x43afb41304f557d);
  (0x60902a974b285, 0xbc15bd106fb6a, 0x22c01356a4d7d18, 0x43afb41304f557d);
  (0x11ca5e7a7badef, 0x1782b7a20df6d4, 0x32a990c10109253, 0x42f39e55f485a13);
  (0x5033844297fa8, 0xd3f9de2d3f6cf, 0x11ca5e7a7badef, 0x2f056f441beda8);
  (0x2819c2214bfd4, 0xd3f9de2d3f6cf, 0x11ca5e7a7badef, 0x5e0ade8837db50);
  (0xfc13a04e8b6a3, 0x1a7f3bc5a7ed9e, 0x300a017ee5694e, 0x50cb40a563e481);
  (0x109f0624bb086, 0x14d8d546c1ba7, 0x2a4075ca90a441, 0x34fe778b4fdb3c);
  (0x2577db6b7cc2d, 0x29b1aa8d8374e, 0x2e73b7cf9459a8, 0x33b0ea36e3bf95);
  (0x4f2985f90037b, 0x5363551b06e9c, 0x2e9904d3740ae1, 0x3115cf8e0b8847);
  (0xa28cdb1407217, 0xa6c6aa360dd38, 0x2fd76a30bfc994, 0x3115cf8e0b8847);
  (0xa28cdb1407217, 0x14d8d546c1ba70, 0x17ebb5185fe4ca, 0x3115cf8e0b8847);
  (0x14fff0d734a045, 0x1c3cfa4749cdd7, 0x340193cf36cccc, 0x45eea4d4cd42b7);
  (0x500d91066c621, 0xd74b04639a709, 0x14fff0d734a045, 0x3879f48e939bae);
  (0x500d91066c621, 0x1ae9608c734e12, 0x7ff8be366ed12, 0x2b05444859f4a5);
  (0x101131eb34f98, 0xacd7cd08ca77f, 0x3ffc5f1b37689, 0x2b05444859f4a5);
  (0xbce8fef3ff717, 0x159af9a1194efe, 0x1782851d06b597, 0x2b05444859f4a5);
  (0x5d9fa96e35f40, 0x156a4aa740a5a7, 0x11a88a86235657, 0x40a03de97343a3);
  (0xde01ef9a74816, 0x15cba89af1f855, 0x1b44453e2404e7, 0x2ad4954e814b4e);
  (0x6f00f7cd3a40b, 0x15cba89af1f855, 0x223454baf7a8f2, 0x6b74d337f48ef1);
  (0x33a0b63d48c63, 0x144630cc2cad9d, 0x6f00f7cd3a40b, 0x2b975135e3f0aa);
  (0x1db020c7f8bd4, 0x17512069b7430d, 0x5150d70541837, 0x3fdd8202109e47);
  (0xed81063fc5ea, 0x17512069b7430d, 0x5150d70541837, 0x7fbb0404213c8e);
  (0x76c0831fe2f5, 0x17512069b7430d, 0x58bcdf373fb2c, 0x116c72871f9bc29);
  (0x29c19055428, 0x1065c829d6873, 0x74246a1a8ecd, 0x2d9be450d11da7);
  (0x14e0c82aa14, 0x1065c829d6873, 0x7572769d38e1, 0x5c3e25243fa3c1);
  (0xa70641550a, 0x1065c829d6873, 0x76197cde8deb, 0xb982a6cb1caff5);
  (0x538320aa85, 0x1065c829d6873, 0x76197cde8deb, 0x173054d96395fea);
  (0x538320aa85, 0x20cb9053ad0e6, 0x3ae2fcdef1b3, 0x171fef1139bf777);
  (0x538320aa85, 0x419720a75a1cc, 0x1d47bcdf2397, 0x16ff2380e612691);
  (0x538320aa85, 0x832e414eb4398, 0xe7a1cdf3c89, 0x16bd8c603eb84c5);
  (0x538320aa85, 0x1065c829d68730, 0x7134cdf4902, 0x163a5e1ef00412d);
  (0x468728fb4f, 0x1bb23eaa3db16d, 0x538320aa85, 0x20cb9053ad0e60);
  (0x67dfbd79b, 0x51951a96f5cf3, 0x4d0524d2ea, 0x3c7dcefdeabfcd);
  (0x67dfbd79b, 0xa32a352deb9e6, 0x2682926975, 0x3c7dcefdeabfcd);
  (0x67dfbd79b, 0x146546a5bd73cc, 0x10024b48ed, 0x324b2bab0c05e7);
  (0x4c227b8a9, 0x1de5e5054e921b, 0xb40239044, 0x46b07250c979b3);
  (0xddea0f79, 0xae4a8462c557d, 0x4c227b8a9, 0x3bcbca0a9d2436);
  (0xddea0f79, 0x15c9508c58aafa, 0x1f21ed498, 0x30e721c470ceb9);
  (0x1b255ad3, 0x55480abbf78c5, 0xddea0f79, 0x2b92a118b155f4);
  (0x1b255ad3, 0xaa901577ef18a, 0x61625a53, 0x263e206cf1dd2f);
  (0x231e7fc0, 0x1b951f1572eba5, 0x3e43da93, 0x30e721c470ceb9);
  (0x118f3fe0, 0x1b951f1572eba5, 0x3e43da93, 0x61ce4388e19d72);
  (0x8c79ff0, 0x1b951f1572eba5, 0x3e43da93, 0xc39c8711c33ae4);
  (0x463cff8, 0x1b951f1572eba5, 0x3e43da93, 0x187390e238675c8);
  (0x231e7fc, 0x1b951f1572eba5, 0x4075c28f, 0x32a073b5c7fd735);
  (0x118f3fe, 0x1b951f1572eba5, 0x4075c28f, 0x6540e76b8ffae6a);
  (0x8c79ff, 0x1b951f1572eba5, 0x41023c8e, 0xcc3b20c87724879);
  (0x210082, 0xcf5b8a479aa6b, 0x8c79ff, 0x372a3e2ae5d74a);
  (0x108041, 0xcf5b8a479aa6b, 0x8c79ff, 0x6e547c55cbae94);
  (0x108041, 0x19eb7148f354d6, 0x3dfcdf, 0x615ec3b1520429);
  (0x63e0e, 0x139c6fd67805a7, 0x108041, 0x33d6e291e6a9ac);
  (0x31f07, 0x139c6fd67805a7, 0x139f48, 0x7b4a34fa4558ff);
  (0x728f, 0x59f95f3753715, 0x31f07, 0x2738dfacf00b4e);
  (0x728f, 0xb3f2be6ea6e2a, 0x1563c, 0x219949b97ad439);
  (0x728f, 0x167e57cdd4dc54, 0xab1e, 0x219949b97ad439);
  (0x1d00, 0xb6365e22ee46f, 0x558f, 0x219949b97ad439);
  (0xe80, 0xb6365e22ee46f, 0x558f, 0x43329372f5a872);
  (0x740, 0xb6365e22ee46f, 0x558f, 0x866526e5eb50e4);
  (0x3a0, 0xb6365e22ee46f, 0x592f, 0x1182db3ae058637);
  (0x1d0, 0xb6365e22ee46f, 0x592f, 0x2305b675c0b0c6e);
  (0xe8, 0xb6365e22ee46f, 0x592f, 0x460b6ceb81618dc);
  (0x74, 0xb6365e22ee46f, 0x59a3, 0x8ccd103525b1627);
  (0x3a, 0xb6365e22ee46f, 0x59a3, 0x1199a206a4b62c4e);
  (0x1d, 0xb6365e22ee46f, 0x59a3, 0x2333440d496c589c);
  (0x1d, 0x16c6cbc45dc8de, 0x2cc3, 0x2327e0a7673d742d);
  (0x2, 0x3243f6a8885a3, 0x1d, 0x2d8d9788bb91bc);
  (0x1, 0x3243f6a8885a3, 0x1d, 0x5b1b2f11772378);
  (0x1, 0x6487ed5110b46, 0xe, 0x57f6efa6ee9dd5);
  (0x1, 0xc90fdaa22168c, 0x7, 0x57f6efa6ee9dd5);
  (0x1, 0x1921fb54442d18, 0x3, 0x4b65f1fccc8749);
  (0x0, 0x1, 0x1, 0x3243f6a8885a30)].
Definition TWO_PI_473 : Z := Eval vm_compute in Z.shiftr TWO_PI 473.
Lemma TWO_PI_473_eq : Z.shiftr TWO_PI 473 = TWO_PI_473. Proof. vm_compute. reflexivity. Qed.
Lemma CERTS_len : length CERTS = 1025%nat. Proof. vm_compute. reflexivity. Qed.
Lemma chk_dist_all : chk_dist TWO_PI_473 CERTS = true.
Proof. vm_compute. reflexivity. Qed.
