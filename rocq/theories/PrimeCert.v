(** Primality certificates for the published moduli. *)
From Coq Require Import ZArith Znumtheory Lia Uint63.
From mathcomp Require Import all_ssreflect zify ssrZ.
From Verif Require Import ZpModel ZpConst PrimeCheck.
Set Implicit Arguments. Unset Strict Implicit. Unset Printing Implicit Defensive.
Delimit Scope Z_scope with Z.
Local Open Scope uint63_scope.
Local Arguments check _ (_ _)%nat_scope _%positive_scope _%uint63_scope _.
Definition zp110_cert : seq (positive * seq int) := [:: (6320%positive, [:: 0; 0; 0; 79884800]%uint63);
  (2528%positive, [:: 20682826; 155796853; 107755304; 131803133]%uint63);
  (160%positive, [:: 81469918; 140977559; 30134098; 142605322]%uint63)].
Lemma zp110_check : check 159769600 4 8 6320 3 zp110_cert = true.
Proof. by vm_compute. Qed.
Lemma zp110_prime : Znumtheory.prime zp110_modulus.
Proof.
have -> : zp110_modulus = (12640 ^ Z.of_nat 8 + 1)%Z by vm_compute.
apply: (prime_of_check _ _ _ _ _ _ _ zp110_check); rewrite -?[phi 159769600]/159769600%Z -?[phi 3]/3%Z //.
move=> q hq hd; have [||p hp ->] := @prime_in [:: 2; 2; 2; 2; 2; 5; 79]%N _ q _ _ hq hd; [by vm_compute|by vm_compute|].
move: hp; rewrite !inE; do ![case/orP] => /eqP ->; by [exists 0%N|exists 0%N|exists 0%N|exists 0%N|exists 0%N|exists 1%N|exists 2%N].
Qed.
Definition zp220_cert : seq (positive * seq int) := [:: (6608%positive, [:: 0; 0; 0; 0; 0; 0; 0; 87331328]%uint63);
  (1888%positive, [:: 113119733; 18120151; 129288791; 89800423; 124072494; 36456534; 10395158; 41581930]%uint63);
  (224%positive, [:: 29355492; 86440844; 69091264; 27183299; 66273658; 83013208; 149669750; 11641780]%uint63)].
Lemma zp220_check : check 174662656 8 16 6608 3 zp220_cert = true.
Proof. by vm_compute. Qed.
Lemma zp220_prime : Znumtheory.prime zp220_modulus.
Proof.
have -> : zp220_modulus = (13216 ^ Z.of_nat 16 + 1)%Z by vm_compute.
apply: (prime_of_check _ _ _ _ _ _ _ zp220_check); rewrite -?[phi 174662656]/174662656%Z -?[phi 3]/3%Z //.
move=> q hq hd; have [||p hp ->] := @prime_in [:: 2; 2; 2; 2; 2; 7; 59]%N _ q _ _ hq hd; [by vm_compute|by vm_compute|].
move: hp; rewrite !inE; do ![case/orP] => /eqP ->; by [exists 0%N|exists 0%N|exists 0%N|exists 0%N|exists 0%N|exists 1%N|exists 2%N].
Qed.
Definition zp440_cert : seq (positive * seq int) := [:: (6756%positive, [:: 0; 0; 0; 0; 0; 0; 0; 0; 0; 0; 0; 0; 0; 0; 0; 91287072]%uint63);
  (4504%positive, [:: 154848751; 154304322; 112300573; 76051797; 155509396; 70220294; 22853815; 63362408; 141305281; 77952025; 163288091; 96334991; 38455593; 166746917; 245016; 129214637]%uint63);
  (24%positive, [:: 72951721; 175353369; 89266665; 176386261; 123157771; 90357109; 7546402; 142380286; 44757521; 176280118; 101667702; 128478536; 42972931; 142865346; 104455524; 173638469]%uint63)].
Lemma zp440_check : check 182574144 16 32 6756 5 zp440_cert = true.
Proof. by vm_compute. Qed.
Lemma zp440_prime : Znumtheory.prime zp440_modulus.
Proof.
have -> : zp440_modulus = (13512 ^ Z.of_nat 32 + 1)%Z by vm_compute.
apply: (prime_of_check _ _ _ _ _ _ _ zp440_check); rewrite -?[phi 182574144]/182574144%Z -?[phi 5]/5%Z //.
move=> q hq hd; have [||p hp ->] := @prime_in [:: 2; 2; 2; 3; 563]%N _ q _ _ hq hd; [by vm_compute|by vm_compute|].
move: hp; rewrite !inE; do ![case/orP] => /eqP ->; by [exists 0%N|exists 0%N|exists 0%N|exists 1%N|exists 2%N].
Qed.
Definition zp880_cert : seq (positive * seq int) := [:: (6847%positive, [:: 0; 0; 0; 0; 0; 0; 0; 0; 0; 0; 0; 0; 0; 0; 0; 0; 0; 0; 0; 0; 0; 0; 0; 0; 0; 0; 0; 0; 0; 0; 0; 93762818]%uint63);
  (334%positive, [:: 43221633; 86291602; 66602570; 95595204; 155950583; 147010005; 29441916; 88182024; 30444274; 57677380; 85712226; 141372003; 91097187; 83134968; 93372456; 147954237; 116659555; 120936444; 152388862; 116666022; 137506000; 33022135; 96196043; 8987789; 68970815; 20578752; 113109659; 174181807; 60605058; 14783728; 176564681; 103976988]%uint63);
  (82%positive, [:: 103793309; 2795192; 69431723; 31747421; 141237381; 152033831; 34918013; 137958452; 105266767; 57599301; 107023466; 170644229; 88797932; 8125029; 151290627; 39649778; 7956971; 100855698; 156680938; 37193172; 54694439; 186175904; 117713211; 151028997; 75377576; 104508902; 113624408; 26763000; 127987479; 4278722; 89410804; 112918112]%uint63)].
Lemma zp880_check : check 187525636 32 64 6847 3 zp880_cert = true.
Proof. by vm_compute. Qed.
Lemma zp880_prime : Znumtheory.prime zp880_modulus.
Proof.
have -> : zp880_modulus = (13694 ^ Z.of_nat 64 + 1)%Z by vm_compute.
apply: (prime_of_check _ _ _ _ _ _ _ zp880_check); rewrite -?[phi 187525636]/187525636%Z -?[phi 3]/3%Z //.
move=> q hq hd; have [||p hp ->] := @prime_in [:: 2; 41; 167]%N _ q _ _ hq hd; [by vm_compute|by vm_compute|].
move: hp; rewrite !inE; do ![case/orP] => /eqP ->; by [exists 0%N|exists 1%N|exists 2%N].
Qed.
Definition jindoZp_cert : seq (positive * seq int) := [:: (30136%positive, [:: 0; 0; 0; 0; 0; 0; 0; 0; 0; 0; 0; 0; 0; 0; 0; 30136]%uint63);
  (16%positive, [:: 5664; 53509; 21015; 17873; 28627; 20036; 48168; 48991; 27206; 41155; 500; 35122; 12151; 51949; 27915; 31659]%uint63)].
Lemma jindoZp_check : check 60272 16 16 30136 3 jindoZp_cert = true.
Proof. by vm_compute. Qed.
Lemma jindoZp_prime : Znumtheory.prime jindoZp_modulus.
Proof.
have -> : jindoZp_modulus = (60272 ^ Z.of_nat 16 + 1)%Z by vm_compute.
apply: (prime_of_check _ _ _ _ _ _ _ jindoZp_check); rewrite -?[phi 60272]/60272%Z -?[phi 3]/3%Z //.
move=> q hq hd; have [||p hp ->] := @prime_in [:: 2; 2; 2; 2; 3767]%N _ q _ _ hq hd; [by vm_compute|by vm_compute|].
move: hp; rewrite !inE; do ![case/orP] => /eqP ->; by [exists 0%N|exists 0%N|exists 0%N|exists 0%N|exists 1%N].
Qed.
Definition bfvZp_cert : seq (positive * seq int) := [:: (15716%positive, [:: 0; 0; 0; 0; 0; 0; 0; 0; 0; 0; 0; 0; 0; 0; 0; 15716]%uint63);
  (8%positive, [:: 27855; 29441; 9119; 25016; 13464; 11063; 26188; 17400; 10289; 20119; 11935; 1647; 11196; 11692; 2205; 17098]%uint63)].
Lemma bfvZp_check : check 31432 16 16 15716 3 bfvZp_cert = true.
Proof. by vm_compute. Qed.
Lemma bfvZp_prime : Znumtheory.prime bfvZp_modulus.
Proof.
have -> : bfvZp_modulus = (31432 ^ Z.of_nat 16 + 1)%Z by vm_compute.
apply: (prime_of_check _ _ _ _ _ _ _ bfvZp_check); rewrite -?[phi 31432]/31432%Z -?[phi 3]/3%Z //.
move=> q hq hd; have [||p hp ->] := @prime_in [:: 2; 2; 2; 3929]%N _ q _ _ hq hd; [by vm_compute|by vm_compute|].
move: hp; rewrite !inE; do ![case/orP] => /eqP ->; by [exists 0%N|exists 0%N|exists 0%N|exists 1%N].
Qed.
Definition multZp_cert : seq (positive * seq int) := [:: (30128%positive, [:: 0; 0; 0; 0; 0; 0; 0; 30128]%uint63);
  (8608%positive, [:: 29574; 4553; 9333; 50085; 58506; 9890; 36180; 3845]%uint63);
  (224%positive, [:: 43466; 45279; 20478; 43816; 27703; 31502; 21994; 56899]%uint63)].
Lemma multZp_check : check 60256 8 8 30128 3 multZp_cert = true.
Proof. by vm_compute. Qed.
Lemma multZp_prime : Znumtheory.prime multZp_modulus.
Proof.
have -> : multZp_modulus = (60256 ^ Z.of_nat 8 + 1)%Z by vm_compute.
apply: (prime_of_check _ _ _ _ _ _ _ multZp_check); rewrite -?[phi 60256]/60256%Z -?[phi 3]/3%Z //.
move=> q hq hd; have [||p hp ->] := @prime_in [:: 2; 2; 2; 2; 2; 7; 269]%N _ q _ _ hq hd; [by vm_compute|by vm_compute|].
move: hp; rewrite !inE; do ![case/orP] => /eqP ->; by [exists 0%N|exists 0%N|exists 0%N|exists 0%N|exists 0%N|exists 1%N|exists 2%N].
Qed.
