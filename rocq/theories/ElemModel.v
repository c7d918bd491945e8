(** The rest of the generated element types: Div, Exp, Sqrt, Legendre, Select,
    LexicographicallyLargest, Text, SetString and JSON.

    Modelled from buckler/internal/zp220/element.go; the line numbers are those of that file.  The
    other six files contain the same text with other constants; the lines of the constants are given
    with them. *)
From Coq Require Import ZArith.
From mathcomp Require Import all_ssreflect.
From Verif Require Import JindoIntModel ZpModel ZpConst.
Set Implicit Arguments. Unset Strict Implicit. Unset Printing Implicit Defensive.
Delimit Scope Z_scope with Z.

Section Gen.
Variable g : gen.
Notation n := (Limbs g).

(** 204-209; [inv] is Inverse *)
Definition Div (inv : seq Z -> seq Z) (x y : seq Z) : seq Z := Mul g x (inv y).

(** 751-782: the bits of |k| from BitLen - 2 down to 0; a negative k inverts the argument first *)
Definition Exp (inv : seq Z -> seq Z) (x : seq Z) (k : Z) : seq Z :=
  if (k =? 0)%Z then oneM g
  else
    let: (x, e) := if (k <? 0)%Z then (inv x, (- k)%Z) else (x, k) in
    powBits g x e (rev (iota 0 (bitLen e).-1)).

(** 467-476: c is an int; [int64(c)|-int64(c)] shifted by 63 is -1 unless c = 0.  The receiver takes
    the words one after the other: word i of the result depends on word i of the arguments only. *)
Definition selMask (c : Z) : Z := (Z.shiftr (Z.lor c (toInt64 (- c))) 63 mod W)%Z.
Definition Select (c : Z) (x0 x1 : seq Z) : seq Z :=
  let cC := selMask c in [seq Z.lxor p.1 (Z.land cC (Z.lxor p.1 p.2)) | p <- zip x0 x1].

(** 708-719: the cascade from the most significant word down; the words are visited upwards here and
    the last nonzero one decides.  bits.Len64 is [bitLen]. *)
Definition BitLenWords (z : seq Z) : nat :=
  foldl (fun acc p => if (p.2 =? 0)%Z then acc else (64 * p.1 + bitLen p.2)%N) 0%N (zip (iota 0 (size z)) z).
End Gen.

(** The constants of a package that only the functions of this file use. *)
Record sqc := Sqc {
  sqExp : Z;         (* _bSqrtExponentUint, 1140 *)
  sqG : seq Z;       (* g, 1329-1334 *)
  sqR : nat;         (* r, 1335 *)
  lexHalf : seq Z    (* the constants of LexicographicallyLargest, 291-294 *)
}.
(** zp110/element.go 991, 1174-1178, 268-269 *)
Definition zp110_sq : sqc := Sqc 0x101021b50f27097fb0
  [:: 2825088085054109920; 17690853887682]%Z 40
  [:: 684459732185907201; 17661471035175]%Z.
(** zp220/element.go 1140, 1329-1335, 291-294 *)
Definition zp220_sq : sqc := Sqc 0x41cc3cebf514ed8ff5377ec05720157eca0
  [:: 5488377356620297857; 2275778013636968824; 8025153367554872598; 90366161]%Z 80
  [:: 1; 392377594678378496; 13785886628261361644; 68993998]%Z.
(** zp440/element.go 1401, 1599-1608, 318-324 *)
Definition zp440_sq : sqc := Sqc 0x44b69508dc2e3de3f551a915afe498f5d578ffd599c32af6e9f9e731d9639f57b5ea48250a4b58544bb780
  [:: 6611191093250172947; 9090425438193506206; 9438392459541465249; 1914026542183126851;
      14561873125545743834; 7556416918195785660; 8947883439312298]%Z 96
  [:: 1; 6074150284970426368; 6320215247664335704; 17792026574272947103; 17714197749527331626;
      16426125002558923928; 19341049631354429]%Z.
(** zp880/element.go 2275, 2494-2510, 388-401 *)
Definition zp880_sq : sqc := Sqc
  0x56d8d0ac041673949716aa5af88fb781839621b613bb3c77b7671f423a8f7e91237969e3cfe5a93afe760337ee7f792d390293985ba3499c94f8d22497cc4f7b9f2d0789870e779a855a64bb18f6d78f8cf8800b78ce095133df135ab5bb2f9c65377103a800
  [:: 13449026422178144347; 3875698488331556145; 12673511461088489453; 6488906024615481496;
      624029857464721127; 3555258446516631247; 7143499069729489897; 743357534702080030;
      14037747186847691252; 4083711436984009715; 10038131488335394757; 14186718200979512254;
      18145186873426185417; 61332142241962]%Z 64
  [:: 9223372036854775809; 3430728304943147008; 671374852650350011; 15532788638752143566;
      8618347460210399478; 5727346366880515854; 5304278257534015436; 8731697935770213283;
      12194338723872632447; 9120109724776517605; 4357152818038192783; 13222994661770400699;
      8328447734518053007; 95489213858838]%Z.
(** jindo/internal/zp/element.go 1140, 1329-1335, 291-294 *)
Definition jindoZp_sq : sqc := Sqc 0x2186a2ccb5b157e16b2b21ecf37db2aac74b186e461b9940
  [:: 7861078236324571259; 12808264235539173410; 12852661228818466446; 3524878270677412057]%Z 64
  [:: 9223372036854775809; 14360598698702641472; 7722303287637947050; 2415797250236176353]%Z.
(** examples/bfv/zp/element.go 1140, 1329-1335, 291-294 *)
Definition bfvZp_sq : sqc := Sqc 0x41c29dd59aef574f354258d530a831fdcf344adba25ac1c0
  [:: 14655322046178210321; 8600732898892329216; 13052992573875837226; 144451123493959]%Z 48
  [:: 13961299582336892929; 3602263100467421786; 6291305763534352552; 72304127482607]%Z.
(** examples/mult/zp/element.go 1015, 1055-1059, 268-269 *)
Definition multZp_sq : sqc := Sqc 0x415e8156ecc06c47338370
  [:: 18281965471625347526; 5653414595089671504]%Z 40
  [:: 3711934212941545473; 4710344470615321671]%Z.
(** examples/mult/zp/element.go 1014 *)
Definition multZp_legendre : Z := 0x415e8156ecc06c473383708000000000.

Section Sqrt.
Variables (g : gen) (c : sqc).

(** 283-298 *)
Definition LexicographicallyLargest (z : seq Z) : bool := ((subChain (Bits g z) (lexHalf c) 0).2 =? 0)%Z.

(** 1355-1359: for !t.IsOne() { t.Square(&t); m++ }.  The loop has no bound; [fuel] rounds are
    granted and None says that they did not suffice. *)
Fixpoint orderLoop (fuel : nat) (t : seq Z) (m : nat) : option nat :=
  if IsOne g t then Some m
  else if fuel is fuel'.+1 then orderLoop fuel' (Square g t) m.+1 else None.
(** 1350-1376: r - m - 1 is computed in uint64 and converted to int, so that it is -1 for m = r and
    the inner loop does nothing, as with the subtraction of nat. *)
Fixpoint sqrtLoop (fuel : nat) (y b gg : seq Z) (r : nat) : option (seq Z) :=
  if fuel is fuel'.+1 then
    if orderLoop fuel b 0 is Some m then
      if m == 0%N then Some y
      else
        let t := iter (r - m - 1)%N (Square g) gg in
        let gg := Square g t in
        sqrtLoop fuel' (Mul g y t) (Mul g b gg) gg m
    else None
  else None.
(** 1313-1377: None when the rounds did not suffice, Some None when nil is returned *)
Definition Sqrt (fuel : nat) (x : seq Z) : option (option (seq Z)) :=
  let w := Exp g id x (sqExp c) in
  let y := Mul g x w in
  let b := Mul g w y in
  let t := iter (sqR c).-1 (Square g) b in
  if IsZero t then Some (Some (nseq (Limbs g) 0%Z))
  else if ~~ IsOne g t then Some None
  else if sqrtLoop fuel y b (sqG c) (sqR c) is Some y then Some (Some y) else None.
End Sqrt.

(** examples/mult/zp/element.go 1020-1034 *)
Definition Legendre (g : gen) (e : Z) (z : seq Z) : Z :=
  let l := Exp g id z e in
  if IsZero l then 0%Z else if IsOne g l then 1%Z else (-1)%Z.

(** * text *)
(** strings are lists of character codes *)
Definition digitChar (d : Z) : Z := if (d <? 10)%Z then (48 + d)%Z else (87 + d)%Z.
(** strconv.FormatUint and big.Int.Text: the digits of v in the given base, most significant first *)
Fixpoint digitsLoop (fuel : nat) (base v : Z) (acc : seq Z) : seq Z :=
  if fuel is fuel'.+1 then
    let acc := digitChar (v mod base) :: acc in
    if (v / base =? 0)%Z then acc else digitsLoop fuel' base (v / base) acc
  else acc.
Definition formatNat (base v : Z) : seq Z := digitsLoop (bitLen v).+1 base v [::].

Section Text.
Variable g : gen.

(** 820-846; None is the panic.  Receivers are not nil. *)
Definition Text (base : Z) (z : seq Z) : option (seq Z) :=
  if (base <? 2)%Z || (36 <? base)%Z then None
  else
    let zzNeg := fromMont g (Neg g z) in
    if (base =? 10)%Z && [&& FitsOnOneWord zzNeg, (hd0 zzNeg <=? 65535)%Z & ~~ (hd0 zzNeg =? 0)%Z] then
      Some (45%Z :: formatNat base (hd0 zzNeg))
    else
      let zz := fromMont g z in
      if FitsOnOneWord zz then Some (formatNat base (hd0 zz))
      else Some (formatNat base (wordsVal zz)).
(** 799-801 *)
Definition String_ (z : seq Z) : option (seq Z) := Text 10 z.

(** 998-1012; [parse] is big.Int.SetString with base 0; None is the returned error *)
Definition SetString (parse : seq Z -> option Z) (s : seq Z) : option (seq Z) :=
  if parse s is Some v then Some (SetBigInt g v) else None.

(** 1016-1030 *)
Definition MarshalJSON (z : seq Z) : option (seq Z) :=
  if Text 10 z is Some s then
    Some (if (size s <= 15)%N then s else 34%Z :: rcons s 34%Z)
  else None.
(** 1034-1060; Bits is the bit length of the modulus *)
Definition UnmarshalJSON (parse : seq Z -> option Z) (data : seq Z) : option (seq Z) :=
  if (bitLen (modulusOf g) * 3 < size data)%N then None
  else
    let s := data in
    let s := if (0 < size s)%N && (nth 0%Z s 0 =? 34)%Z then behead s else s in
    let s := if (0 < size s)%N && (last 0%Z s =? 34)%Z then take (size s).-1 s else s in
    SetString parse s.
End Text.
