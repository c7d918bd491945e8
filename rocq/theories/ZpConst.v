(** The constants of the seven generated packages, as written in the code.  The third last
    number of a package is invIterationsN (0 where Inverse uses big.Int.ModInverse), the two
    booleans say whether Add keeps the last carry and whether Mul is the text of _mulGeneric. *)
From Coq Require Import ZArith.
From mathcomp Require Import all_ssreflect.
From Verif Require Import JindoIntModel ZpModel.
Set Implicit Arguments. Unset Strict Implicit. Unset Printing Implicit Defensive.
Delimit Scope Z_scope with Z.

(** buckler/internal/zp110/element.go 47-48, 68, 647-650, 184-188, 1229-1231 *)
Definition zp110 : gen := Gen
  [:: 1368919464371814401; 35322942070350]%Z
  1368919464371814399%Z
  [:: 13879880837785790825; 13698196895891]%Z
  [:: 11385778256666429449; 8713368562011]%Z
  [:: 5899112762588679200; 5293977088306]%Z
  8 false false.
(** the modulus as written in the call of SetString *)
Definition zp110_modulus : Z := 0x2020436a1e4e12ff610000000001%Z.

(** buckler/internal/zp220/element.go 47-50, 72, 784-789, 195-201, 1386-1390 *)
Definition zp220 : gen := Gen
  [:: 1; 784755189356756992; 9125029182813171672; 137987997]%Z
  18446744073709551615%Z
  [:: 10495774741363576863; 6000655003190775842; 15475808095641166311; 110005274]%Z
  [:: 18446743940025866016; 1909964142897266687; 3900263823670622549; 58656979]%Z
  [:: 16461290901190847047; 15046736650053576422; 11618405410754994396; 16538029]%Z
  16 false false.
(** the modulus as written in the call of SetString *)
Definition zp220_modulus : Z := 0x839879d7ea29db1fea6efd80ae402afd94100000000000000000001%Z.

(** buckler/internal/zp440/element.go 47-53, 78, 1027-1035, 204-213, 1659-1666 *)
Definition zp440 : gen := Gen
  [:: 1; 12148300569940852736; 12640430495328671408; 17137309074836342590; 16981651425345111637; 14405505931408296241; 38682099262708859]%Z
  18446744073709551615%Z
  [:: 7957502951512554555; 12345321831659416800; 9520095695786331806; 5925117002441554476; 18381966231916359909; 12912295097051746070; 25994926958157201]%Z
  [:: 18446744073709551140; 9686567852953305087; 15240396326575787910; 14548505031232292721; 14854569894220019769; 5167972069604189997; 34064824660134360]%Z
  [:: 7742376401336194432; 185937284114290823; 15709758537797783776; 387273538271828812; 12010647515721412782; 7247590188967459210; 28354177380316052]%Z
  30 false false.
(** the modulus as written in the call of SetString *)
Definition zp440_modulus : Z := 0x896d2a11b85c7bc7eaa3522b5fc931ebaaf1ffab338655edd3f3ce63b2c73eaf6bd4904a1496b0a8976f01000000000000000000000001%Z.

(** buckler/internal/zp880/element.go 47-60, 92, 1859-1874, 232-248, 2561-2575 *)
Definition zp880 : gen := Gen
  [:: 1; 6861456609886294017; 1342749705300700022; 12618833203794735516; 17236694920420798957; 11454692733761031708; 10608556515068030872; 17463395871540426566; 5941933374035713278; 18240219449553035211; 8714305636076385566; 7999245249831249782; 16656895469036106015; 190978427717676]%Z
  18446744073709551615%Z
  [:: 6724149107626197668; 16792220372990440305; 8305190820361958019; 14390204721070815326; 16362704777224455256; 4813243323343290509; 4536418450944166679; 367847298019929041; 3220573572545070938; 923041087129188252; 2720504189881648672; 14272567328117196748; 12388742575033848094; 115550423513755]%Z
  [:: 18446744073709455026; 6527131319631357617; 2863547257242251188; 15515515825119529729; 77265136900227759; 8491643047143610090; 17712760070780730725; 17764356059016804783; 2203767215733815146; 7283103597894230941; 10150694748758322631; 13223590197862498766; 17038010675902365168; 137740459139557]%Z
  [:: 8794233975527786889; 14567973690469742681; 13698722128351944489; 14937021491628014730; 6632283169875480155; 7808846328221020607; 10862689665090930521; 12552801985186085757; 803166188795335466; 8046615376414246645; 5298821768459052519; 3494867757056029634; 9940470852236681379; 112507255830863]%Z
  58 true true.
(** the modulus as written in the call of SetString *)
Definition zp880_modulus : Z := 0xadb1a158082ce7292e2d54b5f11f6f03072c436c277678ef6ece3e84751efd2246f2d3c79fcb5275fcec066fdcfef25a72052730b746933929f1a4492f989ef73e5a0f130e1cef350ab4c97631edaf1f19f10016f19c12a267be26b56b765f38ca6ee20750010000000000000001%Z.

(** jindo/internal/zp/element.go 47-50, 72, 784-789, 195-201, 1386-1390 *)
Definition jindoZp : gen := Gen
  [:: 1; 10274453323695731329; 15444606575275894101; 4831594500472352706]%Z
  18446744073709551615%Z
  [:: 17372242133975344483; 4489541032798193869; 4474567424200409120; 3794296994966180369]%Z
  [:: 18446744073709551613; 6070128176331909244; 9006412495300972543; 3951960572292493495]%Z
  [:: 28489410665777755; 7861887898506807345; 2011563773282140947; 1574395532442623788]%Z
  18 false false.
(** the modulus as written in the call of SetString *)
Definition jindoZp_modulus : Z := 0x430d45996b62afc2d65643d9e6fb65558e9630dc8c3732810000000000000001%Z.

(** examples/bfv/zp/element.go 47-50, 72, 784-789, 195-201, 1386-1390 *)
Definition bfvZp : gen := Gen
  [:: 9475855090964234241; 7204526200934843573; 12582611527068705104; 144608254965214]%Z
  9475855090964234239%Z
  [:: 13561933690638694040; 221061142821177300; 15249735559512729963; 139249034768994]%Z
  [:: 9742693368885808565; 4260726432120292609; 12421114150275980019; 81245581871122]%Z
  [:: 7140521946332423399; 12000885919126429708; 11078770210265367807; 42300068453621]%Z
  16 false false.
(** the modulus as written in the call of SetString *)
Definition bfvZp_modulus : Z := 0x83853bab35deae9e6a84b1aa615063fb9e6895b744b58381000000000001%Z.

(** examples/mult/zp/element.go 47-48, 68, 671-674, 184-188 *)
Definition multZp : gen := Gen
  [:: 7423868425883090945; 9420688941230643342]%Z
  7423868425883090943%Z
  [:: 17275108839596276795; 116055177256091778]%Z
  [:: 11022875647826460671; 9026055132478908273]%Z
  [:: ]%Z
  0 true true.
(** the modulus as written in the call of SetString *)
Definition multZp_modulus : Z := 0x82bd02add980d88e6706e10000000001%Z.

