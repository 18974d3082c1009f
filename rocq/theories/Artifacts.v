(** The compiled libraries shipped in the repository (generated by tools/artifacts.py): the model decodes
    them, encodes them back to the same bytes and computes the published ids. Tests of the model. *)
From Coq Require Import NArith List Bool String Ascii Strings.Byte.
From Verif Require Import Base Sha256 Ty Ids LibCodec.
Import ListNotations.
Local Open Scope N_scope.

(** Test helper, no code modelled: hexadecimal digits to bytes. *)
Definition nibble (c : ascii) : N := let n := N_of_ascii c in if n <? 58 then n - 48 else n - 87.
Fixpoint hex (s : string) : bytes :=
  match s with
  | String a (String b r) => b8 (16 * nibble a + nibble b) :: hex r
  | _ => []
  end.

(** stl/Std@0.1.0.stl. *)
Definition std_hex : list string := [
  "0353746400001f0005416c7068610334025f4141025f4242025f4343025f4444025f4545025f4646025f4747025f4848025f";
  "4949025f4a4a025f4b4b025f4c4c025f4d4d025f4e4e025f4f4f025f5050025f5151025f5252025f5353025f5454025f5555";
  "025f5656025f5757025f5858025f5959025f5a5a016161016262016363016464016565016666016767016868016969016a6a";
  "016b6b016c6c016d6d016e6e016f6f017070017171017272017373017474017575017676017777017878017979017a7a0941";
  "6c70686143617073031a025f4141025f4242025f4343025f4444025f4545025f4646025f4747025f4848025f4949025f4a4a";
  "025f4b4b025f4c4c025f4d4d025f4e4e025f4f4f025f5050025f5151025f5252025f5353025f5454025f5555025f5656025f";
  "5757025f5858025f5959025f5a5a0d416c7068614361707344617368031b04646173682d025f4141025f4242025f4343025f";
  "4444025f4545025f4646025f4747025f4848025f4949025f4a4a025f4b4b025f4c4c025f4d4d025f4e4e025f4f4f025f5050";
  "025f5151025f5252025f5353025f5454025f5555025f5656025f5757025f5858025f5959025f5a5a0c416c70686143617073";
  "446f74031b03646f742e025f4141025f4242025f4343025f4444025f4545025f4646025f4747025f4848025f4949025f4a4a";
  "025f4b4b025f4c4c025f4d4d025f4e4e025f4f4f025f5050025f5151025f5252025f5353025f5454025f5555025f5656025f";
  "5757025f5858025f5959025f5a5a0f416c706861436170734c6f64617368031b025f4141025f4242025f4343025f4444025f";
  "4545025f4646025f4747025f4848025f4949025f4a4a025f4b4b025f4c4c025f4d4d025f4e4e025f4f4f025f5050025f5151";
  "025f5252025f5353025f5454025f5555025f5656025f5757025f5858025f5959025f5a5a066c6f646173685f0c416c706861";
  "436170734e756d0324047a65726f30036f6e65310374776f320574687265653304666f757234046669766535037369783605";
  "736576656e3705656967687438046e696e6539025f4141025f4242025f4343025f4444025f4545025f4646025f4747025f48";
  "48025f4949025f4a4a025f4b4b025f4c4c025f4d4d025f4e4e025f4f4f025f5050025f5151025f5252025f5353025f545402";
  "5f5555025f5656025f5757025f5858025f5959025f5a5a09416c70686144617368033504646173682d025f4141025f424202";
  "5f4343025f4444025f4545025f4646025f4747025f4848025f4949025f4a4a025f4b4b025f4c4c025f4d4d025f4e4e025f4f";
  "4f025f5050025f5151025f5252025f5353025f5454025f5555025f5656025f5757025f5858025f5959025f5a5a0161610162";
  "62016363016464016565016666016767016868016969016a6a016b6b016c6c016d6d016e6e016f6f01707001717101727201";
  "7373017474017575017676017777017878017979017a7a08416c706861446f74033503646f742e025f4141025f4242025f43";
  "43025f4444025f4545025f4646025f4747025f4848025f4949025f4a4a025f4b4b025f4c4c025f4d4d025f4e4e025f4f4f02";
  "5f5050025f5151025f5252025f5353025f5454025f5555025f5656025f5757025f5858025f5959025f5a5a01616101626201";
  "6363016464016565016666016767016868016969016a6a016b6b016c6c016d6d016e6e016f6f017070017171017272017373";
  "017474017575017676017777017878017979017a7a0b416c7068614c6f646173680335025f4141025f4242025f4343025f44";
  "44025f4545025f4646025f4747025f4848025f4949025f4a4a025f4b4b025f4c4c025f4d4d025f4e4e025f4f4f025f505002";
  "5f5151025f5252025f5353025f5454025f5555025f5656025f5757025f5858025f5959025f5a5a066c6f646173685f016161";
  "016262016363016464016565016666016767016868016969016a6a016b6b016c6c016d6d016e6e016f6f0170700171710172";
  "72017373017474017575017676017777017878017979017a7a08416c7068614e756d033e047a65726f30036f6e6531037477";
  "6f320574687265653304666f757234046669766535037369783605736576656e3705656967687438046e696e6539025f4141";
  "025f4242025f4343025f4444025f4545025f4646025f4747025f4848025f4949025f4a4a025f4b4b025f4c4c025f4d4d025f";
  "4e4e025f4f4f025f5050025f5151025f5252025f5353025f5454025f5555025f5656025f5757025f5858025f5959025f5a5a";
  "016161016262016363016464016565016666016767016868016969016a6a016b6b016c6c016d6d016e6e016f6f0170700171";
  "71017272017373017474017575017676017777017878017979017a7a0c416c7068614e756d44617368033f04646173682d04";
  "7a65726f30036f6e65310374776f320574687265653304666f757234046669766535037369783605736576656e3705656967";
  "687438046e696e6539025f4141025f4242025f4343025f4444025f4545025f4646025f4747025f4848025f4949025f4a4a02";
  "5f4b4b025f4c4c025f4d4d025f4e4e025f4f4f025f5050025f5151025f5252025f5353025f5454025f5555025f5656025f57";
  "57025f5858025f5959025f5a5a016161016262016363016464016565016666016767016868016969016a6a016b6b016c6c01";
  "6d6d016e6e016f6f017070017171017272017373017474017575017676017777017878017979017a7a0b416c7068614e756d";
  "446f74033f03646f742e047a65726f30036f6e65310374776f320574687265653304666f7572340466697665350373697836";
  "05736576656e3705656967687438046e696e6539025f4141025f4242025f4343025f4444025f4545025f4646025f4747025f";
  "4848025f4949025f4a4a025f4b4b025f4c4c025f4d4d025f4e4e025f4f4f025f5050025f5151025f5252025f5353025f5454";
  "025f5555025f5656025f5757025f5858025f5959025f5a5a0161610162620163630164640165650166660167670168680169";
  "69016a6a016b6b016c6c016d6d016e6e016f6f01707001717101727201737301747401757501767601777701787801797901";
  "7a7a0e416c7068614e756d4c6f64617368033f047a65726f30036f6e65310374776f320574687265653304666f7572340466";
  "69766535037369783605736576656e3705656967687438046e696e6539025f4141025f4242025f4343025f4444025f454502";
  "5f4646025f4747025f4848025f4949025f4a4a025f4b4b025f4c4c025f4d4d025f4e4e025f4f4f025f5050025f5151025f52";
  "52025f5353025f5454025f5555025f5656025f5757025f5858025f5959025f5a5a066c6f646173685f016161016262016363";
  "016464016565016666016767016868016969016a6a016b6b016c6c016d6d016e6e016f6f0170700171710172720173730174";
  "74017575017676017777017878017979017a7a0a416c706861536d616c6c031a016161016262016363016464016565016666";
  "016767016868016969016a6a016b6b016c6c016d6d016e6e016f6f0170700171710172720173730174740175750176760177";
  "77017878017979017a7a0e416c706861536d616c6c44617368031b04646173682d0161610162620163630164640165650166";
  "66016767016868016969016a6a016b6b016c6c016d6d016e6e016f6f01707001717101727201737301747401757501767601";
  "7777017878017979017a7a0d416c706861536d616c6c446f74031b03646f742e016161016262016363016464016565016666";
  "016767016868016969016a6a016b6b016c6c016d6d016e6e016f6f0170700171710172720173730174740175750176760177";
  "77017878017979017a7a10416c706861536d616c6c4c6f64617368031b066c6f646173685f01616101626201636301646401";
  "6565016666016767016868016969016a6a016b6b016c6c016d6d016e6e016f6f017070017171017272017373017474017575";
  "017676017777017878017979017a7a0541736369690380036e756c0003736f68010373747802036574780303656f74040365";
  "6e71050361636b060362656c070262730802687409026c660a0276740b0266660c0263720d02736f0e0273690f03646c6510";
  "0364633111036463321203646333130364633414046e61636b150373796e1603657462170363616e1802656d19037375621a";
  "036573631b0266731c0267731d0272731e0275731f05737061636520046578636c210671756f746573220468617368230664";
  "6f6c6c6172240770657263656e742509616d70657273616e64260a61706f7374726f7068652708627261636b65744c280862";
  "7261636b6574522908617374657269736b2a04706c75732b05636f6d6d612c056d696e75732d03646f742e05736c6173682f";
  "047a65726f30036f6e65310374776f320574687265653304666f757234046669766535037369783605736576656e37056569";
  "67687438046e696e653905636f6c6f6e3a0973656d69436f6c6f6e3b046c6573733c05657175616c3d07677265617465723e";
  "087175657374696f6e3f02617440025f4141025f4242025f4343025f4444025f4545025f4646025f4747025f4848025f4949";
  "025f4a4a025f4b4b025f4c4c025f4d4d025f4e4e025f4f4f025f5050025f5151025f5252025f5353025f5454025f5555025f";
  "5656025f5757025f5858025f5959025f5a5a0a7371427261636b65744c5b096261636b536c6173685c0a7371427261636b65";
  "74525d0563617265745e066c6f646173685f086261636b7469636b6001616101626201636301646401656501666601676701";
  "6868016969016a6a016b6b016c6c016d6d016e6e016f6f017070017171017272017373017474017575017676017777017878";
  "017979017a7a0963427261636b65744c7b04706970657c0963427261636b6574527d0574696c64657e0364656c7f0e417363";
  "69695072696e7461626c65035f05737061636520046578636c210671756f7465732204686173682306646f6c6c6172240770";
  "657263656e742509616d70657273616e64260a61706f7374726f7068652708627261636b65744c2808627261636b65745229";
  "08617374657269736b2a04706c75732b05636f6d6d612c056d696e75732d03646f742e05736c6173682f047a65726f30036f";
  "6e65310374776f320574687265653304666f757234046669766535037369783605736576656e3705656967687438046e696e";
  "653905636f6c6f6e3a0973656d69436f6c6f6e3b046c6573733c05657175616c3d07677265617465723e087175657374696f";
  "6e3f02617440025f4141025f4242025f4343025f4444025f4545025f4646025f4747025f4848025f4949025f4a4a025f4b4b";
  "025f4c4c025f4d4d025f4e4e025f4f4f025f5050025f5151025f5252025f5353025f5454025f5555025f5656025f5757025f";
  "5858025f5959025f5a5a0a7371427261636b65744c5b096261636b536c6173685c0a7371427261636b6574525d0563617265";
  "745e066c6f646173685f086261636b7469636b60016161016262016363016464016565016666016767016868016969016a6a";
  "016b6b016c6c016d6d016e6e016f6f017070017171017272017373017474017575017676017777017878017979017a7a0963";
  "427261636b65744c7b04706970657c0963427261636b6574527d0574696c64657e04426f6f6c03020566616c736500047472";
  "75650103446563030a047a65726f30036f6e65310374776f320574687265653304666f757234046669766535037369783605";
  "736576656e3705656967687438046e696e653906446563446f74030b03646f742e047a65726f30036f6e65310374776f3205";
  "74687265653304666f757234046669766535037369783605736576656e3705656967687438046e696e65390a486578446563";
  "436170730310047a65726f30036f6e65310374776f320574687265653304666f757234046669766535037369783605736576";
  "656e3705656967687438046e696e65390374656e4106656c6576656e42067477656c76654308746869727465656e4408666f";
  "75727465656e45076669667465656e460b486578446563536d616c6c0310047a65726f30036f6e65310374776f3205746872";
  "65653304666f757234046669766535037369783605736576656e3705656967687438046e696e65390374656e6106656c6576";
  "656e62067477656c76656308746869727465656e6408666f75727465656e65076669667465656e660255310302025f300002";
  "5f31010255320304025f3000025f3101025f3202025f33030255330308025f3000025f3101025f3202025f3303025f340402";
  "5f3505025f3606025f37070255340310025f3000025f3101025f3202025f3303025f3404025f3505025f3606025f3707025f";
  "3808025f3909035f31300a035f31310b035f31320c035f31330d035f31340e035f31350f0255350320025f3000025f310102";
  "5f3202025f3303025f3404025f3505025f3606025f3707025f3808025f3909035f31300a035f31310b035f31320c035f3133";
  "0d035f31340e035f31350f035f313610035f313711035f313812035f313913035f323014035f323115035f323216035f3233";
  "17035f323418035f323519035f32361a035f32371b035f32381c035f32391d035f33301e035f33311f0255360340025f3000";
  "025f3101025f3202025f3303025f3404025f3505025f3606025f3707025f3808025f3909035f31300a035f31310b035f3132";
  "0c035f31330d035f31340e035f31350f035f313610035f313711035f313812035f313913035f323014035f323115035f3232";
  "16035f323317035f323418035f323519035f32361a035f32371b035f32381c035f32391d035f33301e035f33311f035f3332";
  "20035f333321035f333422035f333523035f333624035f333725035f333826035f333927035f343028035f343129035f3432";
  "2a035f34332b035f34342c035f34352d035f34362e035f34372f035f343830035f343931035f353032035f353133035f3532";
  "34035f353335035f353436035f353537035f353638035f353739035f35383a035f35393b035f36303c035f36313d035f3632";
  "3e035f36333f0255370380025f3000025f3101025f3202025f3303025f3404025f3505025f3606025f3707025f3808025f39";
  "09035f31300a035f31310b035f31320c035f31330d035f31340e035f31350f035f313610035f313711035f313812035f3139";
  "13035f323014035f323115035f323216035f323317035f323418035f323519035f32361a035f32371b035f32381c035f3239";
  "1d035f33301e035f33311f035f333220035f333321035f333422035f333523035f333624035f333725035f333826035f3339";
  "27035f343028035f343129035f34322a035f34332b035f34342c035f34352d035f34362e035f34372f035f343830035f3439";
  "31035f353032035f353133035f353234035f353335035f353436035f353537035f353638035f353739035f35383a035f3539";
  "3b035f36303c035f36313d035f36323e035f36333f035f363440035f363541035f363642035f363743035f363844035f3639";
  "45035f373046035f373147035f373248035f373349035f37344a035f37354b035f37364c035f37374d035f37384e035f3739";
  "4f035f383050035f383151035f383252035f383353035f383454035f383555035f383656035f383757035f383858035f3839";
  "59035f39305a035f39315b035f39325c035f39335d035f39345e035f39355f035f393660035f393761035f393862035f3939";
  "63045f31303064045f31303165045f31303266045f31303367045f31303468045f31303569045f3130366a045f3130376b04";
  "5f3130386c045f3130396d045f3131306e045f3131316f045f31313270045f31313371045f31313472045f31313573045f31";
  "313674045f31313775045f31313876045f31313977045f31323078045f31323179045f3132327a045f3132337b045f313234";
  "7c045f3132357d045f3132367e045f3132377f"
]%string.
Definition std_bytes : bytes := flat_map hex std_hex.

(** src/stl.rs: LIB_ID_STD = "stl:gonrTQ8L-cFSvdEs-F6MHXnS-MDplxjy-8_lZ5j5-_lY8MWo#delete-roman-hair". *)
Definition std_id : N := 0x8289eb4d0f0b7054af744b05e8c1d79d2303a65c63cbcfa56798f9fa563c316a.

(** The file decodes entirely, the result encodes to the file, and has the published id. *)
Example std_decodes : match deserialize dec_lib std_bytes with
  | Some l => enc_lib l = std_bytes /\ lib_id l = std_id /\ l_name l = "Std"%string
  | None => False
  end.
Proof. vm_compute. repeat split. Qed.

(** stl/StrictTypes@0.1.0.stl. *)
Definition strict_types_hex : list string := [
  "0b5374726963745479706573018289eb4d0f0b7054af744b05e8c1d79d2303a65c63cbcfa56798f9fa563c316a0353746401";
  "035374640400831bcb0c328608f3f9cd16633c16a8e6a52ac31c79a61042be9d864bc9f4a0f70b416c7068614c6f64617368";
  "95c3bdc94d0260f9716a113cf6492d5d4e23988e33043005ca36da6d6eee67b40e416c7068614e756d4c6f64617368b9837e";
  "e740ae9213daeb346492fda55e20b8a283493c14b8b3cc74c79d87f9af0f416c706861436170734c6f64617368d13d0cc32a";
  "1bad7a9cac7a89f83a28bebb6f4e0951d0dbc80bf4c86487acb2de10416c706861536d616c6c4c6f646173683b000a446570";
  "656e64656e6379060202696401b5b980cfff6d7caa89eda5e11e29c1048a61603f97b9e3ad33708dbda5c94136046e616d65";
  "0187b5efc03762e2d36b260acac87bac47a5bd45c55ef02c3d29c908e2ab1c417a0c456e756d56617269616e747305010009";
  "017dc94227d46200d926968524efcc7d92f923fd479418034c6d22e47a16a8764e0100000000000000ff0000000000000009";
  "45787465726e5265660602056c6962496401b5b980cfff6d7caa89eda5e11e29c1048a61603f97b9e3ad33708dbda5c94136";
  "0573656d4964016b04a3149ea6950016679fef02b4ab24f5e6b78a64c8d9d0bd65fcd7a3584e8d0e4669656c64496e6c696e";
  "655265660602046e616d65011bb45801f260ae6dc8fc2902a5fcd4841ff1d75084ed1be0c1422d770237f87202747901b6e4";
  "eb3422b78a3c920bba2c17885d146fc780e6e38d104bace1eddbe10597340f4669656c64496e6c696e65526566310602046e";
  "616d65011bb45801f260ae6dc8fc2902a5fcd4841ff1d75084ed1be0c1422d770237f872027479015b32554761eef5f6168f";
  "bab79bb2f5394d1ae76c84c42d888fb8583e0e0eb9890f4669656c64496e6c696e65526566320602046e616d65011bb45801";
  "f260ae6dc8fc2902a5fcd4841ff1d75084ed1be0c1422d770237f87202747901b5a1ffa8920bbd9e496b7bc3b7049af6e814";
  "2603bfdd5bfd679bdc6a795deddc0b4669656c644c69625265660602046e616d65011bb45801f260ae6dc8fc2902a5fcd484";
  "1ff1d75084ed1be0c1422d770237f87202747901b33f63c6611e04f0a1e6faa74b3f986a8ea71b3a0619b25a1a36be528331";
  "5291094669656c644e616d650501000502028289eb4d0f0b7054af744b05e8c1d79d2303a65c63cbcfa56798f9fa563c316a";
  "d13d0cc32a1bad7a9cac7a89f83a28bebb6f4e0951d0dbc80bf4c86487acb2de0008028289eb4d0f0b7054af744b05e8c1d7";
  "9d2303a65c63cbcfa56798f9fa563c316a95c3bdc94d0260f9716a113cf6492d5d4e23988e33043005ca36da6d6eee67b400";
  "0000000000000063000000000000000a4669656c6453656d49640602046e616d65011bb45801f260ae6dc8fc2902a5fcd484";
  "1ff1d75084ed1be0c1422d770237f872027479016b04a3149ea6950016679fef02b4ab24f5e6b78a64c8d9d0bd65fcd7a358";
  "4e8d054964656e740501000502028289eb4d0f0b7054af744b05e8c1d79d2303a65c63cbcfa56798f9fa563c316a831bcb0c";
  "328608f3f9cd16633c16a8e6a52ac31c79a61042be9d864bc9f4a0f70008028289eb4d0f0b7054af744b05e8c1d79d2303a6";
  "5c63cbcfa56798f9fa563c316a95c3bdc94d0260f9716a113cf6492d5d4e23988e33043005ca36da6d6eee67b40000000000";
  "000000630000000000000009496e6c696e6552656604030006696e6c696e65000501014da6737b1b693467ec8d0ea28ecdaa";
  "fc61b5599f8efb2631daa4bfc410fffd0c01056e616d6564000501016b04a3149ea6950016679fef02b4ab24f5e6b78a64c8";
  "d9d0bd65fcd7a3584e8d020665787465726e00050101aa2af8da841ff7c5f14e1bae82918a8312a999c356e9f1565f71eba3";
  "229f01960a496e6c696e655265663104030006696e6c696e650005010100964dd9811f7ac8f3d73aaa41c43094b40ce23460";
  "660e95a5697a40349aef6101056e616d6564000501016b04a3149ea6950016679fef02b4ab24f5e6b78a64c8d9d0bd65fcd7";
  "a3584e8d020665787465726e00050101aa2af8da841ff7c5f14e1bae82918a8312a999c356e9f1565f71eba3229f01960a49";
  "6e6c696e6552656632040200056e616d6564000501016b04a3149ea6950016679fef02b4ab24f5e6b78a64c8d9d0bd65fcd7";
  "a3584e8d010665787465726e00050101aa2af8da841ff7c5f14e1bae82918a8312a999c356e9f1565f71eba3229f01960849";
  "74656d436173650408000c756e6e616d65644669656c64000501000001010a6e616d65644669656c64000502000001011bb4";
  "5801f260ae6dc8fc2902a5fcd4841ff1d75084ed1be0c1422d770237f872020c756e696f6e56617269616e74000502000001";
  "010986c18b22fa35d16a24f49816c055f384e1244659e5a5c4d039c5ceae8e108f100961727261794974656d00000011086c";
  "6973744974656d00000012077365744974656d00000013066d61704b657900000014086d617056616c7565000000074c6962";
  "4e616d650501000502028289eb4d0f0b7054af744b05e8c1d79d2303a65c63cbcfa56798f9fa563c316ab9837ee740ae9213";
  "daeb346492fda55e20b8a283493c14b8b3cc74c79d87f9af0008028289eb4d0f0b7054af744b05e8c1d79d2303a65c63cbcf";
  "a56798f9fa563c316a95c3bdc94d0260f9716a113cf6492d5d4e23988e33043005ca36da6d6eee67b4000000000000000063";
  "00000000000000064c696252656604030006696e6c696e6500050101fe7515af3d6f61275ec694a3238bf61caf38821f707d";
  "faa14b10cb47f382b7d801056e616d6564000501016b04a3149ea6950016679fef02b4ab24f5e6b78a64c8d9d0bd65fcd7a3";
  "584e8d020665787465726e00050101aa2af8da841ff7c5f14e1bae82918a8312a999c356e9f1565f71eba3229f01960c4d65";
  "6d6f72794c61796f75740601056974656d7300080113b55a6081e98157914d3ba0f6e9126461d4d5774f0e7680f7b5cc50af";
  "d6b5100000000000000000ffffffff00000000144e616d65644669656c6473496e6c696e655265660501000801543e89aa35";
  "38087dc23af38de58873bca8d99bddf1ec6a6e0b79f400b7567d2e0100000000000000ff00000000000000154e616d656446";
  "69656c6473496e6c696e6552656631050100080126d9663d312ccef3f4fc0a35729cf9dfb6aa205116e6ac6a24edc3db9052";
  "2d530100000000000000ff00000000000000154e616d65644669656c6473496e6c696e6552656632050100080154690959d4";
  "529c861af9b062f7c7c68f23af786a3109b03e4ccac658a36688cf0100000000000000ff00000000000000114e616d656446";
  "69656c64734c696252656605010008018021381f3a86ccc37db09183ad4fc5ce023843e14d08f237ff7f6bc50f6992110100";
  "000000000000ff00000000000000104e616d65644669656c647353656d49640501000801444e3b7245ed7d6d1c05fb7fcd9e";
  "5617b37bdb153455c1c6571e6d3721ed44180100000000000000ff000000000000000a4e657374656443617365040600076e";
  "65775479706500050100040200046e6f6e650000000104736f6d6500050100683ce9575d4cdb8fe160a97b68efb14eb9d68f";
  "69753844bfbe2f46e5bb13d3fa01066f7074696f6e0000001007627974655374720000001108617363696953747200050100";
  "040200046e6f6e650000000104736f6d6500050100683ce9575d4cdb8fe160a97b68efb14eb9d68f69753844bfbe2f46e5bb";
  "13d3fa1206756e6953747200000013047253747200050300040200046e6f6e650000000104736f6d6500050100683ce9575d";
  "4cdb8fe160a97b68efb14eb9d68f69753844bfbe2f46e5bb13d3fa00040200046e6f6e650000000104736f6d650005010068";
  "3ce9575d4cdb8fe160a97b68efb14eb9d68f69753844bfbe2f46e5bb13d3fa0181d32c24d7c3e832d9c362fdc8f48f909d3f";
  "8728bc324e4de44ca1e1899b1906095072696d697469766505010000010553656d49640501000700004020000653697a696e";
  "670602036d696e000008036d61780000080953796d626f6c5265660604076c69624e616d650187b5efc03762e2d36b260aca";
  "c87bac47a5bd45c55ef02c3d29c908e2ab1c417a0674794e616d65015316088414c98274a8be3ad693514c502edf12923864";
  "4e9ecac9780f9bb76864056c6962496401b5b980cfff6d7caa89eda5e11e29c1048a61603f97b9e3ad33708dbda5c9413605";
  "73656d4964016b04a3149ea6950016679fef02b4ab24f5e6b78a64c8d9d0bd65fcd7a3584e8d0b53796d626f6c6963537973";
  "06020773796d626f6c7301fe76adf6bdb802fe199330a896233606ec9c73b99e60536d6cdc32284ef6414305747970657301";
  "fd81ae837e0b079ba84eebc8264c932280511f67e13591e49d759ce3ec4582a90753796d626f6c730602046c696273000901";
  "ece0d932dbaa2f6341137b1beea09e6ebcf891ac47e309b2df8246d4352ac06c0000000000000000ffff0000000000000773";
  "796d626f6c73000901b11c6669b657b5090de3b4a02eb998fc75093cea07ba4cf52f7c3bef95520e6c0000000000000000ff";
  "ffff00000000000b5479496e6c696e65526566040a00097072696d6974697665000501012463dabf7c4af1ea9120efbf80c2";
  "c789a15792d4f1fba32c589823b10f6921fa0107756e69636f64650000000304656e756d00050101972183aad11c4f41d108";
  "331912195be40de30c14b35b7e536c0f8b4b6d64c5510405756e696f6e00050101865d4d1866a36484dcac725d85d6eadd0d";
  "9f13f0ca22442182595db35fb812f005057475706c65000501013ffc48871268495d96d56f2ac6a8f32491e96409834abe9f";
  "ff1695f71f8ffb45060673747275637400050101a1d8875b7acd1ae816681a13ee509878155c6dcffc76a38143130f62e574";
  "0e460705617272617900050201b6e4eb3422b78a3c920bba2c17885d146fc780e6e38d104bace1eddbe10597340000020804";
  "6c69737400050201b6e4eb3422b78a3c920bba2c17885d146fc780e6e38d104bace1eddbe10597340181d32c24d7c3e832d9";
  "c362fdc8f48f909d3f8728bc324e4de44ca1e1899b1906090373657400050201b6e4eb3422b78a3c920bba2c17885d146fc7";
  "80e6e38d104bace1eddbe10597340181d32c24d7c3e832d9c362fdc8f48f909d3f8728bc324e4de44ca1e1899b19060a036d";
  "617000050301b6e4eb3422b78a3c920bba2c17885d146fc780e6e38d104bace1eddbe105973401b6e4eb3422b78a3c920bba";
  "2c17885d146fc780e6e38d104bace1eddbe10597340181d32c24d7c3e832d9c362fdc8f48f909d3f8728bc324e4de44ca1e1";
  "899b19060c5479496e6c696e6552656631040a00097072696d6974697665000501012463dabf7c4af1ea9120efbf80c2c789";
  "a15792d4f1fba32c589823b10f6921fa0107756e69636f64650000000304656e756d00050101972183aad11c4f41d1083319";
  "12195be40de30c14b35b7e536c0f8b4b6d64c5510405756e696f6e00050101939a63036b4e93284ed93d30f6426fba3e887f";
  "30597050c10f7f17a19f54fb6a05057475706c65000501014383d765a012d70b3571a001e26b94a235523416f37674fe2ca1";
  "a9d2b262293c0606737472756374000501016f82eac54c9156f77cd8f199c80ae29e52a2563530bb56c8ea4446969a887c16";
  "07056172726179000502015b32554761eef5f6168fbab79bb2f5394d1ae76c84c42d888fb8583e0e0eb98900000208046c69";
  "7374000502015b32554761eef5f6168fbab79bb2f5394d1ae76c84c42d888fb8583e0e0eb9890181d32c24d7c3e832d9c362";
  "fdc8f48f909d3f8728bc324e4de44ca1e1899b19060903736574000502015b32554761eef5f6168fbab79bb2f5394d1ae76c";
  "84c42d888fb8583e0e0eb9890181d32c24d7c3e832d9c362fdc8f48f909d3f8728bc324e4de44ca1e1899b19060a036d6170";
  "000503015b32554761eef5f6168fbab79bb2f5394d1ae76c84c42d888fb8583e0e0eb989015b32554761eef5f6168fbab79b";
  "b2f5394d1ae76c84c42d888fb8583e0e0eb9890181d32c24d7c3e832d9c362fdc8f48f909d3f8728bc324e4de44ca1e1899b";
  "19060c5479496e6c696e6552656632040a00097072696d6974697665000501012463dabf7c4af1ea9120efbf80c2c789a157";
  "92d4f1fba32c589823b10f6921fa0107756e69636f64650000000304656e756d00050101972183aad11c4f41d10833191219";
  "5be40de30c14b35b7e536c0f8b4b6d64c5510405756e696f6e000501012b89e5690be94f0381d6c4dfae466edb20302ce7d8";
  "c0c1fd272ee4556d48d2a305057475706c65000501016b9aa639d93359427f3bb7f56c8f5cdd4dc0d6ea290cfd131e6ab6e9";
  "30db170806067374727563740005010132244282bda531f7521234a5d98fd61266ed8531f5d7803d64a4caacfd4abda20705";
  "617272617900050201b5a1ffa8920bbd9e496b7bc3b7049af6e8142603bfdd5bfd679bdc6a795deddc00000208046c697374";
  "00050201b5a1ffa8920bbd9e496b7bc3b7049af6e8142603bfdd5bfd679bdc6a795deddc0181d32c24d7c3e832d9c362fdc8";
  "f48f909d3f8728bc324e4de44ca1e1899b1906090373657400050201b5a1ffa8920bbd9e496b7bc3b7049af6e8142603bfdd";
  "5bfd679bdc6a795deddc0181d32c24d7c3e832d9c362fdc8f48f909d3f8728bc324e4de44ca1e1899b19060a036d61700005";
  "0301b5a1ffa8920bbd9e496b7bc3b7049af6e8142603bfdd5bfd679bdc6a795deddc01b5a1ffa8920bbd9e496b7bc3b7049a";
  "f6e8142603bfdd5bfd679bdc6a795deddc0181d32c24d7c3e832d9c362fdc8f48f909d3f8728bc324e4de44ca1e1899b1906";
  "0854794c6962526566040a00097072696d6974697665000501012463dabf7c4af1ea9120efbf80c2c789a15792d4f1fba32c";
  "589823b10f6921fa0107756e69636f64650000000304656e756d00050101972183aad11c4f41d108331912195be40de30c14";
  "b35b7e536c0f8b4b6d64c5510405756e696f6e00050101080d76030f089605840dde576faa2e5d18be4d37c436e5239fc277";
  "1bd8ad859805057475706c6500050101f4cab62c4b7676f65d5514c3daf4189cb72a04c6e4b8060d1f069a3829a051480606";
  "73747275637400050101b9054de814e9a8ef30dc69ea7be2208731f504c380923ea21ace0ce49f06b6f60705617272617900";
  "050201b33f63c6611e04f0a1e6faa74b3f986a8ea71b3a0619b25a1a36be528331529100000208046c69737400050201b33f";
  "63c6611e04f0a1e6faa74b3f986a8ea71b3a0619b25a1a36be52833152910181d32c24d7c3e832d9c362fdc8f48f909d3f87";
  "28bc324e4de44ca1e1899b1906090373657400050201b33f63c6611e04f0a1e6faa74b3f986a8ea71b3a0619b25a1a36be52";
  "833152910181d32c24d7c3e832d9c362fdc8f48f909d3f8728bc324e4de44ca1e1899b19060a036d617000050301b33f63c6";
  "611e04f0a1e6faa74b3f986a8ea71b3a0619b25a1a36be528331529101b33f63c6611e04f0a1e6faa74b3f986a8ea71b3a06";
  "19b25a1a36be52833152910181d32c24d7c3e832d9c362fdc8f48f909d3f8728bc324e4de44ca1e1899b190607547953656d";
  "4964040a00097072696d6974697665000501012463dabf7c4af1ea9120efbf80c2c789a15792d4f1fba32c589823b10f6921";
  "fa0107756e69636f64650000000304656e756d00050101972183aad11c4f41d108331912195be40de30c14b35b7e536c0f8b";
  "4b6d64c5510405756e696f6e00050101fd185573d2425ca7fa8369b43b28b6f1b345b8db803634541874d146d13807330505";
  "7475706c6500050101648cd40fb06b86a98f67a1c049cd06a5c5f68a7740f01ef105e47e581287fd4f060673747275637400";
  "05010192d302f93e727bf38683f90c18070997b9d5566dcfbbc427cd70bdddaa46aeda07056172726179000502016b04a314";
  "9ea6950016679fef02b4ab24f5e6b78a64c8d9d0bd65fcd7a3584e8d00000208046c697374000502016b04a3149ea6950016";
  "679fef02b4ab24f5e6b78a64c8d9d0bd65fcd7a3584e8d0181d32c24d7c3e832d9c362fdc8f48f909d3f8728bc324e4de44c";
  "a1e1899b19060903736574000502016b04a3149ea6950016679fef02b4ab24f5e6b78a64c8d9d0bd65fcd7a3584e8d0181d3";
  "2c24d7c3e832d9c362fdc8f48f909d3f8728bc324e4de44ca1e1899b19060a036d6170000503016b04a3149ea6950016679f";
  "ef02b4ab24f5e6b78a64c8d9d0bd65fcd7a3584e8d016b04a3149ea6950016679fef02b4ab24f5e6b78a64c8d9d0bd65fcd7";
  "a3584e8d0181d32c24d7c3e832d9c362fdc8f48f909d3f8728bc324e4de44ca1e1899b1906075479706546716e0602036c69";
  "620187b5efc03762e2d36b260acac87bac47a5bd45c55ef02c3d29c908e2ab1c417a046e616d65015316088414c98274a8be";
  "3ad693514c502edf129238644e9ecac9780f9bb768640854797065496e666f06050564657074680000040274790131fda0f0";
  "d79ba5aa536e473bd63673dde0a40c083a40a6dc8528074b0b61110b0366716e00040200046e6f6e650000000104736f6d65";
  "00050101683ce9575d4cdb8fe160a97b68efb14eb9d68f69753844bfbe2f46e5bb13d3fa046974656d00040200046e6f6e65";
  "0000000104736f6d6500050101522cd69c32c8e2f19d4cab27702f1d60444d4ee5f6c46c7b67ab62ed430e7dfc066e657374";
  "6564000801e2a91ac97fe7766fe8e998d796c0bec2f6ee8fb7d0cf95fbef5a8f6dac20564c0000000000000000ff00000000";
  "00000007547970654c69620604046e616d650187b5efc03762e2d36b260acac87bac47a5bd45c55ef02c3d29c908e2ab1c41";
  "7a0c646570656e64656e63696573000901ece0d932dbaa2f6341137b1beea09e6ebcf891ac47e309b2df8246d4352ac06c00";
  "00000000000000ff000000000000000b65787465726e5479706573000a0187b5efc03762e2d36b260acac87bac47a5bd45c5";
  "5ef02c3d29c908e2ab1c417a000a016b04a3149ea6950016679fef02b4ab24f5e6b78a64c8d9d0bd65fcd7a3584e8d015316";
  "088414c98274a8be3ad693514c502edf129238644e9ecac9780f9bb768640000000000000000ffff00000000000000000000";
  "00000000ff00000000000000057479706573000a015316088414c98274a8be3ad693514c502edf129238644e9ecac9780f9b";
  "b768640170c1381de79f1073347005d929761708f760fc916efa2ab82b72f6cb4809f16e0100000000000000ffff00000000";
  "000009547970654c6962496405010007000040200008547970654e616d650501000502028289eb4d0f0b7054af744b05e8c1";
  "d79d2303a65c63cbcfa56798f9fa563c316ab9837ee740ae9213daeb346492fda55e20b8a283493c14b8b3cc74c79d87f9af";
  "0008028289eb4d0f0b7054af744b05e8c1d79d2303a65c63cbcfa56798f9fa563c316a95c3bdc94d0260f9716a113cf6492d";
  "5d4e23988e33043005ca36da6d6eee67b4000000000000000063000000000000000a5479706553796d626f6c060202696401";
  "6b04a3149ea6950016679fef02b4ab24f5e6b78a64c8d9d0bd65fcd7a3584e8d0366716e00040200046e6f6e650000000104";
  "736f6d6500050101683ce9575d4cdb8fe160a97b68efb14eb9d68f69753844bfbe2f46e5bb13d3fa09547970655379734964";
  "0501000700004020000a5479706553797374656d0501000a016b04a3149ea6950016679fef02b4ab24f5e6b78a64c8d9d0bd";
  "65fcd7a3584e8d0131fda0f0d79ba5aa536e473bd63673dde0a40c083a40a6dc8528074b0b61110b0000000000000000ffff";
  "ff000000000016556e696f6e56617269616e7473496e6c696e655265660501000a000001018b9c9129749f060fe7160c2ba8";
  "9c53a5f7d5ccda7aed5a91f00720dff947d9d60000000000000000ff0000000000000017556e696f6e56617269616e747349";
  "6e6c696e65526566310501000a00000101119afebe44622d007261d8856bf15213bf1d605ace83740aa1dff783beb9218100";
  "00000000000000ff0000000000000017556e696f6e56617269616e7473496e6c696e65526566320501000a0000010174bd70";
  "530314dfc9b7dec04e5f6827505f69df9e67b1221adbbb2fb23b777deb0000000000000000ff0000000000000013556e696f";
  "6e56617269616e74734c69625265660501000a0000010101261e96dcbcd6ba46101ffd196b8332ee190078d54bb7deaf5555";
  "aa4126e2620000000000000000ff0000000000000012556e696f6e56617269616e747353656d49640501000a0000010198ca";
  "13a3756f077bcb07432123a65907020a41b9c73ce48acf57083e4d249ee40000000000000000ff0000000000000016556e6e";
  "616d65644669656c6473496e6c696e655265660501000801b6e4eb3422b78a3c920bba2c17885d146fc780e6e38d104bace1";
  "eddbe10597340100000000000000ff0000000000000017556e6e616d65644669656c6473496e6c696e655265663105010008";
  "015b32554761eef5f6168fbab79bb2f5394d1ae76c84c42d888fb8583e0e0eb9890100000000000000ff0000000000000017";
  "556e6e616d65644669656c6473496e6c696e65526566320501000801b5a1ffa8920bbd9e496b7bc3b7049af6e8142603bfdd";
  "5bfd679bdc6a795deddc0100000000000000ff0000000000000013556e6e616d65644669656c64734c696252656605010008";
  "01b33f63c6611e04f0a1e6faa74b3f986a8ea71b3a0619b25a1a36be52833152910100000000000000ff0000000000000012";
  "556e6e616d65644669656c647353656d496405010008016b04a3149ea6950016679fef02b4ab24f5e6b78a64c8d9d0bd65fc";
  "d7a3584e8d0100000000000000ff000000000000000756617269616e740602046e616d65010986c18b22fa35d16a24f49816";
  "c055f384e1244659e5a5c4d039c5ceae8e108f037461670000011456617269616e74496e666f496e6c696e65526566060204";
  "6e616d65010986c18b22fa35d16a24f49816c055f384e1244659e5a5c4d039c5ceae8e108f02747901b6e4eb3422b78a3c92";
  "0bba2c17885d146fc780e6e38d104bace1eddbe10597341556617269616e74496e666f496e6c696e65526566310602046e61";
  "6d65010986c18b22fa35d16a24f49816c055f384e1244659e5a5c4d039c5ceae8e108f027479015b32554761eef5f6168fba";
  "b79bb2f5394d1ae76c84c42d888fb8583e0e0eb9891556617269616e74496e666f496e6c696e65526566320602046e616d65";
  "010986c18b22fa35d16a24f49816c055f384e1244659e5a5c4d039c5ceae8e108f02747901b5a1ffa8920bbd9e496b7bc3b7";
  "049af6e8142603bfdd5bfd679bdc6a795deddc1156617269616e74496e666f4c69625265660602046e616d65010986c18b22";
  "fa35d16a24f49816c055f384e1244659e5a5c4d039c5ceae8e108f02747901b33f63c6611e04f0a1e6faa74b3f986a8ea71b";
  "3a0619b25a1a36be52833152911056617269616e74496e666f53656d49640602046e616d65010986c18b22fa35d16a24f498";
  "16c055f384e1244659e5a5c4d039c5ceae8e108f027479016b04a3149ea6950016679fef02b4ab24f5e6b78a64c8d9d0bd65";
  "fcd7a3584e8d0b56617269616e744e616d650501000502028289eb4d0f0b7054af744b05e8c1d79d2303a65c63cbcfa56798";
  "f9fa563c316ad13d0cc32a1bad7a9cac7a89f83a28bebb6f4e0951d0dbc80bf4c86487acb2de0008028289eb4d0f0b7054af";
  "744b05e8c1d79d2303a65c63cbcfa56798f9fa563c316a95c3bdc94d0260f9716a113cf6492d5d4e23988e33043005ca36da";
  "6d6eee67b400000000000000006300000000000000"
]%string.
Definition strict_types_bytes : bytes := flat_map hex strict_types_hex.

(** src/stl.rs: LIB_ID_STRICT_TYPES = "stl:6Z6S5ztA-l3_RfoW-uOIW~K0-04t7R_3-KIiByhE-1W4rPFA#henry-heart-survive". *)
Definition strict_types_id : N := 0xe99e92e73b40977f917e85ae3885bf2b4d38b7b47edca222072844d56e2b3c50.

(** The file decodes entirely, the result encodes to the file, and has the published id. *)
Example strict_types_decodes : match deserialize dec_lib strict_types_bytes with
  | Some l => enc_lib l = strict_types_bytes /\ lib_id l = strict_types_id /\ l_name l = "StrictTypes"%string
  | None => False
  end.
Proof. vm_compute. repeat split. Qed.
