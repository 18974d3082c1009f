(** Test of the model: the source text of the shipped libraries (generated by tools/sty.py from stl/*.sty, without
    the comment at the beginning and without mnemonics). *)
From Coq Require Import NArith List Bool String Ascii Strings.Byte.
From Verif Require Import Base Ty Ids LibCodec Ston Sty Compile Artifacts ArtifactsBuild.
Import ListNotations.
Local Open Scope string_scope.
Local Open Scope N_scope.

(** stl/Std@0.1.0.sty. *)
Definition std_text : list string := [
  "@context";
  "typelib Std";
  "";
  "-- no dependencies";
  "";
  "@mnemonic()";
  "data Alpha             : _A#65 | _B | _C | _D";
  "                       | _E | _F | _G | _H";
  "                       | _I | _J | _K | _L";
  "                       | _M | _N | _O | _P";
  "                       | _Q | _R | _S | _T";
  "                       | _U | _V | _W | _X";
  "                       | _Y | _Z | a#97 | b";
  "                       | c | d | e | f";
  "                       | g | h | i | j";
  "                       | k | l | m | n";
  "                       | o | p | q | r";
  "                       | s | t | u | v";
  "                       | w | x | y | z";
  "";
  "";
  "@mnemonic()";
  "data AlphaCaps         : _A#65 | _B | _C | _D";
  "                       | _E | _F | _G | _H";
  "                       | _I | _J | _K | _L";
  "                       | _M | _N | _O | _P";
  "                       | _Q | _R | _S | _T";
  "                       | _U | _V | _W | _X";
  "                       | _Y | _Z";
  "";
  "";
  "@mnemonic()";
  "data AlphaCapsDash     : dash#45 | _A#65 | _B | _C";
  "                       | _D | _E | _F | _G";
  "                       | _H | _I | _J | _K";
  "                       | _L | _M | _N | _O";
  "                       | _P | _Q | _R | _S";
  "                       | _T | _U | _V | _W";
  "                       | _X | _Y | _Z";
  "";
  "";
  "@mnemonic()";
  "data AlphaCapsDot      : dot#46 | _A#65 | _B | _C";
  "                       | _D | _E | _F | _G";
  "                       | _H | _I | _J | _K";
  "                       | _L | _M | _N | _O";
  "                       | _P | _Q | _R | _S";
  "                       | _T | _U | _V | _W";
  "                       | _X | _Y | _Z";
  "";
  "";
  "@mnemonic()";
  "data AlphaCapsLodash   : _A#65 | _B | _C | _D";
  "                       | _E | _F | _G | _H";
  "                       | _I | _J | _K | _L";
  "                       | _M | _N | _O | _P";
  "                       | _Q | _R | _S | _T";
  "                       | _U | _V | _W | _X";
  "                       | _Y | _Z | lodash#95";
  "";
  "";
  "@mnemonic()";
  "data AlphaCapsNum      : zero#48 | one | two | three";
  "                       | four | five | six | seven";
  "                       | eight | nine | _A#65 | _B";
  "                       | _C | _D | _E | _F";
  "                       | _G | _H | _I | _J";
  "                       | _K | _L | _M | _N";
  "                       | _O | _P | _Q | _R";
  "                       | _S | _T | _U | _V";
  "                       | _W | _X | _Y | _Z";
  "";
  "";
  "@mnemonic()";
  "data AlphaDash         : dash#45 | _A#65 | _B | _C";
  "                       | _D | _E | _F | _G";
  "                       | _H | _I | _J | _K";
  "                       | _L | _M | _N | _O";
  "                       | _P | _Q | _R | _S";
  "                       | _T | _U | _V | _W";
  "                       | _X | _Y | _Z | a#97";
  "                       | b | c | d | e";
  "                       | f | g | h | i";
  "                       | j | k | l | m";
  "                       | n | o | p | q";
  "                       | r | s | t | u";
  "                       | v | w | x | y";
  "                       | z";
  "";
  "";
  "@mnemonic()";
  "data AlphaDot          : dot#46 | _A#65 | _B | _C";
  "                       | _D | _E | _F | _G";
  "                       | _H | _I | _J | _K";
  "                       | _L | _M | _N | _O";
  "                       | _P | _Q | _R | _S";
  "                       | _T | _U | _V | _W";
  "                       | _X | _Y | _Z | a#97";
  "                       | b | c | d | e";
  "                       | f | g | h | i";
  "                       | j | k | l | m";
  "                       | n | o | p | q";
  "                       | r | s | t | u";
  "                       | v | w | x | y";
  "                       | z";
  "";
  "";
  "@mnemonic()";
  "data AlphaLodash       : _A#65 | _B | _C | _D";
  "                       | _E | _F | _G | _H";
  "                       | _I | _J | _K | _L";
  "                       | _M | _N | _O | _P";
  "                       | _Q | _R | _S | _T";
  "                       | _U | _V | _W | _X";
  "                       | _Y | _Z | lodash#95 | a#97";
  "                       | b | c | d | e";
  "                       | f | g | h | i";
  "                       | j | k | l | m";
  "                       | n | o | p | q";
  "                       | r | s | t | u";
  "                       | v | w | x | y";
  "                       | z";
  "";
  "";
  "@mnemonic()";
  "data AlphaNum          : zero#48 | one | two | three";
  "                       | four | five | six | seven";
  "                       | eight | nine | _A#65 | _B";
  "                       | _C | _D | _E | _F";
  "                       | _G | _H | _I | _J";
  "                       | _K | _L | _M | _N";
  "                       | _O | _P | _Q | _R";
  "                       | _S | _T | _U | _V";
  "                       | _W | _X | _Y | _Z";
  "                       | a#97 | b | c | d";
  "                       | e | f | g | h";
  "                       | i | j | k | l";
  "                       | m | n | o | p";
  "                       | q | r | s | t";
  "                       | u | v | w | x";
  "                       | y | z";
  "";
  "";
  "@mnemonic()";
  "data AlphaNumDash      : dash#45 | zero#48 | one | two";
  "                       | three | four | five | six";
  "                       | seven | eight | nine | _A#65";
  "                       | _B | _C | _D | _E";
  "                       | _F | _G | _H | _I";
  "                       | _J | _K | _L | _M";
  "                       | _N | _O | _P | _Q";
  "                       | _R | _S | _T | _U";
  "                       | _V | _W | _X | _Y";
  "                       | _Z | a#97 | b | c";
  "                       | d | e | f | g";
  "                       | h | i | j | k";
  "                       | l | m | n | o";
  "                       | p | q | r | s";
  "                       | t | u | v | w";
  "                       | x | y | z";
  "";
  "";
  "@mnemonic()";
  "data AlphaNumDot       : dot#46 | zero#48 | one | two";
  "                       | three | four | five | six";
  "                       | seven | eight | nine | _A#65";
  "                       | _B | _C | _D | _E";
  "                       | _F | _G | _H | _I";
  "                       | _J | _K | _L | _M";
  "                       | _N | _O | _P | _Q";
  "                       | _R | _S | _T | _U";
  "                       | _V | _W | _X | _Y";
  "                       | _Z | a#97 | b | c";
  "                       | d | e | f | g";
  "                       | h | i | j | k";
  "                       | l | m | n | o";
  "                       | p | q | r | s";
  "                       | t | u | v | w";
  "                       | x | y | z";
  "";
  "";
  "@mnemonic()";
  "data AlphaNumLodash    : zero#48 | one | two | three";
  "                       | four | five | six | seven";
  "                       | eight | nine | _A#65 | _B";
  "                       | _C | _D | _E | _F";
  "                       | _G | _H | _I | _J";
  "                       | _K | _L | _M | _N";
  "                       | _O | _P | _Q | _R";
  "                       | _S | _T | _U | _V";
  "                       | _W | _X | _Y | _Z";
  "                       | lodash#95 | a#97 | b | c";
  "                       | d | e | f | g";
  "                       | h | i | j | k";
  "                       | l | m | n | o";
  "                       | p | q | r | s";
  "                       | t | u | v | w";
  "                       | x | y | z";
  "";
  "";
  "@mnemonic()";
  "data AlphaSmall        : a#97 | b | c | d";
  "                       | e | f | g | h";
  "                       | i | j | k | l";
  "                       | m | n | o | p";
  "                       | q | r | s | t";
  "                       | u | v | w | x";
  "                       | y | z";
  "";
  "";
  "@mnemonic()";
  "data AlphaSmallDash    : dash#45 | a#97 | b | c";
  "                       | d | e | f | g";
  "                       | h | i | j | k";
  "                       | l | m | n | o";
  "                       | p | q | r | s";
  "                       | t | u | v | w";
  "                       | x | y | z";
  "";
  "";
  "@mnemonic()";
  "data AlphaSmallDot     : dot#46 | a#97 | b | c";
  "                       | d | e | f | g";
  "                       | h | i | j | k";
  "                       | l | m | n | o";
  "                       | p | q | r | s";
  "                       | t | u | v | w";
  "                       | x | y | z";
  "";
  "";
  "@mnemonic()";
  "data AlphaSmallLodash  : lodash#95 | a#97 | b | c";
  "                       | d | e | f | g";
  "                       | h | i | j | k";
  "                       | l | m | n | o";
  "                       | p | q | r | s";
  "                       | t | u | v | w";
  "                       | x | y | z";
  "";
  "";
  "@mnemonic()";
  "data Ascii             : nul | soh | stx | etx";
  "                       | eot | enq | ack | bel";
  "                       | bs | ht | lf | vt";
  "                       | ff | cr | so | si";
  "                       | dle | dc1 | dc2 | dc3";
  "                       | dc4 | nack | syn | etb";
  "                       | can | em | sub | esc";
  "                       | fs | gs | rs | us";
  "                       | space | excl | quotes | hash";
  "                       | dollar | percent | ampersand | apostrophe";
  "                       | bracketL | bracketR | asterisk | plus";
  "                       | comma | minus | dot | slash";
  "                       | zero | one | two | three";
  "                       | four | five | six | seven";
  "                       | eight | nine | colon | semiColon";
  "                       | less | equal | greater | question";
  "                       | at | _A | _B | _C";
  "                       | _D | _E | _F | _G";
  "                       | _H | _I | _J | _K";
  "                       | _L | _M | _N | _O";
  "                       | _P | _Q | _R | _S";
  "                       | _T | _U | _V | _W";
  "                       | _X | _Y | _Z | sqBracketL";
  "                       | backSlash | sqBracketR | caret | lodash";
  "                       | backtick | a | b | c";
  "                       | d | e | f | g";
  "                       | h | i | j | k";
  "                       | l | m | n | o";
  "                       | p | q | r | s";
  "                       | t | u | v | w";
  "                       | x | y | z | cBracketL";
  "                       | pipe | cBracketR | tilde | del";
  "";
  "";
  "@mnemonic()";
  "data AsciiPrintable    : space#32 | excl | quotes | hash";
  "                       | dollar | percent | ampersand | apostrophe";
  "                       | bracketL | bracketR | asterisk | plus";
  "                       | comma | minus | dot | slash";
  "                       | zero | one | two | three";
  "                       | four | five | six | seven";
  "                       | eight | nine | colon | semiColon";
  "                       | less | equal | greater | question";
  "                       | at | _A | _B | _C";
  "                       | _D | _E | _F | _G";
  "                       | _H | _I | _J | _K";
  "                       | _L | _M | _N | _O";
  "                       | _P | _Q | _R | _S";
  "                       | _T | _U | _V | _W";
  "                       | _X | _Y | _Z | sqBracketL";
  "                       | backSlash | sqBracketR | caret | lodash";
  "                       | backtick | a | b | c";
  "                       | d | e | f | g";
  "                       | h | i | j | k";
  "                       | l | m | n | o";
  "                       | p | q | r | s";
  "                       | t | u | v | w";
  "                       | x | y | z | cBracketL";
  "                       | pipe | cBracketR | tilde";
  "";
  "";
  "@mnemonic()";
  "data Bool              : false | true";
  "";
  "";
  "@mnemonic()";
  "data Dec               : zero#48 | one | two | three";
  "                       | four | five | six | seven";
  "                       | eight | nine";
  "";
  "";
  "@mnemonic()";
  "data DecDot            : dot#46 | zero#48 | one | two";
  "                       | three | four | five | six";
  "                       | seven | eight | nine";
  "";
  "";
  "@mnemonic()";
  "data HexDecCaps        : zero#48 | one | two | three";
  "                       | four | five | six | seven";
  "                       | eight | nine | ten#65 | eleven";
  "                       | twelve | thirteen | fourteen | fifteen";
  "";
  "";
  "@mnemonic()";
  "data HexDecSmall       : zero#48 | one | two | three";
  "                       | four | five | six | seven";
  "                       | eight | nine | ten#97 | eleven";
  "                       | twelve | thirteen | fourteen | fifteen";
  "";
  "";
  "@mnemonic()";
  "data U1                : _0 | _1";
  "";
  "";
  "@mnemonic()";
  "data U2                : _0 | _1 | _2 | _3";
  "";
  "";
  "@mnemonic()";
  "data U3                : _0 | _1 | _2 | _3";
  "                       | _4 | _5 | _6 | _7";
  "";
  "";
  "@mnemonic()";
  "data U4                : _0 | _1 | _2 | _3";
  "                       | _4 | _5 | _6 | _7";
  "                       | _8 | _9 | _10 | _11";
  "                       | _12 | _13 | _14 | _15";
  "";
  "";
  "@mnemonic()";
  "data U5                : _0 | _1 | _2 | _3";
  "                       | _4 | _5 | _6 | _7";
  "                       | _8 | _9 | _10 | _11";
  "                       | _12 | _13 | _14 | _15";
  "                       | _16 | _17 | _18 | _19";
  "                       | _20 | _21 | _22 | _23";
  "                       | _24 | _25 | _26 | _27";
  "                       | _28 | _29 | _30 | _31";
  "";
  "";
  "@mnemonic()";
  "data U6                : _0 | _1 | _2 | _3";
  "                       | _4 | _5 | _6 | _7";
  "                       | _8 | _9 | _10 | _11";
  "                       | _12 | _13 | _14 | _15";
  "                       | _16 | _17 | _18 | _19";
  "                       | _20 | _21 | _22 | _23";
  "                       | _24 | _25 | _26 | _27";
  "                       | _28 | _29 | _30 | _31";
  "                       | _32 | _33 | _34 | _35";
  "                       | _36 | _37 | _38 | _39";
  "                       | _40 | _41 | _42 | _43";
  "                       | _44 | _45 | _46 | _47";
  "                       | _48 | _49 | _50 | _51";
  "                       | _52 | _53 | _54 | _55";
  "                       | _56 | _57 | _58 | _59";
  "                       | _60 | _61 | _62 | _63";
  "";
  "";
  "@mnemonic()";
  "data U7                : _0 | _1 | _2 | _3";
  "                       | _4 | _5 | _6 | _7";
  "                       | _8 | _9 | _10 | _11";
  "                       | _12 | _13 | _14 | _15";
  "                       | _16 | _17 | _18 | _19";
  "                       | _20 | _21 | _22 | _23";
  "                       | _24 | _25 | _26 | _27";
  "                       | _28 | _29 | _30 | _31";
  "                       | _32 | _33 | _34 | _35";
  "                       | _36 | _37 | _38 | _39";
  "                       | _40 | _41 | _42 | _43";
  "                       | _44 | _45 | _46 | _47";
  "                       | _48 | _49 | _50 | _51";
  "                       | _52 | _53 | _54 | _55";
  "                       | _56 | _57 | _58 | _59";
  "                       | _60 | _61 | _62 | _63";
  "                       | _64 | _65 | _66 | _67";
  "                       | _68 | _69 | _70 | _71";
  "                       | _72 | _73 | _74 | _75";
  "                       | _76 | _77 | _78 | _79";
  "                       | _80 | _81 | _82 | _83";
  "                       | _84 | _85 | _86 | _87";
  "                       | _88 | _89 | _90 | _91";
  "                       | _92 | _93 | _94 | _95";
  "                       | _96 | _97 | _98 | _99";
  "                       | _100 | _101 | _102 | _103";
  "                       | _104 | _105 | _106 | _107";
  "                       | _108 | _109 | _110 | _111";
  "                       | _112 | _113 | _114 | _115";
  "                       | _116 | _117 | _118 | _119";
  "                       | _120 | _121 | _122 | _123";
  "                       | _124 | _125 | _126 | _127";
  "";
  "";
  ""
].

(** stl/StrictTypes@0.1.0.sty. *)
Definition strict_types_text : list string := [
  "@context";
  "typelib StrictTypes";
  "";
  "import Std#";
  "  use AlphaLodash#";
  "  use AlphaNumLodash#";
  "  use AlphaCapsLodash#";
  "  use AlphaSmallLodash#";
  "";
  "";
  "@mnemonic()";
  "data Dependency        : id TypeLibId, name LibName";
  "";
  "@mnemonic()";
  "data EnumVariants      : {Variant ^ 1..0xff}";
  "";
  "@mnemonic()";
  "data ExternRef         : libId TypeLibId, semId SemId";
  "";
  "@mnemonic()";
  "data FieldInlineRef    : name FieldName, ty InlineRef";
  "";
  "@mnemonic()";
  "data FieldInlineRef1   : name FieldName, ty InlineRef1";
  "";
  "@mnemonic()";
  "data FieldInlineRef2   : name FieldName, ty InlineRef2";
  "";
  "@mnemonic()";
  "data FieldLibRef       : name FieldName, ty LibRef";
  "";
  "@mnemonic()";
  "data FieldName         : Std.AlphaSmallLodash, [Std.AlphaNumLodash ^ ..0x63]";
  "";
  "@mnemonic()";
  "data FieldSemId        : name FieldName, ty SemId";
  "";
  "@mnemonic()";
  "data Ident             : Std.AlphaLodash, [Std.AlphaNumLodash ^ ..0x63]";
  "";
  "@mnemonic()";
  "data InlineRef         : inline TyInlineRef1";
  "                       | named SemId";
  "                       | extern ExternRef";
  "";
  "@mnemonic()";
  "data InlineRef1        : inline TyInlineRef2";
  "                       | named SemId";
  "                       | extern ExternRef";
  "";
  "@mnemonic()";
  "data InlineRef2        : named SemId";
  "                       | extern ExternRef";
  "";
  "@mnemonic()";
  "data ItemCase          : unnamedField U8";
  "                       | namedField (U8, FieldName)";
  "                       | unionVariant (U8, VariantName)";
  "                       | arrayItem#16 ()";
  "                       | listItem ()";
  "                       | setItem ()";
  "                       | mapKey ()";
  "                       | mapValue ()";
  "";
  "@mnemonic()";
  "data LibName           : Std.AlphaCapsLodash, [Std.AlphaNumLodash ^ ..0x63]";
  "";
  "@mnemonic()";
  "data LibRef            : inline TyInlineRef";
  "                       | named SemId";
  "                       | extern ExternRef";
  "";
  "@mnemonic()";
  "data MemoryLayout      : items [TypeInfo ^ ..0xffffffff]";
  "";
  "@mnemonic()";
  "data NamedFieldsInlineRef : [FieldInlineRef ^ 1..0xff]";
  "";
  "@mnemonic()";
  "data NamedFieldsInlineRef1 : [FieldInlineRef1 ^ 1..0xff]";
  "";
  "@mnemonic()";
  "data NamedFieldsInlineRef2 : [FieldInlineRef2 ^ 1..0xff]";
  "";
  "@mnemonic()";
  "data NamedFieldsLibRef : [FieldLibRef ^ 1..0xff]";
  "";
  "@mnemonic()";
  "data NamedFieldsSemId  : [FieldSemId ^ 1..0xff]";
  "";
  "@mnemonic()";
  "data NestedCase        : newType TypeFqn?";
  "                       | option ()";
  "                       | byteStr#16 ()";
  "                       | asciiStr TypeFqn?";
  "                       | uniStr ()";
  "                       | rStr (TypeFqn?, TypeFqn?, Sizing)";
  "";
  "@mnemonic()";
  "data Primitive         : U8";
  "";
  "@mnemonic()";
  "data SemId             : [Byte ^ 32]";
  "";
  "@mnemonic()";
  "data Sizing            : min U64, max U64";
  "";
  "@mnemonic()";
  "data SymbolRef         : libName LibName";
  "                       , tyName TypeName";
  "                       , libId TypeLibId";
  "                       , semId SemId";
  "";
  "@mnemonic()";
  "data SymbolicSys       : symbols Symbols, types TypeSystem";
  "";
  "@mnemonic()";
  "data Symbols           : libs {Dependency}, symbols {TypeSymbol ^ ..0xffffff}";
  "";
  "@mnemonic()";
  "data TyInlineRef       : primitive Primitive";
  "                       | unicode ()";
  "                       | enum#3 EnumVariants";
  "                       | union UnionVariantsInlineRef";
  "                       | tuple UnnamedFieldsInlineRef";
  "                       | struct NamedFieldsInlineRef";
  "                       | array (InlineRef, U16)";
  "                       | list (InlineRef, Sizing)";
  "                       | set (InlineRef, Sizing)";
  "                       | map (InlineRef, InlineRef, Sizing)";
  "";
  "@mnemonic()";
  "data TyInlineRef1      : primitive Primitive";
  "                       | unicode ()";
  "                       | enum#3 EnumVariants";
  "                       | union UnionVariantsInlineRef1";
  "                       | tuple UnnamedFieldsInlineRef1";
  "                       | struct NamedFieldsInlineRef1";
  "                       | array (InlineRef1, U16)";
  "                       | list (InlineRef1, Sizing)";
  "                       | set (InlineRef1, Sizing)";
  "                       | map (InlineRef1, InlineRef1, Sizing)";
  "";
  "@mnemonic()";
  "data TyInlineRef2      : primitive Primitive";
  "                       | unicode ()";
  "                       | enum#3 EnumVariants";
  "                       | union UnionVariantsInlineRef2";
  "                       | tuple UnnamedFieldsInlineRef2";
  "                       | struct NamedFieldsInlineRef2";
  "                       | array (InlineRef2, U16)";
  "                       | list (InlineRef2, Sizing)";
  "                       | set (InlineRef2, Sizing)";
  "                       | map (InlineRef2, InlineRef2, Sizing)";
  "";
  "@mnemonic()";
  "data TyLibRef          : primitive Primitive";
  "                       | unicode ()";
  "                       | enum#3 EnumVariants";
  "                       | union UnionVariantsLibRef";
  "                       | tuple UnnamedFieldsLibRef";
  "                       | struct NamedFieldsLibRef";
  "                       | array (LibRef, U16)";
  "                       | list (LibRef, Sizing)";
  "                       | set (LibRef, Sizing)";
  "                       | map (LibRef, LibRef, Sizing)";
  "";
  "@mnemonic()";
  "data TySemId           : primitive Primitive";
  "                       | unicode ()";
  "                       | enum#3 EnumVariants";
  "                       | union UnionVariantsSemId";
  "                       | tuple UnnamedFieldsSemId";
  "                       | struct NamedFieldsSemId";
  "                       | array (SemId, U16)";
  "                       | list (SemId, Sizing)";
  "                       | set (SemId, Sizing)";
  "                       | map (SemId, SemId, Sizing)";
  "";
  "@mnemonic()";
  "data TypeFqn           : lib LibName, name TypeName";
  "";
  "@mnemonic()";
  "data TypeInfo          : depth U32";
  "                       , ty TySemId";
  "                       , fqn TypeFqn?";
  "                       , item ItemCase?";
  "                       , nested [NestedCase ^ ..0xff]";
  "";
  "@mnemonic()";
  "data TypeLib           : name LibName";
  "                       , dependencies {Dependency ^ ..0xff}";
  "                       , externTypes {LibName -> ^ ..0xff {SemId -> TypeName}}";
  "                       , types {TypeName -> ^ 1.. TyLibRef}";
  "";
  "@mnemonic()";
  "data TypeLibId         : [Byte ^ 32]";
  "";
  "@mnemonic()";
  "data TypeName          : Std.AlphaCapsLodash, [Std.AlphaNumLodash ^ ..0x63]";
  "";
  "@mnemonic()";
  "data TypeSymbol        : id SemId, fqn TypeFqn?";
  "";
  "@mnemonic()";
  "data TypeSysId         : [Byte ^ 32]";
  "";
  "@mnemonic()";
  "data TypeSystem        : {SemId -> ^ ..0xffffff TySemId}";
  "";
  "@mnemonic()";
  "data UnionVariantsInlineRef : {U8 -> ^ ..0xff VariantInfoInlineRef}";
  "";
  "@mnemonic()";
  "data UnionVariantsInlineRef1 : {U8 -> ^ ..0xff VariantInfoInlineRef1}";
  "";
  "@mnemonic()";
  "data UnionVariantsInlineRef2 : {U8 -> ^ ..0xff VariantInfoInlineRef2}";
  "";
  "@mnemonic()";
  "data UnionVariantsLibRef : {U8 -> ^ ..0xff VariantInfoLibRef}";
  "";
  "@mnemonic()";
  "data UnionVariantsSemId : {U8 -> ^ ..0xff VariantInfoSemId}";
  "";
  "@mnemonic()";
  "data UnnamedFieldsInlineRef : [InlineRef ^ 1..0xff]";
  "";
  "@mnemonic()";
  "data UnnamedFieldsInlineRef1 : [InlineRef1 ^ 1..0xff]";
  "";
  "@mnemonic()";
  "data UnnamedFieldsInlineRef2 : [InlineRef2 ^ 1..0xff]";
  "";
  "@mnemonic()";
  "data UnnamedFieldsLibRef : [LibRef ^ 1..0xff]";
  "";
  "@mnemonic()";
  "data UnnamedFieldsSemId : [SemId ^ 1..0xff]";
  "";
  "@mnemonic()";
  "data Variant           : name VariantName, tag U8";
  "";
  "@mnemonic()";
  "data VariantInfoInlineRef : name VariantName, ty InlineRef";
  "";
  "@mnemonic()";
  "data VariantInfoInlineRef1 : name VariantName, ty InlineRef1";
  "";
  "@mnemonic()";
  "data VariantInfoInlineRef2 : name VariantName, ty InlineRef2";
  "";
  "@mnemonic()";
  "data VariantInfoLibRef : name VariantName, ty LibRef";
  "";
  "@mnemonic()";
  "data VariantInfoSemId  : name VariantName, ty SemId";
  "";
  "@mnemonic()";
  "data VariantName       : Std.AlphaSmallLodash, [Std.AlphaNumLodash ^ ..0x63]";
  "";
  ""
].

(** The text of the symbolic form of the libraries, with mnemonics left out, is the text of the files. *)
Goal
  match shipped with
  | [a; b] =>
      match to_symbolic a, to_symbolic b with
      | Ok s, Ok s' =>
          let text := fun s => (sty_lib prim_sty sizing_sty (fun _ => []) s ++ [x0a])%list in
          text s = flat_map (fun l => sbytes l ++ [x0a])%list std_text
          /\ text s' = flat_map (fun l => sbytes l ++ [x0a])%list strict_types_text
      | _, _ => False
      end
  | _ => False
  end.
Proof. vm_compute. split; reflexivity. Abort.
