(** The project's own test data, transcribed by tools/tests_to_coq.py. *)
From Verif Require Import Syntax Value SpecGrammar.
Local Open Scope Z_scope.
Local Open Scope string_scope.
Local Open Scope list_scope.

(** testdata/t1: a path, and the text of its program or ! and an error *)
Definition t1 : list (bytes * bytes) := [
  ((b_of "$"), (b_of ""));
  ((b_of "$(key,more)"), (b_of "!unexpected token ("));
  ((b_of "$."), (b_of "!unexpected end of expression at offset 1"));
  ((b_of "$.$"), (b_of "!unexpected $ at offset 2"));
  ((b_of "$.'key'"), (b_of "!unexpected string literal at offset 6"));
  ((b_of "$.'some.key'"), (b_of "!unexpected string literal at offset 11"));
  ((b_of "$.*"), (b_of "Wild"));
  ((b_of "$.*.*"), (b_of "Wild Wild"));
  ((b_of "$.*.bar.*"), (b_of "bar Wild ID[0] Member.1 Wild"));
  ((b_of "$.*['c','d']"), (b_of """c"" ""d"" Wild String[0] String[1] Union.2"));
  ((b_of "$.*[1]"), (b_of "Wild Int(1) Select.1"));
  ((b_of "$.-1"), (b_of "Int(-1) Member.1"));
  ((b_of "$.."), (b_of "!unexpected end of expression at offset 2"));
  ((b_of "$..'key'"), (b_of "!unexpected string literal at offset 7"));
  ((b_of "$..*"), (b_of "Nest.3 NestWild Rep.1"));
  ((b_of "$..*[?(@.id>2)]"), (b_of "id Nest.3 NestWild Rep.1 For.11 Current ID[0] Dot.2 Int(2) GT.2 Filter.1 Rep.4"));
  ((b_of "$..[*]"), (b_of "Nest.3 NestWild Rep.1"));
  ((b_of "$..[0]"), (b_of "Nest.4 Int(0) NestSelect.1 Rep.1"));
  ((b_of "$..[1].key"), (b_of "key Nest.4 Int(1) NestSelect.1 Rep.1 ID[0] Member.1"));
  ((b_of "$..[?(@.id)]"), (b_of "id Nest.6 Current ID[0] Dot.2 NestFilter.1 Rep.1"));
  ((b_of "$..[?(@.id==2)]"), (b_of "id Nest.8 Current ID[0] Dot.2 Int(2) EQ.2 NestFilter.1 Rep.1"));
  ((b_of "$..""key"""), (b_of "!unexpected string literal at offset 7"));
  ((b_of "$..key"), (b_of "key Nest.4 ID[0] NestMember.1 Rep.1"));
  ((b_of "$.2"), (b_of "Int(2) Member.1"));
  ((b_of "$.['key']"), (b_of "!unexpected [ at offset 2"));
  ((b_of "$.[""key""]"), (b_of "!unexpected [ at offset 2"));
  ((b_of "$.[key]"), (b_of "!unexpected [ at offset 2"));
  ((b_of "$.""key"""), (b_of "!unexpected string literal at offset 6"));
  ((b_of "$.id"), (b_of "id ID[0] Member.1"));
  ((b_of "$.in"), (b_of "in ID[0] Member.1"));
  ((b_of "$.items[?(@.key==$.value)]"), (b_of "items key value ID[0] Member.1 For.12 Current ID[1] Dot.2 Root ID[2] Dot.2 EQ.2 Filter.1 Rep.3"));
  ((b_of "$.key"), (b_of "key ID[0] Member.1"));
  ((b_of "$.key-dash"), (b_of "key-dash ID[0] Member.1"));
  ((b_of "$.key.."), (b_of "!unexpected end of expression at offset 6"));
  ((b_of "$.length"), (b_of "length ID[0] Member.1"));
  ((b_of "$.missing"), (b_of "missing ID[0] Member.1"));
  ((b_of "$.null"), (b_of "null ID[0] Member.1"));
  ((b_of "$.store..price"), (b_of "store price ID[0] Member.1 Nest.6 ID[1] NestMember.1 Rep.3"));
  ((b_of "$.true"), (b_of "true ID[0] Member.1"));
  ([36; 46; 229; 177; 172; 230; 128; 167], [229; 177; 172; 230; 128; 167; 32; 73; 68; 91; 48; 93; 32; 77; 101; 109; 98; 101; 114; 46; 49]);
  ((b_of "$[ 0 , 1 ]"), (b_of "Int(0) Int(1) Union.2"));
  ((b_of "$['$']"), (b_of """$"" String[0] Select.1"));
  ((b_of "$['']"), (b_of """"" String[0] Select.1"));
  ((b_of "$['*']"), (b_of """*"" String[0] Select.1"));
  ((b_of "$[',']"), (b_of ""","" String[0] Select.1"));
  ((b_of "$['.']"), (b_of """."" String[0] Select.1"));
  ((b_of "$['.*']"), (b_of """.*"" String[0] Select.1"));
  ((b_of "$['0']"), (b_of """0"" String[0] Select.1"));
  ((b_of "$[':']"), (b_of """:"" String[0] Select.1"));
  ((b_of "$[':@.""$,*\'\\']"), (b_of """:@.\""$,*'\\"" String[0] Select.1"));
  ((b_of "$['@']"), (b_of """@"" String[0] Select.1"));
  ((b_of "$['""']"), (b_of """\"""" String[0] Select.1"));
  ((b_of "$['\'']"), (b_of """'"" String[0] Select.1"));
  ((b_of "$['\\']"), (b_of """\\"" String[0] Select.1"));
  ((b_of "$[']']"), (b_of """]"" String[0] Select.1"));
  ((b_of "$['key','another']"), (b_of """key"" ""another"" String[0] String[1] Union.2"));
  ((b_of "$['key']"), (b_of """key"" String[0] Select.1"));
  ((b_of "$['missing','key']"), (b_of """missing"" ""key"" String[0] String[1] Union.2"));
  ((b_of "$['missing']"), (b_of """missing"" String[0] Select.1"));
  ((b_of "$['ni.*']"), (b_of """ni.*"" String[0] Select.1"));
  ((b_of "$['one','three'].key"), (b_of """one"" ""three"" key String[0] String[1] Union.2 ID[2] Member.1"));
  ((b_of "$['single'quote']"), (b_of "!expected ""]"" at offset 14, got identifier"));
  ((b_of "$['two'.'some']"), (b_of "!expected ""]"" at offset 7, got ."));
  ((b_of "$['two.some']"), (b_of """two.some"" String[0] Select.1"));
  ([36; 91; 39; 195; 188; 39; 93], [34; 195; 188; 34; 32; 83; 116; 114; 105; 110; 103; 91; 48; 93; 32; 83; 101; 108; 101; 99; 116; 46; 49]);
  ((b_of "$[(@.length-1)]"), (b_of "length Current ID[0] Dot.2 Int(1) Sub.2 Select.1"));
  ((b_of "$[*,1]"), (b_of "!* cannot be in a union element list"));
  ((b_of "$[*]"), (b_of "Wild"));
  ((b_of "$[*].a"), (b_of "a Wild ID[0] Member.1"));
  ((b_of "$[*].bar[*]"), (b_of "bar Wild ID[0] Member.1 Wild"));
  ((b_of "$[-113667776004:2]"), (b_of "[-113667776004:2] Bounds[0] Select.1"));
  ((b_of "$[-1:]"), (b_of "[-1:] Bounds[0] Select.1"));
  ((b_of "$[-1]"), (b_of "Int(-1) Select.1"));
  ((b_of "$[-2:]"), (b_of "[-2:] Bounds[0] Select.1"));
  ((b_of "$[-2]"), (b_of "Int(-2) Select.1"));
  ((b_of "$[-4:-3]"), (b_of "[-4:-3] Bounds[0] Select.1"));
  ((b_of "$[-4:-4]"), (b_of "[-4:-4] Bounds[0] Select.1"));
  ((b_of "$[-4:-5]"), (b_of "[-4:-5] Bounds[0] Select.1"));
  ((b_of "$[-4:1]"), (b_of "[-4:1] Bounds[0] Select.1"));
  ((b_of "$[-4:2]"), (b_of "[-4:2] Bounds[0] Select.1"));
  ((b_of "$[-4:3]"), (b_of "[-4:3] Bounds[0] Select.1"));
  ((b_of "$[-4:]"), (b_of "[-4:] Bounds[0] Select.1"));
  ((b_of "$[0,1]"), (b_of "Int(0) Int(1) Union.2"));
  ((b_of "$[0,2].key"), (b_of "key Int(0) Int(2) Union.2 ID[0] Member.1"));
  ((b_of "$[010:024:010]"), (b_of "[10:24:10] Bounds[0] Select.1"));
  ((b_of "$[0:0]"), (b_of "[0:0] Bounds[0] Select.1"));
  ((b_of "$[0:1]"), (b_of "[0:1] Bounds[0] Select.1"));
  ((b_of "$[0:2][*]"), (b_of "[0:2] Bounds[0] Select.1 Wild"));
  ((b_of "$[0:3:-2]"), (b_of "[0:3:-2] Bounds[0] Select.1"));
  ((b_of "$[0:3:0]"), (b_of "[0:3:0] Bounds[0] Select.1"));
  ((b_of "$[0:3:1]"), (b_of "[0:3:1] Bounds[0] Select.1"));
  ((b_of "$[0:3:2]"), (b_of "[0:3:2] Bounds[0] Select.1"));
  ((b_of "$[0:4:2]"), (b_of "[0:4:2] Bounds[0] Select.1"));
  ((b_of "$[0:5]"), (b_of "[0:5] Bounds[0] Select.1"));
  ((b_of "$[0]"), (b_of "Int(0) Select.1"));
  ((b_of "$[0]['c','d']"), (b_of """c"" ""d"" Int(0) Select.1 String[0] String[1] Union.2"));
  ((b_of "$[113667776004:2:-1]"), (b_of "[113667776004:2:-1] Bounds[0] Select.1"));
  ((b_of "$[1:10]"), (b_of "[1:10] Bounds[0] Select.1"));
  ((b_of "$[1:3,4]"), (b_of "[1:3] Bounds[0] Int(4) Union.2"));
  ((b_of "$[1:3:]"), (b_of "[1:3] Bounds[0] Select.1"));
  ((b_of "$[1:3]"), (b_of "[1:3] Bounds[0] Select.1"));
  ((b_of "$[1:]"), (b_of "[1:] Bounds[0] Select.1"));
  ((b_of "$[1]"), (b_of "Int(1) Select.1"));
  ((b_of "$[2:-113667776004:-1]"), (b_of "[2:-113667776004:-1] Bounds[0] Select.1"));
  ((b_of "$[2:113667776004]"), (b_of "[2:113667776004] Bounds[0] Select.1"));
  ((b_of "$[2:1]"), (b_of "[2:1] Bounds[0] Select.1"));
  ((b_of "$[2]"), (b_of "Int(2) Select.1"));
  ((b_of "$[3:-2]"), (b_of "[3:-2] Bounds[0] Select.1"));
  ((b_of "$[3:-3]"), (b_of "[3:-3] Bounds[0] Select.1"));
  ((b_of "$[3:-4]"), (b_of "[3:-4] Bounds[0] Select.1"));
  ((b_of "$[3:0:-2]"), (b_of "[3:0:-2] Bounds[0] Select.1"));
  ((b_of "$[3::-1]"), (b_of "[3::-1] Bounds[0] Select.1"));
  ((b_of "$[4,1]"), (b_of "Int(4) Int(1) Union.2"));
  ((b_of "$[7:10]"), (b_of "[7:10] Bounds[0] Select.1"));
  ((b_of "$[7:3:-1]"), (b_of "[7:3:-1] Bounds[0] Select.1"));
  ((b_of "$[:2:-1]"), (b_of "[:2:-1] Bounds[0] Select.1"));
  ((b_of "$[:2]"), (b_of "[:2] Bounds[0] Select.1"));
  ((b_of "$[::-2]"), (b_of "[::-2] Bounds[0] Select.1"));
  ((b_of "$[::2]"), (b_of "[::2] Bounds[0] Select.1"));
  ((b_of "$[::]"), (b_of "[:] Bounds[0] Select.1"));
  ((b_of "$[:]"), (b_of "[:] Bounds[0] Select.1"));
  ((b_of "$[:]['c','d']"), (b_of "[:] ""c"" ""d"" Bounds[0] Select.1 String[1] String[2] Union.2"));
  ((b_of "$[?(!(@.key<42))]"), (b_of "key For.9 Current ID[0] Dot.2 Int(42) LT.2 Not.1 Filter.1 Rep.1"));
  ((b_of "$[?(!(@.key==42))]"), (b_of "key For.9 Current ID[0] Dot.2 Int(42) EQ.2 Not.1 Filter.1 Rep.1"));
  ((b_of "$[?(!@.key)]"), (b_of "key For.7 Current ID[0] Dot.2 Not.1 Filter.1 Rep.1"));
  ((b_of "$[?()]"), (b_of "!unexpected token ) in expression term"));
  ((b_of "$[?(1==1)]"), (b_of "For.6 Int(1) Int(1) EQ.2 Filter.1 Rep.1"));
  ((b_of "$[?(2 in @.d)]"), (b_of "d For.8 Int(2) Current ID[0] Dot.2 In.2 Filter.1 Rep.1"));
  ((b_of "$[?(@)]"), (b_of "For.4 Current Filter.1 Rep.1"));
  ((b_of "$[?(@.*==2)]"), (b_of "!expected identifier in '.' selection"));
  ((b_of "$[?(@.*==[1,2])]"), (b_of "!expected identifier in '.' selection"));
  ((b_of "$[?(@.a && (@.b || @.c))]"), (b_of "a b c For.14 Current ID[0] Dot.2 Current ID[1] Dot.2 Current ID[2] Dot.2 Or.2 And.2 Filter.1 Rep.1"));
  ((b_of "$[?(@.a && @.b || @.c)]"), (b_of "a b c For.14 Current ID[0] Dot.2 Current ID[1] Dot.2 And.2 Current ID[2] Dot.2 Or.2 Filter.1 Rep.1"));
  ((b_of "$[?(@.a[?(@.price>10)])]"), (b_of "!unexpected character '?' at offset 8"));
  ((b_of "$[?(@.address.city=='Berlin')]"), (b_of "address city ""Berlin"" For.10 Current ID[0] Dot.2 ID[1] Dot.2 String[2] EQ.2 Filter.1 Rep.1"));
  ((b_of "$[?(@.d in [2, 3])]"), (b_of "d For.10 Current ID[0] Dot.2 Int(2) Int(3) Array.2 In.2 Filter.1 Rep.1"));
  ((b_of "$[?(@.d==['v1','v2'])]"), (b_of "d ""v1"" ""v2"" For.10 Current ID[0] Dot.2 String[1] String[2] Array.2 EQ.2 Filter.1 Rep.1"));
  ((b_of "$[?(@.d==[""v1"",""v2""])]"), (b_of "d ""v1"" ""v2"" For.10 Current ID[0] Dot.2 String[1] String[2] Array.2 EQ.2 Filter.1 Rep.1"));
  ((b_of "$[?(@.d=={""k"":""v""})]"), (b_of "!unexpected character '{' at offset 9"));
  ((b_of "$[?(@.id==2)]"), (b_of "id For.8 Current ID[0] Dot.2 Int(2) EQ.2 Filter.1 Rep.1"));
  ((b_of "$[?(@.id==42)].name"), (b_of "id name For.8 Current ID[0] Dot.2 Int(42) EQ.2 Filter.1 Rep.1 ID[1] Member.1"));
  ((b_of "$[?(@.key!=42)]"), (b_of "key For.8 Current ID[0] Dot.2 Int(42) NE.2 Filter.1 Rep.1"));
  ((b_of "$[?(@.key)]"), (b_of "key For.6 Current ID[0] Dot.2 Filter.1 Rep.1"));
  ((b_of "$[?(@.key*2==100)]"), (b_of "key For.10 Current ID[0] Dot.2 Int(2) Mul.2 Int(100) EQ.2 Filter.1 Rep.1"));
  ((b_of "$[?(@.key+50==100)]"), (b_of "key For.10 Current ID[0] Dot.2 Int(50) Add.2 Int(100) EQ.2 Filter.1 Rep.1"));
  ((b_of "$[?(@.key-50==-100)]"), (b_of "key For.11 Current ID[0] Dot.2 Int(50) Sub.2 Int(100) Neg.1 EQ.2 Filter.1 Rep.1"));
  ((b_of "$[?(@.key/10==5)]"), (b_of "key For.10 Current ID[0] Dot.2 Int(10) Div.2 Int(5) EQ.2 Filter.1 Rep.1"));
  ((b_of "$[?(@.key<3),?(@.key>6)]"), (b_of "!?(filter) cannot be in a union element list"));
  ((b_of "$[?(@.key<42)]"), (b_of "key For.8 Current ID[0] Dot.2 Int(42) LT.2 Filter.1 Rep.1"));
  ((b_of "$[?(@.key<=42)]"), (b_of "key For.8 Current ID[0] Dot.2 Int(42) LE.2 Filter.1 Rep.1"));
  ((b_of "$[?(@.key=42)]"), (b_of "!expected "")"" at offset 9, got ="));
  ((b_of "$[?(@.key=='value')]"), (b_of "key ""value"" For.8 Current ID[0] Dot.2 String[1] EQ.2 Filter.1 Rep.1"));
  ((b_of "$[?(@.key==-0.123e2)]"), (b_of "key 12.3 For.9 Current ID[0] Dot.2 Real[1] Neg.1 EQ.2 Filter.1 Rep.1"));
  ((b_of "$[?(@.key==010)]"), (b_of "key For.8 Current ID[0] Dot.2 Int(10) EQ.2 Filter.1 Rep.1"));
  ((b_of "$[?(@.key==42)]"), (b_of "key For.8 Current ID[0] Dot.2 Int(42) EQ.2 Filter.1 Rep.1"));
  ((b_of "$[?(@.key==43)]"), (b_of "key For.8 Current ID[0] Dot.2 Int(43) EQ.2 Filter.1 Rep.1"));
  ((b_of "$[?(@.key===42)]"), (b_of "!unexpected token = in expression term"));
  ((b_of "$[?(@.key==""hi@example.com"")]"), (b_of "key ""hi@example.com"" For.8 Current ID[0] Dot.2 String[1] EQ.2 Filter.1 Rep.1"));
  ((b_of "$[?(@.key==""some.value"")]"), (b_of "key ""some.value"" For.8 Current ID[0] Dot.2 String[1] EQ.2 Filter.1 Rep.1"));
  ((b_of "$[?(@.key==""value"")]"), (b_of "key ""value"" For.8 Current ID[0] Dot.2 String[1] EQ.2 Filter.1 Rep.1"));
  ((b_of "$[?(@.key==false)]"), (b_of "key For.8 Current ID[0] Dot.2 Bool(0) EQ.2 Filter.1 Rep.1"));
  ((b_of "$[?(@.key==null)]"), (b_of "key For.8 Current ID[0] Dot.2 Null EQ.2 Filter.1 Rep.1"));
  ((b_of "$[?(@.key==true)]"), (b_of "key For.8 Current ID[0] Dot.2 Bool(1) EQ.2 Filter.1 Rep.1"));
  ((b_of "$[?(@.key>42 && @.key<44)]"), (b_of "key For.14 Current ID[0] Dot.2 Int(42) GT.2 Current ID[0] Dot.2 Int(44) LT.2 And.2 Filter.1 Rep.1"));
  ((b_of "$[?(@.key>42)]"), (b_of "key For.8 Current ID[0] Dot.2 Int(42) GT.2 Filter.1 Rep.1"));
  ((b_of "$[?(@.key>43 || @.key<43)]"), (b_of "key For.14 Current ID[0] Dot.2 Int(43) GT.2 Current ID[0] Dot.2 Int(43) LT.2 Or.2 Filter.1 Rep.1"));
  ((b_of "$[?(@.key>=42)]"), (b_of "key For.8 Current ID[0] Dot.2 Int(42) GE.2 Filter.1 Rep.1"));
  ((b_of "$[?(@.name=~/hello.*/)]"), (b_of "name ""hello.*"" For.8 Current ID[0] Dot.2 RE[1] Match.2 Filter.1 Rep.1"));
  ((b_of "$[?(@==42)]"), (b_of "For.6 Current Int(42) EQ.2 Filter.1 Rep.1"));
  ((b_of "$[?(@['@key']==42)]"), (b_of """@key"" For.8 Current String[0] Index.2 Int(42) EQ.2 Filter.1 Rep.1"));
  ((b_of "$[?(@['key']==42)]"), (b_of """key"" For.8 Current String[0] Index.2 Int(42) EQ.2 Filter.1 Rep.1"));
  ((b_of "$[?(@[*]==2)]"), (b_of "!unexpected token * in expression term"));
  ((b_of "$[?(@[-1]==2)]"), (b_of "For.9 Current Int(1) Neg.1 Index.2 Int(2) EQ.2 Filter.1 Rep.1"));
  ((b_of "$[?(@[0:1]==1)]"), (b_of "!expected ""]"" at offset 7, got unexpected character ':' at offset 7"));
  ((b_of "$[?(@[0:1]==[1])]"), (b_of "!expected ""]"" at offset 7, got unexpected character ':' at offset 7"));
  ((b_of "$[?(@[1]=='b')]"), (b_of """b"" For.8 Current Int(1) Index.2 String[0] EQ.2 Filter.1 Rep.1"));
  ((b_of "$[?(false)]"), (b_of "For.4 Bool(0) Filter.1 Rep.1"));
  ((b_of "$[?(null)]"), (b_of "For.4 Null Filter.1 Rep.1"));
  ((b_of "$[?(true)]"), (b_of "For.4 Bool(1) Filter.1 Rep.1"));
  ((b_of "$[?@.key==42]"), (b_of "!unexpected char '@' after '(' at offset 2"));
  ((b_of "$[""""]"), (b_of """"" String[0] Select.1"));
  ((b_of "$[""key""]"), (b_of """key"" String[0] Select.1"));
  ((b_of "$[]"), (b_of "!unexpected ] at offset 2"));
  ((b_of "$[key]"), (b_of "key ID[0] Select.1"));
  ((b_of "$[two.some]"), (b_of "!expected ""]"" at offset 5, got ."));
  ((b_of "$.store.book[?(@.price < 10)].title"), (b_of "store book price title ID[0] Member.1 ID[1] Member.1 For.12 Current ID[2] Dot.2 Int(10) LT.2 Filter.1 Rep.5 ID[3] Member.1"));
  ((b_of "$['store'].book[?(@.price < 10)].title"), (b_of """store"" book price title String[0] Select.1 ID[1] Member.1 For.12 Current ID[2] Dot.2 Int(10) LT.2 Filter.1 Rep.5 ID[3] Member.1"));
  ((b_of "$..book[(@.length-1)]"), (b_of "book length Nest.4 ID[0] NestMember.1 Rep.1 Current ID[1] Dot.2 Int(1) Sub.2 Select.1"));
  ([36; 91; 39; 115; 116; 111; 114; 101; 39; 93; 46; 98; 111; 111; 107; 91; 63; 40; 64; 46; 112; 114; 105; 99; 101; 32; 62; 61; 32; 50; 48; 32; 38; 38; 32; 64; 46; 112; 114; 105; 99; 101; 32; 60; 61; 32; 53; 48; 32; 124; 124; 32; 40; 32; 32; 116; 114; 117; 101; 32; 9; 41; 41; 93; 46; 116; 105; 116; 108; 101], (b_of """store"" book price title String[0] Select.1 ID[1] Member.1 For.20 Current ID[2] Dot.2 Int(20) GE.2 Current ID[2] Dot.2 Int(50) LE.2 And.2 Bool(1) Or.2 Filter.1 Rep.5 ID[3] Member.1"));
  ((b_of "$[':@.\""$,*\\'\\\\']"), (b_of "!unknown character escape sequence"));
  ((b_of "$[?(-9223372036854775807 > 0)]"), (b_of "9223372036854775807 For.7 Int[0] Neg.1 Int(0) GT.2 Filter.1 Rep.1"));
  ((b_of "$[?(-9223372036854775808 > 0)]"), (b_of "!strconv.ParseInt: parsing ""9223372036854775808"": value out of range"));
  ((b_of "$..[?(@.book =~ /fruitbat.*\/$|(help|need|somebody)/)]"), (b_of "book ""fruitbat.*/$|(help|need|somebody)"" Nest.8 Current ID[0] Dot.2 RE[1] Match.2 NestFilter.1 Rep.1"));
  ((b_of "$[?(@.d==['v1',3*7+5])]"), (b_of "d ""v1"" For.14 Current ID[0] Dot.2 String[1] Int(3) Int(7) Mul.2 Int(5) Add.2 Array.2 EQ.2 Filter.1 Rep.1"));
  ((b_of "$..[?(@.book =~ /incorrect regexp)/]"), (b_of "!error parsing regexp: unexpected ): `incorrect regexp)` at offset 16"))].

(** what mach/run_test.go wants of a query *)
Inductive want : Type :=
| WError (msg : bytes)  (* the error *)
| WAnyError             (* some error *)
| WResult (l : list val) (* these values, in some order *)
| WOther (l : list val)  (* values known to differ from the ones in the file *)
| WNothing              (* it is compiled and run *)
| WParse.               (* it is parsed *)

(** testdata/test_suite.yaml, with the exclusions and differences of mach/run_test.go:82-131 *)
Definition suite : list (bytes * (bytes * val * want)) := [
  ((b_of "array_slice"), ((b_of "$[1:3]"), (VArr [(VStr (b_of "first")); (VStr (b_of "second")); (VStr (b_of "third")); (VStr (b_of "forth")); (VStr (b_of "fifth"))]), WResult [(VStr (b_of "second")); (VStr (b_of "third"))]));
  ((b_of "array_slice_on_exact_match"), ((b_of "$[0:5]"), (VArr [(VStr (b_of "first")); (VStr (b_of "second")); (VStr (b_of "third")); (VStr (b_of "forth")); (VStr (b_of "fifth"))]), WResult [(VStr (b_of "first")); (VStr (b_of "second")); (VStr (b_of "third")); (VStr (b_of "forth")); (VStr (b_of "fifth"))]));
  ((b_of "array_slice_on_non_overlapping_array"), ((b_of "$[7:10]"), (VArr [(VStr (b_of "first")); (VStr (b_of "second")); (VStr (b_of "third"))]), WResult []));
  ((b_of "array_slice_on_object"), ((b_of "$[1:3]"), (VObj [((b_of ":"), (VInt 42)); ((b_of "more"), (VStr (b_of "string"))); ((b_of "a"), (VInt 1)); ((b_of "b"), (VInt 2)); ((b_of "c"), (VInt 3)); ((b_of "1:3"), (VStr (b_of "nice")))]), WResult []));
  ((b_of "array_slice_on_partially_overlapping_array"), ((b_of "$[1:10]"), (VArr [(VStr (b_of "first")); (VStr (b_of "second")); (VStr (b_of "third"))]), WResult [(VStr (b_of "second")); (VStr (b_of "third"))]));
  ((b_of "array_slice_with_large_number_for_end"), ((b_of "$[2:113667776004]"), (VArr [(VStr (b_of "first")); (VStr (b_of "second")); (VStr (b_of "third")); (VStr (b_of "forth")); (VStr (b_of "fifth"))]), WResult [(VStr (b_of "third")); (VStr (b_of "forth")); (VStr (b_of "fifth"))]));
  ((b_of "array_slice_with_large_number_for_end_and_negative_step"), ((b_of "$[2:-113667776004:-1]"), (VArr [(VStr (b_of "first")); (VStr (b_of "second")); (VStr (b_of "third")); (VStr (b_of "forth")); (VStr (b_of "fifth"))]), WResult [(VStr (b_of "third")); (VStr (b_of "second")); (VStr (b_of "first"))]));
  ((b_of "array_slice_with_large_number_for_start"), ((b_of "$[-113667776004:2]"), (VArr [(VStr (b_of "first")); (VStr (b_of "second")); (VStr (b_of "third")); (VStr (b_of "forth")); (VStr (b_of "fifth"))]), WResult [(VStr (b_of "first")); (VStr (b_of "second"))]));
  ((b_of "array_slice_with_large_number_for_start_end_negative_step"), ((b_of "$[113667776004:2:-1]"), (VArr [(VStr (b_of "first")); (VStr (b_of "second")); (VStr (b_of "third")); (VStr (b_of "forth")); (VStr (b_of "fifth"))]), WResult [(VStr (b_of "fifth")); (VStr (b_of "forth"))]));
  ((b_of "array_slice_with_negative_start_and_end_and_range_of_-1"), ((b_of "$[-4:-5]"), (VArr [(VInt 2); (VStr (b_of "a")); (VInt 4); (VInt 5); (VInt 100); (VStr (b_of "nice"))]), WResult []));
  ((b_of "array_slice_with_negative_start_and_end_and_range_of_0"), ((b_of "$[-4:-4]"), (VArr [(VInt 2); (VStr (b_of "a")); (VInt 4); (VInt 5); (VInt 100); (VStr (b_of "nice"))]), WResult []));
  ((b_of "array_slice_with_negative_start_and_end_and_range_of_1"), ((b_of "$[-4:-3]"), (VArr [(VInt 2); (VStr (b_of "a")); (VInt 4); (VInt 5); (VInt 100); (VStr (b_of "nice"))]), WResult [(VInt 4)]));
  ((b_of "array_slice_with_negative_start_and_positive_end_and_range_of_-1"), ((b_of "$[-4:1]"), (VArr [(VInt 2); (VStr (b_of "a")); (VInt 4); (VInt 5); (VInt 100); (VStr (b_of "nice"))]), WResult []));
  ((b_of "array_slice_with_negative_start_and_positive_end_and_range_of_0"), ((b_of "$[-4:2]"), (VArr [(VInt 2); (VStr (b_of "a")); (VInt 4); (VInt 5); (VInt 100); (VStr (b_of "nice"))]), WResult []));
  ((b_of "array_slice_with_negative_start_and_positive_end_and_range_of_1"), ((b_of "$[-4:3]"), (VArr [(VInt 2); (VStr (b_of "a")); (VInt 4); (VInt 5); (VInt 100); (VStr (b_of "nice"))]), WResult [(VInt 4)]));
  ((b_of "array_slice_with_negative_step"), ((b_of "$[3:0:-2]"), (VArr [(VStr (b_of "first")); (VStr (b_of "second")); (VStr (b_of "third")); (VStr (b_of "forth")); (VStr (b_of "fifth"))]), WResult [(VStr (b_of "forth")); (VStr (b_of "second"))]));
  ((b_of "array_slice_with_negative_step_and_start_greater_than_end"), ((b_of "$[0:3:-2]"), (VArr [(VStr (b_of "first")); (VStr (b_of "second")); (VStr (b_of "third")); (VStr (b_of "forth")); (VStr (b_of "fifth"))]), WResult []));
  ((b_of "array_slice_with_negative_step_on_partially_overlapping_array"), ((b_of "$[7:3:-1]"), (VArr [(VStr (b_of "first")); (VStr (b_of "second")); (VStr (b_of "third")); (VStr (b_of "forth")); (VStr (b_of "fifth"))]), WResult [(VStr (b_of "fifth"))]));
  ((b_of "array_slice_with_negative_step_only"), ((b_of "$[::-2]"), (VArr [(VStr (b_of "first")); (VStr (b_of "second")); (VStr (b_of "third")); (VStr (b_of "forth")); (VStr (b_of "fifth"))]), WResult [(VStr (b_of "fifth")); (VStr (b_of "third")); (VStr (b_of "first"))]));
  ((b_of "array_slice_with_open_end"), ((b_of "$[1:]"), (VArr [(VStr (b_of "first")); (VStr (b_of "second")); (VStr (b_of "third")); (VStr (b_of "forth")); (VStr (b_of "fifth"))]), WResult [(VStr (b_of "second")); (VStr (b_of "third")); (VStr (b_of "forth")); (VStr (b_of "fifth"))]));
  ((b_of "array_slice_with_open_end_and_negative_step"), ((b_of "$[3::-1]"), (VArr [(VStr (b_of "first")); (VStr (b_of "second")); (VStr (b_of "third")); (VStr (b_of "forth")); (VStr (b_of "fifth"))]), WResult [(VStr (b_of "forth")); (VStr (b_of "third")); (VStr (b_of "second")); (VStr (b_of "first"))]));
  ((b_of "array_slice_with_open_start"), ((b_of "$[:2]"), (VArr [(VStr (b_of "first")); (VStr (b_of "second")); (VStr (b_of "third")); (VStr (b_of "forth")); (VStr (b_of "fifth"))]), WResult [(VStr (b_of "first")); (VStr (b_of "second"))]));
  ((b_of "array_slice_with_open_start_and_end"), ((b_of "$[:]"), (VArr [(VStr (b_of "first")); (VStr (b_of "second"))]), WResult [(VStr (b_of "first")); (VStr (b_of "second"))]));
  ((b_of "array_slice_with_open_start_and_end_and_step_empty"), ((b_of "$[::]"), (VArr [(VStr (b_of "first")); (VStr (b_of "second"))]), WResult [(VStr (b_of "first")); (VStr (b_of "second"))]));
  ((b_of "array_slice_with_open_start_and_end_on_object"), ((b_of "$[:]"), (VObj [((b_of ":"), (VInt 42)); ((b_of "more"), (VStr (b_of "string")))]), WResult []));
  ((b_of "array_slice_with_open_start_and_negative_step"), ((b_of "$[:2:-1]"), (VArr [(VStr (b_of "first")); (VStr (b_of "second")); (VStr (b_of "third")); (VStr (b_of "forth")); (VStr (b_of "fifth"))]), WResult [(VStr (b_of "fifth")); (VStr (b_of "forth"))]));
  ((b_of "array_slice_with_positive_start_and_negative_end_and_range_of_-1"), ((b_of "$[3:-4]"), (VArr [(VInt 2); (VStr (b_of "a")); (VInt 4); (VInt 5); (VInt 100); (VStr (b_of "nice"))]), WResult []));
  ((b_of "array_slice_with_positive_start_and_negative_end_and_range_of_0"), ((b_of "$[3:-3]"), (VArr [(VInt 2); (VStr (b_of "a")); (VInt 4); (VInt 5); (VInt 100); (VStr (b_of "nice"))]), WResult []));
  ((b_of "array_slice_with_positive_start_and_negative_end_and_range_of_1"), ((b_of "$[3:-2]"), (VArr [(VInt 2); (VStr (b_of "a")); (VInt 4); (VInt 5); (VInt 100); (VStr (b_of "nice"))]), WResult [(VInt 5)]));
  ((b_of "array_slice_with_range_of_-1"), ((b_of "$[2:1]"), (VArr [(VStr (b_of "first")); (VStr (b_of "second")); (VStr (b_of "third")); (VStr (b_of "forth"))]), WResult []));
  ((b_of "array_slice_with_range_of_0"), ((b_of "$[0:0]"), (VArr [(VStr (b_of "first")); (VStr (b_of "second"))]), WResult []));
  ((b_of "array_slice_with_range_of_1"), ((b_of "$[0:1]"), (VArr [(VStr (b_of "first")); (VStr (b_of "second"))]), WResult [(VStr (b_of "first"))]));
  ((b_of "array_slice_with_start_-1_and_open_end"), ((b_of "$[-1:]"), (VArr [(VStr (b_of "first")); (VStr (b_of "second")); (VStr (b_of "third"))]), WResult [(VStr (b_of "third"))]));
  ((b_of "array_slice_with_start_-2_and_open_end"), ((b_of "$[-2:]"), (VArr [(VStr (b_of "first")); (VStr (b_of "second")); (VStr (b_of "third"))]), WResult [(VStr (b_of "second")); (VStr (b_of "third"))]));
  ((b_of "array_slice_with_start_large_negative_number_and_open_end_on_short_array"), ((b_of "$[-4:]"), (VArr [(VStr (b_of "first")); (VStr (b_of "second")); (VStr (b_of "third"))]), WResult [(VStr (b_of "first")); (VStr (b_of "second")); (VStr (b_of "third"))]));
  ((b_of "array_slice_with_step"), ((b_of "$[0:3:2]"), (VArr [(VStr (b_of "first")); (VStr (b_of "second")); (VStr (b_of "third")); (VStr (b_of "forth")); (VStr (b_of "fifth"))]), WResult [(VStr (b_of "first")); (VStr (b_of "third"))]));
  ((b_of "array_slice_with_step_0"), ((b_of "$[0:3:0]"), (VArr [(VStr (b_of "first")); (VStr (b_of "second")); (VStr (b_of "third")); (VStr (b_of "forth")); (VStr (b_of "fifth"))]), WParse));
  ((b_of "array_slice_with_step_1"), ((b_of "$[0:3:1]"), (VArr [(VStr (b_of "first")); (VStr (b_of "second")); (VStr (b_of "third")); (VStr (b_of "forth")); (VStr (b_of "fifth"))]), WResult [(VStr (b_of "first")); (VStr (b_of "second")); (VStr (b_of "third"))]));
  ((b_of "array_slice_with_step_and_leading_zeros"), ((b_of "$[010:024:010]"), (VArr [(VInt 0); (VInt 1); (VInt 2); (VInt 3); (VInt 4); (VInt 5); (VInt 6); (VInt 7); (VInt 8); (VInt 9); (VInt 10); (VInt 11); (VInt 12); (VInt 13); (VInt 14); (VInt 15); (VInt 16); (VInt 17); (VInt 18); (VInt 19); (VInt 20); (VInt 21); (VInt 22); (VInt 23); (VInt 24); (VInt 25)]), WParse));
  ((b_of "array_slice_with_step_but_end_not_aligned"), ((b_of "$[0:4:2]"), (VArr [(VStr (b_of "first")); (VStr (b_of "second")); (VStr (b_of "third")); (VStr (b_of "forth")); (VStr (b_of "fifth"))]), WResult [(VStr (b_of "first")); (VStr (b_of "third"))]));
  ((b_of "array_slice_with_step_empty"), ((b_of "$[1:3:]"), (VArr [(VStr (b_of "first")); (VStr (b_of "second")); (VStr (b_of "third")); (VStr (b_of "forth")); (VStr (b_of "fifth"))]), WResult [(VStr (b_of "second")); (VStr (b_of "third"))]));
  ((b_of "array_slice_with_step_only"), ((b_of "$[::2]"), (VArr [(VStr (b_of "first")); (VStr (b_of "second")); (VStr (b_of "third")); (VStr (b_of "forth")); (VStr (b_of "fifth"))]), WResult [(VStr (b_of "first")); (VStr (b_of "third")); (VStr (b_of "fifth"))]));
  ((b_of "bracket_notation"), ((b_of "$['key']"), (VObj [((b_of "key"), (VStr (b_of "value")))]), WResult [(VStr (b_of "value"))]));
  ((b_of "bracket_notation_after_recursive_descent"), ((b_of "$..[0]"), (VArr [(VStr (b_of "first")); (VObj [((b_of "key"), (VArr [(VStr (b_of "first nested")); (VObj [((b_of "more"), (VArr [(VObj [((b_of "nested"), (VArr [(VStr (b_of "deepest")); (VStr (b_of "second"))]))]); (VArr [(VStr (b_of "more")); (VStr (b_of "values"))])]))])]))])]), WResult [(VStr (b_of "first")); (VStr (b_of "first nested")); (VObj [((b_of "nested"), (VArr [(VStr (b_of "deepest")); (VStr (b_of "second"))]))]); (VStr (b_of "deepest")); (VStr (b_of "more"))]));
  ((b_of "bracket_notation_on_object_without_key"), ((b_of "$['missing']"), (VObj [((b_of "key"), (VStr (b_of "value")))]), WResult []));
  ((b_of "bracket_notation_with_NFC_path_on_NFD_key"), ([36; 91; 39; 195; 188; 39; 93], (VObj [([117; 204; 136], (VInt 42))]), WResult []));
  ((b_of "bracket_notation_with_dot"), ((b_of "$['two.some']"), (VObj [((b_of "one"), (VObj [((b_of "key"), (VStr (b_of "value")))])); ((b_of "two"), (VObj [((b_of "some"), (VStr (b_of "more"))); ((b_of "key"), (VStr (b_of "other value")))])); ((b_of "two.some"), (VStr (b_of "42")))]), WResult [(VStr (b_of "42"))]));
  ((b_of "bracket_notation_with_double_quotes"), ((b_of "$[""key""]"), (VObj [((b_of "key"), (VStr (b_of "value")))]), WResult [(VStr (b_of "value"))]));
  ((b_of "bracket_notation_with_empty_path"), ((b_of "$[]"), (VObj [((b_of ""), (VInt 42)); ((b_of "''"), (VInt 123)); ((b_of """"""), (VInt 222))]), WError (b_of "unexpected ] at offset 2")));
  ((b_of "bracket_notation_with_empty_string"), ((b_of "$['']"), (VObj [((b_of ""), (VInt 42)); ((b_of "''"), (VInt 123)); ((b_of """"""), (VInt 222))]), WResult [(VInt 42)]));
  ((b_of "bracket_notation_with_empty_string_doubled_quoted"), ((b_of "$[""""]"), (VObj [((b_of ""), (VInt 42)); ((b_of "''"), (VInt 123)); ((b_of """"""), (VInt 222))]), WResult [(VInt 42)]));
  ((b_of "bracket_notation_with_negative_number_on_short_array"), ((b_of "$[-2]"), (VArr [(VStr (b_of "one element"))]), WResult []));
  ((b_of "bracket_notation_with_number"), ((b_of "$[2]"), (VArr [(VStr (b_of "first")); (VStr (b_of "second")); (VStr (b_of "third")); (VStr (b_of "forth")); (VStr (b_of "fifth"))]), WResult [(VStr (b_of "third"))]));
  ((b_of "bracket_notation_with_number_-1"), ((b_of "$[-1]"), (VArr [(VStr (b_of "first")); (VStr (b_of "second")); (VStr (b_of "third"))]), WResult [(VStr (b_of "third"))]));
  ((b_of "bracket_notation_with_number_-1_on_empty_array"), ((b_of "$[-1]"), (VArr []), WResult []));
  ((b_of "bracket_notation_with_number_0"), ((b_of "$[0]"), (VArr [(VStr (b_of "first")); (VStr (b_of "second")); (VStr (b_of "third")); (VStr (b_of "forth")); (VStr (b_of "fifth"))]), WResult [(VStr (b_of "first"))]));
  ((b_of "bracket_notation_with_number_after_dot_notation_with_wildcard_on_nested_arrays_with_different_length"), ((b_of "$.*[1]"), (VArr [(VArr [(VInt 1)]); (VArr [(VInt 2); (VInt 3)])]), WResult [(VInt 3)]));
  ((b_of "bracket_notation_with_number_on_object"), ((b_of "$[0]"), (VObj [((b_of "0"), (VStr (b_of "value")))]), WOther [(VStr (b_of "value"))]));
  ((b_of "bracket_notation_with_number_on_short_array"), ((b_of "$[1]"), (VArr [(VStr (b_of "one element"))]), WResult []));
  ((b_of "bracket_notation_with_number_on_string"), ((b_of "$[0]"), (VStr (b_of "Hello World")), WResult []));
  ((b_of "bracket_notation_with_quoted_array_slice_literal"), ((b_of "$[':']"), (VObj [((b_of ":"), (VStr (b_of "value"))); ((b_of "another"), (VStr (b_of "entry")))]), WResult [(VStr (b_of "value"))]));
  ((b_of "bracket_notation_with_quoted_closing_bracket_literal"), ((b_of "$[']']"), (VObj [((b_of "]"), (VInt 42))]), WResult [(VInt 42)]));
  ((b_of "bracket_notation_with_quoted_current_object_literal"), ((b_of "$['@']"), (VObj [((b_of "@"), (VStr (b_of "value"))); ((b_of "another"), (VStr (b_of "entry")))]), WResult [(VStr (b_of "value"))]));
  ((b_of "bracket_notation_with_quoted_dot_literal"), ((b_of "$['.']"), (VObj [((b_of "."), (VStr (b_of "value"))); ((b_of "another"), (VStr (b_of "entry")))]), WResult [(VStr (b_of "value"))]));
  ((b_of "bracket_notation_with_quoted_dot_wildcard"), ((b_of "$['.*']"), (VObj [((b_of "key"), (VInt 42)); ((b_of ".*"), (VInt 1)); ((b_of ""), (VInt 10))]), WResult [(VInt 1)]));
  ((b_of "bracket_notation_with_quoted_double_quote_literal"), ((b_of "$['""']"), (VObj [((b_of """"), (VStr (b_of "value"))); ((b_of "another"), (VStr (b_of "entry")))]), WResult [(VStr (b_of "value"))]));
  ((b_of "bracket_notation_with_quoted_escaped_backslash"), ((b_of "$['\\']"), (VObj [((b_of "\"), (VStr (b_of "value")))]), WResult [(VStr (b_of "value"))]));
  ((b_of "bracket_notation_with_quoted_escaped_single_quote"), ((b_of "$['\'']"), (VObj [((b_of "'"), (VStr (b_of "value")))]), WResult [(VStr (b_of "value"))]));
  ((b_of "bracket_notation_with_quoted_number_on_object"), ((b_of "$['0']"), (VObj [((b_of "0"), (VStr (b_of "value")))]), WResult [(VStr (b_of "value"))]));
  ((b_of "bracket_notation_with_quoted_root_literal"), ((b_of "$['$']"), (VObj [((b_of "$"), (VStr (b_of "value"))); ((b_of "another"), (VStr (b_of "entry")))]), WResult [(VStr (b_of "value"))]));
  ((b_of "bracket_notation_with_quoted_special_characters_combined"), ((b_of "$[':@.""$,*\'\\']"), (VObj [((b_of ":@.""$,*'\"), (VInt 42))]), WResult [(VInt 42)]));
  ((b_of "bracket_notation_with_quoted_string_and_unescaped_single_quote"), ((b_of "$['single'quote']"), (VObj [((b_of "single'quote"), (VStr (b_of "value")))]), WError (b_of "expected ""]"" at offset 14, got identifier")));
  ((b_of "bracket_notation_with_quoted_union_literal"), ((b_of "$[',']"), (VObj [((b_of ","), (VStr (b_of "value"))); ((b_of "another"), (VStr (b_of "entry")))]), WResult [(VStr (b_of "value"))]));
  ((b_of "bracket_notation_with_quoted_wildcard_literal"), ((b_of "$['*']"), (VObj [((b_of "*"), (VStr (b_of "value"))); ((b_of "another"), (VStr (b_of "entry")))]), WResult [(VStr (b_of "value"))]));
  ((b_of "bracket_notation_with_quoted_wildcard_literal_on_object_without_key"), ((b_of "$['*']"), (VObj [((b_of "another"), (VStr (b_of "entry")))]), WResult []));
  ((b_of "bracket_notation_with_string_including_dot_wildcard"), ((b_of "$['ni.*']"), (VObj [((b_of "nice"), (VInt 42)); ((b_of "ni.*"), (VInt 1)); ((b_of "mice"), (VInt 100))]), WResult [(VInt 1)]));
  ((b_of "bracket_notation_with_two_literals_separated_by_dot"), ((b_of "$['two'.'some']"), (VObj [((b_of "one"), (VObj [((b_of "key"), (VStr (b_of "value")))])); ((b_of "two"), (VObj [((b_of "some"), (VStr (b_of "more"))); ((b_of "key"), (VStr (b_of "other value")))])); ((b_of "two.some"), (VStr (b_of "42"))); ((b_of "two'.'some"), (VStr (b_of "43")))]), WError (b_of "expected ""]"" at offset 7, got .")));
  ((b_of "bracket_notation_with_two_literals_separated_by_dot_without_quotes"), ((b_of "$[two.some]"), (VObj [((b_of "one"), (VObj [((b_of "key"), (VStr (b_of "value")))])); ((b_of "two"), (VObj [((b_of "some"), (VStr (b_of "more"))); ((b_of "key"), (VStr (b_of "other value")))])); ((b_of "two.some"), (VStr (b_of "42")))]), WError (b_of "expected ""]"" at offset 5, got .")));
  ((b_of "bracket_notation_with_wildcard_after_array_slice"), ((b_of "$[0:2][*]"), (VArr [(VArr [(VInt 1); (VInt 2)]); (VArr [(VStr (b_of "a")); (VStr (b_of "b"))]); (VArr [(VInt 0); (VInt 0)])]), WResult [(VInt 1); (VInt 2); (VStr (b_of "a")); (VStr (b_of "b"))]));
  ((b_of "bracket_notation_with_wildcard_after_dot_notation_after_bracket_notation_with_wildcard"), ((b_of "$[*].bar[*]"), (VArr [(VObj [((b_of "bar"), (VArr [(VInt 42)]))])]), WResult [(VInt 42)]));
  ((b_of "bracket_notation_with_wildcard_after_recursive_descent"), ((b_of "$..[*]"), (VObj [((b_of "key"), (VStr (b_of "value"))); ((b_of "another key"), (VObj [((b_of "complex"), (VStr (b_of "string"))); ((b_of "primitives"), (VArr [(VInt 0); (VInt 1)]))]))]), WResult [(VStr (b_of "value")); (VObj [((b_of "complex"), (VStr (b_of "string"))); ((b_of "primitives"), (VArr [(VInt 0); (VInt 1)]))]); (VStr (b_of "string")); (VArr [(VInt 0); (VInt 1)]); (VInt 0); (VInt 1)]));
  ((b_of "bracket_notation_with_wildcard_on_array"), ((b_of "$[*]"), (VArr [(VStr (b_of "string")); (VInt 42); (VObj [((b_of "key"), (VStr (b_of "value")))]); (VArr [(VInt 0); (VInt 1)])]), WResult [(VStr (b_of "string")); (VInt 42); (VObj [((b_of "key"), (VStr (b_of "value")))]); (VArr [(VInt 0); (VInt 1)])]));
  ((b_of "bracket_notation_with_wildcard_on_empty_array"), ((b_of "$[*]"), (VArr []), WResult []));
  ((b_of "bracket_notation_with_wildcard_on_empty_object"), ((b_of "$[*]"), (VObj []), WResult []));
  ((b_of "bracket_notation_with_wildcard_on_null_value_array"), ((b_of "$[*]"), (VArr [(VInt 40); VNil; (VInt 42)]), WResult [(VInt 40); VNil; (VInt 42)]));
  ((b_of "bracket_notation_with_wildcard_on_object"), ((b_of "$[*]"), (VObj [((b_of "some"), (VStr (b_of "string"))); ((b_of "int"), (VInt 42)); ((b_of "object"), (VObj [((b_of "key"), (VStr (b_of "value")))])); ((b_of "array"), (VArr [(VInt 0); (VInt 1)]))]), WResult [(VStr (b_of "string")); (VInt 42); (VObj [((b_of "key"), (VStr (b_of "value")))]); (VArr [(VInt 0); (VInt 1)])]));
  ((b_of "bracket_notation_without_quotes"), ((b_of "$[key]"), (VObj [((b_of "key"), (VStr (b_of "value")))]), WParse));
  ((b_of "dot_bracket_notation"), ((b_of "$.['key']"), (VObj [((b_of "key"), (VStr (b_of "value"))); ((b_of "other"), (VObj [((b_of "key"), (VArr [(VObj [((b_of "key"), (VInt 42))])]))]))]), WError (b_of "unexpected [ at offset 2")));
  ((b_of "dot_bracket_notation_with_double_quotes"), ((b_of "$.[""key""]"), (VObj [((b_of "key"), (VStr (b_of "value"))); ((b_of "other"), (VObj [((b_of "key"), (VArr [(VObj [((b_of "key"), (VInt 42))])]))]))]), WError (b_of "unexpected [ at offset 2")));
  ((b_of "dot_bracket_notation_without_quotes"), ((b_of "$.[key]"), (VObj [((b_of "key"), (VStr (b_of "value"))); ((b_of "other"), (VObj [((b_of "key"), (VArr [(VObj [((b_of "key"), (VInt 42))])]))]))]), WError (b_of "unexpected [ at offset 2")));
  ((b_of "dot_notation"), ((b_of "$.key"), (VObj [((b_of "key"), (VStr (b_of "value")))]), WResult [(VStr (b_of "value"))]));
  ((b_of "dot_notation_after_bracket_notation_after_recursive_descent"), ((b_of "$..[1].key"), (VObj [((b_of "k"), (VArr [(VObj [((b_of "key"), (VStr (b_of "some value")))]); (VObj [((b_of "key"), (VInt 42))])])); ((b_of "kk"), (VArr [(VArr [(VObj [((b_of "key"), (VInt 100))]); (VObj [((b_of "key"), (VInt 200))]); (VObj [((b_of "key"), (VInt 300))])]); (VArr [(VObj [((b_of "key"), (VInt 400))]); (VObj [((b_of "key"), (VInt 500))]); (VObj [((b_of "key"), (VInt 600))])])])); ((b_of "key"), (VArr [(VInt 0); (VInt 1)]))]), WResult [(VInt 42); (VInt 200); (VInt 500)]));
  ((b_of "dot_notation_after_bracket_notation_with_wildcard"), ((b_of "$[*].a"), (VArr [(VObj [((b_of "a"), (VInt 1))]); (VObj [((b_of "a"), (VInt 1))])]), WResult [(VInt 1); (VInt 1)]));
  ((b_of "dot_notation_after_bracket_notation_with_wildcard_on_one_matching"), ((b_of "$[*].a"), (VArr [(VObj [((b_of "a"), (VInt 1))])]), WResult [(VInt 1)]));
  ((b_of "dot_notation_after_bracket_notation_with_wildcard_on_some_matching"), ((b_of "$[*].a"), (VArr [(VObj [((b_of "a"), (VInt 1))]); (VObj [((b_of "b"), (VInt 1))])]), WResult [(VInt 1)]));
  ((b_of "dot_notation_after_filter_expression"), ((b_of "$[?(@.id==42)].name"), (VArr [(VObj [((b_of "id"), (VInt 42)); ((b_of "name"), (VStr (b_of "forty-two")))]); (VObj [((b_of "id"), (VInt 1)); ((b_of "name"), (VStr (b_of "one")))])]), WResult [(VStr (b_of "forty-two"))]));
  ((b_of "dot_notation_after_recursive_descent"), ((b_of "$..key"), (VObj [((b_of "object"), (VObj [((b_of "key"), (VStr (b_of "value"))); ((b_of "array"), (VArr [(VObj [((b_of "key"), (VStr (b_of "something")))]); (VObj [((b_of "key"), (VObj [((b_of "key"), (VStr (b_of "russian dolls")))]))])]))])); ((b_of "key"), (VStr (b_of "top")))]), WResult [(VStr (b_of "top")); (VStr (b_of "value")); (VStr (b_of "something")); (VObj [((b_of "key"), (VStr (b_of "russian dolls")))]); (VStr (b_of "russian dolls"))]));
  ((b_of "dot_notation_after_recursive_descent_after_dot_notation"), ((b_of "$.store..price"), (VObj [((b_of "store"), (VObj [((b_of "book"), (VArr [(VObj [((b_of "category"), (VStr (b_of "reference"))); ((b_of "author"), (VStr (b_of "Nigel Rees"))); ((b_of "title"), (VStr (b_of "Sayings of the Century"))); ((b_of "price"), (VFloat (S754_finite false 5038402083120742 (-49))))]); (VObj [((b_of "category"), (VStr (b_of "fiction"))); ((b_of "author"), (VStr (b_of "Evelyn Waugh"))); ((b_of "title"), (VStr (b_of "Sword of Honour"))); ((b_of "price"), (VFloat (S754_finite false 7312719894942843 (-49))))]); (VObj [((b_of "category"), (VStr (b_of "fiction"))); ((b_of "author"), (VStr (b_of "Herman Melville"))); ((b_of "title"), (VStr (b_of "Moby Dick"))); ((b_of "isbn"), (VStr (b_of "0-553-21311-3"))); ((b_of "price"), (VFloat (S754_finite false 5060920081257595 (-49))))]); (VObj [((b_of "category"), (VStr (b_of "fiction"))); ((b_of "author"), (VStr (b_of "J. R. R. Tolkien"))); ((b_of "title"), (VStr (b_of "The Lord of the Rings"))); ((b_of "isbn"), (VStr (b_of "0-395-19395-8"))); ((b_of "price"), (VFloat (S754_finite false 6471109714577981 (-48))))])])); ((b_of "bicycle"), (VObj [((b_of "color"), (VStr (b_of "red"))); ((b_of "price"), (VFloat (S754_finite false 5615425785377587 (-48))))]))]))]), WResult [(VFloat (S754_finite false 5038402083120742 (-49))); (VFloat (S754_finite false 7312719894942843 (-49))); (VFloat (S754_finite false 5060920081257595 (-49))); (VFloat (S754_finite false 6471109714577981 (-48))); (VFloat (S754_finite false 5615425785377587 (-48)))]));
  ((b_of "dot_notation_after_union"), ((b_of "$[0,2].key"), (VArr [(VObj [((b_of "key"), (VStr (b_of "ey")))]); (VObj [((b_of "key"), (VStr (b_of "bee")))]); (VObj [((b_of "key"), (VStr (b_of "see")))])]), WResult [(VStr (b_of "ey")); (VStr (b_of "see"))]));
  ((b_of "dot_notation_after_union_with_keys"), ((b_of "$['one','three'].key"), (VObj [((b_of "one"), (VObj [((b_of "key"), (VStr (b_of "value")))])); ((b_of "two"), (VObj [((b_of "k"), (VStr (b_of "v")))])); ((b_of "three"), (VObj [((b_of "some"), (VStr (b_of "more"))); ((b_of "key"), (VStr (b_of "other value")))]))]), WResult [(VStr (b_of "value")); (VStr (b_of "other value"))]));
  ((b_of "dot_notation_on_array"), ((b_of "$.key"), (VArr [(VInt 0); (VInt 1)]), WResult []));
  ((b_of "dot_notation_on_array_value"), ((b_of "$.key"), (VObj [((b_of "key"), (VArr [(VStr (b_of "first")); (VStr (b_of "second"))]))]), WResult [(VArr [(VStr (b_of "first")); (VStr (b_of "second"))])]));
  ((b_of "dot_notation_on_array_with_containing_object_matching_key"), ((b_of "$.id"), (VArr [(VObj [((b_of "id"), (VInt 2))])]), WResult []));
  ((b_of "dot_notation_on_empty_object_value"), ((b_of "$.key"), (VObj [((b_of "key"), (VObj []))]), WResult [(VObj [])]));
  ((b_of "dot_notation_on_null_value"), ((b_of "$.key"), (VObj [((b_of "key"), VNil)]), WResult [VNil]));
  ((b_of "dot_notation_on_object_without_key"), ((b_of "$.missing"), (VObj [((b_of "key"), (VStr (b_of "value")))]), WResult []));
  ((b_of "dot_notation_with_dash"), ((b_of "$.key-dash"), (VObj [((b_of "key-dash"), (VStr (b_of "value")))]), WResult [(VStr (b_of "value"))]));
  ((b_of "dot_notation_with_double_quotes"), ((b_of "$.""key"""), (VObj [((b_of "key"), (VStr (b_of "value"))); ((b_of """key"""), (VInt 42))]), WError (b_of "unexpected string literal at offset 6")));
  ((b_of "dot_notation_with_double_quotes_after_recursive_descent"), ((b_of "$..""key"""), (VObj [((b_of "object"), (VObj [((b_of "key"), (VStr (b_of "value"))); ((b_of """key"""), (VInt 100)); ((b_of "array"), (VArr [(VObj [((b_of "key"), (VStr (b_of "something"))); ((b_of """key"""), (VInt 0))]); (VObj [((b_of "key"), (VObj [((b_of "key"), (VStr (b_of "russian dolls")))])); ((b_of """key"""), (VObj [((b_of """key"""), (VInt 99))]))])]))])); ((b_of "key"), (VStr (b_of "top"))); ((b_of """key"""), (VInt 42))]), WError (b_of "unexpected string literal at offset 7")));
  ((b_of "dot_notation_with_empty_path"), ((b_of "$."), (VObj [((b_of "key"), (VInt 42)); ((b_of ""), (VInt 9001)); ((b_of "''"), (VStr (b_of "nice")))]), WError (b_of "unexpected end of expression at offset 1")));
  ((b_of "dot_notation_with_key_named_in"), ((b_of "$.in"), (VObj [((b_of "in"), (VStr (b_of "value")))]), WResult [(VStr (b_of "value"))]));
  ((b_of "dot_notation_with_key_named_length"), ((b_of "$.length"), (VObj [((b_of "length"), (VStr (b_of "value")))]), WResult [(VStr (b_of "value"))]));
  ((b_of "dot_notation_with_key_named_length_on_array"), ((b_of "$.length"), (VArr [(VInt 4); (VInt 5); (VInt 6)]), WResult []));
  ((b_of "dot_notation_with_key_named_null"), ((b_of "$.null"), (VObj [((b_of "null"), (VStr (b_of "value")))]), WResult [(VStr (b_of "value"))]));
  ((b_of "dot_notation_with_key_named_true"), ((b_of "$.true"), (VObj [((b_of "true"), (VStr (b_of "value")))]), WResult [(VStr (b_of "value"))]));
  ((b_of "dot_notation_with_key_root_literal"), ((b_of "$.$"), (VObj [((b_of "$"), (VStr (b_of "value")))]), WError (b_of "unexpected $ at offset 2")));
  ((b_of "dot_notation_with_non_ASCII_key"), ([36; 46; 229; 177; 172; 230; 128; 167], (VObj [([229; 177; 172; 230; 128; 167], (VStr (b_of "value")))]), WResult [(VStr (b_of "value"))]));
  ((b_of "dot_notation_with_number"), ((b_of "$.2"), (VArr [(VStr (b_of "first")); (VStr (b_of "second")); (VStr (b_of "third")); (VStr (b_of "forth")); (VStr (b_of "fifth"))]), WOther [(VStr (b_of "third"))]));
  ((b_of "dot_notation_with_number_-1"), ((b_of "$.-1"), (VArr [(VStr (b_of "first")); (VStr (b_of "second")); (VStr (b_of "third")); (VStr (b_of "forth")); (VStr (b_of "fifth"))]), WResult []));
  ((b_of "dot_notation_with_number_on_object"), ((b_of "$.2"), (VObj [((b_of "a"), (VStr (b_of "first"))); ((b_of "2"), (VStr (b_of "second"))); ((b_of "b"), (VStr (b_of "third")))]), WResult [(VStr (b_of "second"))]));
  ((b_of "dot_notation_with_single_quotes"), ((b_of "$.'key'"), (VObj [((b_of "key"), (VStr (b_of "value"))); ((b_of "'key'"), (VInt 42))]), WError (b_of "unexpected string literal at offset 6")));
  ((b_of "dot_notation_with_single_quotes_after_recursive_descent"), ((b_of "$..'key'"), (VObj [((b_of "object"), (VObj [((b_of "key"), (VStr (b_of "value"))); ((b_of "'key'"), (VInt 100)); ((b_of "array"), (VArr [(VObj [((b_of "key"), (VStr (b_of "something"))); ((b_of "'key'"), (VInt 0))]); (VObj [((b_of "key"), (VObj [((b_of "key"), (VStr (b_of "russian dolls")))])); ((b_of "'key'"), (VObj [((b_of "'key'"), (VInt 99))]))])]))])); ((b_of "key"), (VStr (b_of "top"))); ((b_of "'key'"), (VInt 42))]), WError (b_of "unexpected string literal at offset 7")));
  ((b_of "dot_notation_with_single_quotes_and_dot"), ((b_of "$.'some.key'"), (VObj [((b_of "some.key"), (VInt 42)); ((b_of "some"), (VObj [((b_of "key"), (VStr (b_of "value")))])); ((b_of "'some.key'"), (VInt 43))]), WError (b_of "unexpected string literal at offset 11")));
  ((b_of "dot_notation_with_wildcard_after_dot_notation_after_dot_notation_with_wildcard"), ((b_of "$.*.bar.*"), (VArr [(VObj [((b_of "bar"), (VArr [(VInt 42)]))])]), WResult [(VInt 42)]));
  ((b_of "dot_notation_with_wildcard_after_dot_notation_with_wildcard_on_nested_arrays"), ((b_of "$.*.*"), (VArr [(VArr [(VInt 1); (VInt 2); (VInt 3)]); (VArr [(VInt 4); (VInt 5); (VInt 6)])]), WResult [(VInt 1); (VInt 2); (VInt 3); (VInt 4); (VInt 5); (VInt 6)]));
  ((b_of "dot_notation_with_wildcard_after_recursive_descent"), ((b_of "$..*"), (VObj [((b_of "key"), (VStr (b_of "value"))); ((b_of "another key"), (VObj [((b_of "complex"), (VStr (b_of "string"))); ((b_of "primitives"), (VArr [(VInt 0); (VInt 1)]))]))]), WResult [(VStr (b_of "value")); (VObj [((b_of "complex"), (VStr (b_of "string"))); ((b_of "primitives"), (VArr [(VInt 0); (VInt 1)]))]); (VStr (b_of "string")); (VArr [(VInt 0); (VInt 1)]); (VInt 0); (VInt 1)]));
  ((b_of "dot_notation_with_wildcard_after_recursive_descent_on_null_value_array"), ((b_of "$..*"), (VArr [(VInt 40); VNil; (VInt 42)]), WResult [(VInt 40); VNil; (VInt 42)]));
  ((b_of "dot_notation_with_wildcard_after_recursive_descent_on_scalar"), ((b_of "$..*"), (VInt 42), WResult []));
  ((b_of "dot_notation_with_wildcard_on_array"), ((b_of "$.*"), (VArr [(VStr (b_of "string")); (VInt 42); (VObj [((b_of "key"), (VStr (b_of "value")))]); (VArr [(VInt 0); (VInt 1)])]), WResult [(VStr (b_of "string")); (VInt 42); (VObj [((b_of "key"), (VStr (b_of "value")))]); (VArr [(VInt 0); (VInt 1)])]));
  ((b_of "dot_notation_with_wildcard_on_empty_array"), ((b_of "$.*"), (VArr []), WResult []));
  ((b_of "dot_notation_with_wildcard_on_empty_object"), ((b_of "$.*"), (VObj []), WResult []));
  ((b_of "dot_notation_with_wildcard_on_object"), ((b_of "$.*"), (VObj [((b_of "some"), (VStr (b_of "string"))); ((b_of "int"), (VInt 42)); ((b_of "object"), (VObj [((b_of "key"), (VStr (b_of "value")))])); ((b_of "array"), (VArr [(VInt 0); (VInt 1)]))]), WResult [(VStr (b_of "string")); (VInt 42); (VObj [((b_of "key"), (VStr (b_of "value")))]); (VArr [(VInt 0); (VInt 1)])]));
  ((b_of "dot_notation_without_root"), ((b_of "key"), (VObj [((b_of "key"), (VStr (b_of "value")))]), WError (b_of "expected ""$"" at offset 2, got identifier")));
  ((b_of "filter_expression_after_dot_notation_with_wildcard_after_recursive_descent"), ((b_of "$..*[?(@.id>2)]"), (VArr [(VObj [((b_of "complext"), (VObj [((b_of "one"), (VArr [(VObj [((b_of "name"), (VStr (b_of "first"))); ((b_of "id"), (VInt 1))]); (VObj [((b_of "name"), (VStr (b_of "next"))); ((b_of "id"), (VInt 2))]); (VObj [((b_of "name"), (VStr (b_of "another"))); ((b_of "id"), (VInt 3))]); (VObj [((b_of "name"), (VStr (b_of "more"))); ((b_of "id"), (VInt 4))])])); ((b_of "more"), (VObj [((b_of "name"), (VStr (b_of "next to last"))); ((b_of "id"), (VInt 5))]))]))]); (VObj [((b_of "name"), (VStr (b_of "last"))); ((b_of "id"), (VInt 6))])]), WResult [(VObj [((b_of "name"), (VStr (b_of "next to last"))); ((b_of "id"), (VInt 5))]); (VObj [((b_of "name"), (VStr (b_of "another"))); ((b_of "id"), (VInt 3))]); (VObj [((b_of "name"), (VStr (b_of "more"))); ((b_of "id"), (VInt 4))])]));
  ((b_of "filter_expression_after_recursive_descent"), ((b_of "$..[?(@.id==2)]"), (VObj [((b_of "id"), (VInt 2)); ((b_of "more"), (VArr [(VObj [((b_of "id"), (VInt 2))]); (VObj [((b_of "more"), (VObj [((b_of "id"), (VInt 2))]))]); (VObj [((b_of "id"), (VObj [((b_of "id"), (VInt 2))]))]); (VArr [(VObj [((b_of "id"), (VInt 2))])])]))]), WResult [(VObj [((b_of "id"), (VInt 2))]); (VObj [((b_of "id"), (VInt 2))]); (VObj [((b_of "id"), (VInt 2))]); (VObj [((b_of "id"), (VInt 2))])]));
  ((b_of "filter_expression_on_object"), ((b_of "$[?(@.key)]"), (VObj [((b_of "key"), (VInt 42)); ((b_of "another"), (VObj [((b_of "key"), (VInt 1))]))]), WResult [(VObj [((b_of "key"), (VInt 1))])]));
  ((b_of "filter_expression_with_addition"), ((b_of "$[?(@.key+50==100)]"), (VArr [(VObj [((b_of "key"), (VInt 60))]); (VObj [((b_of "key"), (VInt 50))]); (VObj [((b_of "key"), (VInt 10))]); (VObj [((b_of "key"), (VInt (-50)))]); (VObj [((b_of "key+50"), (VInt 100))])]), WParse));
  ((b_of "filter_expression_with_boolean_and_operator"), ((b_of "$[?(@.key>42 && @.key<44)]"), (VArr [(VObj [((b_of "key"), (VInt 42))]); (VObj [((b_of "key"), (VInt 43))]); (VObj [((b_of "key"), (VInt 44))])]), WResult [(VObj [((b_of "key"), (VInt 43))])]));
  ((b_of "filter_expression_with_boolean_or_operator"), ((b_of "$[?(@.key>43 || @.key<43)]"), (VArr [(VObj [((b_of "key"), (VInt 42))]); (VObj [((b_of "key"), (VInt 43))]); (VObj [((b_of "key"), (VInt 44))])]), WResult [(VObj [((b_of "key"), (VInt 42))]); (VObj [((b_of "key"), (VInt 44))])]));
  ((b_of "filter_expression_with_bracket_notation"), ((b_of "$[?(@['key']==42)]"), (VArr [(VObj [((b_of "key"), (VInt 0))]); (VObj [((b_of "key"), (VInt 42))]); (VObj [((b_of "key"), (VInt (-1)))]); (VObj [((b_of "key"), (VInt 41))]); (VObj [((b_of "key"), (VInt 43))]); (VObj [((b_of "key"), (VFloat (S754_finite false 5910988584672612 (-47))))]); (VObj [((b_of "key"), (VFloat (S754_finite false 5910960437174940 (-47))))]); (VObj [((b_of "key"), (VInt 100))]); (VObj [((b_of "some"), (VStr (b_of "value")))])]), WResult [(VObj [((b_of "key"), (VInt 42))])]));
  ((b_of "filter_expression_with_bracket_notation_and_current_object_literal"), ((b_of "$[?(@['@key']==42)]"), (VArr [(VObj [((b_of "@key"), (VInt 0))]); (VObj [((b_of "@key"), (VInt 42))]); (VObj [((b_of "key"), (VInt 42))]); (VObj [((b_of "@key"), (VInt 43))]); (VObj [((b_of "some"), (VStr (b_of "value")))])]), WResult [(VObj [((b_of "@key"), (VInt 42))])]));
  ((b_of "filter_expression_with_bracket_notation_with_-1"), ((b_of "$[?(@[-1]==2)]"), (VArr [(VArr [(VInt 2); (VInt 3)]); (VArr [(VStr (b_of "a"))]); (VArr [(VInt 0); (VInt 2)]); (VArr [(VInt 2)])]), WResult [(VArr [(VInt 0); (VInt 2)]); (VArr [(VInt 2)])]));
  ((b_of "filter_expression_with_bracket_notation_with_number"), ((b_of "$[?(@[1]=='b')]"), (VArr [(VArr [(VStr (b_of "a")); (VStr (b_of "b"))]); (VArr [(VStr (b_of "x")); (VStr (b_of "y"))])]), WResult [(VArr [(VStr (b_of "a")); (VStr (b_of "b"))])]));
  ((b_of "filter_expression_with_bracket_notation_with_number_on_object"), ((b_of "$[?(@[1]=='b')]"), (VObj [((b_of "1"), (VArr [(VStr (b_of "a")); (VStr (b_of "b"))])); ((b_of "2"), (VArr [(VStr (b_of "x")); (VStr (b_of "y"))]))]), WResult [(VArr [(VStr (b_of "a")); (VStr (b_of "b"))])]));
  ((b_of "filter_expression_with_current_object"), ((b_of "$[?(@)]"), (VArr [(VStr (b_of "some value")); VNil; (VStr (b_of "value")); (VInt 0); (VInt 1); (VInt (-1)); (VStr (b_of "")); (VArr []); (VObj []); (VBool false); (VBool true)]), WResult [(VStr (b_of "some value")); VNil; (VStr (b_of "value")); (VInt 0); (VInt 1); (VInt (-1)); (VStr (b_of "")); (VArr []); (VObj []); (VBool false); (VBool true)]));
  ((b_of "filter_expression_with_different_grouped_operators"), ((b_of "$[?(@.a && (@.b || @.c))]"), (VArr [(VObj [((b_of "a"), (VBool true))]); (VObj [((b_of "a"), (VBool true)); ((b_of "b"), (VBool true))]); (VObj [((b_of "a"), (VBool true)); ((b_of "b"), (VBool true)); ((b_of "c"), (VBool true))]); (VObj [((b_of "b"), (VBool true)); ((b_of "c"), (VBool true))]); (VObj [((b_of "a"), (VBool true)); ((b_of "c"), (VBool true))]); (VObj [((b_of "c"), (VBool true))]); (VObj [((b_of "b"), (VBool true))])]), WResult [(VObj [((b_of "a"), (VBool true)); ((b_of "b"), (VBool true))]); (VObj [((b_of "a"), (VBool true)); ((b_of "b"), (VBool true)); ((b_of "c"), (VBool true))]); (VObj [((b_of "a"), (VBool true)); ((b_of "c"), (VBool true))])]));
  ((b_of "filter_expression_with_different_ungrouped_operators"), ((b_of "$[?(@.a && @.b || @.c)]"), (VArr [(VObj [((b_of "a"), (VBool true)); ((b_of "b"), (VBool true))]); (VObj [((b_of "c"), (VBool true))]); (VObj [((b_of "d"), (VBool true))])]), WParse));
  ((b_of "filter_expression_with_division"), ((b_of "$[?(@.key/10==5)]"), (VArr [(VObj [((b_of "key"), (VInt 60))]); (VObj [((b_of "key"), (VInt 50))]); (VObj [((b_of "key"), (VInt 10))]); (VObj [((b_of "key"), (VInt (-50)))]); (VObj [((b_of "key/10"), (VInt 5))])]), WParse));
  ((b_of "filter_expression_with_empty_expression"), ((b_of "$[?()]"), (VArr [(VInt 1); (VObj [((b_of "key"), (VInt 42))]); (VStr (b_of "value")); VNil]), WError (b_of "unexpected token ) in expression term")));
  ((b_of "filter_expression_with_equals"), ((b_of "$[?(@.key==42)]"), (VArr [(VObj [((b_of "key"), (VInt 0))]); (VObj [((b_of "key"), (VInt 42))]); (VObj [((b_of "key"), (VInt (-1)))]); (VObj [((b_of "key"), (VInt 1))]); (VObj [((b_of "key"), (VInt 41))]); (VObj [((b_of "key"), (VInt 43))]); (VObj [((b_of "key"), (VFloat (S754_finite false 5910988584672612 (-47))))]); (VObj [((b_of "key"), (VFloat (S754_finite false 5910960437174940 (-47))))]); (VObj [((b_of "key"), (VInt 100))]); (VObj [((b_of "key"), (VStr (b_of "some")))]); (VObj [((b_of "key"), (VStr (b_of "42")))]); (VObj [((b_of "key"), VNil)]); (VObj [((b_of "key"), (VInt 420))]); (VObj [((b_of "key"), (VStr (b_of "")))]); (VObj [((b_of "key"), (VObj []))]); (VObj [((b_of "key"), (VArr []))]); (VObj [((b_of "key"), (VArr [(VInt 42)]))]); (VObj [((b_of "key"), (VObj [((b_of "key"), (VInt 42))]))]); (VObj [((b_of "key"), (VObj [((b_of "some"), (VInt 42))]))]); (VObj [((b_of "some"), (VStr (b_of "value")))])]), WResult [(VObj [((b_of "key"), (VInt 42))])]));
  ((b_of "filter_expression_with_equals_array"), ((b_of "$[?(@.d==[""v1"",""v2""])]"), (VArr [(VObj [((b_of "d"), (VArr [(VStr (b_of "v1")); (VStr (b_of "v2"))]))]); (VObj [((b_of "d"), (VArr [(VStr (b_of "a")); (VStr (b_of "b"))]))]); (VObj [((b_of "d"), (VStr (b_of "v1")))]); (VObj [((b_of "d"), (VStr (b_of "v2")))]); (VObj [((b_of "d"), (VObj []))]); (VObj [((b_of "d"), (VArr []))]); (VObj [((b_of "d"), VNil)]); (VObj [((b_of "d"), (VInt (-1)))]); (VObj [((b_of "d"), (VInt 0))]); (VObj [((b_of "d"), (VInt 1))]); (VObj [((b_of "d"), (VStr (b_of "['v1','v2']")))]); (VObj [((b_of "d"), (VStr (b_of "['v1', 'v2']")))]); (VObj [((b_of "d"), (VStr (b_of "v1,v2")))]); (VObj [((b_of "d"), (VStr (b_of "[""v1"", ""v2""]")))]); (VObj [((b_of "d"), (VStr (b_of "[""v1"",""v2""]")))])]), WParse));
  ((b_of "filter_expression_with_equals_array_for_array_slice_with_range_1"), ((b_of "$[?(@[0:1]==[1])]"), (VArr [(VArr [(VInt 1); (VInt 2); (VInt 3)]); (VArr [(VInt 1)]); (VArr [(VInt 2); (VInt 3)]); (VInt 1); (VInt 2)]), WError (b_of "expected ""]"" at offset 7, got unexpected character ':' at offset 7")));
  ((b_of "filter_expression_with_equals_array_for_dot_notation_with_star"), ((b_of "$[?(@.*==[1,2])]"), (VArr [(VArr [(VInt 1); (VInt 2)]); (VArr [(VInt 2); (VInt 3)]); (VArr [(VInt 1)]); (VArr [(VInt 2)]); (VArr [(VInt 1); (VInt 2); (VInt 3)]); (VInt 1); (VInt 2); (VInt 3)]), WError (b_of "expected identifier in '.' selection")));
  ((b_of "filter_expression_with_equals_array_with_single_quotes"), ((b_of "$[?(@.d==['v1','v2'])]"), (VArr [(VObj [((b_of "d"), (VArr [(VStr (b_of "v1")); (VStr (b_of "v2"))]))]); (VObj [((b_of "d"), (VArr [(VStr (b_of "a")); (VStr (b_of "b"))]))]); (VObj [((b_of "d"), (VStr (b_of "v1")))]); (VObj [((b_of "d"), (VStr (b_of "v2")))]); (VObj [((b_of "d"), (VObj []))]); (VObj [((b_of "d"), (VArr []))]); (VObj [((b_of "d"), VNil)]); (VObj [((b_of "d"), (VInt (-1)))]); (VObj [((b_of "d"), (VInt 0))]); (VObj [((b_of "d"), (VInt 1))]); (VObj [((b_of "d"), (VStr (b_of "['v1','v2']")))]); (VObj [((b_of "d"), (VStr (b_of "['v1', 'v2']")))]); (VObj [((b_of "d"), (VStr (b_of "v1,v2")))]); (VObj [((b_of "d"), (VStr (b_of "[""v1"", ""v2""]")))]); (VObj [((b_of "d"), (VStr (b_of "[""v1"",""v2""]")))])]), WParse));
  ((b_of "filter_expression_with_equals_false"), ((b_of "$[?(@.key==false)]"), (VArr [(VObj [((b_of "some"), (VStr (b_of "some value")))]); (VObj [((b_of "key"), (VBool true))]); (VObj [((b_of "key"), (VBool false))]); (VObj [((b_of "key"), VNil)]); (VObj [((b_of "key"), (VStr (b_of "value")))]); (VObj [((b_of "key"), (VStr (b_of "")))]); (VObj [((b_of "key"), (VInt 0))]); (VObj [((b_of "key"), (VInt 1))]); (VObj [((b_of "key"), (VInt (-1)))]); (VObj [((b_of "key"), (VInt 42))]); (VObj [((b_of "key"), (VObj []))]); (VObj [((b_of "key"), (VArr []))])]), WResult [(VObj [((b_of "key"), (VBool false))])]));
  ((b_of "filter_expression_with_equals_null"), ((b_of "$[?(@.key==null)]"), (VArr [(VObj [((b_of "some"), (VStr (b_of "some value")))]); (VObj [((b_of "key"), (VBool true))]); (VObj [((b_of "key"), (VBool false))]); (VObj [((b_of "key"), VNil)]); (VObj [((b_of "key"), (VStr (b_of "value")))]); (VObj [((b_of "key"), (VStr (b_of "")))]); (VObj [((b_of "key"), (VInt 0))]); (VObj [((b_of "key"), (VInt 1))]); (VObj [((b_of "key"), (VInt (-1)))]); (VObj [((b_of "key"), (VInt 42))]); (VObj [((b_of "key"), (VObj []))]); (VObj [((b_of "key"), (VArr []))])]), WResult [(VObj [((b_of "key"), VNil)])]));
  ((b_of "filter_expression_with_equals_number_for_array_slice_with_range_1"), ((b_of "$[?(@[0:1]==1)]"), (VArr [(VArr [(VInt 1); (VInt 2); (VInt 3)]); (VArr [(VInt 1)]); (VArr [(VInt 2); (VInt 3)]); (VInt 1); (VInt 2)]), WError (b_of "expected ""]"" at offset 7, got unexpected character ':' at offset 7")));
  ((b_of "filter_expression_with_equals_number_for_bracket_notation_with_star"), ((b_of "$[?(@[*]==2)]"), (VArr [(VArr [(VInt 1); (VInt 2)]); (VArr [(VInt 2); (VInt 3)]); (VArr [(VInt 1)]); (VArr [(VInt 2)]); (VArr [(VInt 1); (VInt 2); (VInt 3)]); (VInt 1); (VInt 2); (VInt 3)]), WError (b_of "unexpected token * in expression term")));
  ((b_of "filter_expression_with_equals_number_for_dot_notation_with_star"), ((b_of "$[?(@.*==2)]"), (VArr [(VArr [(VInt 1); (VInt 2)]); (VArr [(VInt 2); (VInt 3)]); (VArr [(VInt 1)]); (VArr [(VInt 2)]); (VArr [(VInt 1); (VInt 2); (VInt 3)]); (VInt 1); (VInt 2); (VInt 3)]), WError (b_of "expected identifier in '.' selection")));
  ((b_of "filter_expression_with_equals_number_with_fraction"), ((b_of "$[?(@.key==-0.123e2)]"), (VArr [(VObj [((b_of "key"), (VFloat (S754_finite true 6924284427082138 (-49))))]); (VObj [((b_of "key"), (VFloat (S754_finite true 8863084066665136 (-56))))]); (VObj [((b_of "key"), (VInt (-12)))]); (VObj [((b_of "key"), (VFloat (S754_finite false 6924284427082138 (-49))))]); (VObj [((b_of "key"), (VInt 2))]); (VObj [((b_of "key"), (VStr (b_of "-0.123e2")))])]), WResult [(VObj [((b_of "key"), (VFloat (S754_finite true 6924284427082138 (-49))))])]));
  ((b_of "filter_expression_with_equals_number_with_leading_zeros"), ((b_of "$[?(@.key==010)]"), (VArr [(VObj [((b_of "key"), (VStr (b_of "010")))]); (VObj [((b_of "key"), (VStr (b_of "10")))]); (VObj [((b_of "key"), (VInt 10))]); (VObj [((b_of "key"), (VInt 0))]); (VObj [((b_of "key"), (VInt 8))])]), WParse));
  ((b_of "filter_expression_with_equals_object"), ((b_of "$[?(@.d=={""k"":""v""})]"), (VArr [(VObj [((b_of "d"), (VObj [((b_of "k"), (VStr (b_of "v")))]))]); (VObj [((b_of "d"), (VObj [((b_of "a"), (VStr (b_of "b")))]))]); (VObj [((b_of "d"), (VStr (b_of "k")))]); (VObj [((b_of "d"), (VStr (b_of "v")))]); (VObj [((b_of "d"), (VObj []))]); (VObj [((b_of "d"), (VArr []))]); (VObj [((b_of "d"), VNil)]); (VObj [((b_of "d"), (VInt (-1)))]); (VObj [((b_of "d"), (VInt 0))]); (VObj [((b_of "d"), (VInt 1))]); (VObj [((b_of "d"), (VStr (b_of "[object Object]")))]); (VObj [((b_of "d"), (VStr (b_of "{""k"": ""v""}")))]); (VObj [((b_of "d"), (VStr (b_of "{""k"":""v""}")))]); (VStr (b_of "v"))]), WError (b_of "unexpected character '{' at offset 9")));
  ((b_of "filter_expression_with_equals_on_array_of_numbers"), ((b_of "$[?(@==42)]"), (VArr [(VInt 0); (VInt 42); (VInt (-1)); (VInt 41); (VInt 43); (VFloat (S754_finite false 5910988584672612 (-47))); (VFloat (S754_finite false 5910960437174940 (-47))); VNil; (VInt 100)]), WResult [(VInt 42)]));
  ((b_of "filter_expression_with_equals_on_array_without_match"), ((b_of "$[?(@.key==43)]"), (VArr [(VObj [((b_of "key"), (VInt 42))])]), WResult []));
  ((b_of "filter_expression_with_equals_on_object"), ((b_of "$[?(@.key==42)]"), (VObj [((b_of "a"), (VObj [((b_of "key"), (VInt 0))])); ((b_of "b"), (VObj [((b_of "key"), (VInt 42))])); ((b_of "c"), (VObj [((b_of "key"), (VInt (-1)))])); ((b_of "d"), (VObj [((b_of "key"), (VInt 41))])); ((b_of "e"), (VObj [((b_of "key"), (VInt 43))])); ((b_of "f"), (VObj [((b_of "key"), (VFloat (S754_finite false 5910988584672612 (-47))))])); ((b_of "g"), (VObj [((b_of "key"), (VFloat (S754_finite false 5910960437174940 (-47))))])); ((b_of "h"), (VObj [((b_of "key"), (VInt 100))])); ((b_of "i"), (VObj [((b_of "some"), (VStr (b_of "value")))]))]), WResult [(VObj [((b_of "key"), (VInt 42))])]));
  ((b_of "filter_expression_with_equals_on_object_with_key_matching_query"), ((b_of "$[?(@.id==2)]"), (VObj [((b_of "id"), (VInt 2))]), WResult []));
  ((b_of "filter_expression_with_equals_string"), ((b_of "$[?(@.key==""value"")]"), (VArr [(VObj [((b_of "key"), (VStr (b_of "some")))]); (VObj [((b_of "key"), (VStr (b_of "value")))]); (VObj [((b_of "key"), VNil)]); (VObj [((b_of "key"), (VInt 0))]); (VObj [((b_of "key"), (VInt 1))]); (VObj [((b_of "key"), (VInt (-1)))]); (VObj [((b_of "key"), (VStr (b_of "")))]); (VObj [((b_of "key"), (VObj []))]); (VObj [((b_of "key"), (VArr []))]); (VObj [((b_of "key"), (VStr (b_of "valuemore")))]); (VObj [((b_of "key"), (VStr (b_of "morevalue")))]); (VObj [((b_of "key"), (VArr [(VStr (b_of "value"))]))]); (VObj [((b_of "key"), (VObj [((b_of "some"), (VStr (b_of "value")))]))]); (VObj [((b_of "key"), (VObj [((b_of "key"), (VStr (b_of "value")))]))]); (VObj [((b_of "some"), (VStr (b_of "value")))])]), WResult [(VObj [((b_of "key"), (VStr (b_of "value")))])]));
  ((b_of "filter_expression_with_equals_string_with_current_object_literal"), ((b_of "$[?(@.key==""hi@example.com"")]"), (VArr [(VObj [((b_of "key"), (VStr (b_of "some")))]); (VObj [((b_of "key"), (VStr (b_of "value")))]); (VObj [((b_of "key"), (VStr (b_of "hi@example.com")))])]), WResult [(VObj [((b_of "key"), (VStr (b_of "hi@example.com")))])]));
  ((b_of "filter_expression_with_equals_string_with_dot_literal"), ((b_of "$[?(@.key==""some.value"")]"), (VArr [(VObj [((b_of "key"), (VStr (b_of "some")))]); (VObj [((b_of "key"), (VStr (b_of "value")))]); (VObj [((b_of "key"), (VStr (b_of "some.value")))])]), WResult [(VObj [((b_of "key"), (VStr (b_of "some.value")))])]));
  ((b_of "filter_expression_with_equals_string_with_single_quotes"), ((b_of "$[?(@.key=='value')]"), (VArr [(VObj [((b_of "key"), (VStr (b_of "some")))]); (VObj [((b_of "key"), (VStr (b_of "value")))])]), WResult [(VObj [((b_of "key"), (VStr (b_of "value")))])]));
  ((b_of "filter_expression_with_equals_true"), ((b_of "$[?(@.key==true)]"), (VArr [(VObj [((b_of "some"), (VStr (b_of "some value")))]); (VObj [((b_of "key"), (VBool true))]); (VObj [((b_of "key"), (VBool false))]); (VObj [((b_of "key"), VNil)]); (VObj [((b_of "key"), (VStr (b_of "value")))]); (VObj [((b_of "key"), (VStr (b_of "")))]); (VObj [((b_of "key"), (VInt 0))]); (VObj [((b_of "key"), (VInt 1))]); (VObj [((b_of "key"), (VInt (-1)))]); (VObj [((b_of "key"), (VInt 42))]); (VObj [((b_of "key"), (VObj []))]); (VObj [((b_of "key"), (VArr []))])]), WResult [(VObj [((b_of "key"), (VBool true))])]));
  ((b_of "filter_expression_with_equals_with_root_reference"), ((b_of "$.items[?(@.key==$.value)]"), (VObj [((b_of "value"), (VInt 42)); ((b_of "items"), (VArr [(VObj [((b_of "key"), (VInt 10))]); (VObj [((b_of "key"), (VInt 42))]); (VObj [((b_of "key"), (VInt 50))])]))]), WResult [(VObj [((b_of "key"), (VInt 42))])]));
  ((b_of "filter_expression_with_greater_than"), ((b_of "$[?(@.key>42)]"), (VArr [(VObj [((b_of "key"), (VInt 0))]); (VObj [((b_of "key"), (VInt 42))]); (VObj [((b_of "key"), (VInt (-1)))]); (VObj [((b_of "key"), (VInt 41))]); (VObj [((b_of "key"), (VInt 43))]); (VObj [((b_of "key"), (VFloat (S754_finite false 5910988584672612 (-47))))]); (VObj [((b_of "key"), (VFloat (S754_finite false 5910960437174940 (-47))))]); (VObj [((b_of "key"), (VInt 100))]); (VObj [((b_of "key"), (VStr (b_of "43")))]); (VObj [((b_of "key"), (VStr (b_of "42")))]); (VObj [((b_of "key"), (VStr (b_of "41")))]); (VObj [((b_of "key"), (VStr (b_of "value")))]); (VObj [((b_of "some"), (VStr (b_of "value")))])]), WResult [(VObj [((b_of "key"), (VInt 43))]); (VObj [((b_of "key"), (VFloat (S754_finite false 5910988584672612 (-47))))]); (VObj [((b_of "key"), (VInt 100))])]));
  ((b_of "filter_expression_with_greater_than_or_equal"), ((b_of "$[?(@.key>=42)]"), (VArr [(VObj [((b_of "key"), (VInt 0))]); (VObj [((b_of "key"), (VInt 42))]); (VObj [((b_of "key"), (VInt (-1)))]); (VObj [((b_of "key"), (VInt 41))]); (VObj [((b_of "key"), (VInt 43))]); (VObj [((b_of "key"), (VFloat (S754_finite false 5910988584672612 (-47))))]); (VObj [((b_of "key"), (VFloat (S754_finite false 5910960437174940 (-47))))]); (VObj [((b_of "key"), (VInt 100))]); (VObj [((b_of "key"), (VStr (b_of "43")))]); (VObj [((b_of "key"), (VStr (b_of "42")))]); (VObj [((b_of "key"), (VStr (b_of "41")))]); (VObj [((b_of "key"), (VStr (b_of "value")))]); (VObj [((b_of "some"), (VStr (b_of "value")))])]), WResult [(VObj [((b_of "key"), (VInt 42))]); (VObj [((b_of "key"), (VInt 43))]); (VObj [((b_of "key"), (VFloat (S754_finite false 5910988584672612 (-47))))]); (VObj [((b_of "key"), (VInt 100))])]));
  ((b_of "filter_expression_with_in_array_of_values"), ((b_of "$[?(@.d in [2, 3])]"), (VArr [(VObj [((b_of "d"), (VInt 1))]); (VObj [((b_of "d"), (VInt 2))]); (VObj [((b_of "d"), (VInt 1))]); (VObj [((b_of "d"), (VInt 3))]); (VObj [((b_of "d"), (VInt 4))])]), WNothing));
  ((b_of "filter_expression_with_in_current_object"), ((b_of "$[?(2 in @.d)]"), (VArr [(VObj [((b_of "d"), (VArr [(VInt 1); (VInt 2); (VInt 3)]))]); (VObj [((b_of "d"), (VArr [(VInt 2)]))]); (VObj [((b_of "d"), (VArr [(VInt 1)]))]); (VObj [((b_of "d"), (VArr [(VInt 3); (VInt 4)]))]); (VObj [((b_of "d"), (VArr [(VInt 4); (VInt 2)]))])]), WNothing));
  ((b_of "filter_expression_with_less_than"), ((b_of "$[?(@.key<42)]"), (VArr [(VObj [((b_of "key"), (VInt 0))]); (VObj [((b_of "key"), (VInt 42))]); (VObj [((b_of "key"), (VInt (-1)))]); (VObj [((b_of "key"), (VInt 41))]); (VObj [((b_of "key"), (VInt 43))]); (VObj [((b_of "key"), (VFloat (S754_finite false 5910988584672612 (-47))))]); (VObj [((b_of "key"), (VFloat (S754_finite false 5910960437174940 (-47))))]); (VObj [((b_of "key"), (VInt 100))]); (VObj [((b_of "key"), (VStr (b_of "43")))]); (VObj [((b_of "key"), (VStr (b_of "42")))]); (VObj [((b_of "key"), (VStr (b_of "41")))]); (VObj [((b_of "key"), (VStr (b_of "value")))]); (VObj [((b_of "some"), (VStr (b_of "value")))])]), WResult [(VObj [((b_of "key"), (VInt 0))]); (VObj [((b_of "key"), (VInt (-1)))]); (VObj [((b_of "key"), (VInt 41))]); (VObj [((b_of "key"), (VFloat (S754_finite false 5910960437174940 (-47))))])]));
  ((b_of "filter_expression_with_less_than_or_equal"), ((b_of "$[?(@.key<=42)]"), (VArr [(VObj [((b_of "key"), (VInt 0))]); (VObj [((b_of "key"), (VInt 42))]); (VObj [((b_of "key"), (VInt (-1)))]); (VObj [((b_of "key"), (VInt 41))]); (VObj [((b_of "key"), (VInt 43))]); (VObj [((b_of "key"), (VFloat (S754_finite false 5910988584672612 (-47))))]); (VObj [((b_of "key"), (VFloat (S754_finite false 5910960437174940 (-47))))]); (VObj [((b_of "key"), (VInt 100))]); (VObj [((b_of "key"), (VStr (b_of "43")))]); (VObj [((b_of "key"), (VStr (b_of "42")))]); (VObj [((b_of "key"), (VStr (b_of "41")))]); (VObj [((b_of "key"), (VStr (b_of "value")))]); (VObj [((b_of "some"), (VStr (b_of "value")))])]), WResult [(VObj [((b_of "key"), (VInt 0))]); (VObj [((b_of "key"), (VInt 42))]); (VObj [((b_of "key"), (VInt (-1)))]); (VObj [((b_of "key"), (VInt 41))]); (VObj [((b_of "key"), (VFloat (S754_finite false 5910960437174940 (-47))))])]));
  ((b_of "filter_expression_with_multiplication"), ((b_of "$[?(@.key*2==100)]"), (VArr [(VObj [((b_of "key"), (VInt 60))]); (VObj [((b_of "key"), (VInt 50))]); (VObj [((b_of "key"), (VInt 10))]); (VObj [((b_of "key"), (VInt (-50)))]); (VObj [((b_of "key*2"), (VInt 100))])]), WParse));
  ((b_of "filter_expression_with_negation_and_equals"), ((b_of "$[?(!(@.key==42))]"), (VArr [(VObj [((b_of "key"), (VInt 0))]); (VObj [((b_of "key"), (VInt 42))]); (VObj [((b_of "key"), (VInt (-1)))]); (VObj [((b_of "key"), (VInt 41))]); (VObj [((b_of "key"), (VInt 43))]); (VObj [((b_of "key"), (VFloat (S754_finite false 5910988584672612 (-47))))]); (VObj [((b_of "key"), (VFloat (S754_finite false 5910960437174940 (-47))))]); (VObj [((b_of "key"), (VInt 100))]); (VObj [((b_of "key"), (VStr (b_of "43")))]); (VObj [((b_of "key"), (VStr (b_of "42")))]); (VObj [((b_of "key"), (VStr (b_of "41")))]); (VObj [((b_of "key"), (VStr (b_of "value")))]); (VObj [((b_of "some"), (VStr (b_of "value")))])]), WResult [(VObj [((b_of "key"), (VInt 0))]); (VObj [((b_of "key"), (VInt (-1)))]); (VObj [((b_of "key"), (VInt 41))]); (VObj [((b_of "key"), (VInt 43))]); (VObj [((b_of "key"), (VFloat (S754_finite false 5910988584672612 (-47))))]); (VObj [((b_of "key"), (VFloat (S754_finite false 5910960437174940 (-47))))]); (VObj [((b_of "key"), (VInt 100))]); (VObj [((b_of "key"), (VStr (b_of "43")))]); (VObj [((b_of "key"), (VStr (b_of "42")))]); (VObj [((b_of "key"), (VStr (b_of "41")))]); (VObj [((b_of "key"), (VStr (b_of "value")))]); (VObj [((b_of "some"), (VStr (b_of "value")))])]));
  ((b_of "filter_expression_with_negation_and_less_than"), ((b_of "$[?(!(@.key<42))]"), (VArr [(VObj [((b_of "key"), (VInt 0))]); (VObj [((b_of "key"), (VInt 42))]); (VObj [((b_of "key"), (VInt (-1)))]); (VObj [((b_of "key"), (VInt 41))]); (VObj [((b_of "key"), (VInt 43))]); (VObj [((b_of "key"), (VFloat (S754_finite false 5910988584672612 (-47))))]); (VObj [((b_of "key"), (VFloat (S754_finite false 5910960437174940 (-47))))]); (VObj [((b_of "key"), (VInt 100))]); (VObj [((b_of "key"), (VStr (b_of "43")))]); (VObj [((b_of "key"), (VStr (b_of "42")))]); (VObj [((b_of "key"), (VStr (b_of "41")))]); (VObj [((b_of "key"), (VStr (b_of "value")))]); (VObj [((b_of "some"), (VStr (b_of "value")))])]), WResult [(VObj [((b_of "key"), (VInt 42))]); (VObj [((b_of "key"), (VInt 43))]); (VObj [((b_of "key"), (VFloat (S754_finite false 5910988584672612 (-47))))]); (VObj [((b_of "key"), (VInt 100))]); (VObj [((b_of "key"), (VStr (b_of "43")))]); (VObj [((b_of "key"), (VStr (b_of "42")))]); (VObj [((b_of "key"), (VStr (b_of "41")))]); (VObj [((b_of "key"), (VStr (b_of "value")))]); (VObj [((b_of "some"), (VStr (b_of "value")))])]));
  ((b_of "filter_expression_with_not_equals"), ((b_of "$[?(@.key!=42)]"), (VArr [(VObj [((b_of "key"), (VInt 0))]); (VObj [((b_of "key"), (VInt 42))]); (VObj [((b_of "key"), (VInt (-1)))]); (VObj [((b_of "key"), (VInt 1))]); (VObj [((b_of "key"), (VInt 41))]); (VObj [((b_of "key"), (VInt 43))]); (VObj [((b_of "key"), (VFloat (S754_finite false 5910988584672612 (-47))))]); (VObj [((b_of "key"), (VFloat (S754_finite false 5910960437174940 (-47))))]); (VObj [((b_of "key"), (VInt 100))]); (VObj [((b_of "key"), (VStr (b_of "some")))]); (VObj [((b_of "key"), (VStr (b_of "42")))]); (VObj [((b_of "key"), VNil)]); (VObj [((b_of "key"), (VInt 420))]); (VObj [((b_of "key"), (VStr (b_of "")))]); (VObj [((b_of "key"), (VObj []))]); (VObj [((b_of "key"), (VArr []))]); (VObj [((b_of "key"), (VArr [(VInt 42)]))]); (VObj [((b_of "key"), (VObj [((b_of "key"), (VInt 42))]))]); (VObj [((b_of "key"), (VObj [((b_of "some"), (VInt 42))]))]); (VObj [((b_of "some"), (VStr (b_of "value")))])]), WResult [(VObj [((b_of "key"), (VInt 0))]); (VObj [((b_of "key"), (VInt (-1)))]); (VObj [((b_of "key"), (VInt 1))]); (VObj [((b_of "key"), (VInt 41))]); (VObj [((b_of "key"), (VInt 43))]); (VObj [((b_of "key"), (VFloat (S754_finite false 5910988584672612 (-47))))]); (VObj [((b_of "key"), (VFloat (S754_finite false 5910960437174940 (-47))))]); (VObj [((b_of "key"), (VInt 100))]); (VObj [((b_of "key"), (VStr (b_of "some")))]); (VObj [((b_of "key"), (VStr (b_of "42")))]); (VObj [((b_of "key"), VNil)]); (VObj [((b_of "key"), (VInt 420))]); (VObj [((b_of "key"), (VStr (b_of "")))]); (VObj [((b_of "key"), (VObj []))]); (VObj [((b_of "key"), (VArr []))]); (VObj [((b_of "key"), (VArr [(VInt 42)]))]); (VObj [((b_of "key"), (VObj [((b_of "key"), (VInt 42))]))]); (VObj [((b_of "key"), (VObj [((b_of "some"), (VInt 42))]))]); (VObj [((b_of "some"), (VStr (b_of "value")))])]));
  ((b_of "filter_expression_with_regular_expression"), ((b_of "$[?(@.name=~/hello.*/)]"), (VArr [(VObj [((b_of "name"), (VStr (b_of "hullo world")))]); (VObj [((b_of "name"), (VStr (b_of "hello world")))]); (VObj [((b_of "name"), (VStr (b_of "yes hello world")))]); (VObj [((b_of "name"), (VStr (b_of "HELLO WORLD")))]); (VObj [((b_of "name"), (VStr (b_of "good bye")))])]), WNothing));
  ((b_of "filter_expression_with_single_equal"), ((b_of "$[?(@.key=42)]"), (VArr [(VObj [((b_of "key"), (VInt 0))]); (VObj [((b_of "key"), (VInt 42))]); (VObj [((b_of "key"), (VInt (-1)))]); (VObj [((b_of "key"), (VInt 1))]); (VObj [((b_of "key"), (VInt 41))]); (VObj [((b_of "key"), (VInt 43))]); (VObj [((b_of "key"), (VFloat (S754_finite false 5910988584672612 (-47))))]); (VObj [((b_of "key"), (VFloat (S754_finite false 5910960437174940 (-47))))]); (VObj [((b_of "key"), (VInt 100))]); (VObj [((b_of "key"), (VStr (b_of "some")))]); (VObj [((b_of "key"), (VStr (b_of "42")))]); (VObj [((b_of "key"), VNil)]); (VObj [((b_of "key"), (VInt 420))]); (VObj [((b_of "key"), (VStr (b_of "")))]); (VObj [((b_of "key"), (VObj []))]); (VObj [((b_of "key"), (VArr []))]); (VObj [((b_of "key"), (VArr [(VInt 42)]))]); (VObj [((b_of "key"), (VObj [((b_of "key"), (VInt 42))]))]); (VObj [((b_of "key"), (VObj [((b_of "some"), (VInt 42))]))]); (VObj [((b_of "some"), (VStr (b_of "value")))])]), WError (b_of "expected "")"" at offset 9, got =")));
  ((b_of "filter_expression_with_subfilter"), ((b_of "$[?(@.a[?(@.price>10)])]"), (VArr [(VObj [((b_of "a"), (VArr [(VObj [((b_of "price"), (VInt 1))]); (VObj [((b_of "price"), (VInt 3))])]))]); (VObj [((b_of "a"), (VArr [(VObj [((b_of "price"), (VInt 11))])]))]); (VObj [((b_of "a"), (VArr [(VObj [((b_of "price"), (VInt 8))]); (VObj [((b_of "price"), (VInt 12))]); (VObj [((b_of "price"), (VInt 3))])]))]); (VObj [((b_of "a"), (VArr []))])]), WError (b_of "unexpected character '?' at offset 8")));
  ((b_of "filter_expression_with_subpaths"), ((b_of "$[?(@.address.city=='Berlin')]"), (VArr [(VObj [((b_of "address"), (VObj [((b_of "city"), (VStr (b_of "Berlin")))]))]); (VObj [((b_of "address"), (VObj [((b_of "city"), (VStr (b_of "London")))]))])]), WResult [(VObj [((b_of "address"), (VObj [((b_of "city"), (VStr (b_of "Berlin")))]))])]));
  ((b_of "filter_expression_with_subtraction"), ((b_of "$[?(@.key-50==-100)]"), (VArr [(VObj [((b_of "key"), (VInt 60))]); (VObj [((b_of "key"), (VInt 50))]); (VObj [((b_of "key"), (VInt 10))]); (VObj [((b_of "key"), (VInt (-50)))]); (VObj [((b_of "key-50"), (VInt (-100)))])]), WOther [(VObj [((b_of "key"), (VInt (-50)))])]));
  ((b_of "filter_expression_with_tautological_comparison"), ((b_of "$[?(1==1)]"), (VArr [(VInt 1); (VInt 3); (VStr (b_of "nice")); (VBool true); VNil; (VBool false); (VObj []); (VArr []); (VInt (-1)); (VInt 0); (VStr (b_of ""))]), WResult [(VInt 1); (VInt 3); (VStr (b_of "nice")); (VBool true); VNil; (VBool false); (VObj []); (VArr []); (VInt (-1)); (VInt 0); (VStr (b_of ""))]));
  ((b_of "filter_expression_with_triple_equal"), ((b_of "$[?(@.key===42)]"), (VArr [(VObj [((b_of "key"), (VInt 0))]); (VObj [((b_of "key"), (VInt 42))]); (VObj [((b_of "key"), (VInt (-1)))]); (VObj [((b_of "key"), (VInt 1))]); (VObj [((b_of "key"), (VInt 41))]); (VObj [((b_of "key"), (VInt 43))]); (VObj [((b_of "key"), (VFloat (S754_finite false 5910988584672612 (-47))))]); (VObj [((b_of "key"), (VFloat (S754_finite false 5910960437174940 (-47))))]); (VObj [((b_of "key"), (VInt 100))]); (VObj [((b_of "key"), (VStr (b_of "some")))]); (VObj [((b_of "key"), (VStr (b_of "42")))]); (VObj [((b_of "key"), VNil)]); (VObj [((b_of "key"), (VInt 420))]); (VObj [((b_of "key"), (VStr (b_of "")))]); (VObj [((b_of "key"), (VObj []))]); (VObj [((b_of "key"), (VArr []))]); (VObj [((b_of "key"), (VArr [(VInt 42)]))]); (VObj [((b_of "key"), (VObj [((b_of "key"), (VInt 42))]))]); (VObj [((b_of "key"), (VObj [((b_of "some"), (VInt 42))]))]); (VObj [((b_of "some"), (VStr (b_of "value")))])]), WError (b_of "unexpected token = in expression term")));
  ((b_of "filter_expression_with_value"), ((b_of "$[?(@.key)]"), (VArr [(VObj [((b_of "some"), (VStr (b_of "some value")))]); (VObj [((b_of "key"), (VBool true))]); (VObj [((b_of "key"), (VBool false))]); (VObj [((b_of "key"), VNil)]); (VObj [((b_of "key"), (VStr (b_of "value")))]); (VObj [((b_of "key"), (VStr (b_of "")))]); (VObj [((b_of "key"), (VInt 0))]); (VObj [((b_of "key"), (VInt 1))]); (VObj [((b_of "key"), (VInt (-1)))]); (VObj [((b_of "key"), (VInt 42))]); (VObj [((b_of "key"), (VObj []))]); (VObj [((b_of "key"), (VArr []))])]), WResult [(VObj [((b_of "key"), (VBool true))]); (VObj [((b_of "key"), (VBool false))]); (VObj [((b_of "key"), VNil)]); (VObj [((b_of "key"), (VStr (b_of "value")))]); (VObj [((b_of "key"), (VStr (b_of "")))]); (VObj [((b_of "key"), (VInt 0))]); (VObj [((b_of "key"), (VInt 1))]); (VObj [((b_of "key"), (VInt (-1)))]); (VObj [((b_of "key"), (VInt 42))]); (VObj [((b_of "key"), (VObj []))]); (VObj [((b_of "key"), (VArr []))])]));
  ((b_of "filter_expression_with_value_after_recursive_descent"), ((b_of "$..[?(@.id)]"), (VObj [((b_of "id"), (VInt 2)); ((b_of "more"), (VArr [(VObj [((b_of "id"), (VInt 2))]); (VObj [((b_of "more"), (VObj [((b_of "id"), (VInt 2))]))]); (VObj [((b_of "id"), (VObj [((b_of "id"), (VInt 2))]))]); (VArr [(VObj [((b_of "id"), (VInt 2))])])]))]), WResult [(VObj [((b_of "id"), (VInt 2))]); (VObj [((b_of "id"), (VObj [((b_of "id"), (VInt 2))]))]); (VObj [((b_of "id"), (VInt 2))]); (VObj [((b_of "id"), (VInt 2))]); (VObj [((b_of "id"), (VInt 2))])]));
  ((b_of "filter_expression_with_value_false"), ((b_of "$[?(false)]"), (VArr [(VInt 1); (VInt 3); (VStr (b_of "nice")); (VBool true); VNil; (VBool false); (VObj []); (VArr []); (VInt (-1)); (VInt 0); (VStr (b_of ""))]), WParse));
  ((b_of "filter_expression_with_value_null"), ((b_of "$[?(null)]"), (VArr [(VInt 1); (VInt 3); (VStr (b_of "nice")); (VBool true); VNil; (VBool false); (VObj []); (VArr []); (VInt (-1)); (VInt 0); (VStr (b_of ""))]), WParse));
  ((b_of "filter_expression_with_value_true"), ((b_of "$[?(true)]"), (VArr [(VInt 1); (VInt 3); (VStr (b_of "nice")); (VBool true); VNil; (VBool false); (VObj []); (VArr []); (VInt (-1)); (VInt 0); (VStr (b_of ""))]), WParse));
  ((b_of "filter_expression_without_parens"), ((b_of "$[?@.key==42]"), (VArr [(VObj [((b_of "key"), (VInt 0))]); (VObj [((b_of "key"), (VInt 42))]); (VObj [((b_of "key"), (VInt (-1)))]); (VObj [((b_of "key"), (VInt 1))]); (VObj [((b_of "key"), (VInt 41))]); (VObj [((b_of "key"), (VInt 43))]); (VObj [((b_of "key"), (VFloat (S754_finite false 5910988584672612 (-47))))]); (VObj [((b_of "key"), (VFloat (S754_finite false 5910960437174940 (-47))))]); (VObj [((b_of "key"), (VInt 100))]); (VObj [((b_of "key"), (VStr (b_of "some")))]); (VObj [((b_of "key"), (VStr (b_of "42")))]); (VObj [((b_of "key"), VNil)]); (VObj [((b_of "key"), (VInt 420))]); (VObj [((b_of "key"), (VStr (b_of "")))]); (VObj [((b_of "key"), (VObj []))]); (VObj [((b_of "key"), (VArr []))]); (VObj [((b_of "key"), (VArr [(VInt 42)]))]); (VObj [((b_of "key"), (VObj [((b_of "key"), (VInt 42))]))]); (VObj [((b_of "key"), (VObj [((b_of "some"), (VInt 42))]))]); (VObj [((b_of "some"), (VStr (b_of "value")))])]), WError (b_of "unexpected char '@' after '(' at offset 2")));
  ((b_of "filter_expression_without_value"), ((b_of "$[?(!@.key)]"), (VArr [(VObj [((b_of "some"), (VStr (b_of "some value")))]); (VObj [((b_of "key"), (VBool true))]); (VObj [((b_of "key"), (VBool false))]); (VObj [((b_of "key"), VNil)]); (VObj [((b_of "key"), (VStr (b_of "value")))]); (VObj [((b_of "key"), (VStr (b_of "")))]); (VObj [((b_of "key"), (VInt 0))]); (VObj [((b_of "key"), (VInt 1))]); (VObj [((b_of "key"), (VInt (-1)))]); (VObj [((b_of "key"), (VInt 42))]); (VObj [((b_of "key"), (VObj []))]); (VObj [((b_of "key"), (VArr []))])]), WResult [(VObj [((b_of "some"), (VStr (b_of "some value")))])]));
  ((b_of "parens_notation"), ((b_of "$(key,more)"), (VObj [((b_of "key"), (VInt 1)); ((b_of "some"), (VInt 2)); ((b_of "more"), (VInt 3))]), WError (b_of "unexpected token (")));
  ((b_of "recursive_descent"), ((b_of "$.."), (VArr [(VObj [((b_of "a"), (VObj [((b_of "b"), (VStr (b_of "c")))]))]); (VArr [(VInt 0); (VInt 1)])]), WError (b_of "unexpected end of expression at offset 2")));
  ((b_of "recursive_descent_after_dot_notation"), ((b_of "$.key.."), (VObj [((b_of "some key"), (VStr (b_of "value"))); ((b_of "key"), (VObj [((b_of "complex"), (VStr (b_of "string"))); ((b_of "primitives"), (VArr [(VInt 0); (VInt 1)]))]))]), WError (b_of "unexpected end of expression at offset 6")));
  ((b_of "root"), ((b_of "$"), (VObj [((b_of "key"), (VStr (b_of "value"))); ((b_of "another key"), (VObj [((b_of "complex"), (VArr [(VStr (b_of "a")); (VInt 1)]))]))]), WResult [(VObj [((b_of "another key"), (VObj [((b_of "complex"), (VArr [(VStr (b_of "a")); (VInt 1)]))])); ((b_of "key"), (VStr (b_of "value")))])]));
  ((b_of "root_on_scalar"), ((b_of "$"), (VInt 42), WResult [(VInt 42)]));
  ((b_of "root_on_scalar_false"), ((b_of "$"), (VBool false), WResult [(VBool false)]));
  ((b_of "root_on_scalar_true"), ((b_of "$"), (VBool true), WResult [(VBool true)]));
  ((b_of "script_expression"), ((b_of "$[(@.length-1)]"), (VArr [(VStr (b_of "first")); (VStr (b_of "second")); (VStr (b_of "third")); (VStr (b_of "forth")); (VStr (b_of "fifth"))]), WNothing));
  ((b_of "union"), ((b_of "$[0,1]"), (VArr [(VStr (b_of "first")); (VStr (b_of "second")); (VStr (b_of "third"))]), WResult [(VStr (b_of "first")); (VStr (b_of "second"))]));
  ((b_of "union_with_filter"), ((b_of "$[?(@.key<3),?(@.key>6)]"), (VArr [(VObj [((b_of "key"), (VInt 1))]); (VObj [((b_of "key"), (VInt 8))]); (VObj [((b_of "key"), (VInt 3))]); (VObj [((b_of "key"), (VInt 10))]); (VObj [((b_of "key"), (VInt 7))]); (VObj [((b_of "key"), (VInt 2))]); (VObj [((b_of "key"), (VInt 6))]); (VObj [((b_of "key"), (VInt 4))])]), WError (b_of "?(filter) cannot be in a union element list")));
  ((b_of "union_with_keys"), ((b_of "$['key','another']"), (VObj [((b_of "key"), (VStr (b_of "value"))); ((b_of "another"), (VStr (b_of "entry")))]), WResult [(VStr (b_of "value")); (VStr (b_of "entry"))]));
  ((b_of "union_with_keys_after_array_slice"), ((b_of "$[:]['c','d']"), (VArr [(VObj [((b_of "c"), (VStr (b_of "cc1"))); ((b_of "d"), (VStr (b_of "dd1"))); ((b_of "e"), (VStr (b_of "ee1")))]); (VObj [((b_of "c"), (VStr (b_of "cc2"))); ((b_of "d"), (VStr (b_of "dd2"))); ((b_of "e"), (VStr (b_of "ee2")))])]), WResult [(VStr (b_of "cc1")); (VStr (b_of "dd1")); (VStr (b_of "cc2")); (VStr (b_of "dd2"))]));
  ((b_of "union_with_keys_after_bracket_notation"), ((b_of "$[0]['c','d']"), (VArr [(VObj [((b_of "c"), (VStr (b_of "cc1"))); ((b_of "d"), (VStr (b_of "dd1"))); ((b_of "e"), (VStr (b_of "ee1")))]); (VObj [((b_of "c"), (VStr (b_of "cc2"))); ((b_of "d"), (VStr (b_of "dd2"))); ((b_of "e"), (VStr (b_of "ee2")))])]), WResult [(VStr (b_of "cc1")); (VStr (b_of "dd1"))]));
  ((b_of "union_with_keys_after_dot_notation_with_wildcard"), ((b_of "$.*['c','d']"), (VArr [(VObj [((b_of "c"), (VStr (b_of "cc1"))); ((b_of "d"), (VStr (b_of "dd1"))); ((b_of "e"), (VStr (b_of "ee1")))]); (VObj [((b_of "c"), (VStr (b_of "cc2"))); ((b_of "d"), (VStr (b_of "dd2"))); ((b_of "e"), (VStr (b_of "ee2")))])]), WResult [(VStr (b_of "cc1")); (VStr (b_of "dd1")); (VStr (b_of "cc2")); (VStr (b_of "dd2"))]));
  ((b_of "union_with_keys_on_object_without_key"), ((b_of "$['missing','key']"), (VObj [((b_of "key"), (VStr (b_of "value"))); ((b_of "another"), (VStr (b_of "entry")))]), WResult [(VStr (b_of "value"))]));
  ((b_of "union_with_numbers_in_decreasing_order"), ((b_of "$[4,1]"), (VArr [(VInt 1); (VInt 2); (VInt 3); (VInt 4); (VInt 5)]), WResult [(VInt 5); (VInt 2)]));
  ((b_of "union_with_slice_and_number"), ((b_of "$[1:3,4]"), (VArr [(VInt 1); (VInt 2); (VInt 3); (VInt 4); (VInt 5)]), WResult [(VInt 2); (VInt 3); (VInt 5)]));
  ((b_of "union_with_spaces"), ((b_of "$[ 0 , 1 ]"), (VArr [(VStr (b_of "first")); (VStr (b_of "second")); (VStr (b_of "third"))]), WResult [(VStr (b_of "first")); (VStr (b_of "second"))]));
  ((b_of "union_with_wildcard_and_number"), ((b_of "$[*,1]"), (VArr [(VStr (b_of "first")); (VStr (b_of "second")); (VStr (b_of "third")); (VStr (b_of "forth")); (VStr (b_of "fifth"))]), WError (b_of "* cannot be in a union element list")))].

(** testdata/group1 *)
Definition group1 : list (val * list (bytes * want)) := [
  (* dot-notation.json *) ((VObj [((b_of "key"), (VStr (b_of "value")))]), [((b_of "$.key"), WResult [(VStr (b_of "value"))])]);
  (* dot-notation.json *) ((VObj [((b_of "one"), (VObj [((b_of "key"), (VStr (b_of "value")))])); ((b_of "two"), (VObj [((b_of "some"), (VStr (b_of "more"))); ((b_of "key"), (VStr (b_of "other value")))])); ((b_of "two.some"), (VStr (b_of "42")))]), [((b_of "$.two.some"), WResult [(VStr (b_of "more"))])]);
  (* dot-notation.json *) ((VObj [((b_of "key"), (VStr (b_of "value"))); ((b_of """key"""), (VFloat (S754_finite false 5910974510923776 (-47))))]), [((b_of "$[""key""]"), WResult [(VStr (b_of "value"))]);
    ((b_of "$['key']"), WResult [(VStr (b_of "value"))])]);
  (* dot-notation.json *) ((VObj [((b_of "key"), (VStr (b_of "value"))); ((b_of """key"""), (VFloat (S754_finite false 5910974510923776 (-47))))]), []);
  (* dot-notation.json *) ((VObj [([229; 177; 172; 230; 128; 167], (VStr (b_of "value")))]), [([36; 46; 229; 177; 172; 230; 128; 167], WResult [(VStr (b_of "value"))])]);
  (* dot-notation.json *) ((VObj [((b_of "key-dash"), (VStr (b_of "value")))]), [((b_of "$.key-dash"), WResult [(VStr (b_of "value"))]);
    ((b_of "$['key-dash']"), WResult [(VStr (b_of "value"))]);
    ((b_of "$[""key-dash""]"), WResult [(VStr (b_of "value"))])]);
  (* filters.json *) ((VArr [(VObj [((b_of "key"), (VFloat (S754_zero false)))]); (VObj [((b_of "key"), (VFloat (S754_finite false 5910974510923776 (-47))))]); (VObj [((b_of "key"), (VFloat (S754_finite true 4503599627370496 (-52))))]); (VObj [((b_of "key"), (VFloat (S754_finite false 5770237022568448 (-47))))]); (VObj [((b_of "key"), (VFloat (S754_finite false 6051711999279104 (-47))))]); (VObj [((b_of "key"), (VFloat (S754_finite false 5910988584672612 (-47))))]); (VObj [((b_of "key"), (VFloat (S754_finite false 5910960437174940 (-47))))]); (VObj [((b_of "key"), (VFloat (S754_finite false 7036874417766400 (-46))))]); (VObj [((b_of "some"), (VStr (b_of "value")))])]), [((b_of "$[?(@.key<42)]"), WResult [(VObj [((b_of "key"), (VFloat (S754_zero false)))]); (VObj [((b_of "key"), (VFloat (S754_finite true 4503599627370496 (-52))))]); (VObj [((b_of "key"), (VFloat (S754_finite false 5770237022568448 (-47))))]); (VObj [((b_of "key"), (VFloat (S754_finite false 5910960437174940 (-47))))])])]);
  (* filters.json *) ((VArr [(VObj [((b_of "key"), (VFloat (S754_zero false)))]); (VObj [((b_of "key"), (VFloat (S754_finite false 5910974510923776 (-47))))]); (VObj [((b_of "key"), (VFloat (S754_finite true 4503599627370496 (-52))))]); (VObj [((b_of "key"), (VFloat (S754_finite false 5770237022568448 (-47))))]); (VObj [((b_of "key"), (VFloat (S754_finite false 6051711999279104 (-47))))]); (VObj [((b_of "key"), (VFloat (S754_finite false 5910988584672612 (-47))))]); (VObj [((b_of "key"), (VFloat (S754_finite false 5910960437174940 (-47))))]); (VObj [((b_of "key"), (VFloat (S754_finite false 7036874417766400 (-46))))]); (VObj [((b_of "some"), (VStr (b_of "value")))])]), [((b_of "$[?(-@.key>-42)]"), WResult [(VObj [((b_of "key"), (VFloat (S754_zero false)))]); (VObj [((b_of "key"), (VFloat (S754_finite true 4503599627370496 (-52))))]); (VObj [((b_of "key"), (VFloat (S754_finite false 5770237022568448 (-47))))]); (VObj [((b_of "key"), (VFloat (S754_finite false 5910960437174940 (-47))))])])]);
  (* filters.json *) ((VArr [(VObj [((b_of "id"), (VFloat (S754_finite false 4503599627370496 (-51))))])]), [((b_of "$..[?(@.id==2)]"), WResult [(VObj [((b_of "id"), (VFloat (S754_finite false 4503599627370496 (-51))))])])]);
  (* filters.json *) ((VObj [((b_of "id"), (VFloat (S754_finite false 4503599627370496 (-51)))); ((b_of "more"), (VArr [(VObj [((b_of "id"), (VFloat (S754_finite false 4503599627370496 (-51))))]); (VObj [((b_of "more"), (VObj [((b_of "id"), (VFloat (S754_finite false 4503599627370496 (-51))))]))]); (VObj [((b_of "id"), (VObj [((b_of "id"), (VFloat (S754_finite false 4503599627370496 (-51))))]))]); (VArr [(VObj [((b_of "id"), (VFloat (S754_finite false 4503599627370496 (-51))))])])]))]), [((b_of "$..[?(@.id==2)]"), WResult [(VObj [((b_of "id"), (VFloat (S754_finite false 4503599627370496 (-51)))); ((b_of "more"), (VArr [(VObj [((b_of "id"), (VFloat (S754_finite false 4503599627370496 (-51))))]); (VObj [((b_of "more"), (VObj [((b_of "id"), (VFloat (S754_finite false 4503599627370496 (-51))))]))]); (VObj [((b_of "id"), (VObj [((b_of "id"), (VFloat (S754_finite false 4503599627370496 (-51))))]))]); (VArr [(VObj [((b_of "id"), (VFloat (S754_finite false 4503599627370496 (-51))))])])]))]); (VObj [((b_of "id"), (VFloat (S754_finite false 4503599627370496 (-51))))]); (VObj [((b_of "id"), (VFloat (S754_finite false 4503599627370496 (-51))))]); (VObj [((b_of "id"), (VFloat (S754_finite false 4503599627370496 (-51))))]); (VObj [((b_of "id"), (VFloat (S754_finite false 4503599627370496 (-51))))])])]);
  (* filters.json *) ((VArr [(VObj [((b_of "name"), (VStr (b_of "John Smith")))]); (VObj [((b_of "name"), VNil)])]), [((b_of "$[?(@.name == 'John Smith')]"), WResult [(VObj [((b_of "name"), (VStr (b_of "John Smith")))])]);
    ((b_of "$[?(@.name)]"), WResult [(VObj [((b_of "name"), (VStr (b_of "John Smith")))])]);
    ((b_of "$[?(!@.name)]"), WResult [(VObj [((b_of "name"), VNil)])])]);
  (* filters.json *) ((VArr [(VObj [((b_of "complext"), (VObj [((b_of "one"), (VArr [(VObj [((b_of "name"), (VStr (b_of "first"))); ((b_of "id"), (VFloat (S754_finite false 4503599627370496 (-52))))]); (VObj [((b_of "name"), (VStr (b_of "next"))); ((b_of "id"), (VFloat (S754_finite false 4503599627370496 (-51))))]); (VObj [((b_of "name"), (VStr (b_of "another"))); ((b_of "id"), (VFloat (S754_finite false 6755399441055744 (-51))))]); (VObj [((b_of "name"), (VStr (b_of "more"))); ((b_of "id"), (VFloat (S754_finite false 4503599627370496 (-50))))])])); ((b_of "more"), (VObj [((b_of "name"), (VStr (b_of "next to last"))); ((b_of "id"), (VFloat (S754_finite false 5629499534213120 (-50))))]))]))]); (VObj [((b_of "name"), (VStr (b_of "last"))); ((b_of "id"), (VFloat (S754_finite false 6755399441055744 (-50))))])]), [((b_of "$..*[?(@.id>2)]"), WResult [(VObj [((b_of "id"), (VFloat (S754_finite false 5629499534213120 (-50)))); ((b_of "name"), (VStr (b_of "next to last")))]); (VObj [((b_of "id"), (VFloat (S754_finite false 6755399441055744 (-51)))); ((b_of "name"), (VStr (b_of "another")))]); (VObj [((b_of "id"), (VFloat (S754_finite false 4503599627370496 (-50)))); ((b_of "name"), (VStr (b_of "more")))])])]);
  (* filters.json *) ((VArr [(VObj [((b_of "id"), (VFloat (S754_finite false 5910974510923776 (-47)))); ((b_of "name"), (VStr (b_of "forty-two")))]); (VObj [((b_of "id"), (VFloat (S754_finite false 4503599627370496 (-52)))); ((b_of "name"), (VStr (b_of "one")))])]), [((b_of "$[?(@.id==42)]"), WResult [(VObj [((b_of "id"), (VFloat (S754_finite false 5910974510923776 (-47)))); ((b_of "name"), (VStr (b_of "forty-two")))])]);
    ((b_of "$[?(@.id==42)].name"), WResult [(VStr (b_of "forty-two"))])]);
  (* filters.json *) ((VObj [((b_of "key"), (VFloat (S754_finite false 5910974510923776 (-47)))); ((b_of "another"), (VObj [((b_of "key"), (VFloat (S754_finite false 4503599627370496 (-52))))]))]), [((b_of "$[?(@.key)]"), WResult [(VObj [((b_of "key"), (VFloat (S754_finite false 4503599627370496 (-52))))])])]);
  (* filters.json *) ((VObj [((b_of "id"), (VFloat (S754_finite false 4503599627370496 (-51)))); ((b_of "more"), (VArr [(VObj [((b_of "id"), (VFloat (S754_finite false 4503599627370496 (-51))))]); (VObj [((b_of "more"), (VObj [((b_of "id"), (VFloat (S754_finite false 4503599627370496 (-51))))]))]); (VObj [((b_of "id"), (VObj [((b_of "id"), (VFloat (S754_finite false 4503599627370496 (-51))))]))]); (VArr [(VObj [((b_of "id"), (VFloat (S754_finite false 4503599627370496 (-51))))])])]))]), [((b_of "$..[?(@.id==2)]"), WResult [(VObj [((b_of "id"), (VFloat (S754_finite false 4503599627370496 (-51)))); ((b_of "more"), (VArr [(VObj [((b_of "id"), (VFloat (S754_finite false 4503599627370496 (-51))))]); (VObj [((b_of "more"), (VObj [((b_of "id"), (VFloat (S754_finite false 4503599627370496 (-51))))]))]); (VObj [((b_of "id"), (VObj [((b_of "id"), (VFloat (S754_finite false 4503599627370496 (-51))))]))]); (VArr [(VObj [((b_of "id"), (VFloat (S754_finite false 4503599627370496 (-51))))])])]))]); (VObj [((b_of "id"), (VFloat (S754_finite false 4503599627370496 (-51))))]); (VObj [((b_of "id"), (VFloat (S754_finite false 4503599627370496 (-51))))]); (VObj [((b_of "id"), (VFloat (S754_finite false 4503599627370496 (-51))))]); (VObj [((b_of "id"), (VFloat (S754_finite false 4503599627370496 (-51))))])])]);
  (* filters.json *) ((VArr [(VObj [((b_of "key"), (VFloat (S754_finite false 8444249301319680 (-47))))]); (VObj [((b_of "key"), (VFloat (S754_finite false 7036874417766400 (-47))))]); (VObj [((b_of "key"), (VFloat (S754_finite false 5629499534213120 (-49))))]); (VObj [((b_of "key"), (VFloat (S754_finite true 7036874417766400 (-47))))]); (VObj [((b_of "key+50"), (VFloat (S754_finite false 7036874417766400 (-46))))])]), [((b_of "$[?(@.key+50==100)]"), WResult [(VObj [((b_of "key"), (VFloat (S754_finite false 7036874417766400 (-47))))])])]);
  (* filters.json *) ((VArr [(VObj [((b_of "key"), (VFloat (S754_finite false 5910974510923776 (-47))))]); (VObj [((b_of "key"), (VFloat (S754_finite false 6051711999279104 (-47))))]); (VObj [((b_of "key"), (VFloat (S754_finite false 6192449487634432 (-47))))])]), [((b_of "$[?(@.key>42 && @.key<44)]"), WResult [(VObj [((b_of "key"), (VFloat (S754_finite false 6051711999279104 (-47))))])])]);
  (* filters.json *) ((VArr [(VObj [((b_of "key"), (VFloat (S754_finite false 4503599627370496 (-52))))]); (VObj [((b_of "key"), (VFloat (S754_finite false 6755399441055744 (-51))))]); (VObj [((b_of "key"), (VStr (b_of "nice")))]); (VObj [((b_of "key"), (VBool true))]); (VObj [((b_of "key"), VNil)]); (VObj [((b_of "key"), (VBool false))]); (VObj [((b_of "key"), (VObj []))]); (VObj [((b_of "key"), (VArr []))]); (VObj [((b_of "key"), (VFloat (S754_finite true 4503599627370496 (-52))))]); (VObj [((b_of "key"), (VFloat (S754_zero false)))]); (VObj [((b_of "key"), (VStr (b_of "")))])]), [((b_of "$[?(@.key>0 && false)]"), WResult []);
    ((b_of "$[?(@.key>0 && true)]"), WResult [(VObj [((b_of "key"), (VFloat (S754_finite false 4503599627370496 (-52))))]); (VObj [((b_of "key"), (VFloat (S754_finite false 6755399441055744 (-51))))]); (VObj [((b_of "key"), (VBool true))])]);
    ((b_of "$[?(@.key>0 || false)]"), WResult [(VObj [((b_of "key"), (VFloat (S754_finite false 4503599627370496 (-52))))]); (VObj [((b_of "key"), (VFloat (S754_finite false 6755399441055744 (-51))))]); (VObj [((b_of "key"), (VBool true))])]);
    ((b_of "$[?(@.key>0 || true)]"), WResult [(VObj [((b_of "key"), (VFloat (S754_finite false 4503599627370496 (-52))))]); (VObj [((b_of "key"), (VFloat (S754_finite false 6755399441055744 (-51))))]); (VObj [((b_of "key"), (VStr (b_of "nice")))]); (VObj [((b_of "key"), (VBool true))]); (VObj [((b_of "key"), VNil)]); (VObj [((b_of "key"), (VBool false))]); (VObj [((b_of "key"), (VObj []))]); (VObj [((b_of "key"), (VArr []))]); (VObj [((b_of "key"), (VFloat (S754_finite true 4503599627370496 (-52))))]); (VObj [((b_of "key"), (VFloat (S754_zero false)))]); (VObj [((b_of "key"), (VStr (b_of "")))])])]);
  (* filters.json *) ((VArr [(VObj [((b_of "key"), (VFloat (S754_finite false 5910974510923776 (-47))))]); (VObj [((b_of "key"), (VFloat (S754_finite false 6051711999279104 (-47))))]); (VObj [((b_of "key"), (VFloat (S754_finite false 6192449487634432 (-47))))])]), [((b_of "$[?(@.key>43 || @.key<43)]"), WResult [(VObj [((b_of "key"), (VFloat (S754_finite false 5910974510923776 (-47))))]); (VObj [((b_of "key"), (VFloat (S754_finite false 6192449487634432 (-47))))])])]);
  (* filters.json *) ((VArr [(VObj [((b_of "key"), (VFloat (S754_zero false)))]); (VObj [((b_of "key"), (VFloat (S754_finite false 5910974510923776 (-47))))]); (VObj [((b_of "key"), (VFloat (S754_finite true 4503599627370496 (-52))))]); (VObj [((b_of "key"), (VFloat (S754_finite false 5770237022568448 (-47))))]); (VObj [((b_of "key"), (VFloat (S754_finite false 6051711999279104 (-47))))]); (VObj [((b_of "key"), (VFloat (S754_finite false 5910988584672612 (-47))))]); (VObj [((b_of "key"), (VFloat (S754_finite false 5910960437174940 (-47))))]); (VObj [((b_of "key"), (VFloat (S754_finite false 7036874417766400 (-46))))]); (VObj [((b_of "some"), (VStr (b_of "value")))])]), [((b_of "$[?(@['key']==42)]"), WResult [(VObj [((b_of "key"), (VFloat (S754_finite false 5910974510923776 (-47))))])])]);
  (* filters.json *) ((VArr [(VObj [((b_of "@key"), (VFloat (S754_zero false)))]); (VObj [((b_of "@key"), (VFloat (S754_finite false 5910974510923776 (-47))))]); (VObj [((b_of "key"), (VFloat (S754_finite false 5910974510923776 (-47))))]); (VObj [((b_of "@key"), (VFloat (S754_finite false 6051711999279104 (-47))))]); (VObj [((b_of "some"), (VStr (b_of "value")))])]), [((b_of "$[?(@['@key']==42)]"), WResult [(VObj [((b_of "@key"), (VFloat (S754_finite false 5910974510923776 (-47))))])])]);
  (* filters.json *) ((VArr [(VArr [(VFloat (S754_finite false 4503599627370496 (-51))); (VFloat (S754_finite false 6755399441055744 (-51)))]); (VArr [(VStr (b_of "a"))]); (VArr [(VFloat (S754_zero false)); (VFloat (S754_finite false 4503599627370496 (-51)))]); (VArr [(VFloat (S754_finite false 4503599627370496 (-51)))])]), [((b_of "$[?(@[-1]==2)]"), WResult [(VArr [(VFloat (S754_zero false)); (VFloat (S754_finite false 4503599627370496 (-51)))]); (VArr [(VFloat (S754_finite false 4503599627370496 (-51)))])])]);
  (* filters.json *) ((VArr [(VArr [(VStr (b_of "a")); (VStr (b_of "b"))]); (VArr [(VStr (b_of "x")); (VStr (b_of "y"))])]), [((b_of "$[?(@[1]=='b')]"), WResult [(VArr [(VStr (b_of "a")); (VStr (b_of "b"))])])]);
  (* filters.json *) ((VObj [((b_of "1"), (VArr [(VStr (b_of "a")); (VStr (b_of "b"))])); ((b_of "2"), (VArr [(VStr (b_of "x")); (VStr (b_of "y"))]))]), [((b_of "$[?(@[1]=='b')]"), WResult [(VArr [(VStr (b_of "a")); (VStr (b_of "b"))])])]);
  (* filters.json *) ((VArr [(VStr (b_of "some value")); VNil; (VStr (b_of "value")); (VFloat (S754_zero false)); (VFloat (S754_finite false 4503599627370496 (-52))); (VFloat (S754_finite true 4503599627370496 (-52))); (VStr (b_of "")); (VArr []); (VObj []); (VBool false); (VBool true)]), [((b_of "$[?(@)]"), WResult [(VStr (b_of "some value")); (VStr (b_of "value")); (VFloat (S754_finite false 4503599627370496 (-52))); (VFloat (S754_finite true 4503599627370496 (-52))); (VArr []); (VObj []); (VBool true)])]);
  (* filters.json *) ((VArr [(VObj [((b_of "a"), (VBool true))]); (VObj [((b_of "a"), (VBool true)); ((b_of "b"), (VBool true))]); (VObj [((b_of "a"), (VBool true)); ((b_of "b"), (VBool true)); ((b_of "c"), (VBool true))]); (VObj [((b_of "b"), (VBool true)); ((b_of "c"), (VBool true))]); (VObj [((b_of "a"), (VBool true)); ((b_of "c"), (VBool true))]); (VObj [((b_of "c"), (VBool true))]); (VObj [((b_of "b"), (VBool true))])]), [((b_of "$[?(@.a && (@.b || @.c))]"), WResult [(VObj [((b_of "a"), (VBool true)); ((b_of "b"), (VBool true))]); (VObj [((b_of "a"), (VBool true)); ((b_of "b"), (VBool true)); ((b_of "c"), (VBool true))]); (VObj [((b_of "a"), (VBool true)); ((b_of "c"), (VBool true))])])]);
  (* filters.json *) ((VArr [(VObj [((b_of "a"), (VBool true)); ((b_of "b"), (VBool true))]); (VObj [((b_of "a"), (VBool true)); ((b_of "b"), (VBool true)); ((b_of "c"), (VBool true))]); (VObj [((b_of "b"), (VBool true)); ((b_of "c"), (VBool true))]); (VObj [((b_of "a"), (VBool true)); ((b_of "c"), (VBool true))]); (VObj [((b_of "a"), (VBool true))]); (VObj [((b_of "b"), (VBool true))]); (VObj [((b_of "c"), (VBool true))]); (VObj [((b_of "d"), (VBool true))]); (VObj [])]), [((b_of "$[?(@.a && @.b || @.c)]"), WResult [(VObj [((b_of "a"), (VBool true)); ((b_of "b"), (VBool true))]); (VObj [((b_of "a"), (VBool true)); ((b_of "b"), (VBool true)); ((b_of "c"), (VBool true))]); (VObj [((b_of "b"), (VBool true)); ((b_of "c"), (VBool true))]); (VObj [((b_of "a"), (VBool true)); ((b_of "c"), (VBool true))]); (VObj [((b_of "c"), (VBool true))])])]);
  (* filters.json *) ((VArr [(VObj [((b_of "id"), (VFloat (S754_finite false 5910974510923776 (-47)))); ((b_of "name"), (VStr (b_of "forty-two")))]); (VObj [((b_of "id"), (VFloat (S754_finite false 4503599627370496 (-52)))); ((b_of "name"), (VStr (b_of "one")))])]), [((b_of "$[?(true && true)]"), WResult [(VObj [((b_of "id"), (VFloat (S754_finite false 5910974510923776 (-47)))); ((b_of "name"), (VStr (b_of "forty-two")))]); (VObj [((b_of "id"), (VFloat (S754_finite false 4503599627370496 (-52)))); ((b_of "name"), (VStr (b_of "one")))])]);
    ((b_of "$[?(true && false)]"), WResult []);
    ((b_of "$[?(true || true)]"), WResult [(VObj [((b_of "id"), (VFloat (S754_finite false 5910974510923776 (-47)))); ((b_of "name"), (VStr (b_of "forty-two")))]); (VObj [((b_of "id"), (VFloat (S754_finite false 4503599627370496 (-52)))); ((b_of "name"), (VStr (b_of "one")))])]);
    ((b_of "$[?(true || false)]"), WResult [(VObj [((b_of "id"), (VFloat (S754_finite false 5910974510923776 (-47)))); ((b_of "name"), (VStr (b_of "forty-two")))]); (VObj [((b_of "id"), (VFloat (S754_finite false 4503599627370496 (-52)))); ((b_of "name"), (VStr (b_of "one")))])]);
    ((b_of "$[?((true || false) && true)]"), WResult [(VObj [((b_of "id"), (VFloat (S754_finite false 5910974510923776 (-47)))); ((b_of "name"), (VStr (b_of "forty-two")))]); (VObj [((b_of "id"), (VFloat (S754_finite false 4503599627370496 (-52)))); ((b_of "name"), (VStr (b_of "one")))])]);
    ((b_of "$[?((true && false) && true)]"), WResult [])]);
  (* filters.json *) ((VArr [(VObj [((b_of "key"), (VFloat (S754_finite false 8444249301319680 (-47))))]); (VObj [((b_of "key"), (VFloat (S754_finite false 7036874417766400 (-47))))]); (VObj [((b_of "key"), (VFloat (S754_finite false 5629499534213120 (-49))))]); (VObj [((b_of "key"), (VFloat (S754_finite true 7036874417766400 (-47))))]); (VObj [((b_of "key/10"), (VFloat (S754_finite false 5629499534213120 (-50))))])]), [((b_of "$[?(@.key/10==5)]"), WResult [(VObj [((b_of "key"), (VFloat (S754_finite false 7036874417766400 (-47))))])])]);
  (* filters.json *) ((VArr [(VFloat (S754_finite false 4503599627370496 (-52))); (VObj [((b_of "key"), (VFloat (S754_finite false 5910974510923776 (-47))))]); (VStr (b_of "value")); VNil]), []);
  (* filters.json *) ((VArr [(VObj [((b_of "key"), (VFloat (S754_zero false)))]); (VObj [((b_of "key"), (VFloat (S754_finite false 5910974510923776 (-47))))]); (VObj [((b_of "key"), (VFloat (S754_finite true 4503599627370496 (-52))))]); (VObj [((b_of "key"), (VFloat (S754_finite false 4503599627370496 (-52))))]); (VObj [((b_of "key"), (VFloat (S754_finite false 5770237022568448 (-47))))]); (VObj [((b_of "key"), (VFloat (S754_finite false 6051711999279104 (-47))))]); (VObj [((b_of "key"), (VFloat (S754_finite false 5910988584672612 (-47))))]); (VObj [((b_of "key"), (VFloat (S754_finite false 5910960437174940 (-47))))]); (VObj [((b_of "key"), (VFloat (S754_finite false 7036874417766400 (-46))))]); (VObj [((b_of "key"), (VStr (b_of "some")))]); (VObj [((b_of "key"), (VStr (b_of "42")))]); (VObj [((b_of "key"), VNil)]); (VObj [((b_of "key"), (VFloat (S754_finite false 7388718138654720 (-44))))]); (VObj [((b_of "key"), (VStr (b_of "")))]); (VObj [((b_of "key"), (VObj []))]); (VObj [((b_of "key"), (VArr []))]); (VObj [((b_of "key"), (VArr [(VFloat (S754_finite false 5910974510923776 (-47)))]))]); (VObj [((b_of "key"), (VObj [((b_of "key"), (VFloat (S754_finite false 5910974510923776 (-47))))]))]); (VObj [((b_of "key"), (VObj [((b_of "some"), (VFloat (S754_finite false 5910974510923776 (-47))))]))]); (VObj [((b_of "some"), (VStr (b_of "value")))])]), [((b_of "$[?(@.key==42)]"), WResult [(VObj [((b_of "key"), (VFloat (S754_finite false 5910974510923776 (-47))))]); (VObj [((b_of "key"), (VStr (b_of "42")))]); (VObj [((b_of "key"), (VArr [(VFloat (S754_finite false 5910974510923776 (-47)))]))])])]);
  (* filters.json *) ((VArr [(VFloat (S754_zero false)); (VFloat (S754_finite false 5910974510923776 (-47))); (VFloat (S754_finite true 4503599627370496 (-52))); (VFloat (S754_finite false 5770237022568448 (-47))); (VFloat (S754_finite false 6051711999279104 (-47))); (VFloat (S754_finite false 5910988584672612 (-47))); (VFloat (S754_finite false 5910960437174940 (-47))); VNil; (VFloat (S754_finite false 7036874417766400 (-46)))]), [((b_of "$[?(@==42)]"), WResult [(VFloat (S754_finite false 5910974510923776 (-47)))])]);
  (* filters.json *) ((VArr [(VObj [((b_of "key"), (VFloat (S754_finite false 5910974510923776 (-47))))])]), [((b_of "$[?(@.key==43)]"), WResult [])]);
  (* filters.json *) ((VObj [((b_of "a"), (VObj [((b_of "key"), (VFloat (S754_zero false)))])); ((b_of "b"), (VObj [((b_of "key"), (VFloat (S754_finite false 5910974510923776 (-47))))])); ((b_of "c"), (VObj [((b_of "key"), (VFloat (S754_finite true 4503599627370496 (-52))))])); ((b_of "d"), (VObj [((b_of "key"), (VFloat (S754_finite false 5770237022568448 (-47))))])); ((b_of "e"), (VObj [((b_of "key"), (VFloat (S754_finite false 6051711999279104 (-47))))])); ((b_of "f"), (VObj [((b_of "key"), (VFloat (S754_finite false 5910988584672612 (-47))))])); ((b_of "g"), (VObj [((b_of "key"), (VFloat (S754_finite false 5910960437174940 (-47))))])); ((b_of "h"), (VObj [((b_of "key"), (VFloat (S754_finite false 7036874417766400 (-46))))])); ((b_of "i"), (VObj [((b_of "some"), (VStr (b_of "value")))]))]), [((b_of "$[?(@.key==42)]"), WResult [(VObj [((b_of "key"), (VFloat (S754_finite false 5910974510923776 (-47))))])])]);
  (* filters.json *) ((VObj [((b_of "id"), (VFloat (S754_finite false 4503599627370496 (-51))))]), [((b_of "$[?(@.id==2)]"), WResult [])]);
  (* filters.json *) ((VArr [(VObj [((b_of "d"), (VArr [(VStr (b_of "v1")); (VStr (b_of "v2"))]))]); (VObj [((b_of "d"), (VArr [(VStr (b_of "a")); (VStr (b_of "b"))]))]); (VObj [((b_of "d"), (VStr (b_of "v1")))]); (VObj [((b_of "d"), (VStr (b_of "v2")))]); (VObj [((b_of "d"), (VObj []))]); (VObj [((b_of "d"), (VArr []))]); (VObj [((b_of "d"), VNil)]); (VObj [((b_of "d"), (VFloat (S754_finite true 4503599627370496 (-52))))]); (VObj [((b_of "d"), (VFloat (S754_zero false)))]); (VObj [((b_of "d"), (VFloat (S754_finite false 4503599627370496 (-52))))]); (VObj [((b_of "d"), (VStr (b_of "['v1','v2']")))]); (VObj [((b_of "d"), (VStr (b_of "['v1', 'v2']")))]); (VObj [((b_of "d"), (VStr (b_of "v1,v2")))]); (VObj [((b_of "d"), (VStr (b_of "[""v1"", ""v2""]")))]); (VObj [((b_of "d"), (VStr (b_of "[""v1"",""v2""]")))])]), [((b_of "$[?(@.d==[""v1"",""v2""])]"), WResult [(VObj [((b_of "d"), (VArr [(VStr (b_of "v1")); (VStr (b_of "v2"))]))])])]);
  (* filters.json *) ((VArr [(VArr [(VFloat (S754_finite false 4503599627370496 (-52))); (VFloat (S754_finite false 4503599627370496 (-51)))]); (VArr [(VFloat (S754_finite false 4503599627370496 (-51))); (VFloat (S754_finite false 6755399441055744 (-51)))]); (VArr [(VFloat (S754_finite false 4503599627370496 (-52)))]); (VArr [(VFloat (S754_finite false 4503599627370496 (-51)))]); (VArr [(VFloat (S754_finite false 4503599627370496 (-52))); (VFloat (S754_finite false 4503599627370496 (-51))); (VFloat (S754_finite false 6755399441055744 (-51)))]); (VFloat (S754_finite false 4503599627370496 (-52))); (VFloat (S754_finite false 4503599627370496 (-51))); (VFloat (S754_finite false 6755399441055744 (-51)))]), []);
  (* filters.json *) ((VArr [(VObj [((b_of "key"), (VFloat (S754_finite false 5910974510923776 (-47))))]); (VObj [((b_of "key"), (VFloat (S754_finite false 6051711999279104 (-47))))]); (VObj [((b_of "key"), (VFloat (S754_finite false 6192449487634432 (-47))))])]), [((b_of "$[?((@.key<44)==false)]"), WResult [(VObj [((b_of "key"), (VFloat (S754_finite false 6192449487634432 (-47))))])])]);
  (* filters.json *) ((VArr [(VObj [((b_of "some"), (VStr (b_of "some value")))]); (VObj [((b_of "key"), (VBool true))]); (VObj [((b_of "key"), (VBool false))]); (VObj [((b_of "key"), VNil)]); (VObj [((b_of "key"), (VStr (b_of "value")))]); (VObj [((b_of "key"), (VStr (b_of "")))]); (VObj [((b_of "key"), (VFloat (S754_zero false)))]); (VObj [((b_of "key"), (VFloat (S754_finite false 4503599627370496 (-52))))]); (VObj [((b_of "key"), (VFloat (S754_finite true 4503599627370496 (-52))))]); (VObj [((b_of "key"), (VFloat (S754_finite false 5910974510923776 (-47))))]); (VObj [((b_of "key"), (VObj []))]); (VObj [((b_of "key"), (VArr [(VFloat (S754_zero false))]))]); (VObj [((b_of "key"), (VArr []))])]), [((b_of "$[?(@.key==false)]"), WResult [(VObj [((b_of "key"), (VBool false))]); (VObj [((b_of "key"), (VStr (b_of "")))]); (VObj [((b_of "key"), (VFloat (S754_zero false)))]); (VObj [((b_of "key"), (VArr [(VFloat (S754_zero false))]))]); (VObj [((b_of "key"), (VArr []))])]);
    ((b_of "$[?(@.key==null)]"), WResult [(VObj [((b_of "some"), (VStr (b_of "some value")))]); (VObj [((b_of "key"), VNil)])])]);
  (* filters.json *) ((VArr [(VObj [((b_of "key"), (VFloat (S754_finite false 5910974510923776 (-47))))]); (VObj [((b_of "key"), (VFloat (S754_finite false 6051711999279104 (-47))))]); (VObj [((b_of "key"), (VFloat (S754_finite false 6192449487634432 (-47))))])]), [((b_of "$[?((@.key<44)==false)]"), WResult [(VObj [((b_of "key"), (VFloat (S754_finite false 6192449487634432 (-47))))])])]);
  (* filters.json *) ((VArr [(VObj [((b_of "a"), (VArr [(VObj [((b_of "price"), (VFloat (S754_finite false 4503599627370496 (-52))))]); (VObj [((b_of "price"), (VFloat (S754_finite false 6755399441055744 (-51))))])]))]); (VObj [((b_of "a"), (VArr [(VObj [((b_of "price"), (VFloat (S754_finite false 6192449487634432 (-49))))])]))]); (VObj [((b_of "a"), (VArr [(VObj [((b_of "price"), (VFloat (S754_finite false 4503599627370496 (-49))))]); (VObj [((b_of "price"), (VFloat (S754_finite false 6755399441055744 (-49))))]); (VObj [((b_of "price"), (VFloat (S754_finite false 6755399441055744 (-51))))])]))]); (VObj [((b_of "a"), (VArr []))])]), []);
  (* filters.json *) ((VArr [(VObj [((b_of "key"), (VFloat (S754_finite false 8444249301319680 (-47))))]); (VObj [((b_of "key"), (VFloat (S754_finite false 7036874417766400 (-47))))]); (VObj [((b_of "key"), (VFloat (S754_finite false 5629499534213120 (-49))))]); (VObj [((b_of "key"), (VFloat (S754_finite true 7036874417766400 (-47))))]); (VObj [((b_of "key-50"), (VFloat (S754_finite true 7036874417766400 (-46))))])]), [((b_of "$[?(@.key-50==-100)]"), WResult [(VObj [((b_of "key"), (VFloat (S754_finite true 7036874417766400 (-47))))])]);
    ((b_of "$[?(@.key - 50==-100)]"), WResult [(VObj [((b_of "key"), (VFloat (S754_finite true 7036874417766400 (-47))))])]);
    ((b_of "$[?(@['key-50']==-100)]"), WResult [(VObj [((b_of "key-50"), (VFloat (S754_finite true 7036874417766400 (-46))))])])]);
  (* filters.json *) ((VArr [(VObj [((b_of "key1"), (VFloat (S754_finite false 7036874417766400 (-46)))); ((b_of "key2"), (VFloat (S754_finite false 7036874417766400 (-46))))]); (VObj [((b_of "key1"), (VFloat (S754_finite false 7388718138654720 (-46)))); ((b_of "key2"), (VFloat (S754_finite false 7036874417766400 (-45))))])]), [((b_of "$[?((@.key1 + 110) == 210)]"), WResult [(VObj [((b_of "key1"), (VFloat (S754_finite false 7036874417766400 (-46)))); ((b_of "key2"), (VFloat (S754_finite false 7036874417766400 (-46))))])])]);
  (* filters.json *) ((VArr [(VObj [((b_of "key1"), (VFloat (S754_finite false 7036874417766400 (-46)))); ((b_of "key2"), (VFloat (S754_finite false 7036874417766400 (-46))))]); (VObj [((b_of "key1"), (VFloat (S754_finite false 7388718138654720 (-46)))); ((b_of "key2"), (VFloat (S754_finite false 7036874417766400 (-45))))])]), [((b_of "$[?((110 + @.key1) == 210)]"), WResult [(VObj [((b_of "key1"), (VFloat (S754_finite false 7036874417766400 (-46)))); ((b_of "key2"), (VFloat (S754_finite false 7036874417766400 (-46))))])])]);
  (* filters.json *) ((VArr [(VObj [((b_of "key1"), (VFloat (S754_finite false 7036874417766400 (-46)))); ((b_of "key2"), (VFloat (S754_finite false 7036874417766400 (-46))))]); (VObj [((b_of "key1"), (VFloat (S754_finite false 7388718138654720 (-46)))); ((b_of "key2"), (VFloat (S754_finite false 7036874417766400 (-45))))])]), [((b_of "$[?((@.key1 + @.key2) == 200)]"), WResult [(VObj [((b_of "key1"), (VFloat (S754_finite false 7036874417766400 (-46)))); ((b_of "key2"), (VFloat (S754_finite false 7036874417766400 (-46))))])])]);
  (* filters.json *) ((VArr [(VObj [((b_of "some"), (VStr (b_of "value")))])]), [((b_of "$[?(@.key<42)]"), WResult [])]);
  (* filters.json *) ((VArr [(VObj [((b_of "some"), (VStr (b_of "value")))])]), [((b_of "$[?(42 < @.key)]"), WResult [])]);
  (* filters.json *) ((VArr [(VObj [((b_of "some"), (VStr (b_of "value")))])]), [((b_of "$[?(@.other < @.key)]"), WResult [])]);
  (* filters.json *) ((VArr [(VObj [((b_of "key1"), (VFloat (S754_zero false))); ((b_of "key2"), (VFloat (S754_finite false 5629499534213120 (-48))))]); (VObj [((b_of "key1"), (VFloat (S754_finite false 5629499534213120 (-49)))); ((b_of "key2"), (VFloat (S754_finite false 5066549580791808 (-49))))])]), [((b_of "$[?(@.key1 < @.key2)]"), WResult [(VObj [((b_of "key1"), (VFloat (S754_zero false))); ((b_of "key2"), (VFloat (S754_finite false 5629499534213120 (-48))))])])]);
  (* filters.json *) ((VArr [(VArr [(VFloat (S754_finite false 4503599627370496 (-52))); (VFloat (S754_finite false 4503599627370496 (-51))); (VFloat (S754_finite false 6755399441055744 (-51)))]); (VArr [(VFloat (S754_finite false 4503599627370496 (-52)))]); (VArr [(VFloat (S754_finite false 4503599627370496 (-51))); (VFloat (S754_finite false 6755399441055744 (-51)))]); (VFloat (S754_finite false 4503599627370496 (-52))); (VFloat (S754_finite false 4503599627370496 (-51)))]), []);
  (* filters.json *) ((VArr [(VArr [(VFloat (S754_finite false 4503599627370496 (-52))); (VFloat (S754_finite false 4503599627370496 (-51)))]); (VArr [(VFloat (S754_finite false 4503599627370496 (-51))); (VFloat (S754_finite false 6755399441055744 (-51)))]); (VArr [(VFloat (S754_finite false 4503599627370496 (-52)))]); (VArr [(VFloat (S754_finite false 4503599627370496 (-51)))]); (VArr [(VFloat (S754_finite false 4503599627370496 (-52))); (VFloat (S754_finite false 4503599627370496 (-51))); (VFloat (S754_finite false 6755399441055744 (-51)))]); (VFloat (S754_finite false 4503599627370496 (-52))); (VFloat (S754_finite false 4503599627370496 (-51))); (VFloat (S754_finite false 6755399441055744 (-51)))]), []);
  (* filters.json *) ((VArr [(VObj [((b_of "key"), (VFloat (S754_finite true 6924284427082138 (-49))))]); (VObj [((b_of "key"), (VFloat (S754_finite true 8863084066665136 (-56))))]); (VObj [((b_of "key"), (VFloat (S754_finite true 6755399441055744 (-49))))]); (VObj [((b_of "key"), (VFloat (S754_finite false 6924284427082138 (-49))))]); (VObj [((b_of "key"), (VFloat (S754_finite false 4503599627370496 (-51))))]); (VObj [((b_of "key"), (VStr (b_of "-0.123e2")))])]), [((b_of "$[?(@.key==-0.123e2)]"), WResult [(VObj [((b_of "key"), (VFloat (S754_finite true 6924284427082138 (-49))))]); (VObj [((b_of "key"), (VStr (b_of "-0.123e2")))])])]);
  (* filters.json *) ((VArr [(VObj [((b_of "d"), (VObj [((b_of "k"), (VStr (b_of "v")))]))]); (VObj [((b_of "d"), (VObj [((b_of "a"), (VStr (b_of "b")))]))]); (VObj [((b_of "d"), (VStr (b_of "k")))]); (VObj [((b_of "d"), (VStr (b_of "v")))]); (VObj [((b_of "d"), (VObj []))]); (VObj [((b_of "d"), (VArr []))]); (VObj [((b_of "d"), VNil)]); (VObj [((b_of "d"), (VFloat (S754_finite true 4503599627370496 (-52))))]); (VObj [((b_of "d"), (VFloat (S754_zero false)))]); (VObj [((b_of "d"), (VFloat (S754_finite false 4503599627370496 (-52))))]); (VObj [((b_of "d"), (VStr (b_of "[object Object]")))]); (VObj [((b_of "d"), (VStr (b_of "{""k"": ""v""}")))]); (VObj [((b_of "d"), (VStr (b_of "{""k"":""v""}")))]); (VStr (b_of "v"))]), []);
  (* filters.json *) ((VArr [(VObj [((b_of "key"), (VStr (b_of "some")))]); (VObj [((b_of "key"), (VStr (b_of "value")))]); (VObj [((b_of "key"), VNil)]); (VObj [((b_of "key"), (VFloat (S754_zero false)))]); (VObj [((b_of "key"), (VFloat (S754_finite false 4503599627370496 (-52))))]); (VObj [((b_of "key"), (VFloat (S754_finite true 4503599627370496 (-52))))]); (VObj [((b_of "key"), (VStr (b_of "")))]); (VObj [((b_of "key"), (VObj []))]); (VObj [((b_of "key"), (VArr []))]); (VObj [((b_of "key"), (VStr (b_of "valuemore")))]); (VObj [((b_of "key"), (VStr (b_of "morevalue")))]); (VObj [((b_of "key"), (VArr [(VStr (b_of "value"))]))]); (VObj [((b_of "key"), (VObj [((b_of "some"), (VStr (b_of "value")))]))]); (VObj [((b_of "key"), (VObj [((b_of "key"), (VStr (b_of "value")))]))]); (VObj [((b_of "some"), (VStr (b_of "value")))])]), [((b_of "$[?(@.key==""value"")]"), WResult [(VObj [((b_of "key"), (VStr (b_of "value")))]); (VObj [((b_of "key"), (VArr [(VStr (b_of "value"))]))])])]);
  (* filters.json *) ((VArr [(VObj [((b_of "key"), (VStr (b_of "some")))]); (VObj [((b_of "key"), (VStr (b_of "value")))]); (VObj [((b_of "key"), (VStr (b_of "hi@example.com")))])]), [((b_of "$[?(@.key==""hi@example.com"")]"), WResult [(VObj [((b_of "key"), (VStr (b_of "hi@example.com")))])])]);
  (* filters.json *) ((VArr [(VObj [((b_of "key"), (VStr (b_of "some")))]); (VObj [((b_of "key"), (VStr (b_of "value")))]); (VObj [((b_of "key"), (VStr (b_of "some.value")))])]), [((b_of "$[?(@.key==""some.value"")]"), WResult [(VObj [((b_of "key"), (VStr (b_of "some.value")))])])]);
  (* filters.json *) ((VArr [(VObj [((b_of "key"), (VStr (b_of "some")))]); (VObj [((b_of "key"), (VStr (b_of "value")))])]), [((b_of "$[?(@.key=='value')]"), WResult [(VObj [((b_of "key"), (VStr (b_of "value")))])])]);
  (* filters.json *) ((VArr [(VObj [((b_of "some"), (VStr (b_of "some value")))]); (VObj [((b_of "key"), (VBool true))]); (VObj [((b_of "key"), (VBool false))]); (VObj [((b_of "key"), VNil)]); (VObj [((b_of "key"), (VStr (b_of "value")))]); (VObj [((b_of "key"), (VStr (b_of "")))]); (VObj [((b_of "key"), (VFloat (S754_zero false)))]); (VObj [((b_of "key"), (VFloat (S754_finite false 4503599627370496 (-52))))]); (VObj [((b_of "key"), (VFloat (S754_finite true 4503599627370496 (-52))))]); (VObj [((b_of "key"), (VFloat (S754_finite false 5910974510923776 (-47))))]); (VObj [((b_of "key"), (VObj []))]); (VObj [((b_of "key"), (VArr [(VFloat (S754_finite false 4503599627370496 (-52)))]))]); (VObj [((b_of "key"), (VArr []))])]), [((b_of "$[?(@.key==true)]"), WResult [(VObj [((b_of "key"), (VBool true))]); (VObj [((b_of "key"), (VFloat (S754_finite false 4503599627370496 (-52))))]); (VObj [((b_of "key"), (VArr [(VFloat (S754_finite false 4503599627370496 (-52)))]))])])]);
  (* filters.json *) ((VObj [((b_of "value"), (VFloat (S754_finite false 5910974510923776 (-47)))); ((b_of "items"), (VArr [(VObj [((b_of "key"), (VFloat (S754_finite false 5629499534213120 (-49))))]); (VObj [((b_of "key"), (VFloat (S754_finite false 5910974510923776 (-47))))]); (VObj [((b_of "key"), (VFloat (S754_finite false 7036874417766400 (-47))))])]))]), [((b_of "$.items[?(@.key==$.value)]"), WResult [(VObj [((b_of "key"), (VFloat (S754_finite false 5910974510923776 (-47))))])])]);
  (* filters.json *) ((VArr [(VObj [((b_of "key"), (VFloat (S754_zero false)))]); (VObj [((b_of "key"), (VFloat (S754_finite false 5910974510923776 (-47))))]); (VObj [((b_of "key"), (VFloat (S754_finite true 4503599627370496 (-52))))]); (VObj [((b_of "key"), (VFloat (S754_finite false 5770237022568448 (-47))))]); (VObj [((b_of "key"), (VFloat (S754_finite false 6051711999279104 (-47))))]); (VObj [((b_of "key"), (VFloat (S754_finite false 5910988584672612 (-47))))]); (VObj [((b_of "key"), (VFloat (S754_finite false 5910960437174940 (-47))))]); (VObj [((b_of "key"), (VFloat (S754_finite false 7036874417766400 (-46))))]); (VObj [((b_of "key"), (VStr (b_of "43")))]); (VObj [((b_of "key"), (VStr (b_of "42")))]); (VObj [((b_of "key"), (VStr (b_of "41")))]); (VObj [((b_of "key"), (VStr (b_of "value")))]); (VObj [((b_of "some"), (VStr (b_of "value")))])]), [((b_of "$[?(@.key>42)]"), WResult [(VObj [((b_of "key"), (VFloat (S754_finite false 6051711999279104 (-47))))]); (VObj [((b_of "key"), (VFloat (S754_finite false 5910988584672612 (-47))))]); (VObj [((b_of "key"), (VFloat (S754_finite false 7036874417766400 (-46))))])]);
    ((b_of "$[?(@.key>=42)]"), WResult [(VObj [((b_of "key"), (VFloat (S754_finite false 5910974510923776 (-47))))]); (VObj [((b_of "key"), (VFloat (S754_finite false 6051711999279104 (-47))))]); (VObj [((b_of "key"), (VFloat (S754_finite false 5910988584672612 (-47))))]); (VObj [((b_of "key"), (VFloat (S754_finite false 7036874417766400 (-46))))])]);
    ((b_of "$[?(@.key >= 42)]"), WResult [(VObj [((b_of "key"), (VFloat (S754_finite false 5910974510923776 (-47))))]); (VObj [((b_of "key"), (VFloat (S754_finite false 6051711999279104 (-47))))]); (VObj [((b_of "key"), (VFloat (S754_finite false 5910988584672612 (-47))))]); (VObj [((b_of "key"), (VFloat (S754_finite false 7036874417766400 (-46))))])]);
    ((b_of "$[?(@.key >= 42.0)]"), WResult [(VObj [((b_of "key"), (VFloat (S754_finite false 5910974510923776 (-47))))]); (VObj [((b_of "key"), (VFloat (S754_finite false 6051711999279104 (-47))))]); (VObj [((b_of "key"), (VFloat (S754_finite false 5910988584672612 (-47))))]); (VObj [((b_of "key"), (VFloat (S754_finite false 7036874417766400 (-46))))])]);
    ((b_of "$[?(@.key<42)]"), WResult [(VObj [((b_of "key"), (VFloat (S754_zero false)))]); (VObj [((b_of "key"), (VFloat (S754_finite true 4503599627370496 (-52))))]); (VObj [((b_of "key"), (VFloat (S754_finite false 5770237022568448 (-47))))]); (VObj [((b_of "key"), (VFloat (S754_finite false 5910960437174940 (-47))))])]);
    ((b_of "$[?(@.key<=42)]"), WResult [(VObj [((b_of "key"), (VFloat (S754_zero false)))]); (VObj [((b_of "key"), (VFloat (S754_finite false 5910974510923776 (-47))))]); (VObj [((b_of "key"), (VFloat (S754_finite true 4503599627370496 (-52))))]); (VObj [((b_of "key"), (VFloat (S754_finite false 5770237022568448 (-47))))]); (VObj [((b_of "key"), (VFloat (S754_finite false 5910960437174940 (-47))))])]);
    ((b_of "$[?(!(@.key==42))]"), WResult [(VObj [((b_of "key"), (VFloat (S754_zero false)))]); (VObj [((b_of "key"), (VFloat (S754_finite true 4503599627370496 (-52))))]); (VObj [((b_of "key"), (VFloat (S754_finite false 5770237022568448 (-47))))]); (VObj [((b_of "key"), (VFloat (S754_finite false 6051711999279104 (-47))))]); (VObj [((b_of "key"), (VFloat (S754_finite false 5910988584672612 (-47))))]); (VObj [((b_of "key"), (VFloat (S754_finite false 5910960437174940 (-47))))]); (VObj [((b_of "key"), (VFloat (S754_finite false 7036874417766400 (-46))))]); (VObj [((b_of "key"), (VStr (b_of "43")))]); (VObj [((b_of "key"), (VStr (b_of "41")))]); (VObj [((b_of "key"), (VStr (b_of "value")))]); (VObj [((b_of "some"), (VStr (b_of "value")))])]);
    ((b_of "$[?(!(@.key<42))]"), WResult [(VObj [((b_of "key"), (VFloat (S754_finite false 5910974510923776 (-47))))]); (VObj [((b_of "key"), (VFloat (S754_finite false 6051711999279104 (-47))))]); (VObj [((b_of "key"), (VFloat (S754_finite false 5910988584672612 (-47))))]); (VObj [((b_of "key"), (VFloat (S754_finite false 7036874417766400 (-46))))]); (VObj [((b_of "key"), (VStr (b_of "43")))]); (VObj [((b_of "key"), (VStr (b_of "42")))]); (VObj [((b_of "key"), (VStr (b_of "41")))]); (VObj [((b_of "key"), (VStr (b_of "value")))]); (VObj [((b_of "some"), (VStr (b_of "value")))])]);
    ((b_of "$[?(!(@.key<=42))]"), WResult [(VObj [((b_of "key"), (VFloat (S754_finite false 6051711999279104 (-47))))]); (VObj [((b_of "key"), (VFloat (S754_finite false 5910988584672612 (-47))))]); (VObj [((b_of "key"), (VFloat (S754_finite false 7036874417766400 (-46))))]); (VObj [((b_of "key"), (VStr (b_of "43")))]); (VObj [((b_of "key"), (VStr (b_of "42")))]); (VObj [((b_of "key"), (VStr (b_of "41")))]); (VObj [((b_of "key"), (VStr (b_of "value")))]); (VObj [((b_of "some"), (VStr (b_of "value")))])]);
    ((b_of "$[?(@.key!=42)]"), WResult [(VObj [((b_of "key"), (VFloat (S754_zero false)))]); (VObj [((b_of "key"), (VFloat (S754_finite true 4503599627370496 (-52))))]); (VObj [((b_of "key"), (VFloat (S754_finite false 5770237022568448 (-47))))]); (VObj [((b_of "key"), (VFloat (S754_finite false 6051711999279104 (-47))))]); (VObj [((b_of "key"), (VFloat (S754_finite false 5910988584672612 (-47))))]); (VObj [((b_of "key"), (VFloat (S754_finite false 5910960437174940 (-47))))]); (VObj [((b_of "key"), (VFloat (S754_finite false 7036874417766400 (-46))))]); (VObj [((b_of "key"), (VStr (b_of "43")))]); (VObj [((b_of "key"), (VStr (b_of "41")))]); (VObj [((b_of "key"), (VStr (b_of "value")))]); (VObj [((b_of "some"), (VStr (b_of "value")))])])]);
  (* filters.json *) ((VArr [(VObj [((b_of "key"), (VFloat (S754_finite false 8444249301319680 (-47))))]); (VObj [((b_of "key"), (VFloat (S754_finite false 7036874417766400 (-47))))]); (VObj [((b_of "key"), (VFloat (S754_finite false 5629499534213120 (-49))))]); (VObj [((b_of "key"), (VFloat (S754_finite true 7036874417766400 (-47))))]); (VObj [((b_of "key*2"), (VFloat (S754_finite false 7036874417766400 (-46))))])]), [((b_of "$[?(@.key*2==100)]"), WResult [(VObj [((b_of "key"), (VFloat (S754_finite false 7036874417766400 (-47))))])])]);
  (* filters.json *) ((VArr [(VArr [(VFloat (S754_finite false 4503599627370496 (-52))); (VFloat (S754_finite false 4503599627370496 (-51)))]); (VArr [(VFloat (S754_finite false 6755399441055744 (-51))); (VFloat (S754_finite false 4503599627370496 (-50)))]); (VArr [(VFloat (S754_finite false 5629499534213120 (-50))); (VFloat (S754_finite false 6755399441055744 (-50)))])]), []);
  (* filters.json *) ((VObj [((b_of "x"), (VArr [(VArr [(VFloat (S754_finite false 4503599627370496 (-52))); (VFloat (S754_finite false 4503599627370496 (-51)))]); (VArr [(VFloat (S754_finite false 6755399441055744 (-51))); (VFloat (S754_finite false 4503599627370496 (-50)))]); (VArr [(VFloat (S754_finite false 5629499534213120 (-50))); (VFloat (S754_finite false 6755399441055744 (-50)))])])); ((b_of "y"), (VArr [(VFloat (S754_finite false 6755399441055744 (-51))); (VFloat (S754_finite false 4503599627370496 (-50))); (VFloat (S754_finite false 5629499534213120 (-50)))]))]), []);
  (* filters.json *) ((VObj [((b_of "x"), (VArr [(VArr [(VFloat (S754_finite false 4503599627370496 (-52))); (VFloat (S754_finite false 4503599627370496 (-51)))]); (VArr [(VFloat (S754_finite false 6755399441055744 (-51))); (VFloat (S754_finite false 4503599627370496 (-50)))]); (VArr [(VFloat (S754_finite false 5629499534213120 (-50))); (VFloat (S754_finite false 6755399441055744 (-50)))])])); ((b_of "y"), (VArr [(VFloat (S754_finite false 6755399441055744 (-51))); (VFloat (S754_finite false 4503599627370496 (-50))); (VFloat (S754_finite false 5629499534213120 (-50)))]))]), []);
  (* filters.json *) ((VArr [(VObj [((b_of "some"), (VStr (b_of "value")))])]), [((b_of "$[?(@.key>42)]"), WResult [])]);
  (* filters.json *) ((VArr [(VObj [((b_of "some"), (VStr (b_of "value")))])]), [((b_of "$[?(42 > @.key)]"), WResult [])]);
  (* filters.json *) ((VArr [(VObj [((b_of "some"), (VStr (b_of "value")))])]), [((b_of "$[?(@.other > @.key)]"), WResult [])]);
  (* filters.json *) ((VArr [(VObj [((b_of "key1"), (VFloat (S754_zero false))); ((b_of "key2"), (VFloat (S754_finite false 5629499534213120 (-48))))]); (VObj [((b_of "key1"), (VFloat (S754_finite false 5629499534213120 (-49)))); ((b_of "key2"), (VFloat (S754_finite false 5066549580791808 (-49))))])]), [((b_of "$[?(@.key1 > @.key2)]"), WResult [(VObj [((b_of "key1"), (VFloat (S754_finite false 5629499534213120 (-49)))); ((b_of "key2"), (VFloat (S754_finite false 5066549580791808 (-49))))])])]);
  (* filters.json *) ((VArr [(VObj [((b_of "some"), (VStr (b_of "value")))])]), [((b_of "$[?(@.key<=42)]"), WResult [])]);
  (* filters.json *) ((VArr [(VObj [((b_of "some"), (VStr (b_of "value")))])]), [((b_of "$[?(42 <= @.key)]"), WResult [])]);
  (* filters.json *) ((VArr [(VObj [((b_of "some"), (VStr (b_of "value")))])]), [((b_of "$[?(@.other <= @.key)]"), WResult [])]);
  (* filters.json *) ((VArr [(VObj [((b_of "key1"), (VFloat (S754_zero false))); ((b_of "key2"), (VFloat (S754_finite false 5629499534213120 (-48))))]); (VObj [((b_of "key1"), (VFloat (S754_finite false 5629499534213120 (-49)))); ((b_of "key2"), (VFloat (S754_finite false 5066549580791808 (-49))))])]), [((b_of "$[?(@.key1 <= @.key2)]"), WResult [(VObj [((b_of "key1"), (VFloat (S754_zero false))); ((b_of "key2"), (VFloat (S754_finite false 5629499534213120 (-48))))])])]);
  (* filters.json *) ((VArr [(VObj [((b_of "some"), (VStr (b_of "value")))])]), [((b_of "$[?(@.key>=42)]"), WResult [])]);
  (* filters.json *) ((VArr [(VObj [((b_of "some"), (VStr (b_of "value")))])]), [((b_of "$[?(42 >= @.key)]"), WResult [])]);
  (* filters.json *) ((VArr [(VObj [((b_of "some"), (VStr (b_of "value")))])]), [((b_of "$[?(@.other >= @.key)]"), WResult [])]);
  (* filters.json *) ((VArr [(VObj [((b_of "key1"), (VFloat (S754_zero false))); ((b_of "key2"), (VFloat (S754_finite false 5629499534213120 (-48))))]); (VObj [((b_of "key1"), (VFloat (S754_finite false 5629499534213120 (-49)))); ((b_of "key2"), (VFloat (S754_finite false 5066549580791808 (-49))))])]), [((b_of "$[?(@.key1 >= @.key2)]"), WResult [(VObj [((b_of "key1"), (VFloat (S754_finite false 5629499534213120 (-49)))); ((b_of "key2"), (VFloat (S754_finite false 5066549580791808 (-49))))])])]);
  (* filters.json *) ((VArr [(VObj [((b_of "root"), (VObj [((b_of "id"), (VFloat (S754_finite false 5629499534213120 (-49)))); ((b_of "second"), (VArr [(VObj [((b_of "names"), (VArr [(VFloat (S754_finite false 4503599627370496 (-51)))])); ((b_of "complex"), (VArr [(VObj [((b_of "names"), (VArr [(VFloat (S754_finite false 4503599627370496 (-52)))])); ((b_of "panels"), (VArr [(VObj [((b_of "result"), (VArr [(VFloat (S754_finite false 4503599627370496 (-52)))]))]); (VObj [((b_of "result"), (VArr [(VFloat (S754_finite false 4503599627370496 (-52))); (VFloat (S754_finite false 4503599627370496 (-51))); (VFloat (S754_finite false 6755399441055744 (-51))); (VFloat (S754_finite false 4503599627370496 (-50)))]))]); (VObj [((b_of "result"), (VArr [(VFloat (S754_finite false 4503599627370496 (-52)))]))])]))])]))])]))]))]); (VObj [((b_of "root"), (VObj [((b_of "id"), (VFloat (S754_finite false 5629499534213120 (-48)))); ((b_of "second"), (VArr [(VObj [((b_of "names"), (VArr [(VFloat (S754_finite false 4503599627370496 (-51)))])); ((b_of "complex"), (VArr [(VObj [((b_of "names"), (VArr [(VFloat (S754_finite false 4503599627370496 (-52)))])); ((b_of "panels"), (VArr [(VObj [((b_of "result"), (VArr [(VFloat (S754_finite false 4503599627370496 (-52)))]))]); (VObj [((b_of "result"), (VArr [(VFloat (S754_finite false 4503599627370496 (-52))); (VFloat (S754_finite false 4503599627370496 (-51))); (VFloat (S754_finite false 6755399441055744 (-51))); (VFloat (S754_finite false 4503599627370496 (-50)))]))]); (VObj [((b_of "result"), (VArr [(VFloat (S754_finite false 4503599627370496 (-52)))]))])]))])]))])]))]))])]), [((b_of "$..[?(@.result.length == 4)]"), WResult [(VObj [((b_of "result"), (VArr [(VFloat (S754_finite false 4503599627370496 (-52))); (VFloat (S754_finite false 4503599627370496 (-51))); (VFloat (S754_finite false 6755399441055744 (-51))); (VFloat (S754_finite false 4503599627370496 (-50)))]))]); (VObj [((b_of "result"), (VArr [(VFloat (S754_finite false 4503599627370496 (-52))); (VFloat (S754_finite false 4503599627370496 (-51))); (VFloat (S754_finite false 6755399441055744 (-51))); (VFloat (S754_finite false 4503599627370496 (-50)))]))])]);
    ((b_of "$..[?(@.id == 10)]..[?(@.result.length == 4)]"), WResult [(VObj [((b_of "result"), (VArr [(VFloat (S754_finite false 4503599627370496 (-52))); (VFloat (S754_finite false 4503599627370496 (-51))); (VFloat (S754_finite false 6755399441055744 (-51))); (VFloat (S754_finite false 4503599627370496 (-50)))]))])]);
    ((b_of "$..[?(@.result.length == 4)][?(@[0] == 3 || @[1] == 3 || @[2] == 3 || @[3] == 3)]"), WResult [(VArr [(VFloat (S754_finite false 4503599627370496 (-52))); (VFloat (S754_finite false 4503599627370496 (-51))); (VFloat (S754_finite false 6755399441055744 (-51))); (VFloat (S754_finite false 4503599627370496 (-50)))]); (VArr [(VFloat (S754_finite false 4503599627370496 (-52))); (VFloat (S754_finite false 4503599627370496 (-51))); (VFloat (S754_finite false 6755399441055744 (-51))); (VFloat (S754_finite false 4503599627370496 (-50)))])])]);
  (* filters.json *) ((VObj [((b_of "store"), (VObj [((b_of "book"), (VArr [(VObj [((b_of "category"), (VStr (b_of "reference"))); ((b_of "author"), (VStr (b_of "Nigel Rees"))); ((b_of "title"), (VStr (b_of "Sayings of the Century"))); ((b_of "price"), (VFloat (S754_finite false 5038402083120742 (-49))))]); (VObj [((b_of "category"), (VStr (b_of "fiction"))); ((b_of "author"), (VStr (b_of "Evelyn Waugh"))); ((b_of "title"), (VStr (b_of "Sword of Honour"))); ((b_of "price"), (VFloat (S754_finite false 7312719894942843 (-49))))]); (VObj [((b_of "category"), (VStr (b_of "fiction"))); ((b_of "author"), (VStr (b_of "Herman Melville"))); ((b_of "title"), (VStr (b_of "Moby Dick"))); ((b_of "isbn"), (VStr (b_of "0-553-21311-3"))); ((b_of "price"), (VFloat (S754_finite false 5060920081257595 (-49))))]); (VObj [((b_of "category"), (VStr (b_of "fiction"))); ((b_of "author"), (VStr (b_of "J. R. R. Tolkien"))); ((b_of "title"), (VStr (b_of "The Lord of the Rings"))); ((b_of "isbn"), (VStr (b_of "0-395-19395-8"))); ((b_of "price"), (VFloat (S754_finite false 6471109714577981 (-48))))])])); ((b_of "bicycle"), (VObj [((b_of "color"), (VStr (b_of "red"))); ((b_of "price"), (VFloat (S754_finite false 5615425785377587 (-48))))]))]))]), [((b_of "$..book[?(@.price==8.99)].price"), WResult [(VFloat (S754_finite false 5060920081257595 (-49)))]);
    ((b_of "$..book[?(@.price==8.99)].price"), WResult [(VFloat (S754_finite false 5060920081257595 (-49)))])]);
  (* filters.json *) ((VArr [(VObj [((b_of "key1"), (VObj [((b_of "a"), (VObj [((b_of "a"), (VFloat (S754_finite false 4503599627370496 (-51))))]))])); ((b_of "key2"), (VFloat (S754_finite false 4503599627370496 (-52))))]); (VObj [((b_of "key1"), (VObj [((b_of "a"), (VObj [((b_of "a"), (VFloat (S754_finite false 4503599627370496 (-52))))]))])); ((b_of "key2"), (VFloat (S754_finite false 4503599627370496 (-51))))])]), []);
  (* filters.json *) ((VArr [(VFloat (S754_zero false)); (VFloat (S754_finite false 4503599627370496 (-52))); (VFloat (S754_finite false 4503599627370496 (-51))); (VFloat (S754_finite false 6755399441055744 (-51))); (VFloat (S754_finite false 4503599627370496 (-50))); (VFloat (S754_finite false 5629499534213120 (-50)))]), []);
  (* functions.json *) ((VObj [((b_of "store"), (VObj [((b_of "book"), (VArr [(VObj [((b_of "category"), (VStr (b_of "reference"))); ((b_of "author"), (VStr (b_of "Nigel Rees"))); ((b_of "title"), (VStr (b_of "Sayings of the Century"))); ((b_of "price"), (VFloat (S754_finite false 5038402083120742 (-49))))]); (VObj [((b_of "category"), (VStr (b_of "fiction"))); ((b_of "author"), (VStr (b_of "Evelyn Waugh"))); ((b_of "title"), (VStr (b_of "Sword of Honour"))); ((b_of "price"), (VFloat (S754_finite false 7312719894942843 (-49))))]); (VObj [((b_of "category"), (VStr (b_of "fiction"))); ((b_of "author"), (VStr (b_of "Herman Melville"))); ((b_of "title"), (VStr (b_of "Moby Dick"))); ((b_of "isbn"), (VStr (b_of "0-553-21311-3"))); ((b_of "price"), (VFloat (S754_finite false 5060920081257595 (-49))))]); (VObj [((b_of "category"), (VStr (b_of "fiction"))); ((b_of "author"), (VStr (b_of "J. R. R. Tolkien"))); ((b_of "title"), (VStr (b_of "The Lord of the Rings"))); ((b_of "isbn"), (VStr (b_of "0-395-19395-8"))); ((b_of "price"), (VFloat (S754_finite false 6471109714577981 (-48))))])])); ((b_of "bicycle"), (VObj [((b_of "color"), (VStr (b_of "red"))); ((b_of "price"), (VFloat (S754_finite false 5615425785377587 (-48))))]))]))]), [((b_of "$.store.book[?(ceil(@.price) == 9)].title"), WResult [(VStr (b_of "Sayings of the Century")); (VStr (b_of "Moby Dick"))]);
    ((b_of "$.store.book[?(ceil(@.price*100) == 899)].title"), WResult [(VStr (b_of "Moby Dick"))]);
    ((b_of "$.store.book[?(floor(@.price) == 8)].title"), WResult [(VStr (b_of "Sayings of the Century")); (VStr (b_of "Moby Dick"))]);
    ((b_of "$.store.book[?(floor(@.price*100) == 899)].title"), WResult [(VStr (b_of "Moby Dick"))]);
    ((b_of "$.store.book[?(tokenize(@.author,'\\s+')[-1] == 'Tolkien')].title"), WResult [(VStr (b_of "The Lord of the Rings"))])]);
  (* functions.json *) ((VObj [((b_of "books"), (VArr [(VObj [((b_of "title"), (VStr (b_of "A Wild Sheep Chase"))); ((b_of "author"), (VStr (b_of "Haruki Murakami"))); ((b_of "price"), (VFloat (S754_finite false 6395111470866104 (-48))))]); (VObj [((b_of "title"), (VStr (b_of "The Comedians"))); ((b_of "author"), (VStr (b_of "Graham Greene"))); ((b_of "price"), (VFloat (S754_finite false 6189634737867325 (-48))))]); (VObj [((b_of "title"), (VStr (b_of "The Night Watch"))); ((b_of "author"), (VStr (b_of "Phillips, David Atlee")))])]))]), [((b_of "$.books[?(!contains(keys(@),'price'))].title"), WResult [(VStr (b_of "The Night Watch"))])]);
  (* identifiers.json *) ((VObj [((b_of ""), (VFloat (S754_finite false 5910974510923776 (-47)))); ((b_of "''"), (VFloat (S754_finite false 8655355533852672 (-46)))); ((b_of """"""), (VFloat (S754_finite false 7810930603720704 (-45))))]), [((b_of "$['']"), WResult [(VFloat (S754_finite false 5910974510923776 (-47)))]);
    ((b_of "$[""""]"), WResult [(VFloat (S754_finite false 5910974510923776 (-47)))])]);
  (* identifiers.json *) ((VObj [((b_of "key"), (VStr (b_of "value")))]), [((b_of "$key"), WAnyError);
    ((b_of "$.key"), WResult [(VStr (b_of "value"))])]);
  (* identifiers.json *) ((VObj [((b_of "__L"), (VBool true))]), [((b_of "$.__L"), WResult [(VBool true)])]);
  (* identifiers.json *) ((VObj [([33; 13], (VBool true))]), [((b_of "$[""!\r""]"), WResult [(VBool true)])]);
  (* identifiers.json *) ((VObj [((b_of "Y_1623"), (VBool true))]), [((b_of "$.Y_1623"), WResult [(VBool true)])]);
  (* identifiers.json *) ((VObj [((b_of "x"), (VBool true))]), [((b_of "$.x"), WResult [(VBool true)])]);
  (* identifiers.json *) ((VObj [([9; 70; 236; 186; 187], (VBool true))]), [((b_of "$[""\tF\uCebb""]"), WResult [(VBool true)])]);
  (* identifiers.json *) ((VObj [([32; 9], (VBool true))]), [((b_of "$["" \t""]"), WResult [(VBool true)])]);
  (* identifiers.json *) ((VObj [((b_of " "), (VBool true))]), [((b_of "$["" ""]"), WResult [(VBool true)])]);
  (* identifiers.json *) ((VObj [((b_of "v2"), (VBool true))]), [((b_of "$.v2"), WResult [(VBool true)])]);
  (* identifiers.json *) ((VObj [([9], (VBool true))]), [((b_of "$[""\t""]"), WResult [(VBool true)])]);
  (* identifiers.json *) ((VObj [((b_of "_X"), (VBool true))]), [((b_of "$._X"), WResult [(VBool true)])]);
  (* identifiers.json *) ((VObj [([9; 52; 242; 134; 164; 149], (VBool true))]), [((b_of "$[""\t4\ud9da\udd15""]"), WResult [(VBool true)])]);
  (* identifiers.json *) ((VObj [((b_of "v24_W"), (VBool true))]), [((b_of "$.v24_W"), WResult [(VBool true)])]);
  (* identifiers.json *) ((VObj [((b_of "H"), (VBool true))]), [((b_of "$[""H""]"), WResult [(VBool true)])]);
  (* identifiers.json *) ((VObj [([12], (VBool true))]), [((b_of "$[""\f""]"), WResult [(VBool true)])]);
  (* identifiers.json *) ((VObj [((b_of "E4"), (VBool true))]), [((b_of "$[""E4""]"), WResult [(VBool true)])]);
  (* identifiers.json *) ((VObj [((b_of "!"), (VBool true))]), [((b_of "$[""!""]"), WResult [(VBool true)])]);
  (* identifiers.json *) ((VObj [((b_of "tM"), (VBool true))]), [((b_of "$.tM"), WResult [(VBool true)])]);
  (* identifiers.json *) ((VObj [((b_of " ["), (VBool true))]), [((b_of "$["" [""]"), WResult [(VBool true)])]);
  (* identifiers.json *) ((VObj [((b_of "R!"), (VBool true))]), [((b_of "$[""R!""]"), WResult [(VBool true)])]);
  (* identifiers.json *) ((VObj [((b_of "_6W"), (VBool true))]), [((b_of "$._6W"), WResult [(VBool true)])]);
  (* identifiers.json *) ((VObj [([234; 174; 161; 13], (VBool true))]), [((b_of "$[""\uaBA1\r""]"), WResult [(VBool true)])]);
  (* identifiers.json *) ((VObj [((b_of "tL7"), (VBool true))]), [((b_of "$.tL7"), WResult [(VBool true)])]);
  (* identifiers.json *) ((VObj [([60; 60; 85; 9], (VBool true))]), [((b_of "$[""<<U\t""]"), WResult [(VBool true)])]);
  (* identifiers.json *) ((VObj [([235; 175; 142; 239; 171; 187], (VBool true))]), [((b_of "$[""\ubBcE\ufAfB""]"), WResult [(VBool true)])]);
  (* identifiers.json *) ((VObj [((b_of "sNA_"), (VBool true))]), [((b_of "$.sNA_"), WResult [(VBool true)])]);
  (* identifiers.json *) ((VObj [((b_of "9"), (VBool true))]), [((b_of "$[""9""]"), WResult [(VBool true)])]);
  (* identifiers.json *) ((VObj [([92; 8; 241; 130; 178; 131], (VBool true))]), [((b_of "$[""\\\b\ud8cb\udc83""]"), WResult [(VBool true)])]);
  (* identifiers.json *) ((VObj [((b_of "r"), (VBool true))]), [((b_of "$[""r""]"), WResult [(VBool true)])]);
  (* identifiers.json *) ((VObj [((b_of "Q"), (VBool true))]), [((b_of "$.Q"), WResult [(VBool true)])]);
  (* identifiers.json *) ((VObj [((b_of "_Q__7GL8"), (VBool true))]), [((b_of "$._Q__7GL8"), WResult [(VBool true)])]);
  (* identifiers.json *) ((VObj [((b_of "\"), (VBool true))]), [((b_of "$[""\\""]"), WResult [(VBool true)])]);
  (* identifiers.json *) ((VObj [((b_of "RR9_"), (VBool true))]), [((b_of "$.RR9_"), WResult [(VBool true)])]);
  (* identifiers.json *) ((VObj [([13; 12; 58], (VBool true))]), [((b_of "$[""\r\f:""]"), WResult [(VBool true)])]);
  (* identifiers.json *) ((VObj [((b_of "r7"), (VBool true))]), [((b_of "$.r7"), WResult [(VBool true)])]);
  (* identifiers.json *) ((VObj [((b_of "-"), (VBool true))]), [((b_of "$[""-""]"), WResult [(VBool true)])]);
  (* identifiers.json *) ((VObj [((b_of "p9"), (VBool true))]), [((b_of "$.p9"), WResult [(VBool true)])]);
  (* identifiers.json *) ((VObj [((b_of "__"), (VBool true))]), [((b_of "$.__"), WResult [(VBool true)])]);
  (* identifiers.json *) ((VObj [([8; 9], (VBool true))]), [((b_of "$[""\b\t""]"), WResult [(VBool true)])]);
  (* identifiers.json *) ((VObj [((b_of "O_"), (VBool true))]), [((b_of "$.O_"), WResult [(VBool true)])]);
  (* identifiers.json *) ((VObj [((b_of "_r_8"), (VBool true))]), [((b_of "$._r_8"), WResult [(VBool true)])]);
  (* identifiers.json *) ((VObj [((b_of "_j"), (VBool true))]), [((b_of "$._j"), WResult [(VBool true)])]);
  (* identifiers.json *) ((VObj [((b_of ":"), (VBool true))]), [((b_of "$["":""]"), WResult [(VBool true)])]);
  (* identifiers.json *) ((VObj [([13; 66], (VBool true))]), [((b_of "$[""\rB""]"), WResult [(VBool true)])]);
  (* identifiers.json *) ((VObj [((b_of "Obf"), (VBool true))]), [((b_of "$.Obf"), WResult [(VBool true)])]);
  (* identifiers.json *) ((VObj [([10], (VBool true))]), [((b_of "$[""\n""]"), WResult [(VBool true)])]);
  (* identifiers.json *) ((VObj [([12; 243; 165; 140; 179], (VBool true))]), [([36; 91; 34; 92; 102; 243; 165; 140; 179; 34; 93], WResult [(VBool true)])]);
  (* identifiers.json *) ((VObj [([92; 228; 191; 156], (VBool true))]), [((b_of "$[""\\\u4FDc""]"), WResult [(VBool true)])]);
  (* identifiers.json *) ((VObj [([13], (VBool true))]), [((b_of "$[""\r""]"), WResult [(VBool true)])]);
  (* identifiers.json *) ((VObj [((b_of "m_"), (VBool true))]), [((b_of "$.m_"), WResult [(VBool true)])]);
  (* identifiers.json *) ((VObj [([13; 12; 66; 32], (VBool true))]), [((b_of "$[""\r\fB ""]"), WResult [(VBool true)])]);
  (* identifiers.json *) ((VObj [((b_of "+"""""), (VBool true))]), [((b_of "$[""+\""\""""]"), WResult [(VBool true)])]);
  (* identifiers.json *) ((VObj [((b_of "Mg"), (VBool true))]), [((b_of "$.Mg"), WResult [(VBool true)])]);
  (* identifiers.json *) ((VObj [((b_of """!/"), (VBool true))]), [((b_of "$[""\""!\/""]"), WResult [(VBool true)])]);
  (* identifiers.json *) ((VObj [((b_of "7"""), (VBool true))]), [((b_of "$[""7\""""]"), WResult [(VBool true)])]);
  (* identifiers.json *) ((VObj [([92; 243; 158; 162; 164; 83], (VBool true))]), [([36; 91; 34; 92; 92; 243; 158; 162; 164; 83; 34; 93], WResult [(VBool true)])]);
  (* identifiers.json *) ((VObj [((b_of """"), (VBool true))]), [((b_of "$[""\""""]"), WResult [(VBool true)])]);
  (* identifiers.json *) ((VObj [((b_of "Kl"), (VBool true))]), [((b_of "$.Kl"), WResult [(VBool true)])]);
  (* identifiers.json *) ((VObj [([8; 8], (VBool true))]), [((b_of "$[""\b\b""]"), WResult [(VBool true)])]);
  (* identifiers.json *) ((VObj [((b_of ">"), (VBool true))]), [((b_of "$["">""]"), WResult [(VBool true)])]);
  (* identifiers.json *) ((VObj [((b_of "hvu"), (VBool true))]), [((b_of "$.hvu"), WResult [(VBool true)])]);
  (* identifiers.json *) ((VObj [((b_of "; !"), (VBool true))]), [((b_of "$[""; !""]"), WResult [(VBool true)])]);
  (* identifiers.json *) ((VObj [((b_of "hU"), (VBool true))]), [((b_of "$.hU"), WResult [(VBool true)])]);
  (* identifiers.json *) ((VObj [([33; 73; 10; 47], (VBool true))]), [((b_of "$[""!I\n\/""]"), WResult [(VBool true)])]);
  (* identifiers.json *) ((VObj [([238; 186; 191], (VBool true))]), [((b_of "$[""\uEEbF""]"), WResult [(VBool true)])]);
  (* identifiers.json *) ((VObj [([85; 41; 9], (VBool true))]), [((b_of "$[""U)\t""]"), WResult [(VBool true)])]);
  (* identifiers.json *) ((VObj [((b_of "fa0_9"), (VBool true))]), [((b_of "$.fa0_9"), WResult [(VBool true)])]);
  (* identifiers.json *) ((VObj [((b_of "/"), (VBool true))]), [((b_of "$[""/""]"), WResult [(VBool true)])]);
  (* identifiers.json *) ((VObj [((b_of "Gy"), (VBool true))]), [((b_of "$.Gy"), WResult [(VBool true)])]);
  (* identifiers.json *) ((VObj [([8], (VBool true))]), [((b_of "$[""\b""]"), WResult [(VBool true)])]);
  (* identifiers.json *) ((VObj [((b_of "<"), (VBool true))]), [((b_of "$[""<""]"), WResult [(VBool true)])]);
  (* identifiers.json *) ((VObj [([9], (VBool true))]), [((b_of "$[""\t""]"), WResult [(VBool true)])]);
  (* identifiers.json *) ((VObj [([9; 38; 92; 13], (VBool true))]), [((b_of "$[""\t&\\\r""]"), WResult [(VBool true)])]);
  (* identifiers.json *) ((VObj [((b_of "#"), (VBool true))]), [((b_of "$[""#""]"), WResult [(VBool true)])]);
  (* identifiers.json *) ((VObj [((b_of "B__"), (VBool true))]), [((b_of "$.B__"), WResult [(VBool true)])]);
  (* identifiers.json *) ((VObj [([10; 83; 32; 10], (VBool true))]), [((b_of "$[""\nS \n""]"), WResult [(VBool true)])]);
  (* identifiers.json *) ((VObj [((b_of "Bp"), (VBool true))]), [((b_of "$.Bp"), WResult [(VBool true)])]);
  (* identifiers.json *) ((VObj [([44; 9; 59], (VBool true))]), [((b_of "$["",\t;""]"), WResult [(VBool true)])]);
  (* identifiers.json *) ((VObj [((b_of "B_q"), (VBool true))]), [((b_of "$.B_q"), WResult [(VBool true)])]);
  (* identifiers.json *) ((VObj [([47; 43; 9; 10; 8; 33; 90], (VBool true))]), [((b_of "$[""\/+\t\n\b!Z""]"), WResult [(VBool true)])]);
  (* identifiers.json *) ((VObj [([243; 135; 159; 135; 92; 117; 101; 70; 65; 99], (VBool true))]), [([36; 91; 34; 243; 135; 159; 135; 92; 92; 117; 101; 70; 65; 99; 34; 93], WResult [(VBool true)])]);
  (* identifiers.json *) ((VObj [([58; 12], (VBool true))]), [((b_of "$["":\f""]"), WResult [(VBool true)])]);
  (* identifiers.json *) ((VObj [((b_of "/"), (VBool true))]), [((b_of "$[""\/""]"), WResult [(VBool true)])]);
  (* identifiers.json *) ((VObj [((b_of "_BW_6Hg_Gl"), (VBool true))]), [((b_of "$._BW_6Hg_Gl"), WResult [(VBool true)])]);
  (* identifiers.json *) ((VObj [([244; 131; 176; 130], (VBool true))]), [([36; 91; 34; 244; 131; 176; 130; 34; 93], WResult [(VBool true)])]);
  (* identifiers.json *) ((VObj [((b_of "zs1DC"), (VBool true))]), [((b_of "$.zs1DC"), WResult [(VBool true)])]);
  (* identifiers.json *) ((VObj [((b_of "__434"), (VBool true))]), [((b_of "$.__434"), WResult [(VBool true)])]);
  (* identifiers.json *) ((VObj [([243; 181; 133; 129], (VBool true))]), [([36; 91; 34; 243; 181; 133; 129; 34; 93], WResult [(VBool true)])]);
  (* identifiers.json *) ((VObj [((b_of "Z_5"), (VBool true))]), [((b_of "$.Z_5"), WResult [(VBool true)])]);
  (* identifiers.json *) ((VObj [((b_of "z_M_"), (VBool true))]), [((b_of "$.z_M_"), WResult [(VBool true)])]);
  (* identifiers.json *) ((VObj [((b_of "YU_2"), (VBool true))]), [((b_of "$.YU_2"), WResult [(VBool true)])]);
  (* identifiers.json *) ((VObj [((b_of "_0"), (VBool true))]), [((b_of "$._0"), WResult [(VBool true)])]);
  (* identifiers.json *) ((VObj [([8; 43], (VBool true))]), [((b_of "$[""\b+""]"), WResult [(VBool true)])]);
  (* identifiers.json *) ((VObj [((b_of """"), (VBool true))]), [((b_of "$[""\""""]"), WResult [(VBool true)])]);
  (* identifiers.json *) ((VObj [((b_of "D7"), (VBool true))]), [((b_of "$.D7"), WResult [(VBool true)])]);
  (* identifiers.json *) ((VObj [((b_of "_62L"), (VBool true))]), [((b_of "$._62L"), WResult [(VBool true)])]);
  (* identifiers.json *) ((VObj [([9; 75; 9], (VBool true))]), [((b_of "$[""\tK\t""]"), WResult [(VBool true)])]);
  (* identifiers.json *) ((VObj [([10; 92; 12], (VBool true))]), [((b_of "$[""\n\\\f""]"), WResult [(VBool true)])]);
  (* identifiers.json *) ((VObj [((b_of "I_"), (VBool true))]), [((b_of "$.I_"), WResult [(VBool true)])]);
  (* identifiers.json *) ((VObj [((b_of "W_a0_"), (VBool true))]), [((b_of "$.W_a0_"), WResult [(VBool true)])]);
  (* identifiers.json *) ((VObj [((b_of "BQ"), (VBool true))]), [((b_of "$.BQ"), WResult [(VBool true)])]);
  (* identifiers.json *) ((VObj [([9; 88; 36; 234; 174; 187], (VBool true))]), [((b_of "$[""\tX$\uABBb""]"), WResult [(VBool true)])]);
  (* identifiers.json *) ((VObj [((b_of "Z9"), (VBool true))]), [((b_of "$.Z9"), WResult [(VBool true)])]);
  (* identifiers.json *) ((VObj [([8; 37; 34; 242; 158; 132; 143], (VBool true))]), [([36; 91; 34; 92; 98; 37; 92; 34; 242; 158; 132; 143; 34; 93], WResult [(VBool true)])]);
  (* identifiers.json *) ((VObj [((b_of "_F"), (VBool true))]), [((b_of "$._F"), WResult [(VBool true)])]);
  (* identifiers.json *) ((VObj [((b_of "!,"), (VBool true))]), [((b_of "$[""!,""]"), WResult [(VBool true)])]);
  (* identifiers.json *) ((VObj [((b_of """!"), (VBool true))]), [((b_of "$[""\""!""]"), WResult [(VBool true)])]);
  (* identifiers.json *) ((VObj [((b_of "Hh"), (VBool true))]), [((b_of "$.Hh"), WResult [(VBool true)])]);
  (* identifiers.json *) ((VObj [((b_of "&"), (VBool true))]), [((b_of "$[""&""]"), WResult [(VBool true)])]);
  (* identifiers.json *) ((VObj [([57; 13; 92; 82], (VBool true))]), [((b_of "$[""9\r\\R""]"), WResult [(VBool true)])]);
  (* identifiers.json *) ((VObj [((b_of "M_k"), (VBool true))]), [((b_of "$.M_k"), WResult [(VBool true)])]);
  (* identifiers.json *) ((VObj [([33; 8; 10; 243; 145; 169; 146; 34; 34], (VBool true))]), [([36; 91; 34; 33; 92; 98; 92; 110; 243; 145; 169; 146; 92; 34; 92; 34; 34; 93], WResult [(VBool true)])]);
  (* identifiers.json *) ((VObj [((b_of "6"), (VBool true))]), [((b_of "$[""6""]"), WResult [(VBool true)])]);
  (* identifiers.json *) ((VObj [((b_of "_7"), (VBool true))]), [((b_of "$._7"), WResult [(VBool true)])]);
  (* identifiers.json *) ((VObj [((b_of "0"), (VBool true))]), [((b_of "$[""0""]"), WResult [(VBool true)])]);
  (* identifiers.json *) ((VObj [((b_of "\8\"), (VBool true))]), [((b_of "$[""\\8\\""]"), WResult [(VBool true)])]);
  (* identifiers.json *) ((VObj [((b_of "b7eo"), (VBool true))]), [((b_of "$.b7eo"), WResult [(VBool true)])]);
  (* identifiers.json *) ((VObj [((b_of "xIUo9"), (VBool true))]), [((b_of "$.xIUo9"), WResult [(VBool true)])]);
  (* identifiers.json *) ((VObj [((b_of "5"), (VBool true))]), [((b_of "$[""5""]"), WResult [(VBool true)])]);
  (* identifiers.json *) ((VObj [((b_of "?"), (VBool true))]), [((b_of "$[""?""]"), WResult [(VBool true)])]);
  (* identifiers.json *) ((VObj [((b_of "sU"), (VBool true))]), [((b_of "$.sU"), WResult [(VBool true)])]);
  (* identifiers.json *) ((VObj [((b_of "VH2&H\/"), (VBool true))]), [((b_of "$[""VH2&H\\\/""]"), WResult [(VBool true)])]);
  (* identifiers.json *) ((VObj [((b_of "_C"), (VBool true))]), [((b_of "$._C"), WResult [(VBool true)])]);
  (* identifiers.json *) ((VObj [((b_of "_"), (VBool true))]), [((b_of "$._"), WResult [(VBool true)])]);
  (* identifiers.json *) ((VObj [([60; 9], (VBool true))]), [((b_of "$[""<\t""]"), WResult [(VBool true)])]);
  (* identifiers.json *) ((VObj [([240; 157; 132; 158], (VBool true))]), [((b_of "$[""\uD834\uDD1E""]"), WResult [(VBool true)])]);
  (* indices.json *) ((VObj [((b_of "foo"), (VArr [(VStr (b_of "zero")); (VStr (b_of "one")); (VStr (b_of "two"))]))]), [((b_of "$.foo.1"), WResult [(VStr (b_of "one"))])]);
  (* indices.json *) ((VObj [((b_of "0"), (VStr (b_of "value")))]), [((b_of "$[0]"), WResult [(VStr (b_of "value"))])]);
  (* indices.json *) ((VObj [((b_of "foo"), (VObj [((b_of "bar"), (VArr [(VStr (b_of "zero")); (VStr (b_of "one")); (VStr (b_of "two"))]))]))]), [((b_of "$.foo.bar[0]"), WResult [(VStr (b_of "zero"))]);
    ((b_of "$.foo.bar[1]"), WResult [(VStr (b_of "one"))]);
    ((b_of "$.foo.bar[2]"), WResult [(VStr (b_of "two"))]);
    ((b_of "$.foo.bar[3]"), WResult []);
    ((b_of "$.foo.bar[-1]"), WResult [(VStr (b_of "two"))]);
    ((b_of "$.foo.bar[-2]"), WResult [(VStr (b_of "one"))]);
    ((b_of "$.foo.bar[-3]"), WResult [(VStr (b_of "zero"))]);
    ((b_of "$.foo.bar[-4]"), WResult [])]);
  (* indices.json *) ((VObj [((b_of "foo"), (VArr [(VObj [((b_of "bar"), (VStr (b_of "one")))]); (VObj [((b_of "bar"), (VStr (b_of "two")))]); (VObj [((b_of "bar"), (VStr (b_of "three")))]); (VObj [((b_of "notbar"), (VStr (b_of "four")))])]))]), [((b_of "$.foo.bar"), WResult []);
    ((b_of "$.foo[0].bar"), WResult [(VStr (b_of "one"))]);
    ((b_of "$.foo[1].bar"), WResult [(VStr (b_of "two"))]);
    ((b_of "$.foo[2].bar"), WResult [(VStr (b_of "three"))]);
    ((b_of "$.foo[3].notbar"), WResult [(VStr (b_of "four"))]);
    ((b_of "$.foo[3].bar"), WResult []);
    ((b_of "$.foo[0]"), WResult [(VObj [((b_of "bar"), (VStr (b_of "one")))])]);
    ((b_of "$.foo[1]"), WResult [(VObj [((b_of "bar"), (VStr (b_of "two")))])]);
    ((b_of "$.foo[2]"), WResult [(VObj [((b_of "bar"), (VStr (b_of "three")))])]);
    ((b_of "$.foo[3]"), WResult [(VObj [((b_of "notbar"), (VStr (b_of "four")))])]);
    ((b_of "$.foo[4]"), WResult [])]);
  (* indices.json *) ((VArr [(VStr (b_of "one")); (VStr (b_of "two")); (VStr (b_of "three"))]), [((b_of "$[0]"), WResult [(VStr (b_of "one"))]);
    ((b_of "$[1]"), WResult [(VStr (b_of "two"))]);
    ((b_of "$[2]"), WResult [(VStr (b_of "three"))]);
    ((b_of "$[-1]"), WResult [(VStr (b_of "three"))]);
    ((b_of "$[-2]"), WResult [(VStr (b_of "two"))]);
    ((b_of "$[-3]"), WResult [(VStr (b_of "one"))])]);
  (* indices.json *) ((VArr [(VStr (b_of "first")); (VStr (b_of "second")); (VStr (b_of "third"))]), [((b_of "$[-1]"), WResult [(VStr (b_of "third"))])]);
  (* recursive-descent.json *) ((VObj [((b_of "object"), (VObj [((b_of "key"), (VStr (b_of "value"))); ((b_of "array"), (VArr [(VObj [((b_of "key"), (VStr (b_of "something")))]); (VObj [((b_of "key"), (VObj [((b_of "key"), (VStr (b_of "russian dolls")))]))])]))])); ((b_of "key"), (VStr (b_of "top")))]), [((b_of "$..key"), WResult [(VStr (b_of "top")); (VStr (b_of "value")); (VStr (b_of "something")); (VObj [((b_of "key"), (VStr (b_of "russian dolls")))]); (VStr (b_of "russian dolls"))])]);
  (* recursive-descent.json *) ((VArr [(VStr (b_of "first")); (VObj [((b_of "key"), (VArr [(VStr (b_of "first nested")); (VObj [((b_of "more"), (VArr [(VObj [((b_of "nested"), (VArr [(VStr (b_of "deepest")); (VStr (b_of "second"))]))]); (VArr [(VStr (b_of "more")); (VStr (b_of "values"))])]))])]))])]), [((b_of "$..[0]"), WResult [(VStr (b_of "first")); (VStr (b_of "first nested")); (VObj [((b_of "nested"), (VArr [(VStr (b_of "deepest")); (VStr (b_of "second"))]))]); (VStr (b_of "deepest")); (VStr (b_of "more"))])]);
  (* recursive-descent.json *) ((VObj [((b_of "key"), (VStr (b_of "value"))); ((b_of "another key"), (VObj [((b_of "complex"), (VStr (b_of "string"))); ((b_of "primitives"), (VArr [(VFloat (S754_zero false)); (VFloat (S754_finite false 4503599627370496 (-52)))]))]))]), [((b_of "$..*"), WResult [(VStr (b_of "value")); (VObj [((b_of "complex"), (VStr (b_of "string"))); ((b_of "primitives"), (VArr [(VFloat (S754_zero false)); (VFloat (S754_finite false 4503599627370496 (-52)))]))]); (VStr (b_of "string")); (VArr [(VFloat (S754_zero false)); (VFloat (S754_finite false 4503599627370496 (-52)))]); (VFloat (S754_zero false)); (VFloat (S754_finite false 4503599627370496 (-52)))])]);
  (* recursive-descent.json *) ((VObj [((b_of "foo"), (VArr [(VObj [((b_of "a"), (VStr (b_of "bar")))]); (VObj [((b_of "b"), (VStr (b_of "baz")))]); (VObj [((b_of "b"), (VStr (b_of "qux")))])]))]), [((b_of "$..b"), WResult [(VStr (b_of "baz")); (VStr (b_of "qux"))])]);
  (* recursive-descent.json *) ((VArr [(VArr [(VFloat (S754_finite false 4503599627370496 (-52))); (VFloat (S754_finite false 4503599627370496 (-51))); (VFloat (S754_finite false 6755399441055744 (-51)))]); (VArr [(VFloat (S754_finite false 4503599627370496 (-50))); (VFloat (S754_finite false 5629499534213120 (-50))); (VFloat (S754_finite false 6755399441055744 (-50)))])]), [((b_of "$.."), WAnyError)]);
  (* recursive-descent.json *) ((VArr [(VObj [((b_of "a"), (VObj [((b_of "b"), (VStr (b_of "c")))]))]); (VArr [(VFloat (S754_zero false)); (VFloat (S754_finite false 4503599627370496 (-52)))])]), [((b_of "$.."), WAnyError)]);
  (* regex.json *) ((VArr [(VObj [((b_of "name"), (VStr (b_of "hullo world")))]); (VObj [((b_of "name"), (VStr (b_of "hello world")))]); (VObj [((b_of "name"), (VStr (b_of "yes hello world")))]); (VObj [((b_of "name"), (VStr (b_of "HELLO WORLD")))]); (VObj [((b_of "name"), (VStr (b_of "good bye")))])]), [((b_of "$[?(@.name=~/hello.* /)]"), WResult [(VObj [((b_of "name"), (VStr (b_of "hello world")))]); (VObj [((b_of "name"), (VStr (b_of "yes hello world")))])]);
    ((b_of "$[?(@.name=~/hello.* /i)]"), WAnyError)]);
  (* regex.json *) ((VObj [((b_of "store"), (VObj [((b_of "book"), (VArr [(VObj [((b_of "category"), (VStr (b_of "reference"))); ((b_of "author"), (VStr (b_of "Nigel Rees"))); ((b_of "title"), (VStr (b_of "Sayings of the Century"))); ((b_of "price"), (VFloat (S754_finite false 5038402083120742 (-49))))]); (VObj [((b_of "category"), (VStr (b_of "fiction"))); ((b_of "author"), (VStr (b_of "Evelyn Waugh"))); ((b_of "title"), (VStr (b_of "Sword of Honour"))); ((b_of "price"), (VFloat (S754_finite false 7312719894942843 (-49))))]); (VObj [((b_of "category"), (VStr (b_of "fiction"))); ((b_of "author"), (VStr (b_of "Herman Melville"))); ((b_of "title"), (VStr (b_of "Moby Dick"))); ((b_of "isbn"), (VStr (b_of "0-553-21311-3"))); ((b_of "price"), (VFloat (S754_finite false 5060920081257595 (-49))))]); (VObj [((b_of "category"), (VStr (b_of "fiction"))); ((b_of "author"), (VStr (b_of "J. R. R. Tolkien"))); ((b_of "title"), (VStr (b_of "The Lord of the Rings"))); ((b_of "isbn"), (VStr (b_of "0-395-19395-8"))); ((b_of "price"), (VFloat (S754_finite false 6471109714577981 (-48))))])])); ((b_of "bicycle"), (VObj [((b_of "color"), (VStr (b_of "red"))); ((b_of "price"), (VFloat (S754_finite false 5615425785377587 (-48))))]))]))]), [((b_of "$.store.book[ ?(@.category =~ /fic.*?/)].author"), WResult [(VStr (b_of "Evelyn Waugh")); (VStr (b_of "Herman Melville")); (VStr (b_of "J. R. R. Tolkien"))]);
    ((b_of "$.store.book[ ?(@.author =~ /Evelyn.*?/)].author"), WResult [(VStr (b_of "Evelyn Waugh"))]);
    ((b_of "$.store.book[ ?(!(@.author =~ /Evelyn.*?/))].author"), WResult [(VStr (b_of "Nigel Rees")); (VStr (b_of "Herman Melville")); (VStr (b_of "J. R. R. Tolkien"))])]);
  (* slice.json *) ((VArr [(VFloat (S754_finite false 4503599627370496 (-51))); (VStr (b_of "a")); (VFloat (S754_finite false 4503599627370496 (-50))); (VFloat (S754_finite false 5629499534213120 (-50))); (VFloat (S754_finite false 7036874417766400 (-46))); (VStr (b_of "nice"))]), [((b_of "$[-4:-5]"), WResult []);
    ((b_of "$[-4:-4]"), WResult []);
    ((b_of "$[-4:-3]"), WResult [(VFloat (S754_finite false 4503599627370496 (-50)))]);
    ((b_of "$[-4:1]"), WResult [])]);
  (* slice.json *) ((VArr [(VStr (b_of "first")); (VStr (b_of "second")); (VStr (b_of "third")); (VStr (b_of "forth")); (VStr (b_of "fifth"))]), [((b_of "$[-1]"), WResult [(VStr (b_of "fifth"))]);
    ((b_of "$[-2:]"), WResult [(VStr (b_of "forth")); (VStr (b_of "fifth"))]);
    ((b_of "$[-2:]"), WResult [(VStr (b_of "forth")); (VStr (b_of "fifth"))]);
    ((b_of "$[:-2]"), WResult [(VStr (b_of "first")); (VStr (b_of "second")); (VStr (b_of "third"))]);
    ((b_of "$[::-1]"), WResult [(VStr (b_of "fifth")); (VStr (b_of "forth")); (VStr (b_of "third")); (VStr (b_of "second")); (VStr (b_of "first"))]);
    ((b_of "$[1::-1]"), WResult [(VStr (b_of "second")); (VStr (b_of "first"))]);
    ((b_of "$[:-3:-1]"), WResult [(VStr (b_of "fifth")); (VStr (b_of "forth"))]);
    ((b_of "$[-3::-1]"), WResult [(VStr (b_of "third")); (VStr (b_of "second")); (VStr (b_of "first"))]);
    ((b_of "$[2]"), WResult [(VStr (b_of "third"))]);
    ((b_of "$[0:3:0]"), WNothing);
    ((b_of "$[3:0:-2]"), WResult [(VStr (b_of "forth")); (VStr (b_of "second"))]);
    ((b_of "$[7:3:-1]"), WResult [(VStr (b_of "fifth"))]);
    ((b_of "$[0:3:-2]"), WResult []);
    ((b_of "$[0:3:-2]"), WResult []);
    ((b_of "$[::-2]"), WResult [(VStr (b_of "fifth")); (VStr (b_of "third")); (VStr (b_of "first"))]);
    ((b_of "$[1:]"), WResult [(VStr (b_of "second")); (VStr (b_of "third")); (VStr (b_of "forth")); (VStr (b_of "fifth"))]);
    ((b_of "$[3::-1]"), WResult [(VStr (b_of "forth")); (VStr (b_of "third")); (VStr (b_of "second")); (VStr (b_of "first"))]);
    ((b_of "$[:2]"), WResult [(VStr (b_of "first")); (VStr (b_of "second"))])]);
  (* slice.json *) ((VArr [(VStr (b_of "first")); (VStr (b_of "second"))]), [((b_of "$[:]"), WResult [(VStr (b_of "first")); (VStr (b_of "second"))]);
    ((b_of "$[::]"), WResult [(VStr (b_of "first")); (VStr (b_of "second"))])]);
  (* slice.json *) ((VArr [(VStr (b_of "first")); (VStr (b_of "second")); (VStr (b_of "third")); (VStr (b_of "forth")); (VStr (b_of "fifth"))]), [((b_of "$[1:3]"), WResult [(VStr (b_of "second")); (VStr (b_of "third"))]);
    ((b_of "$[0:5]"), WResult [(VStr (b_of "first")); (VStr (b_of "second")); (VStr (b_of "third")); (VStr (b_of "forth")); (VStr (b_of "fifth"))]);
    ((b_of "$[2:113667776004]"), WResult [(VStr (b_of "third")); (VStr (b_of "forth")); (VStr (b_of "fifth"))]);
    ((b_of "$[2:-113667776004:-1]"), WResult [(VStr (b_of "third")); (VStr (b_of "second")); (VStr (b_of "first"))]);
    ((b_of "$[-113667776004:2]"), WResult [(VStr (b_of "first")); (VStr (b_of "second"))]);
    ((b_of "$[113667776004:2:-1]"), WResult [(VStr (b_of "fifth")); (VStr (b_of "forth"))])]);
  (* slice.json *) ((VArr [(VStr (b_of "first")); (VStr (b_of "second")); (VStr (b_of "third"))]), [((b_of "$[7:10]"), WResult []);
    ((b_of "$[1:10]"), WResult [(VStr (b_of "second")); (VStr (b_of "third"))])]);
  (* slice.json *) ((VObj [((b_of ":"), (VFloat (S754_finite false 5910974510923776 (-47)))); ((b_of "more"), (VStr (b_of "string"))); ((b_of "a"), (VFloat (S754_finite false 4503599627370496 (-52)))); ((b_of "b"), (VFloat (S754_finite false 4503599627370496 (-51)))); ((b_of "c"), (VFloat (S754_finite false 6755399441055744 (-51)))); ((b_of "1:3"), (VStr (b_of "nice")))]), [((b_of "$[1:3]"), WResult [])]);
  (* slice.json *) ((VArr [(VObj [((b_of "key"), (VStr (b_of "ey")))]); (VObj [((b_of "key"), (VStr (b_of "bee")))]); (VObj [((b_of "key"), (VStr (b_of "see")))])]), [((b_of "$[0:2].key"), WResult [(VStr (b_of "ey")); (VStr (b_of "bee"))])]);
  (* slice.json *) ((VObj [((b_of "foo"), (VArr [(VObj [((b_of "a"), (VFloat (S754_finite false 4503599627370496 (-52))))]); (VObj [((b_of "a"), (VFloat (S754_finite false 4503599627370496 (-51))))]); (VObj [((b_of "a"), (VFloat (S754_finite false 6755399441055744 (-51))))])])); ((b_of "bar"), (VArr [(VObj [((b_of "a"), (VObj [((b_of "b"), (VFloat (S754_finite false 4503599627370496 (-52))))]))]); (VObj [((b_of "a"), (VObj [((b_of "b"), (VFloat (S754_finite false 4503599627370496 (-51))))]))]); (VObj [((b_of "a"), (VObj [((b_of "b"), (VFloat (S754_finite false 6755399441055744 (-51))))]))])])); ((b_of "baz"), (VFloat (S754_finite false 7036874417766400 (-47))))]), [((b_of "$.foo[:2].a"), WResult [(VFloat (S754_finite false 4503599627370496 (-52))); (VFloat (S754_finite false 4503599627370496 (-51)))]);
    ((b_of "$.foo[:2].b"), WResult []);
    ((b_of "$.foo[:2].a.b"), WResult []);
    ((b_of "$.bar[::-1].a.b"), WResult [(VFloat (S754_finite false 6755399441055744 (-51))); (VFloat (S754_finite false 4503599627370496 (-51))); (VFloat (S754_finite false 4503599627370496 (-52)))]);
    ((b_of "$.bar[:2].a.b"), WResult [(VFloat (S754_finite false 4503599627370496 (-52))); (VFloat (S754_finite false 4503599627370496 (-51)))]);
    ((b_of "$.baz[:2].a"), WResult [])]);
  (* syntax.json *) ((VObj [((b_of "type"), (VStr (b_of "object")))]), [((b_of ""), WAnyError);
    ((b_of " "), WAnyError)]);
  (* syntax.json *) ((VObj [((b_of "type"), (VStr (b_of "object")))]), [((b_of "$foo"), WAnyError)]);
  (* syntax.json *) ((VObj [((b_of "type"), (VStr (b_of "object")))]), [((b_of "$.foo.bar"), WResult []);
    ((b_of "foo.1"), WAnyError);
    ((b_of "$.foo.1"), WResult [])]);
  (* syntax.json *) ((VArr [(VObj [((b_of "key"), (VFloat (S754_zero false)))]); (VObj [((b_of "key"), (VFloat (S754_finite false 5910974510923776 (-47))))])]), [((b_of "$[?(@.key=42)]"), WAnyError)]);
  (* syntax.json *) ((VObj [((b_of "key1"), (VStr (b_of "value1"))); ((b_of "key2"), (VStr (b_of "value2")))]), [((b_of "$[key1]"), WNothing);
    ((b_of "$['key1',key2]"), WNothing)]);
  (* syntax.json *) ((VObj [((b_of "type"), (VStr (b_of "object")))]), [((b_of "$.foo"), WResult []);
    ((b_of "$[""foo""]"), WResult []);
    ((b_of "$[""\\""]"), WResult []);
    ((b_of "$[""\u""]"), WAnyError)]);
  (* test.json *) ((VArr [(VFloat (S754_zero false)); (VFloat (S754_finite false 4503599627370496 (-52))); (VFloat (S754_finite false 4503599627370496 (-51))); (VFloat (S754_finite false 6755399441055744 (-51))); (VFloat (S754_finite false 4503599627370496 (-50))); (VFloat (S754_finite false 5629499534213120 (-50)))]), []);
  (* union.json *) ((VArr [(VStr (b_of "a"))]), [((b_of "$[0,0]"), WResult [(VStr (b_of "a")); (VStr (b_of "a"))])]);
  (* wildcard.json *) ((VArr [(VStr (b_of "string")); (VFloat (S754_finite false 5910974510923776 (-47))); (VObj [((b_of "key"), (VStr (b_of "value")))]); (VArr [(VFloat (S754_zero false)); (VFloat (S754_finite false 4503599627370496 (-52)))])]), [((b_of "$[*]"), WResult [(VStr (b_of "string")); (VFloat (S754_finite false 5910974510923776 (-47))); (VObj [((b_of "key"), (VStr (b_of "value")))]); (VArr [(VFloat (S754_zero false)); (VFloat (S754_finite false 4503599627370496 (-52)))])])]);
  (* wildcard.json *) ((VArr [(VObj [((b_of "bar"), (VArr [(VFloat (S754_finite false 5910974510923776 (-47)))]))])]), [((b_of "$[*].bar[*]"), WResult [(VFloat (S754_finite false 5910974510923776 (-47)))])]);
  (* wildcard.json *) ((VArr [(VStr (b_of "string")); (VFloat (S754_finite false 5910974510923776 (-47))); (VObj [((b_of "key"), (VStr (b_of "value")))]); (VArr [(VFloat (S754_zero false)); (VFloat (S754_finite false 4503599627370496 (-52)))])]), [((b_of "$.*"), WResult [(VStr (b_of "string")); (VFloat (S754_finite false 5910974510923776 (-47))); (VObj [((b_of "key"), (VStr (b_of "value")))]); (VArr [(VFloat (S754_zero false)); (VFloat (S754_finite false 4503599627370496 (-52)))])])]);
  (* wildcard.json *) ((VArr [(VFloat (S754_finite false 5629499534213120 (-47))); VNil; (VFloat (S754_finite false 5910974510923776 (-47)))]), [((b_of "$[*]"), WResult [(VFloat (S754_finite false 5629499534213120 (-47))); VNil; (VFloat (S754_finite false 5910974510923776 (-47)))])]);
  (* wildcard.json *) ((VObj [((b_of "some"), (VStr (b_of "string"))); ((b_of "int"), (VFloat (S754_finite false 5910974510923776 (-47)))); ((b_of "object"), (VObj [((b_of "key"), (VStr (b_of "value")))])); ((b_of "array"), (VArr [(VFloat (S754_zero false)); (VFloat (S754_finite false 4503599627370496 (-52)))]))]), [((b_of "$[*]"), WResult [(VStr (b_of "string")); (VFloat (S754_finite false 5910974510923776 (-47))); (VObj [((b_of "key"), (VStr (b_of "value")))]); (VArr [(VFloat (S754_zero false)); (VFloat (S754_finite false 4503599627370496 (-52)))])])]);
  (* wildcard.json *) ((VArr [(VObj [((b_of "bar"), (VArr [(VObj [((b_of "baz"), (VStr (b_of "hello")))])]))])]), [((b_of "$[*].bar[*].baz"), WResult [(VStr (b_of "hello"))])]);
  (* wildcard.json *) ((VArr [(VStr (b_of "string")); (VFloat (S754_finite false 5910974510923776 (-47))); (VObj [((b_of "key"), (VStr (b_of "value")))]); (VArr [(VFloat (S754_zero false)); (VFloat (S754_finite false 4503599627370496 (-52)))])]), [((b_of "$.*"), WResult [(VStr (b_of "string")); (VFloat (S754_finite false 5910974510923776 (-47))); (VObj [((b_of "key"), (VStr (b_of "value")))]); (VArr [(VFloat (S754_zero false)); (VFloat (S754_finite false 4503599627370496 (-52)))])])]);
  (* wildcard.json *) ((VObj [((b_of "some"), (VStr (b_of "string"))); ((b_of "int"), (VFloat (S754_finite false 5910974510923776 (-47)))); ((b_of "object"), (VObj [((b_of "key"), (VStr (b_of "value")))])); ((b_of "array"), (VArr [(VFloat (S754_zero false)); (VFloat (S754_finite false 4503599627370496 (-52)))]))]), [((b_of "$.*"), WResult [(VStr (b_of "string")); (VFloat (S754_finite false 5910974510923776 (-47))); (VObj [((b_of "key"), (VStr (b_of "value")))]); (VArr [(VFloat (S754_zero false)); (VFloat (S754_finite false 4503599627370496 (-52)))])])])].

(** mach/fns_test.go:16-50: a call, and its result as JSON *)
Definition calls : list (bytes * val) := [
  ((b_of "abs(-1.5)"), (VFloat (S754_finite false 6755399441055744 (-52))));
  ((b_of "abs(20)"), (VFloat (S754_finite false 5629499534213120 (-48))));
  ((b_of "avg([1, 2, 3, 4, 5])"), (VFloat (S754_finite false 6755399441055744 (-51))));
  ((b_of "ceil(1.5)"), (VFloat (S754_finite false 4503599627370496 (-51))));
  ((b_of "ceil(2)"), (VFloat (S754_finite false 4503599627370496 (-51))));
  ((b_of "ceil(-1.75)"), (VFloat (S754_finite true 4503599627370496 (-52))));
  ((b_of "contains('subject stringy', 'ject')"), (VBool true));
  ((b_of "contains('subject stringy', 'queen')"), (VBool false));
  ((b_of "contains([1, 2, 3.5, 'hat', 6], 'hat')"), (VBool true));
  ((b_of "ends_with('and another thing', 'other thing')"), (VBool true));
  ((b_of "ends_with('christmas', 'dinner')"), (VBool false));
  ((b_of "floor(-1.75)"), (VFloat (S754_finite true 4503599627370496 (-51))));
  ((b_of "floor(1.75)"), (VFloat (S754_finite false 4503599627370496 (-52))));
  ((b_of "floor(1)"), (VFloat (S754_finite false 4503599627370496 (-52))));
  ((b_of "length('hello, sailor')"), (VFloat (S754_finite false 7318349394477056 (-49))));
  ((b_of "length([1, 2, 3, 4, 5])"), (VFloat (S754_finite false 5629499534213120 (-50))));
  ((b_of "length([])"), (VFloat (S754_zero false)));
  ((b_of "length(2.5)"), VNil);
  ((b_of "max(1, 2, 3, 5, 4)"), (VFloat (S754_finite false 5629499534213120 (-50))));
  ((b_of "max([-1, -2, -3, 5, 4])"), (VFloat (S754_finite false 5629499534213120 (-50))));
  ((b_of "min(5, 3, 1, -1, 0)"), (VFloat (S754_finite true 4503599627370496 (-52))));
  ((b_of "min([5, 3.5, 1, -1.5, 0])"), (VFloat (S754_finite true 6755399441055744 (-52))));
  ((b_of "prod([])"), VNil);
  ((b_of "prod([1, 2, 3, 4, 5])"), (VFloat (S754_finite false 8444249301319680 (-46))));
  ((b_of "starts_with('christmas', 'chr')"), (VBool true));
  ((b_of "starts_with('christmas', 'all hallows')"), (VBool false));
  ((b_of "sum([])"), (VFloat (S754_zero false)));
  ((b_of "sum([1, 2, 3, 4, 5.55])"), (VFloat (S754_finite false 8753871775701402 (-49))));
  ((b_of "to_number(1.75)"), (VFloat (S754_finite false 7881299347898368 (-52))));
  ((b_of "to_number('1.75e5')"), (VFloat (S754_finite false 6012954214400000 (-35))));
  ((b_of "tokenize('J. R. R. Tolkien', '\\s+')"), (VArr [(VStr (b_of "J.")); (VStr (b_of "R.")); (VStr (b_of "R.")); (VStr (b_of "Tolkien"))]))].

(** paths/lex_test.go:13-60 *)
Definition samples : list (bytes * list bytes) := [
  ((b_of "$"), [(b_of "$"); (b_of "tokEOF")]);
  ((b_of "$[-99]"), [(b_of "$"); (b_of "["); (b_of "tokInt:-99"); (b_of "]"); (b_of "tokEOF")]);
  ((b_of "$[-9223372036854775807]"), [(b_of "$"); (b_of "["); (b_of "tokError:overflow of negative integer literal"); (b_of "]"); (b_of "tokEOF")]);
  ((b_of "$.store.book[(@.length-1)].title"), [(b_of "$"); (b_of "."); (b_of "tokID:store"); (b_of "."); (b_of "tokID:book"); (b_of "["); (b_of "("); (b_of "@"); (b_of "."); (b_of "tokID:length"); (b_of "-"); (b_of "tokInt:1"); (b_of ")"); (b_of "]"); (b_of "."); (b_of "tokID:title"); (b_of "tokEOF")]);
  ((b_of "$.store.book[?(@.price < 10)].title"), [(b_of "$"); (b_of "."); (b_of "tokID:store"); (b_of "."); (b_of "tokID:book"); (b_of "["); (b_of "tokFilter"); (b_of "@"); (b_of "."); (b_of "tokID:price"); (b_of "<"); (b_of "tokInt:10"); (b_of ")"); (b_of "]"); (b_of "."); (b_of "tokID:title"); (b_of "tokEOF")]);
  ((b_of "$['store'].book[?(@.price < 10)].title"), [(b_of "$"); (b_of "["); (b_of "tokString:""store"""); (b_of "]"); (b_of "."); (b_of "tokID:book"); (b_of "["); (b_of "tokFilter"); (b_of "@"); (b_of "."); (b_of "tokID:price"); (b_of "<"); (b_of "tokInt:10"); (b_of ")"); (b_of "]"); (b_of "."); (b_of "tokID:title"); (b_of "tokEOF")]);
  ((b_of "$..book[(@.length-1)]"), [(b_of "$"); (b_of "tokNest"); (b_of "tokID:book"); (b_of "["); (b_of "("); (b_of "@"); (b_of "."); (b_of "tokID:length"); (b_of "-"); (b_of "tokInt:1"); (b_of ")"); (b_of "]"); (b_of "tokEOF")]);
  ([36; 91; 39; 115; 116; 111; 114; 101; 39; 93; 46; 98; 111; 111; 107; 91; 63; 40; 64; 46; 112; 114; 105; 99; 101; 32; 62; 61; 32; 50; 48; 32; 38; 38; 32; 64; 46; 112; 114; 105; 99; 101; 32; 60; 61; 32; 53; 48; 32; 124; 124; 32; 40; 32; 32; 116; 114; 117; 101; 32; 9; 41; 41; 93; 46; 116; 105; 116; 108; 101], [(b_of "$"); (b_of "["); (b_of "tokString:""store"""); (b_of "]"); (b_of "."); (b_of "tokID:book"); (b_of "["); (b_of "tokFilter"); (b_of "@"); (b_of "."); (b_of "tokID:price"); (b_of "tokGE"); (b_of "tokInt:20"); (b_of "tokAnd"); (b_of "@"); (b_of "."); (b_of "tokID:price"); (b_of "tokLE"); (b_of "tokInt:50"); (b_of "tokOr"); (b_of "("); (b_of "tokID:true"); (b_of ")"); (b_of ")"); (b_of "]"); (b_of "."); (b_of "tokID:title"); (b_of "tokEOF")]);
  ((b_of "$[':@.""$,*\'\\']"), [(b_of "$"); (b_of "["); (b_of "tokString:"":@.\""$,*'\\"""); (b_of "]"); (b_of "tokEOF")]);
  ((b_of "$[':@.""$,*\\'\\\\']"), [(b_of "$"); (b_of "["); (b_of "tokString:"":@.\""$,*\\"""); (b_of "tokError:unexpected character '\\' at offset 13")]);
  ((b_of "(1.5 + 31.0e-1)"), [(b_of "("); (b_of "tokReal:1.5"); (b_of "+"); (b_of "tokReal:3.1"); (b_of ")")]);
  ((b_of "(@.fred =~ /price.*of.*(everything|nothing)/)"), [(b_of "("); (b_of "@"); (b_of "."); (b_of "tokID:fred"); (b_of "tokMatch"); (b_of "tokRE:price.*of.*(everything|nothing)"); (b_of ")")])].

(** mach/json_test.go:19-118 *)
Definition pairs : list (val * val * bool) := [
  ((VErr KFailure), (VErr KFailure), true);
  (VNil, VNil, true);
  ((VInt 42), (VFloat (S754_finite false 5910974510923776 (-47))), true);
  ((VInt 0), (VFloat (S754_zero false)), true);
  ((VInt 0), (VInt 0), true);
  ((VFloat (S754_zero false)), (VFloat (S754_zero false)), true);
  ((VFloat (S754_zero false)), (VFloat (S754_zero true)), true);
  ((VFloat S754_nan), (VFloat S754_nan), false);
  ((VFloat (S754_finite false 6755399441055744 (-52))), (VFloat S754_nan), false);
  ((VStr (b_of "")), (VStr (b_of "")), true);
  ((VStr (b_of "")), (VStr (b_of "x")), false);
  ((VStr (b_of "abc")), (VStr (b_of "abc")), true);
  ((VStr (b_of "abc")), (VStr (b_of "abd")), false);
  ((VStr (b_of "abc")), (VStr (b_of "abcd")), false);
  ((VStr [195; 161; 195; 169]), (VStr [195; 161; 195; 169]), true);
  ((VStr [195; 161; 98; 99]), (VStr (b_of "abc")), false);
  ((VBool true), (VBool true), true);
  ((VBool true), (VBool false), false);
  (VNil, (VErr KFailure), true);
  ((VErr KFailure), VNil, true);
  ((VInt 42), (VStr (b_of "42")), true);
  ((VInt 42), (VStr (b_of "42a")), false);
  ((VInt 0), (VStr (b_of "")), true);
  ((VInt 1), (VStr (b_of "")), false);
  ((VInt (-42)), (VStr (b_of "-42")), true);
  ((VFloat (S754_finite false 5981343255101440 (-47))), (VStr (b_of "42.5")), true);
  ((VFloat (S754_finite false 5981343255101440 (-47))), (VStr (b_of "42.5a")), false);
  ((VFloat (S754_zero false)), (VStr (b_of "")), true);
  ((VFloat (S754_finite false 4503599627370496 (-52))), (VStr (b_of "")), false);
  ((VFloat (S754_finite true 5981343255101440 (-47))), (VStr (b_of "-42.5")), true);
  ((VFloat (S754_zero true)), (VStr (b_of "-")), false);
  ((VFloat (S754_zero true)), (VStr (b_of "-0.0")), true);
  ((VBool false), (VInt 0), true);
  ((VBool true), (VInt 1), true);
  ((VBool false), (VFloat (S754_zero false)), true);
  ((VBool true), (VFloat (S754_finite false 4503599627370496 (-52))), true);
  ((VBool true), (VInt 2), false);
  ((VBool false), (VStr (b_of "")), true);
  ((VBool false), (VStr (b_of "0")), true);
  ((VBool false), (VStr (b_of "0.0")), true);
  ((VBool false), (VStr (b_of "false")), false);
  ((VBool false), (VStr (b_of "true")), false);
  ((VBool true), (VStr (b_of "")), false);
  ((VBool true), (VStr (b_of "1")), true);
  ((VBool true), (VStr (b_of "1.0")), true);
  ((VBool true), (VStr (b_of "2")), false);
  ((VBool true), (VStr (b_of "true")), false);
  ((VBool true), (VStr (b_of "false")), false);
  ((VBool false), (VArr []), true);
  ((VBool false), (VArr [(VBool false)]), true);
  ((VBool true), (VArr [(VStr (b_of "false"))]), false);
  ((VBool false), (VObj []), false);
  ((VBool true), (VArr []), false);
  ((VBool true), (VArr [(VBool true)]), true);
  ((VBool true), (VArr [(VStr (b_of "true"))]), false);
  ((VBool true), (VObj []), false);
  ((VStr (b_of "hello")), (VArr [(VStr (b_of "hello"))]), true);
  ((VStr (b_of "")), (VArr [(VStr (b_of ""))]), true);
  ((VStr (b_of "")), (VArr []), true);
  ((VInt 42), (VArr [(VStr (b_of "42"))]), true);
  ((VInt 42), (VArr [(VInt 42)]), true);
  ((VInt 42), (VObj [((b_of "42"), (VBool true))]), false);
  ((VFloat (S754_finite false 5910974510923776 (-47))), (VArr [(VStr (b_of "42.0"))]), true);
  ((VFloat (S754_finite false 5910974510923776 (-47))), (VArr [(VFloat (S754_finite false 5910974510923776 (-47)))]), true);
  ((VFloat (S754_finite false 5910974510923776 (-47))), (VObj [((b_of "42.0"), (VBool true))]), false)].

(** example_test.go *)
Definition example_doc : val := (VObj [((b_of "books"), (VArr [(VObj [((b_of "title"), (VStr (b_of "Decline and Fall"))); ((b_of "author"), (VStr (b_of "Evelyn Waugh"))); ((b_of "date"), (VFloat (S754_finite false 8479433673408512 (-42))))]); (VObj [((b_of "title"), (VStr (b_of "Wealth of Nations"))); ((b_of "author"), (VStr (b_of "Adam Smith"))); ((b_of "date"), (VFloat (S754_finite false 7810930603720704 (-42))))])]))]).
Definition example : list (bytes * list val) := [
  ((b_of "$"), [(VObj [((b_of "books"), (VArr [(VObj [((b_of "author"), (VStr (b_of "Evelyn Waugh"))); ((b_of "date"), (VFloat (S754_finite false 8479433673408512 (-42)))); ((b_of "title"), (VStr (b_of "Decline and Fall")))]); (VObj [((b_of "author"), (VStr (b_of "Adam Smith"))); ((b_of "date"), (VFloat (S754_finite false 7810930603720704 (-42)))); ((b_of "title"), (VStr (b_of "Wealth of Nations")))])]))])]);
  ((b_of "$.books"), [(VArr [(VObj [((b_of "author"), (VStr (b_of "Evelyn Waugh"))); ((b_of "date"), (VFloat (S754_finite false 8479433673408512 (-42)))); ((b_of "title"), (VStr (b_of "Decline and Fall")))]); (VObj [((b_of "author"), (VStr (b_of "Adam Smith"))); ((b_of "date"), (VFloat (S754_finite false 7810930603720704 (-42)))); ((b_of "title"), (VStr (b_of "Wealth of Nations")))])])]);
  ((b_of "$.books[?(@.author=='Adam Smith')].title"), [(VStr (b_of "Wealth of Nations"))]);
  ((b_of "$.books[0].author"), [(VStr (b_of "Evelyn Waugh"))]);
  ((b_of "$.books[*].title"), [(VStr (b_of "Decline and Fall")); (VStr (b_of "Wealth of Nations"))])].

(** testdata/book.json and mach/run_test.go:21-41 *)
Definition book : val := (VObj [((b_of "store"), (VObj [((b_of "book"), (VArr [(VObj [((b_of "category"), (VStr (b_of "reference"))); ((b_of "author"), (VStr (b_of "Nigel Rees"))); ((b_of "title"), (VStr (b_of "Sayings of the Century"))); ((b_of "price"), (VFloat (S754_finite false 5038402083120742 (-49))))]); (VObj [((b_of "category"), (VStr (b_of "fiction"))); ((b_of "author"), (VStr (b_of "Evelyn Waugh"))); ((b_of "title"), (VStr (b_of "Sword of Honour"))); ((b_of "price"), (VFloat (S754_finite false 7312719894942843 (-49))))]); (VObj [((b_of "category"), (VStr (b_of "fiction"))); ((b_of "author"), (VStr (b_of "Herman Melville"))); ((b_of "title"), (VStr (b_of "Moby Dick"))); ((b_of "isbn"), (VStr (b_of "0-553-21311-3"))); ((b_of "price"), (VFloat (S754_finite false 5060920081257595 (-49))))]); (VObj [((b_of "category"), (VStr (b_of "fiction"))); ((b_of "author"), (VStr (b_of "J. R. R. Tolkien"))); ((b_of "title"), (VStr (b_of "The Lord of the Rings"))); ((b_of "isbn"), (VStr (b_of "0-395-19395-8"))); ((b_of "price"), (VFloat (S754_finite false 6471109714577981 (-48))))])])); ((b_of "bicycle"), (VObj [((b_of "color"), (VStr (b_of "red"))); ((b_of "price"), (VFloat (S754_finite false 5615425785377587 (-48))))]))]))]).
Definition book_queries : list bytes := [
  (b_of "$.store");
  (b_of "$.*");
  (b_of "$.*.*");
  (b_of "$.store.bicycle");
  (b_of "$.store.book");
  (b_of "$.store.book[1]");
  (b_of "$.store.book[1].author");
  (b_of "$.store.book[1].price");
  (b_of "$.store.book[(1*3-2)].price");
  (b_of "$.store.book[((1*3-2)*0)].price");
  (b_of "$.store.book[((1*3-2)/0)].price");
  (b_of "$.store.book[([[5,0,4],2,3][0][1])].price");
  (b_of "$.store.book[([[5,0,1],2,3][0][2])].price");
  (b_of "$.store.book[([[5,0,3*4-3*4+1],2,3][0/0][2])].price");
  (b_of "$.store.book[:]");
  (b_of "$.store.book[1:]");
  (b_of "$.store.book[-1:]")].

(** strconv.ParseFloat of the texts of numbers above *)
Definition parsed : list (bytes * f64) := [
  ((b_of "-0.0"), (S754_zero true));
  ((b_of "-0.123e2"), (S754_finite true 6924284427082138 (-49)));
  ((b_of "-42"), (S754_finite true 5910974510923776 (-47)));
  ((b_of "-42.5"), (S754_finite true 5981343255101440 (-47)));
  ((b_of "0"), (S754_zero false));
  ((b_of "0.0"), (S754_zero false));
  ((b_of "0.123e2"), (S754_finite false 6924284427082138 (-49)));
  ((b_of "010"), (S754_finite false 5629499534213120 (-49)));
  ((b_of "1"), (S754_finite false 4503599627370496 (-52)));
  ((b_of "1.0"), (S754_finite false 4503599627370496 (-52)));
  ((b_of "1.5"), (S754_finite false 6755399441055744 (-52)));
  ((b_of "1.75"), (S754_finite false 7881299347898368 (-52)));
  ((b_of "1.75e5"), (S754_finite false 6012954214400000 (-35)));
  ((b_of "10"), (S754_finite false 5629499534213120 (-49)));
  ((b_of "2"), (S754_finite false 4503599627370496 (-51)));
  ((b_of "2.5"), (S754_finite false 5629499534213120 (-51)));
  ((b_of "3.5"), (S754_finite false 7881299347898368 (-51)));
  ((b_of "31.0e-1"), (S754_finite false 6980579422424269 (-51)));
  ((b_of "41"), (S754_finite false 5770237022568448 (-47)));
  ((b_of "42"), (S754_finite false 5910974510923776 (-47)));
  ((b_of "42.0"), (S754_finite false 5910974510923776 (-47)));
  ((b_of "42.5"), (S754_finite false 5981343255101440 (-47)));
  ((b_of "43"), (S754_finite false 6051711999279104 (-47)));
  ((b_of "5"), (S754_finite false 5629499534213120 (-50)));
  ((b_of "5.55"), (S754_finite false 6248744482976563 (-50)));
  ((b_of "6"), (S754_finite false 6755399441055744 (-50)));
  ((b_of "8.99"), (S754_finite false 5060920081257595 (-49)));
  ((b_of "9"), (S754_finite false 5066549580791808 (-49)))].

(** fmt.Sprint of the numbers above *)
Definition printed : list (f64 * bytes) := [
  ((S754_finite true 7036874417766400 (-46)), (b_of "-100"));
  ((S754_finite true 7036874417766400 (-47)), (b_of "-50"));
  ((S754_finite true 5981343255101440 (-47)), (b_of "-42.5"));
  ((S754_finite true 5910974510923776 (-47)), (b_of "-42"));
  ((S754_finite true 6924284427082138 (-49)), (b_of "-12.3"));
  ((S754_finite true 6755399441055744 (-49)), (b_of "-12"));
  ((S754_finite true 4503599627370496 (-51)), (b_of "-2"));
  ((S754_finite true 6755399441055744 (-52)), (b_of "-1.5"));
  ((S754_finite true 4503599627370496 (-52)), (b_of "-1"));
  ((S754_finite true 8863084066665136 (-56)), (b_of "-0.123"));
  ((S754_zero false), (b_of "0"));
  ((S754_finite false 4503599627370496 (-52)), (b_of "1"));
  ((S754_finite false 6755399441055744 (-52)), (b_of "1.5"));
  ((S754_finite false 7881299347898368 (-52)), (b_of "1.75"));
  ((S754_finite false 4503599627370496 (-51)), (b_of "2"));
  ((S754_finite false 5629499534213120 (-51)), (b_of "2.5"));
  ((S754_finite false 6755399441055744 (-51)), (b_of "3"));
  ((S754_finite false 6980579422424269 (-51)), (b_of "3.1"));
  ((S754_finite false 7881299347898368 (-51)), (b_of "3.5"));
  ((S754_finite false 4503599627370496 (-50)), (b_of "4"));
  ((S754_finite false 5629499534213120 (-50)), (b_of "5"));
  ((S754_finite false 6248744482976563 (-50)), (b_of "5.55"));
  ((S754_finite false 6755399441055744 (-50)), (b_of "6"));
  ((S754_finite false 4503599627370496 (-49)), (b_of "8"));
  ((S754_finite false 5038402083120742 (-49)), (b_of "8.95"));
  ((S754_finite false 5060920081257595 (-49)), (b_of "8.99"));
  ((S754_finite false 5066549580791808 (-49)), (b_of "9"));
  ((S754_finite false 5629499534213120 (-49)), (b_of "10"));
  ((S754_finite false 6192449487634432 (-49)), (b_of "11"));
  ((S754_finite false 6755399441055744 (-49)), (b_of "12"));
  ((S754_finite false 6924284427082138 (-49)), (b_of "12.3"));
  ((S754_finite false 7312719894942843 (-49)), (b_of "12.99"));
  ((S754_finite false 7318349394477056 (-49)), (b_of "13"));
  ((S754_finite false 8753871775701402 (-49)), (b_of "15.55"));
  ((S754_finite false 5615425785377587 (-48)), (b_of "19.95"));
  ((S754_finite false 5629499534213120 (-48)), (b_of "20"));
  ((S754_finite false 6189634737867325 (-48)), (b_of "21.99"));
  ((S754_finite false 6395111470866104 (-48)), (b_of "22.72"));
  ((S754_finite false 6471109714577981 (-48)), (b_of "22.99"));
  ((S754_finite false 5629499534213120 (-47)), (b_of "40"));
  ((S754_finite false 5770237022568448 (-47)), (b_of "41"));
  ((S754_finite false 5910960437174940 (-47)), (b_of "41.9999"));
  ((S754_finite false 5910974510923776 (-47)), (b_of "42"));
  ((S754_finite false 5910988584672612 (-47)), (b_of "42.0001"));
  ((S754_finite false 5981343255101440 (-47)), (b_of "42.5"));
  ((S754_finite false 6051711999279104 (-47)), (b_of "43"));
  ((S754_finite false 6192449487634432 (-47)), (b_of "44"));
  ((S754_finite false 7036874417766400 (-47)), (b_of "50"));
  ((S754_finite false 8444249301319680 (-47)), (b_of "60"));
  ((S754_finite false 7036874417766400 (-46)), (b_of "100"));
  ((S754_finite false 7388718138654720 (-46)), (b_of "105"));
  ((S754_finite false 8444249301319680 (-46)), (b_of "120"));
  ((S754_finite false 8655355533852672 (-46)), (b_of "123"));
  ((S754_finite false 7036874417766400 (-45)), (b_of "200"));
  ((S754_finite false 7810930603720704 (-45)), (b_of "222"));
  ((S754_finite false 7388718138654720 (-44)), (b_of "420"));
  ((S754_finite false 7810930603720704 (-42)), (b_of "1776"));
  ((S754_finite false 8479433673408512 (-42)), (b_of "1928"));
  ((S754_finite false 6012954214400000 (-35)), (b_of "175000"))].

(** regular expressions above, with the strings above that they match *)
Definition matched : list (bytes * list bytes) := [
  ((b_of "Evelyn.*?"), [(b_of "Evelyn Waugh")]);
  ((b_of "fic.*?"), [(b_of "fiction")]);
  ((b_of "fruitbat.*/$|(help|need|somebody)"), []);
  ((b_of "hello.*"), [(b_of "hello"); (b_of "hello world"); (b_of "hello, sailor"); (b_of "yes hello world")]);
  ((b_of "hello.* "), [(b_of "hello world"); (b_of "hello, sailor"); (b_of "yes hello world")]);
  ((b_of "price.*of.*(everything|nothing)"), [])].

(** the parts of the strings above between white space *)
Definition words : list (bytes * list bytes) := [
  ((b_of " "), [(b_of ""); (b_of "")]);
  ((b_of " ["), [(b_of ""); (b_of "[")]);
  ((b_of ")[-1] == "), [(b_of ")[-1]"); (b_of "=="); (b_of "")]);
  ((b_of "; !"), [(b_of ";"); (b_of "!")]);
  ((b_of "A Wild Sheep Chase"), [(b_of "A"); (b_of "Wild"); (b_of "Sheep"); (b_of "Chase")]);
  ((b_of "Adam Smith"), [(b_of "Adam"); (b_of "Smith")]);
  ((b_of "Decline and Fall"), [(b_of "Decline"); (b_of "and"); (b_of "Fall")]);
  ((b_of "Evelyn Waugh"), [(b_of "Evelyn"); (b_of "Waugh")]);
  ((b_of "Graham Greene"), [(b_of "Graham"); (b_of "Greene")]);
  ((b_of "HELLO WORLD"), [(b_of "HELLO"); (b_of "WORLD")]);
  ((b_of "Haruki Murakami"), [(b_of "Haruki"); (b_of "Murakami")]);
  ((b_of "Hello World"), [(b_of "Hello"); (b_of "World")]);
  ((b_of "Herman Melville"), [(b_of "Herman"); (b_of "Melville")]);
  ((b_of "J. R. R. Tolkien"), [(b_of "J."); (b_of "R."); (b_of "R."); (b_of "Tolkien")]);
  ((b_of "John Smith"), [(b_of "John"); (b_of "Smith")]);
  ((b_of "Moby Dick"), [(b_of "Moby"); (b_of "Dick")]);
  ((b_of "Nigel Rees"), [(b_of "Nigel"); (b_of "Rees")]);
  ((b_of "Phillips, David Atlee"), [(b_of "Phillips,"); (b_of "David"); (b_of "Atlee")]);
  ((b_of "Sayings of the Century"), [(b_of "Sayings"); (b_of "of"); (b_of "the"); (b_of "Century")]);
  ((b_of "Sword of Honour"), [(b_of "Sword"); (b_of "of"); (b_of "Honour")]);
  ((b_of "The Comedians"), [(b_of "The"); (b_of "Comedians")]);
  ((b_of "The Lord of the Rings"), [(b_of "The"); (b_of "Lord"); (b_of "of"); (b_of "the"); (b_of "Rings")]);
  ((b_of "The Night Watch"), [(b_of "The"); (b_of "Night"); (b_of "Watch")]);
  ((b_of "Wealth of Nations"), [(b_of "Wealth"); (b_of "of"); (b_of "Nations")]);
  ((b_of "[""v1"", ""v2""]"), [(b_of "[""v1"","); (b_of """v2""]")]);
  ((b_of "['v1', 'v2']"), [(b_of "['v1',"); (b_of "'v2']")]);
  ((b_of "[object Object]"), [(b_of "[object"); (b_of "Object]")]);
  ((b_of "all hallows"), [(b_of "all"); (b_of "hallows")]);
  ((b_of "and another thing"), [(b_of "and"); (b_of "another"); (b_of "thing")]);
  ((b_of "first nested"), [(b_of "first"); (b_of "nested")]);
  ((b_of "good bye"), [(b_of "good"); (b_of "bye")]);
  ((b_of "hello world"), [(b_of "hello"); (b_of "world")]);
  ((b_of "hello, sailor"), [(b_of "hello,"); (b_of "sailor")]);
  ((b_of "hullo world"), [(b_of "hullo"); (b_of "world")]);
  ((b_of "next to last"), [(b_of "next"); (b_of "to"); (b_of "last")]);
  ((b_of "one element"), [(b_of "one"); (b_of "element")]);
  ((b_of "other thing"), [(b_of "other"); (b_of "thing")]);
  ((b_of "other value"), [(b_of "other"); (b_of "value")]);
  ((b_of "russian dolls"), [(b_of "russian"); (b_of "dolls")]);
  ((b_of "some value"), [(b_of "some"); (b_of "value")]);
  ((b_of "subject stringy"), [(b_of "subject"); (b_of "stringy")]);
  ((b_of "yes hello world"), [(b_of "yes"); (b_of "hello"); (b_of "world")]);
  ((b_of "{""k"": ""v""}"), [(b_of "{""k"":"); (b_of """v""}")])].
