(** CharMap.v - src/utils/CharMap.h:32-167 (charMap), generated from the source text. Each text is written as the bytes of the
    C++ literal: a \u escape takes exactly four hexadecimal digits and is encoded in UTF-8, what follows is taken literally, and
    the conversion of [const char*] to [std::string] stops at the first NUL. A duplicate key is ignored by unordered_map's
    constructor: the first entry counts, as [find_name] does. *)
From Coq Require Import NArith.
From Verif Require Import Base.

Definition charMapEntries : list (str * (N * str)) := map (fun '(n, u, t) => (S_ n, (u, map ascii_of_nat t))) [
  ("summationdisplay", 8721%N, [226; 136; 145]);
  ("summationssdisplay", 8721%N, [226; 136; 145]);
  ("angbracketleft", 12296%N, [227; 128; 136]);
  ("angbracketright", 12297%N, [227; 128; 137]);
  ("circlecopyrt", 169%N, [194; 169]);
  ("controlNULL", 0%N, []);
  ("angbracketleftbig", 9001%N, [226; 140; 169]);
  ("angbracketleftBig", 9001%N, [226; 140; 169]);
  ("angbracketleftbigg", 9001%N, [226; 140; 169]);
  ("angbracketleftBigg", 9001%N, [226; 140; 169]);
  ("angbracketrightBig", 9002%N, [226; 140; 170]);
  ("angbracketrightbig", 9002%N, [226; 140; 170]);
  ("angbracketrightBigg", 9002%N, [226; 140; 170]);
  ("angbracketrightbigg", 9002%N, [226; 140; 170]);
  ("arrowhookleft", 8618%N, [226; 134; 170]);
  ("arrowhookright", 8617%N, [226; 134; 169]);
  ("arrowlefttophalf", 8636%N, [226; 134; 188]);
  ("arrowleftbothalf", 8637%N, [226; 134; 189]);
  ("arrownortheast", 8599%N, [226; 134; 151]);
  ("arrownorthwest", 8598%N, [226; 134; 150]);
  ("arrowrighttophalf", 8640%N, [226; 135; 128]);
  ("arrowrightbothalf", 8641%N, [226; 135; 129]);
  ("arrowsoutheast", 8600%N, [226; 134; 152]);
  ("arrowsouthwest", 8601%N, [226; 134; 153]);
  ("backslashbig", 8726%N, [226; 136; 150]);
  ("backslashBig", 8726%N, [226; 136; 150]);
  ("backslashBigg", 8726%N, [226; 136; 150]);
  ("backslashbigg", 8726%N, [226; 136; 150]);
  ("bardbl", 8214%N, [226; 128; 150]);
  ("bracehtipdownleft", 65079%N, [239; 184; 183]);
  ("bracehtipdownright", 65079%N, [239; 184; 183]);
  ("bracehtipupleft", 65080%N, [239; 184; 184]);
  ("bracehtipupright", 65080%N, [239; 184; 184]);
  ("braceleftBig", 123%N, [123]);
  ("braceleftbig", 123%N, [123]);
  ("braceleftbigg", 123%N, [123]);
  ("braceleftBigg", 123%N, [123]);
  ("bracerightBig", 125%N, [125]);
  ("bracerightbig", 125%N, [125]);
  ("bracerightbigg", 125%N, [125]);
  ("bracerightBigg", 125%N, [125]);
  ("bracketleftbig", 91%N, [91]);
  ("bracketleftBig", 91%N, [91]);
  ("bracketleftbigg", 91%N, [91]);
  ("bracketleftBigg", 91%N, [91]);
  ("bracketleftmath", 91%N, [91]);
  ("bracketrightBig", 93%N, [93]);
  ("bracketrightbig", 93%N, [93]);
  ("bracketrightbigg", 93%N, [93]);
  ("bracketrightBigg", 93%N, [93]);
  ("bracketrightmath", 93%N, [93]);
  ("ceilingleftbig", 8968%N, [226; 140; 136]);
  ("ceilingleftBig", 8968%N, [226; 140; 136]);
  ("ceilingleftBigg", 8968%N, [226; 140; 136]);
  ("ceilingleftbigg", 8968%N, [226; 140; 136]);
  ("ceilingrightbig", 8969%N, [226; 140; 137]);
  ("ceilingrightBig", 8969%N, [226; 140; 137]);
  ("ceilingrightbigg", 8969%N, [226; 140; 137]);
  ("ceilingrightBigg", 8969%N, [226; 140; 137]);
  ("circledotdisplay", 8857%N, [226; 138; 153]);
  ("circledottext", 8857%N, [226; 138; 153]);
  ("circlemultiplydisplay", 8855%N, [226; 138; 151]);
  ("circlemultiplytext", 8855%N, [226; 138; 151]);
  ("circleplusdisplay", 8853%N, [226; 138; 149]);
  ("circleplustext", 8853%N, [226; 138; 149]);
  ("contintegraldisplay", 8750%N, [226; 136; 174]);
  ("contintegraltext", 8750%N, [226; 136; 174]);
  ("coproductdisplay", 8720%N, [226; 136; 144]);
  ("coproducttext", 8720%N, [226; 136; 144]);
  ("epsilon1", 949%N, [206; 181]);
  ("equalmath", 61%N, [61]);
  ("floorleftBig", 8970%N, [226; 140; 138]);
  ("floorleftbig", 8970%N, [226; 140; 138]);
  ("floorleftbigg", 8970%N, [226; 140; 138]);
  ("floorleftBigg", 8970%N, [226; 140; 138]);
  ("floorrightbig", 8971%N, [226; 140; 139]);
  ("floorrightBig", 8971%N, [226; 140; 139]);
  ("floorrightBigg", 8971%N, [226; 140; 139]);
  ("floorrightbigg", 8971%N, [226; 140; 139]);
  ("hatwide", 94%N, [94]);
  ("hatwider", 94%N, [94]);
  ("hatwidest", 94%N, [94]);
  ("intercal", 7488%N, [225; 181; 128]);
  ("integraldisplay", 8747%N, [226; 136; 171]);
  ("integraltext", 8747%N, [226; 136; 171]);
  ("intersectiondisplay", 8898%N, [226; 139; 130]);
  ("intersectiontext", 8898%N, [226; 139; 130]);
  ("logicalanddisplay", 8743%N, [226; 136; 167]);
  ("logicalandtext", 8743%N, [226; 136; 167]);
  ("logicalordisplay", 8744%N, [226; 136; 168]);
  ("logicalortext", 8744%N, [226; 136; 168]);
  ("parenleftBig", 40%N, [40]);
  ("parenleftbig", 40%N, [40]);
  ("parenleftBigg", 40%N, [40]);
  ("parenleftbigg", 40%N, [40]);
  ("parenleftmath", 40%N, [40]);
  ("parenrightBig", 41%N, [41]);
  ("parenrightbig", 41%N, [41]);
  ("parenrightBigg", 41%N, [41]);
  ("parenrightbigg", 41%N, [41]);
  ("parenrightmath", 41%N, [41]);
  ("plusmath", 43%N, [43]);
  ("prime", 8242%N, [226; 128; 178]);
  ("productdisplay", 8719%N, [226; 136; 143]);
  ("producttext", 8719%N, [226; 136; 143]);
  ("question_sign", 63%N, [63]);
  ("radicalbig", 8730%N, [226; 136; 154]);
  ("radicalBig", 8730%N, [226; 136; 154]);
  ("radicalBigg", 8730%N, [226; 136; 154]);
  ("radicalbigg", 8730%N, [226; 136; 154]);
  ("radicalbt", 8730%N, [226; 136; 154]);
  ("radicaltp", 8730%N, [226; 136; 154]);
  ("radicalvertex", 8730%N, [226; 136; 154]);
  ("slashbig", 47%N, [47]);
  ("slashBig", 47%N, [47]);
  ("slashBigg", 47%N, [47]);
  ("slashbigg", 47%N, [47]);
  ("summationdisplay", 8721%N, [226; 136; 145]);
  ("summationtext", 8721%N, [226; 136; 145]);
  ("thumbs_down", 128078%N, [225; 189; 132; 69]);
  ("thumbs_down_alt", 128078%N, [225; 189; 132; 69]);
  ("thumbs_up", 128077%N, [225; 189; 132; 68]);
  ("thumbs_up_alt", 128077%N, [225; 189; 132; 68]);
  ("tildewide", 732%N, [203; 156]);
  ("tildewider", 732%N, [203; 156]);
  ("tildewidest", 732%N, [203; 156]);
  ("uniondisplay", 8899%N, [226; 139; 131]);
  ("unionmultidisplay", 8846%N, [226; 138; 142]);
  ("unionmultitext", 8846%N, [226; 138; 142]);
  ("unionsqdisplay", 8852%N, [226; 138; 148]);
  ("unionsqtext", 8852%N, [226; 138; 148]);
  ("uniontext", 8899%N, [226; 139; 131]);
  ("vextenddouble", 8741%N, [226; 136; 165]);
  ("vextendsingle", 8739%N, [226; 136; 163])
]%string.

(** unordered_map::count / at *)
Definition find_name (name : str) : option (N * str) :=
  option_map snd (find (fun e => str_eqb (fst e) name) charMapEntries).
