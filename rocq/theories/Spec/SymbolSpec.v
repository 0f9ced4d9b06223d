(** The symbols of plain TeX (plain.tex, [\mathchardef]), with their math codes,
    and the characters of Unicode for them. *)
From Coq Require Import List String ZArith.
Import ListNotations.
Local Open Scope Z_scope.

Definition plain_codes : list (string * Z) := [
  ("alpha", 0x010B); ("beta", 0x010C); ("gamma", 0x010D); ("delta", 0x010E); ("epsilon", 0x010F);
  ("zeta", 0x0110); ("eta", 0x0111); ("theta", 0x0112); ("iota", 0x0113); ("kappa", 0x0114);
  ("lambda", 0x0115); ("mu", 0x0116); ("nu", 0x0117); ("xi", 0x0118); ("pi", 0x0119); ("rho", 0x011A);
  ("sigma", 0x011B); ("tau", 0x011C); ("upsilon", 0x011D); ("phi", 0x011E); ("chi", 0x011F);
  ("psi", 0x0120); ("omega", 0x0121); ("varepsilon", 0x0122); ("vartheta", 0x0123); ("varpi", 0x0124);
  ("varrho", 0x0125); ("varsigma", 0x0126); ("varphi", 0x0127); ("Gamma", 0x7000); ("Delta", 0x7001);
  ("Theta", 0x7002); ("Lambda", 0x7003); ("Xi", 0x7004); ("Pi", 0x7005); ("Sigma", 0x7006);
  ("Upsilon", 0x7007); ("Phi", 0x7008); ("Psi", 0x7009); ("Omega", 0x700A); ("aleph", 0x0240);
  ("imath", 0x017B); ("jmath", 0x017C); ("ell", 0x0160); ("wp", 0x017D); ("Re", 0x023C); ("Im", 0x023D);
  ("partial", 0x0140); ("infty", 0x0231); ("prime", 0x0230); ("emptyset", 0x023B); ("nabla", 0x0272);
  ("top", 0x023E); ("bot", 0x023F); ("triangle", 0x0234); ("forall", 0x0238); ("exists", 0x0239);
  ("neg", 0x023A); ("flat", 0x015B); ("natural", 0x015C); ("sharp", 0x015D); ("clubsuit", 0x027C);
  ("diamondsuit", 0x027D); ("heartsuit", 0x027E); ("spadesuit", 0x027F); ("coprod", 0x1360);
  ("bigvee", 0x1357); ("bigwedge", 0x1356); ("biguplus", 0x1355); ("bigcap", 0x1354);
  ("bigcup", 0x1353); ("intop", 0x1352); ("prod", 0x1351); ("sum", 0x1350); ("bigotimes", 0x134E);
  ("bigoplus", 0x134C); ("bigodot", 0x134A); ("ointop", 0x1348); ("bigsqcup", 0x1346);
  ("smallint", 0x1273); ("triangleleft", 0x212F); ("triangleright", 0x212E); ("bigtriangleup", 0x2234);
  ("bigtriangledown", 0x2235); ("wedge", 0x225E); ("vee", 0x225F); ("cap", 0x225C); ("cup", 0x225B);
  ("ddagger", 0x227A); ("dagger", 0x2279); ("sqcap", 0x2275); ("sqcup", 0x2274); ("uplus", 0x225D);
  ("amalg", 0x2271); ("diamond", 0x2205); ("bullet", 0x220F); ("wr", 0x226F); ("div", 0x2204);
  ("odot", 0x220C); ("oslash", 0x220B); ("otimes", 0x220A); ("ominus", 0x2209); ("oplus", 0x2208);
  ("mp", 0x2207); ("pm", 0x2206); ("circ", 0x220E); ("bigcirc", 0x220D); ("setminus", 0x226E);
  ("cdot", 0x2201); ("ast", 0x2203); ("times", 0x2202); ("star", 0x213F); ("propto", 0x322F);
  ("sqsubseteq", 0x3276); ("sqsupseteq", 0x3277); ("parallel", 0x326B); ("mid", 0x326A);
  ("dashv", 0x3261); ("vdash", 0x3260); ("nearrow", 0x3225); ("searrow", 0x3226); ("nwarrow", 0x322D);
  ("swarrow", 0x322E); ("Leftrightarrow", 0x322C); ("Leftarrow", 0x3228); ("Rightarrow", 0x3229);
  ("leq", 0x3214); ("geq", 0x3215); ("succ", 0x321F); ("prec", 0x321E); ("approx", 0x3219);
  ("succeq", 0x3217); ("preceq", 0x3216); ("supset", 0x321B); ("subset", 0x321A); ("supseteq", 0x3213);
  ("subseteq", 0x3212); ("in", 0x3232); ("ni", 0x3233); ("gg", 0x321D); ("ll", 0x321C); ("not", 0x3236);
  ("leftrightarrow", 0x3224); ("leftarrow", 0x3220); ("rightarrow", 0x3221); ("mapstochar", 0x3237);
  ("sim", 0x3218); ("simeq", 0x3227); ("perp", 0x323F); ("equiv", 0x3211); ("asymp", 0x3210);
  ("smile", 0x315E); ("frown", 0x315F); ("leftharpoonup", 0x3128); ("leftharpoondown", 0x3129);
  ("rightharpoonup", 0x312A); ("rightharpoondown", 0x312B) ]%string.

(** Some symbols have two characters in Unicode. *)
Definition unicode_symbols : list (string * Z) := [
  ("alpha", 0x3B1); ("beta", 0x3B2); ("gamma", 0x3B3); ("delta", 0x3B4); ("epsilon", 0x3F5);
  ("zeta", 0x3B6); ("eta", 0x3B7); ("theta", 0x3B8); ("iota", 0x3B9); ("kappa", 0x3BA);
  ("lambda", 0x3BB); ("mu", 0x3BC); ("nu", 0x3BD); ("xi", 0x3BE); ("pi", 0x3C0); ("rho", 0x3C1);
  ("sigma", 0x3C3); ("tau", 0x3C4); ("upsilon", 0x3C5); ("phi", 0x3D5); ("chi", 0x3C7); ("psi", 0x3C8);
  ("omega", 0x3C9); ("varepsilon", 0x3B5); ("vartheta", 0x3D1); ("varpi", 0x3D6); ("varrho", 0x3F1);
  ("varsigma", 0x3C2); ("varphi", 0x3C6); ("Gamma", 0x393); ("Delta", 0x394); ("Theta", 0x398);
  ("Lambda", 0x39B); ("Xi", 0x39E); ("Pi", 0x3A0); ("Sigma", 0x3A3); ("Upsilon", 0x3A5); ("Phi", 0x3A6);
  ("Psi", 0x3A8); ("Omega", 0x3A9); ("aleph", 0x2135); ("imath", 0x131); ("jmath", 0x237);
  ("ell", 0x2113); ("wp", 0x2118); ("Re", 0x211C); ("Im", 0x2111); ("partial", 0x2202);
  ("infty", 0x221E); ("prime", 0x2032); ("emptyset", 0x2205); ("nabla", 0x2207); ("top", 0x22A4);
  ("bot", 0x22A5); ("triangle", 0x25B3); ("forall", 0x2200); ("exists", 0x2203); ("neg", 0xAC);
  ("flat", 0x266D); ("natural", 0x266E); ("sharp", 0x266F); ("clubsuit", 0x2663);
  ("diamondsuit", 0x2662); ("spadesuit", 0x2660); ("coprod", 0x2210); ("bigvee", 0x22C1);
  ("bigwedge", 0x22C0); ("biguplus", 0x2A04); ("bigcap", 0x22C2); ("bigcup", 0x22C3); ("prod", 0x220F);
  ("sum", 0x2211); ("bigotimes", 0x2A02); ("bigoplus", 0x2A01); ("bigodot", 0x2A00);
  ("bigsqcup", 0x2A06); ("triangleleft", 0x25C1); ("triangleright", 0x25B7); ("bigtriangleup", 0x25B3);
  ("bigtriangledown", 0x25BD); ("wedge", 0x2227); ("vee", 0x2228); ("cap", 0x2229); ("cup", 0x222A);
  ("ddagger", 0x2021); ("dagger", 0x2020); ("sqcap", 0x2293); ("sqcup", 0x2294); ("uplus", 0x228E);
  ("amalg", 0x2A3F); ("diamond", 0x22C4); ("bullet", 0x2219); ("bullet", 0x2022); ("wr", 0x2240);
  ("div", 0xF7); ("odot", 0x2299); ("oslash", 0x2298); ("otimes", 0x2297); ("ominus", 0x2296);
  ("oplus", 0x2295); ("mp", 0x2213); ("pm", 0xB1); ("circ", 0x2218); ("bigcirc", 0x25EF);
  ("setminus", 0x2216); ("setminus", 0x29F5); ("cdot", 0x22C5); ("ast", 0x2217); ("times", 0xD7);
  ("star", 0x22C6); ("propto", 0x221D); ("sqsubseteq", 0x2291); ("sqsupseteq", 0x2292);
  ("parallel", 0x2225); ("mid", 0x2223); ("dashv", 0x22A3); ("vdash", 0x22A2); ("leq", 0x2264);
  ("geq", 0x2265); ("succ", 0x227B); ("prec", 0x227A); ("approx", 0x2248); ("succeq", 0x227D);
  ("succeq", 0x2AB0); ("preceq", 0x227C); ("preceq", 0x2AAF); ("supset", 0x2283); ("subset", 0x2282);
  ("supseteq", 0x2287); ("subseteq", 0x2286); ("in", 0x2208); ("ni", 0x220B); ("gg", 0x226B);
  ("ll", 0x226A); ("sim", 0x223C); ("simeq", 0x2243); ("perp", 0x27C2); ("equiv", 0x2261);
  ("asymp", 0x224D); ("smile", 0x2323); ("frown", 0x2322) ]%string.
