(** The demo page of the repository, index.html:9-277: its body with all spaces between the elements. *)
From Coq Require Import String.
From Verif Require Import Base Str Grid Node Editor Syntax Render FromMathML Component Startup.
Open Scope list_scope.
Open Scope nat_scope.

(** Model only: an element without [data-editor] *)
Definition el (id : nat) (name : string) (nodes : list PageNode) : PageNode := PageElement id (lit name) false nodes.
(** Model only: [<math data-editor="true">] *)
Definition editor_formula (id : nat) (nodes : list PageNode) : PageNode := PageElement id (lit "math") true nodes.
(** Model only: text on one line *)
Definition words (t : string) : PageNode := PageText (lit t).
(** Model only: one character that is not in ASCII *)
Definition sign (c : N) : PageNode := PageText [c].
(** Model only: the end of a line and the spaces at the start of the next one *)
Definition new_line (spaces : nat) : str := 10%N :: repeat 32%N spaces.
(** Model only: the same as the only text *)
Definition gap (spaces : nat) : PageNode := PageText (new_line spaces).

(** index.html:9-277. Comments are left out, as everywhere. *)
Definition demo_page : list PageNode := [
  el 0 "body" [
    gap 4; el 1 "div" [
      gap 6; el 2 "h1" [words "Demos"]; gap 6; el 3 "h2" [words "Simple formulas"]; gap 6; el 4 "span" [words "Notice how they're syntax highlighted"]; gap 6;
      editor_formula 5 [gap 8; el 6 "mo" [words "-"]; gap 8; el 7 "mn" [words "2"]; gap 8; el 8 "mi" [words "x"]; gap 8; el 9 "mo" [words "+"]; gap 8; el 10 "mi" [words "y"]; gap 8; el 11 "mo"
        [words "*"]; gap 8; el 12 "mn" [words "2"]; gap 6];
      gap 6; el 13 "br" []; gap 6; el 14 "br" []; PageText (new_line 0 ++ new_line 6);
      editor_formula 15 [gap 8; el 16 "msqrt" [gap 10; el 17 "msqrt" [gap 12; el 18 "mi" [words "x"]; gap 12; el 19 "mi" [words "x"]; gap 12; el 20 "mi" [words "x"]; gap 10]; gap 10; el 21 "mi"
        [words "a"]; gap 8]; gap 8; el 22 "mfrac" [gap 10; el 23 "mi" [words "b"]; gap 10; el 24 "mi" [words "c"]; gap 8]; gap 6];
      gap 6; el 25 "br" []; gap 6; el 26 "br" []; PageText (new_line 0 ++ new_line 6);
      editor_formula 27 [gap 8; el 28 "mn" [words "-1214.3001"]; gap 8; el 29 "mn" [words "-1"]; gap 8; el 30 "mn" [words ".3"]; PageText (new_line 0 ++ new_line 8); el 31 "mo" [words "-"]; gap 8;
        el 32 "mn" [words "1.3"]; gap 6];
      gap 6; el 33 "br" []; gap 6; el 34 "br" []; gap 6; editor_formula 35 [gap 8; el 36 "mfrac" [gap 10; el 37 "mn" [words "1.22"]; gap 10; el 38 "mtext" [words "henlo"]; gap 8]; gap 6]; gap 6;
      el 39 "br" []; gap 6; el 40 "br" []; PageText (new_line 0 ++ new_line 6);
      editor_formula 41 [gap 8; el 42 "mrow" [el 43 "mo" [words "-"]; el 44 "msub" [el 45 "mi" [words "x"]; el 46 "mn" [words "2"]]; el 47 "mo" [words "+"]; el 48 "msup" [el 49 "mi" [words "y"]; el
        50 "mfrac" [el 51 "mn" [words "2"]; el 52 "mrow" [el 53 "mi" [words "k"]; el 54 "mo" [words "+"]; el 55 "mn" [words "1"]]]]]; gap 6];
      gap 6; el 56 "br" []; gap 6; el 57 "br" []; PageText (new_line 0 ++ new_line 6);
      editor_formula 58 [gap 8; el 59 "mrow" [gap 10; el 60 "mo" [words "-"]; gap 10; el 61 "mrow" [gap 12; el 62 "mrow" [el 63 "mn" [words "2"]]; gap 10]; gap 8]; gap 6]; gap 6; el 64 "br" [];
      gap 6; el 65 "br" []; PageText (new_line 0 ++ new_line 6); el 66 "h2" [words "Matrices"]; gap 6; el 67 "span" [words "Try deleting a column from the matrix."]; gap 6;
      editor_formula 68 [gap 8; el 69 "mfrac" [gap 10; el 70 "mi" [words "A"]; gap 10; el 71 "mn" [words "2"]; gap 8]; gap 8; el 72 "mo" [words "="]; gap 8; el 73 "mrow" [gap 10; el 74 "mo" [words
        "("]; gap 10; el 75 "mtable" [gap 12; el 76 "mtr" [gap 14; el 77 "mtd" [el 78 "mn" [words "1"]]; gap 14; el 79 "mtd" [el 80 "mn" [words "2"]]; gap 14; el 81 "mtd" [el 82 "mn" [words
        "3"]]; gap 12]; gap 12; el 83 "mtr" [gap 14; el 84 "mtd" [el 85 "mn" [words "4"]]; gap 14; el 86 "mtd" [el 87 "mn" [words "5"]]; gap 14; el 88 "mtd" [el 89 "mn" [words "6"]]; gap
        12]; gap 12; el 90 "mtr" [gap 14; el 91 "mtd" [el 92 "mn" [words "7"]]; gap 14; el 93 "mtd" [el 94 "mn" [words "8"]]; gap 14; el 95 "mtd" [el 96 "mn" [words "9"]]; gap 12]; gap 10];
        gap 10; el 97 "mo" [words ")"]; gap 8]; gap 6];
      gap 6; el 98 "br" []; gap 6; el 99 "br" []; PageText (new_line 0 ++ new_line 6); el 100 "h2" [words "SI units"]; gap 6; el 101 "span" [PageText (lit "Try typing ""+ 3cm""")];
      PageText (new_line 0 ++ new_line 6); el 102 "h2" [words "Inline math"]; gap 6; el 103 "div" [
        PageText (new_line 8 ++ lit "This is a formula with a big summation and the number pi" ++ new_line 8);
        editor_formula 104 [gap 10; el 105 "mrow" [gap 12; el 106 "munderover" [gap 14; el 107 "mo" [sign 8721]; gap 14; el 108 "mrow" [el 109 "mi" [words "n"]; el 110 "mo" [words "="]; el 111 "mn"
          [words "0"]]; gap 14; el 112 "mrow" [el 113 "mo" [words "+"]; el 114 "mn" [sign 8734]]; gap 12]; gap 12; el 115 "mfrac" [gap 14; el 116 "mn" [words "1"]; gap 14; el 117 "msup" [el
          118 "mi" [words "n"]; el 119 "mn" [words "2"]]; gap 12]; gap 10]; gap 10; el 120 "mo" [words "="]; gap 10; el 121 "mfrac" [gap 12; el 122 "msup" [el 123 "mi" [sign 960]; el 124
          "mn" [words "2"]]; gap 12; el 125 "mn" [words "6"]; gap 10]; gap 8];
        PageText (new_line 8 ++ lit "This is a test" ++ new_line 8);
        editor_formula 126 [gap 10; el 127 "munderover" [gap 12; el 128 "mo" [words "cat"]; gap 12; el 129 "mn" [words "27"]; gap 12; el 130 "mn" [sign 8734]; gap 10]; gap 10; el 131 "mo" [words
          "="]; gap 10; el 132 "mo" [words "<"]; gap 10; el 133 "mo" [words ">"]; gap 10; el 134 "mo" [words "="]; gap 10; el 135 "munderover" [gap 12; el 136 "mo" [words "cat"]; gap 12; el
          137 "mn" [words "27"]; gap 12; el 138 "mn" [sign 8734]; gap 10]; gap 8];
        PageText (new_line 0 ++ new_line 8 ++ lit "An annotated test case. "); el 139 "br" [];
        PageText (new_line 8 ++ lit "The shiny new approach is to generate a list of valid caret positions." ++ new_line 0 ++ new_line 8);
        editor_formula 140 [gap 10; gap 10; el 141 "mfrac" [gap 12; el 142 "msqrt" [gap 14; el 143 "mi" [words " "; sign 960; words " "]; gap 12]; gap 12; gap 12; el 144 "mn" [words " "; words "6";
          words " "]; gap 10]; gap 10; gap 10; el 145 "mo" [words "+"]; gap 10; gap 10; el 146 "mfrac" [gap 12; el 147 "mi" [words " "; sign 960; words " "]; gap 12; el 148 "mn" [words " ";
          words "6"; words " "]; gap 10]; gap 10; gap 10; el 149 "mo" [words "+"]; gap 10; gap 10; el 150 "msqrt" [gap 12; gap 12; el 151 "msqrt" [gap 14; el 152 "mstyle" [gap 16; el 153
          "mn" [words " "; words "5"; words " "]; gap 14]; gap 12]; gap 12; gap 10]; gap 10; gap 10; el 154 "mo" [words "+"]; gap 10; gap 10; el 155 "mo" [words "+"]; gap 10; gap 10; el 156
          "munderover" [gap 12; el 157 "mo" [words " "; words "c"; words " "]; gap 12; el 158 "mn" [words " "; words "2"; words "7"; words " "]; gap 12; el 159 "mn" [words " "; sign 8734;
          words " "]; gap 10]; gap 10; gap 8];
        PageText (new_line 0 ++ new_line 8 ++ lit "And a quick msup torture test "); el 160 "br" []; PageText (new_line 0 ++ new_line 8);
        editor_formula 161 [gap 10; el 162 "mo" [words "-"]; gap 10; el 163 "msup" [el 164 "mn" [words "2"]; el 165 "mn" [words "3"]]; gap 10; el 166 "mo" [words "+"]; gap 10; el 167 "msup" [gap
          12; el 168 "mn" [words "2"]; gap 12; el 169 "msup" [el 170 "mn" [words "4"]; el 171 "mn" [words "8"]]; gap 10]; gap 10; el 172 "mo" [words "*"]; gap 10; el 173 "msup" [gap 12; el
          174 "msup" [el 175 "mn" [words "2"]; el 176 "mn" [words "3"]]; gap 12; el 177 "mn" [words "3"]; gap 10]; gap 8];
        PageText (new_line 0 ++ new_line 8); el 178 "br" []; PageText (new_line 8 ++ lit "And nested mrows are also fun" ++ new_line 8); el 179 "br" []; PageText (new_line 0 ++ new_line 8);
        editor_formula 180 [gap 10; el 181 "mrow" [gap 12; el 182 "mo" [words "-"]; gap 12; el 183 "mrow" [gap 14; el 184 "mrow" [el 185 "mn" [words "2"]]; gap 12]; gap 10]; gap 8]; gap 8;
        el 186 "br" []; PageText (new_line 8 ++ lit "Mroot" ++ new_line 8);
        editor_formula 187 [gap 10; el 188 "mroot" [gap 12; el 189 "msqrt" [gap 14; el 190 "mfrac" [gap 16; el 191 "mn" [words "1"]; gap 16; el 192 "mn" [words "2"]; gap 14]; gap 14; el 193 "mo"
          [words "+"]; gap 14; el 194 "mn" [words "4"]; gap 12]; gap 12; el 195 "mn" [words "3"]; gap 10]; gap 10; el 196 "mo" [words "+"]; gap 10; el 197 "mn" [words "0"]; gap 8];
        PageText (new_line 0 ++ new_line 8 ++ lit "Sqrt test. See HTML comments for preferred order" ++ new_line 8);
        editor_formula 198 [gap 10; gap 10; el 199 "mroot" [gap 12; el 200 "msqrt" [gap 14; gap 14; el 201 "mn" [words "b"]; gap 14; gap 12]; gap 12; gap 12; el 202 "mn" [gap 14; PageText (new_line
          14 ++ lit "a" ++ new_line 14); gap 12]; gap 10]; gap 8];
        gap 6];
      PageText (new_line 0 ++ new_line 6); el 203 "h2" [words "Syntax tree"]; gap 6; el 204 "span" [words "This is the syntax tree that other tools can use."]; gap 4];
    gap 4; el 205 "script" []; gap 2]].
