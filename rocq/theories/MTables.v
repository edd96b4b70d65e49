(** The Gauss-Legendre tables of PathLib/BezierUtilities.py:20-73 as integers over 10^40
    (generated from the source text; the decimals there have at most 40 digits). *)
From Coq Require Import List ZArith.
Import ListNotations.
Local Open Scope Z_scope.

(** BezierUtilities.py:20-45 tValues. *)
Definition tValuesZ : list Z :=
  [-640568928626056260850430826247450385909;
   640568928626056260850430826247450385909;
   -1911188674736163091586398207570696318404;
   1911188674736163091586398207570696318404;
   -3150426796961633743867932913198102407864;
   3150426796961633743867932913198102407864;
   -4337935076260451384870842319133497124524;
   4337935076260451384870842319133497124524;
   -5454214713888395356583756172183723700107;
   5454214713888395356583756172183723700107;
   -6480936519369755692524957869107476266696;
   6480936519369755692524957869107476266696;
   -7401241915785543642438281030999784255232;
   7401241915785543642438281030999784255232;
   -8200019859739029219539498726697452080761;
   8200019859739029219539498726697452080761;
   -8864155270044010342131543419821967550873;
   8864155270044010342131543419821967550873;
   -9382745520027327585236490017087214496548;
   9382745520027327585236490017087214496548;
   -9747285559713094981983919930081690617411;
   9747285559713094981983919930081690617411;
   -9951872199970213601799974097007368118745;
   9951872199970213601799974097007368118745].

(** BezierUtilities.py:48-73 cValues. *)
Definition cValuesZ : list Z :=
  [1279381953467521569740561652246953718517;
   1279381953467521569740561652246953718517;
   1258374563468282961213753825111836887264;
   1258374563468282961213753825111836887264;
   1216704729278033912044631534762624256070;
   1216704729278033912044631534762624256070;
   1155056680537256013533444839067835598622;
   1155056680537256013533444839067835598622;
   1074442701159656347825773424466062227946;
   1074442701159656347825773424466062227946;
   976186521041138882698806644642471544279;
   976186521041138882698806644642471544279;
   861901615319532759171852029837426671850;
   861901615319532759171852029837426671850;
   733464814110803057340336152531165181193;
   733464814110803057340336152531165181193;
   592985849154367807463677585001085845412;
   592985849154367807463677585001085845412;
   442774388174198061686027482113382288593;
   442774388174198061686027482113382288593;
   285313886289336631813078159518782864491;
   285313886289336631813078159518782864491;
   123412297999871995468056670700372915759;
   123412297999871995468056670700372915759].

Definition tableScale : Z := 10 ^ 40.
