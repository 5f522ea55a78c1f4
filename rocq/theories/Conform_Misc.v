(** The model against the test cases of the repository.  These are no claims; they show
    that the model computes what the authors expect of the code. *)
From Verif Require Import Base ParserModel DecoderModel RzcobsModel EnvFilterModel.

(** [defmt/src/encoding/rzcobs.rs:89-267] [it_works]: data and encoded frame; the encoder
    has been started before. *)
Definition rzcobs_tests : list (bytes * bytes) :=
  [([], [0]);
   ([0], [127; 0]);
   ([0; 0], [127; 0]);
   ([0; 0; 0; 0; 0; 0; 0], [127; 0]);
   ([0; 0; 0; 0; 0; 0; 0; 0], [127; 127; 0]);
   ([1], [1; 126; 0]);
   ([1; 0], [1; 126; 0]);
   ([0; 1], [1; 125; 0]);
   ([1; 2], [1; 2; 124; 0]);
   ([17; 34; 51; 68; 85; 102; 0], [17; 34; 51; 68; 85; 102; 64; 0]);
   ([17; 34; 51; 68; 85; 102; 119], [17; 34; 51; 68; 85; 102; 119; 128; 0]);
   ([17; 34; 51; 68; 85; 102; 119; 0], [17; 34; 51; 68; 85; 102; 119; 128; 0]);
   ([17; 34; 51; 68; 85; 102; 119; 136], [17; 34; 51; 68; 85; 102; 119; 136; 129; 0]);
   ([0; 0; 0; 0; 0; 0; 0; 0; 0; 0; 0; 0; 0; 255], [127; 255; 63; 0]);
   ([0; 0; 0; 0; 0; 68; 0; 0; 0; 0; 0; 0; 0; 255], [68; 95; 255; 63; 0]);
   ([1; 2; 3; 4; 5; 6; 7; 8; 9; 10; 11; 12; 13; 14; 15; 16; 17; 18; 19; 20; 21; 22; 23; 24; 25; 26; 27; 28; 29; 30; 31; 32; 33; 34; 35; 36; 37; 38; 39; 40; 41; 42; 43; 44; 45; 46; 47; 48; 49; 50; 51; 52; 53; 54; 55; 56; 57; 58; 59; 60; 61; 62; 63; 64; 65; 66; 67; 68; 69; 70; 71; 72; 73; 74; 75; 76; 77; 78; 79; 80; 81; 82; 83; 84; 85; 86; 87; 88; 89; 90; 91; 92; 93; 94; 95; 96; 97; 98; 99; 100; 101; 102; 103; 104; 105; 106; 107; 108; 109; 110; 111; 112; 113; 114; 115; 116; 117; 118; 119; 120; 121; 122; 123; 124; 125; 126; 127; 128; 129; 130; 131; 132; 133], [1; 2; 3; 4; 5; 6; 7; 8; 9; 10; 11; 12; 13; 14; 15; 16; 17; 18; 19; 20; 21; 22; 23; 24; 25; 26; 27; 28; 29; 30; 31; 32; 33; 34; 35; 36; 37; 38; 39; 40; 41; 42; 43; 44; 45; 46; 47; 48; 49; 50; 51; 52; 53; 54; 55; 56; 57; 58; 59; 60; 61; 62; 63; 64; 65; 66; 67; 68; 69; 70; 71; 72; 73; 74; 75; 76; 77; 78; 79; 80; 81; 82; 83; 84; 85; 86; 87; 88; 89; 90; 91; 92; 93; 94; 95; 96; 97; 98; 99; 100; 101; 102; 103; 104; 105; 106; 107; 108; 109; 110; 111; 112; 113; 114; 115; 116; 117; 118; 119; 120; 121; 122; 123; 124; 125; 126; 127; 128; 129; 130; 131; 132; 133; 254; 0]);
   ([1; 2; 3; 4; 5; 6; 7; 8; 9; 10; 11; 12; 13; 14; 15; 16; 17; 18; 19; 20; 21; 22; 23; 24; 25; 26; 27; 28; 29; 30; 31; 32; 33; 34; 35; 36; 37; 38; 39; 40; 41; 42; 43; 44; 45; 46; 47; 48; 49; 50; 51; 52; 53; 54; 55; 56; 57; 58; 59; 60; 61; 62; 63; 64; 65; 66; 67; 68; 69; 70; 71; 72; 73; 74; 75; 76; 77; 78; 79; 80; 81; 82; 83; 84; 85; 86; 87; 88; 89; 90; 91; 92; 93; 94; 95; 96; 97; 98; 99; 100; 101; 102; 103; 104; 105; 106; 107; 108; 109; 110; 111; 112; 113; 114; 115; 116; 117; 118; 119; 120; 121; 122; 123; 124; 125; 126; 127; 128; 129; 130; 131; 132; 133; 0], [1; 2; 3; 4; 5; 6; 7; 8; 9; 10; 11; 12; 13; 14; 15; 16; 17; 18; 19; 20; 21; 22; 23; 24; 25; 26; 27; 28; 29; 30; 31; 32; 33; 34; 35; 36; 37; 38; 39; 40; 41; 42; 43; 44; 45; 46; 47; 48; 49; 50; 51; 52; 53; 54; 55; 56; 57; 58; 59; 60; 61; 62; 63; 64; 65; 66; 67; 68; 69; 70; 71; 72; 73; 74; 75; 76; 77; 78; 79; 80; 81; 82; 83; 84; 85; 86; 87; 88; 89; 90; 91; 92; 93; 94; 95; 96; 97; 98; 99; 100; 101; 102; 103; 104; 105; 106; 107; 108; 109; 110; 111; 112; 113; 114; 115; 116; 117; 118; 119; 120; 121; 122; 123; 124; 125; 126; 127; 128; 129; 130; 131; 132; 133; 254; 0]);
   ([1; 2; 3; 4; 5; 6; 7; 8; 9; 10; 11; 12; 13; 14; 15; 16; 17; 18; 19; 20; 21; 22; 23; 24; 25; 26; 27; 28; 29; 30; 31; 32; 33; 34; 35; 36; 37; 38; 39; 40; 41; 42; 43; 44; 45; 46; 47; 48; 49; 50; 51; 52; 53; 54; 55; 56; 57; 58; 59; 60; 61; 62; 63; 64; 65; 66; 67; 68; 69; 70; 71; 72; 73; 74; 75; 76; 77; 78; 79; 80; 81; 82; 83; 84; 85; 86; 87; 88; 89; 90; 91; 92; 93; 94; 95; 96; 97; 98; 99; 100; 101; 102; 103; 104; 105; 106; 107; 108; 109; 110; 111; 112; 113; 114; 115; 116; 117; 118; 119; 120; 121; 122; 123; 124; 125; 126; 127; 128; 129; 130; 131; 132; 133; 134], [1; 2; 3; 4; 5; 6; 7; 8; 9; 10; 11; 12; 13; 14; 15; 16; 17; 18; 19; 20; 21; 22; 23; 24; 25; 26; 27; 28; 29; 30; 31; 32; 33; 34; 35; 36; 37; 38; 39; 40; 41; 42; 43; 44; 45; 46; 47; 48; 49; 50; 51; 52; 53; 54; 55; 56; 57; 58; 59; 60; 61; 62; 63; 64; 65; 66; 67; 68; 69; 70; 71; 72; 73; 74; 75; 76; 77; 78; 79; 80; 81; 82; 83; 84; 85; 86; 87; 88; 89; 90; 91; 92; 93; 94; 95; 96; 97; 98; 99; 100; 101; 102; 103; 104; 105; 106; 107; 108; 109; 110; 111; 112; 113; 114; 115; 116; 117; 118; 119; 120; 121; 122; 123; 124; 125; 126; 127; 128; 129; 130; 131; 132; 133; 134; 255; 0]);
   ([1; 2; 3; 4; 5; 6; 7; 8; 9; 10; 11; 12; 13; 14; 15; 16; 17; 18; 19; 20; 21; 22; 23; 24; 25; 26; 27; 28; 29; 30; 31; 32; 33; 34; 35; 36; 37; 38; 39; 40; 41; 42; 43; 44; 45; 46; 47; 48; 49; 50; 51; 52; 53; 54; 55; 56; 57; 58; 59; 60; 61; 62; 63; 64; 65; 66; 67; 68; 69; 70; 71; 72; 73; 74; 75; 76; 77; 78; 79; 80; 81; 82; 83; 84; 85; 86; 87; 88; 89; 90; 91; 92; 93; 94; 95; 96; 97; 98; 99; 100; 101; 102; 103; 104; 105; 106; 107; 108; 109; 110; 111; 112; 113; 114; 115; 116; 117; 118; 119; 120; 121; 122; 123; 124; 125; 126; 127; 128; 129; 130; 131; 132; 133; 134; 0], [1; 2; 3; 4; 5; 6; 7; 8; 9; 10; 11; 12; 13; 14; 15; 16; 17; 18; 19; 20; 21; 22; 23; 24; 25; 26; 27; 28; 29; 30; 31; 32; 33; 34; 35; 36; 37; 38; 39; 40; 41; 42; 43; 44; 45; 46; 47; 48; 49; 50; 51; 52; 53; 54; 55; 56; 57; 58; 59; 60; 61; 62; 63; 64; 65; 66; 67; 68; 69; 70; 71; 72; 73; 74; 75; 76; 77; 78; 79; 80; 81; 82; 83; 84; 85; 86; 87; 88; 89; 90; 91; 92; 93; 94; 95; 96; 97; 98; 99; 100; 101; 102; 103; 104; 105; 106; 107; 108; 109; 110; 111; 112; 113; 114; 115; 116; 117; 118; 119; 120; 121; 122; 123; 124; 125; 126; 127; 128; 129; 130; 131; 132; 133; 134; 255; 127; 0])].
Example rzcobs_it_works : map (fun t => snd (frame_chunks (Encoder 0 0 true) [fst t])) rzcobs_tests = map snd rzcobs_tests.
Proof. vm_compute. reflexivity. Qed.

(** [decoder/src/decoder.rs:340-462] [merge_bitfields_*]. *)
Definition bf (i a b : Z) : parameter := MkParameter i (TBitField a b) None.
Example merge_tests : map merge_bitfields
  [[bf 0 0 3; bf 0 4 7]; [bf 0 1 3; bf 0 2 5]; [bf 0 0 3; bf 1 1 3; bf 1 4 5];
   [bf 0 0 3; MkParameter 1 (TU W8) None; bf 2 1 4; bf 2 4 5]] =
  [[bf 0 0 7]; [bf 0 1 5]; [bf 0 0 3; bf 1 1 5]; [MkParameter 1 (TU W8) None; bf 0 0 3; bf 2 1 5]].
Proof. vm_compute. reflexivity. Qed.

(** [macros/src/function_like/log/env_filter.rs:197-367] (but for the ignored test): modules for
    which a level is on, and modules always off. *)
Definition ident_ok (s : bytes) : bool := negb (existsb (fun c => c =? 45) s).
Definition on (log : option string) (caller : string) (l : level) : outcome unit (list path) :=
  m <- env_filter ident_ok (match log with Some s => Some (lit s) | None => None end) (lit caller) ;; Ok (modules_on_for l m).
Definition off (log : string) (caller : string) : outcome unit (list path) :=
  m <- env_filter ident_ok (Some (lit log)) (lit caller) ;; Ok (always_off_modules m).
Definition krate : path := [lit "krate"].
Definition module : path := [lit "krate"; lit "module"].
Example env_filter_tests :
  on (Some "krate=info,krate=debug"%string) "krate" LDebug = Ok [krate] /\
  on (Some "krate=info,krate=debug"%string) "krate" LTrace = Ok [] /\
  on None "krate" LError = Ok [krate] /\
  on None "krate" LWarn = Ok [] /\
  on (Some "krate"%string) "krate" LTrace = Ok [krate] /\
  on (Some "krate=info"%string) "krate" LInfo = Ok [krate] /\
  on (Some "krate=info"%string) "krate" LDebug = Ok [] /\
  on (Some "info"%string) "krate" LInfo = Ok [krate] /\
  on (Some "info"%string) "krate" LDebug = Ok [] /\
  on (Some "krate=info,warn"%string) "krate" LInfo = Ok [krate] /\
  on (Some "krate=info,warn"%string) "krate" LDebug = Ok [] /\
  on (Some "krate::module=info,warn"%string) "krate" LWarn = Ok [krate; module] /\
  on (Some "krate::module=info,warn"%string) "krate" LInfo = Ok [module] /\
  on (Some "krate::module=info,warn"%string) "krate" LDebug = Ok [] /\
  on (Some "krate=info,krate::module=debug"%string) "krate" LInfo = Ok [krate; module] /\
  on (Some "krate=info,krate::module=debug"%string) "krate" LDebug = Ok [module] /\
  on (Some "krate=info,krate::module=debug"%string) "krate" LTrace = Ok [] /\
  on (Some "off"%string) "krate" LError = Ok [] /\
  off "off" "krate" = Ok [krate] /\
  on (Some "krate::module=error,off"%string) "krate" LError = Ok [module] /\
  on (Some "krate::module=error,off"%string) "krate" LWarn = Ok [] /\
  off "krate::module=error,off" "krate" = Ok [krate] /\
  on (Some "fooo=warn"%string) "foo" LError = Ok [[lit "foo"]] /\
  on (Some "fooo=warn"%string) "foo" LWarn = Ok [].
Proof. repeat (split; [vm_compute; reflexivity|]). vm_compute. reflexivity. Qed.

(** [env_filter/parse.rs:102-184]. *)
Example filter_parse_tests :
  defmt_log ident_ok (lit "krate=info,krate,info") =
    Ok [DLevel (Some LInfo); DModule krate; DModuleLevel krate (Some LInfo)] /\
  path_ltb krate module = true /\ path_ltb module (module ++ [lit "inner"]) = true /\
  parse_path ident_ok (lit "krate::r#mod") = Ok [lit "krate"; lit "r#mod"] /\
  map (fun s => defmt_log ident_ok (lit s))
    ["some-crate::module"; "krate::some-module"; "krate::some-module=info"; "krate=module"; "=info"]%string =
    [Panic; Panic; Panic; Panic; Panic].
Proof. repeat (split; [vm_compute; reflexivity|]). vm_compute. reflexivity. Qed.
