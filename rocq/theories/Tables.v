(** Static lookup tables of /repo/src/solver.rs, transcribed mechanically.
    Octal and hexadecimal literals of the source are written in decimal because Coq has no octal literals. *)
From Coq Require Import List NArith.
Import ListNotations.
Local Open Scope N_scope.

(** src/solver.rs:534-544 [SELF_MASK] *)
Definition self_mask_tbl : list N := [
   937684993; 937684994; 937684996; 924814856; 924814864; 924814880; 821853760; 821853824;
   821853952; 803210232; 803210744; 803211768; 790368711; 790372807; 790380999; 687636543;
   687669311; 687734847; 403173880; 403436024; 403960312; 404983751; 407080903; 411275207;
   419462719; 436239935; 469794367; 937684993; 937684994; 937684996; 924814856; 924814864;
   924814880; 821853760; 821853824; 821853952; 803210232; 803210744; 803211768; 790368711;
   790372807; 790380999; 687636543; 687669311; 687734847; 403173880; 403436024; 403960312;
   404983751; 407080903; 411275207; 419462719; 436239935; 469794367; 937684993; 937684994;
   937684996; 924814856; 924814864; 924814880; 821853760; 821853824; 821853952; 803210232;
   803210744; 803211768; 790368711; 790372807; 790380999; 687636543; 687669311; 687734847;
   403173880; 403436024; 403960312; 404983751; 407080903; 411275207; 419462719; 436239935;
   469794367
  ].

(** src/solver.rs:625-628 [ROW_MASK] *)
Definition row_mask_tbl : list N := [
   0; 511; 261632; 262143; 133955584; 133956095; 134217216; 134217727
  ].

(** src/solver.rs:638-648 [NEIGHBOR_SUBBANDS] *)
Definition neighbor_subbands_tbl : list (nat * nat) := [
   (1, 2)%nat; (2, 0)%nat; (0, 1)%nat;
   (4, 5)%nat; (5, 3)%nat; (3, 4)%nat;
   (7, 8)%nat; (8, 6)%nat; (6, 7)%nat;
   (10, 11)%nat; (11, 9)%nat; (9, 10)%nat;
   (13, 14)%nat; (14, 12)%nat; (12, 13)%nat;
   (16, 17)%nat; (17, 15)%nat; (15, 16)%nat;
   (19, 20)%nat; (20, 18)%nat; (18, 19)%nat;
   (22, 23)%nat; (23, 21)%nat; (21, 22)%nat;
   (25, 26)%nat; (26, 24)%nat; (24, 25)%nat
  ].

(** src/solver.rs:659-676 [SHRINK_MASK] *)
Definition shrink_mask_tbl : list N := [
   0; 1; 1; 1; 1; 1; 1; 1; 2; 3; 3; 3; 3; 3; 3; 3;
   2; 3; 3; 3; 3; 3; 3; 3; 2; 3; 3; 3; 3; 3; 3; 3;
   2; 3; 3; 3; 3; 3; 3; 3; 2; 3; 3; 3; 3; 3; 3; 3;
   2; 3; 3; 3; 3; 3; 3; 3; 2; 3; 3; 3; 3; 3; 3; 3;
   4; 5; 5; 5; 5; 5; 5; 5; 6; 7; 7; 7; 7; 7; 7; 7;
   6; 7; 7; 7; 7; 7; 7; 7; 6; 7; 7; 7; 7; 7; 7; 7;
   6; 7; 7; 7; 7; 7; 7; 7; 6; 7; 7; 7; 7; 7; 7; 7;
   6; 7; 7; 7; 7; 7; 7; 7; 6; 7; 7; 7; 7; 7; 7; 7;
   4; 5; 5; 5; 5; 5; 5; 5; 6; 7; 7; 7; 7; 7; 7; 7;
   6; 7; 7; 7; 7; 7; 7; 7; 6; 7; 7; 7; 7; 7; 7; 7;
   6; 7; 7; 7; 7; 7; 7; 7; 6; 7; 7; 7; 7; 7; 7; 7;
   6; 7; 7; 7; 7; 7; 7; 7; 6; 7; 7; 7; 7; 7; 7; 7;
   4; 5; 5; 5; 5; 5; 5; 5; 6; 7; 7; 7; 7; 7; 7; 7;
   6; 7; 7; 7; 7; 7; 7; 7; 6; 7; 7; 7; 7; 7; 7; 7;
   6; 7; 7; 7; 7; 7; 7; 7; 6; 7; 7; 7; 7; 7; 7; 7;
   6; 7; 7; 7; 7; 7; 7; 7; 6; 7; 7; 7; 7; 7; 7; 7;
   4; 5; 5; 5; 5; 5; 5; 5; 6; 7; 7; 7; 7; 7; 7; 7;
   6; 7; 7; 7; 7; 7; 7; 7; 6; 7; 7; 7; 7; 7; 7; 7;
   6; 7; 7; 7; 7; 7; 7; 7; 6; 7; 7; 7; 7; 7; 7; 7;
   6; 7; 7; 7; 7; 7; 7; 7; 6; 7; 7; 7; 7; 7; 7; 7;
   4; 5; 5; 5; 5; 5; 5; 5; 6; 7; 7; 7; 7; 7; 7; 7;
   6; 7; 7; 7; 7; 7; 7; 7; 6; 7; 7; 7; 7; 7; 7; 7;
   6; 7; 7; 7; 7; 7; 7; 7; 6; 7; 7; 7; 7; 7; 7; 7;
   6; 7; 7; 7; 7; 7; 7; 7; 6; 7; 7; 7; 7; 7; 7; 7;
   4; 5; 5; 5; 5; 5; 5; 5; 6; 7; 7; 7; 7; 7; 7; 7;
   6; 7; 7; 7; 7; 7; 7; 7; 6; 7; 7; 7; 7; 7; 7; 7;
   6; 7; 7; 7; 7; 7; 7; 7; 6; 7; 7; 7; 7; 7; 7; 7;
   6; 7; 7; 7; 7; 7; 7; 7; 6; 7; 7; 7; 7; 7; 7; 7;
   4; 5; 5; 5; 5; 5; 5; 5; 6; 7; 7; 7; 7; 7; 7; 7;
   6; 7; 7; 7; 7; 7; 7; 7; 6; 7; 7; 7; 7; 7; 7; 7;
   6; 7; 7; 7; 7; 7; 7; 7; 6; 7; 7; 7; 7; 7; 7; 7;
   6; 7; 7; 7; 7; 7; 7; 7; 6; 7; 7; 7; 7; 7; 7; 7
  ].

(** src/solver.rs:679-744 [LOCKED_CANDIDATES_MASK_SAME_BAND] *)
Definition locked_same_band_tbl : list N := [
   0; 0; 0; 0; 0; 0; 0; 0;
   0; 0; 0; 0; 0; 0; 0; 0;
   0; 0; 0; 0; 0; 0; 0; 0;
   0; 0; 0; 0; 0; 0; 0; 0;
   0; 0; 0; 0; 0; 0; 0; 0;
   0; 0; 0; 0; 0; 0; 0; 0;
   0; 0; 0; 0; 0; 0; 0; 0;
   0; 0; 0; 0; 0; 0; 0; 0;
   0; 0; 0; 0; 0; 0; 0; 0;
   0; 0; 0; 0; 0; 0; 0; 0;
   0; 0; 0; 0; 1864128; 119304640; 2093504; 119534016;
   0; 0; 0; 0; 16544192; 133984704; 134214080; 134214080;
   0; 0; 2064440; 16744504; 0; 0; 2093112; 16773176;
   0; 0; 119504952; 134185016; 0; 0; 134213688; 134213688;
   0; 0; 2064888; 134185464; 1864184; 133984760; 2093560; 134214136;
   0; 0; 119505400; 134185464; 16544248; 133984760; 134214136; 134214136;
   0; 0; 0; 0; 0; 0; 0; 0;
   0; 0; 0; 0; 14684096; 14913472; 132124608; 132353984;
   0; 0; 0; 0; 0; 0; 0; 0;
   0; 0; 0; 0; 16519104; 134188992; 133959616; 134188992;
   0; 14909447; 0; 16744455; 0; 14913031; 0; 16748039;
   0; 14909895; 0; 134185415; 14684103; 14913479; 133959623; 134188999;
   0; 132349959; 0; 134184967; 0; 134188551; 0; 134188551;
   0; 132350407; 0; 134185415; 16519111; 134188999; 133959623; 134188999;
   0; 0; 0; 0; 0; 0; 0; 0;
   0; 0; 0; 0; 14712768; 14942144; 132382656; 132382656;
   0; 0; 0; 0; 1867712; 119537600; 2097088; 119537600;
   0; 0; 0; 0; 16547776; 134217664; 134217664; 134217664;
   0; 14909503; 2064447; 16744511; 0; 14941759; 2096703; 16776767;
   0; 14909951; 119505407; 134185471; 14712831; 14942207; 134217727; 134217727;
   0; 132350463; 2064895; 134185471; 1867775; 134217727; 2097151; 134217727;
   0; 132350463; 119505407; 134185471; 16547839; 134217727; 134217727; 134217727;
   0; 0; 0; 0; 0; 0; 0; 0;
   0; 0; 117444152; 117472824; 0; 0; 132124216; 132152888;
   0; 117469191; 0; 117472775; 0; 119304199; 0; 119307783;
   0; 117469247; 117444159; 117472831; 0; 133984319; 133959231; 133987903;
   0; 0; 0; 0; 0; 0; 0; 0;
   0; 0; 119279160; 133987896; 0; 0; 133959224; 133987896;
   0; 132149255; 0; 133987847; 0; 133984263; 0; 133987847;
   0; 132149311; 119279167; 133987903; 0; 133984319; 133959231; 133987903;
   0; 0; 0; 0; 0; 0; 0; 0;
   0; 0; 117673528; 117702200; 0; 0; 132382264; 132382264;
   0; 117469639; 0; 117702599; 1864135; 119304647; 2097095; 119537607;
   0; 117469695; 117673983; 117702655; 16544255; 133984767; 134217727; 134217727;
   0; 0; 2068024; 16776760; 0; 0; 2096696; 16776760;
   0; 0; 119508536; 134217272; 0; 0; 134217272; 134217272;
   0; 132149759; 2068479; 134217727; 1864191; 133984767; 2097151; 134217727;
   0; 132149759; 119508991; 134217727; 16544255; 133984767; 134217727; 134217727;
   0; 0; 0; 0; 0; 0; 0; 0;
   0; 0; 117444600; 117702648; 14684152; 14942200; 132124664; 132382712;
   0; 117698567; 0; 117702151; 0; 119537159; 0; 119537159;
   0; 117699071; 117444607; 117702655; 16519167; 134217727; 133959679; 134217727;
   0; 14938119; 0; 16776711; 0; 14941703; 0; 16776711;
   0; 14938623; 119279615; 134217727; 14684159; 14942207; 133959679; 134217727;
   0; 132378631; 0; 134217223; 0; 134217223; 0; 134217223;
   0; 132379135; 119279615; 134217727; 16519167; 134217727; 133959679; 134217727;
   0; 0; 0; 0; 0; 0; 0; 0;
   0; 0; 117673976; 117702648; 14712824; 14942200; 132382712; 132382712;
   0; 117699015; 0; 117702599; 1867719; 119537607; 2097095; 119537607;
   0; 117699071; 117673983; 117702655; 16547839; 134217727; 134217727; 134217727;
   0; 14938175; 2068031; 16776767; 0; 14941759; 2096703; 16776767;
   0; 14938623; 119508991; 134217727; 14712831; 14942207; 134217727; 134217727;
   0; 132379135; 2068479; 134217727; 1867775; 134217727; 2097151; 134217727;
   0; 132379135; 119508991; 134217727; 16547839; 134217727; 134217727; 134217727
  ].

(** src/solver.rs:747-812 [LOCKED_CANDIDATES_MASK_NEIGHBOR_BAND] *)
Definition locked_neighbor_band_tbl : list N := [
   134217727; 133955070; 133692413; 134217727; 133167099; 134217727; 134217727; 134217727;
   132116471; 131853814; 131591157; 132116471; 131065843; 132116471; 132116471; 132116471;
   130015215; 129752558; 129489901; 130015215; 128964587; 130015215; 130015215; 130015215;
   134217727; 133955070; 133692413; 134217727; 133167099; 134217727; 134217727; 134217727;
   125812703; 125550046; 125287389; 125812703; 124762075; 125812703; 125812703; 125812703;
   134217727; 133955070; 133692413; 134217727; 133167099; 134217727; 134217727; 134217727;
   134217727; 133955070; 133692413; 134217727; 133167099; 134217727; 134217727; 134217727;
   134217727; 133955070; 133692413; 134217727; 133167099; 134217727; 134217727; 134217727;
   117407679; 117145022; 116882365; 117407679; 116357051; 117407679; 117407679; 117407679;
   115306423; 115043766; 114781109; 115306423; 114255795; 115306423; 115306423; 115306423;
   113205167; 112942510; 112679853; 113205167; 112154539; 113205167; 113205167; 113205167;
   117407679; 117145022; 116882365; 117407679; 116357051; 117407679; 117407679; 117407679;
   109002655; 108739998; 108477341; 109002655; 107952027; 109002655; 109002655; 109002655;
   117407679; 117145022; 116882365; 117407679; 116357051; 117407679; 117407679; 117407679;
   117407679; 117145022; 116882365; 117407679; 116357051; 117407679; 117407679; 117407679;
   117407679; 117145022; 116882365; 117407679; 116357051; 117407679; 117407679; 117407679;
   100597631; 100334974; 100072317; 100597631; 99547003; 100597631; 100597631; 100597631;
   98496375; 98233718; 97971061; 98496375; 97445747; 98496375; 98496375; 98496375;
   96395119; 96132462; 95869805; 96395119; 95344491; 96395119; 96395119; 96395119;
   100597631; 100334974; 100072317; 100597631; 99547003; 100597631; 100597631; 100597631;
   92192607; 91929950; 91667293; 92192607; 91141979; 92192607; 92192607; 92192607;
   100597631; 100334974; 100072317; 100597631; 99547003; 100597631; 100597631; 100597631;
   100597631; 100334974; 100072317; 100597631; 99547003; 100597631; 100597631; 100597631;
   100597631; 100334974; 100072317; 100597631; 99547003; 100597631; 100597631; 100597631;
   134217727; 133955070; 133692413; 134217727; 133167099; 134217727; 134217727; 134217727;
   132116471; 131853814; 131591157; 132116471; 131065843; 132116471; 132116471; 132116471;
   130015215; 129752558; 129489901; 130015215; 128964587; 130015215; 130015215; 130015215;
   134217727; 133955070; 133692413; 134217727; 133167099; 134217727; 134217727; 134217727;
   125812703; 125550046; 125287389; 125812703; 124762075; 125812703; 125812703; 125812703;
   134217727; 133955070; 133692413; 134217727; 133167099; 134217727; 134217727; 134217727;
   134217727; 133955070; 133692413; 134217727; 133167099; 134217727; 134217727; 134217727;
   134217727; 133955070; 133692413; 134217727; 133167099; 134217727; 134217727; 134217727;
   66977535; 66714878; 66452221; 66977535; 65926907; 66977535; 66977535; 66977535;
   64876279; 64613622; 64350965; 64876279; 63825651; 64876279; 64876279; 64876279;
   62775023; 62512366; 62249709; 62775023; 61724395; 62775023; 62775023; 62775023;
   66977535; 66714878; 66452221; 66977535; 65926907; 66977535; 66977535; 66977535;
   58572511; 58309854; 58047197; 58572511; 57521883; 58572511; 58572511; 58572511;
   66977535; 66714878; 66452221; 66977535; 65926907; 66977535; 66977535; 66977535;
   66977535; 66714878; 66452221; 66977535; 65926907; 66977535; 66977535; 66977535;
   66977535; 66714878; 66452221; 66977535; 65926907; 66977535; 66977535; 66977535;
   134217727; 133955070; 133692413; 134217727; 133167099; 134217727; 134217727; 134217727;
   132116471; 131853814; 131591157; 132116471; 131065843; 132116471; 132116471; 132116471;
   130015215; 129752558; 129489901; 130015215; 128964587; 130015215; 130015215; 130015215;
   134217727; 133955070; 133692413; 134217727; 133167099; 134217727; 134217727; 134217727;
   125812703; 125550046; 125287389; 125812703; 124762075; 125812703; 125812703; 125812703;
   134217727; 133955070; 133692413; 134217727; 133167099; 134217727; 134217727; 134217727;
   134217727; 133955070; 133692413; 134217727; 133167099; 134217727; 134217727; 134217727;
   134217727; 133955070; 133692413; 134217727; 133167099; 134217727; 134217727; 134217727;
   134217727; 133955070; 133692413; 134217727; 133167099; 134217727; 134217727; 134217727;
   132116471; 131853814; 131591157; 132116471; 131065843; 132116471; 132116471; 132116471;
   130015215; 129752558; 129489901; 130015215; 128964587; 130015215; 130015215; 130015215;
   134217727; 133955070; 133692413; 134217727; 133167099; 134217727; 134217727; 134217727;
   125812703; 125550046; 125287389; 125812703; 124762075; 125812703; 125812703; 125812703;
   134217727; 133955070; 133692413; 134217727; 133167099; 134217727; 134217727; 134217727;
   134217727; 133955070; 133692413; 134217727; 133167099; 134217727; 134217727; 134217727;
   134217727; 133955070; 133692413; 134217727; 133167099; 134217727; 134217727; 134217727;
   134217727; 133955070; 133692413; 134217727; 133167099; 134217727; 134217727; 134217727;
   132116471; 131853814; 131591157; 132116471; 131065843; 132116471; 132116471; 132116471;
   130015215; 129752558; 129489901; 130015215; 128964587; 130015215; 130015215; 130015215;
   134217727; 133955070; 133692413; 134217727; 133167099; 134217727; 134217727; 134217727;
   125812703; 125550046; 125287389; 125812703; 124762075; 125812703; 125812703; 125812703;
   134217727; 133955070; 133692413; 134217727; 133167099; 134217727; 134217727; 134217727;
   134217727; 133955070; 133692413; 134217727; 133167099; 134217727; 134217727; 134217727;
   134217727; 133955070; 133692413; 134217727; 133167099; 134217727; 134217727; 134217727
  ].

(** src/solver.rs:815-848 [LOCKED_MINIROWS] *)
Definition locked_minirows_tbl : list N := [
   0; 0; 0; 0; 0; 0; 0; 0; 0; 0; 0; 0; 0; 0; 0; 0;
   0; 0; 0; 0; 0; 0; 0; 0; 0; 0; 0; 0; 0; 0; 0; 0;
   0; 0; 0; 0; 0; 0; 0; 0; 0; 0; 0; 0; 0; 0; 0; 0;
   0; 0; 0; 0; 0; 0; 0; 0; 0; 0; 0; 0; 0; 0; 0; 0;
   0; 0; 0; 0; 0; 0; 0; 0; 0; 0; 0; 0; 0; 0; 0; 0;
   0; 0; 0; 0; 84; 84; 84; 84; 0; 0; 0; 0; 84; 84; 84; 84;
   0; 0; 98; 98; 0; 0; 98; 98; 0; 0; 98; 98; 0; 0; 98; 98;
   0; 0; 98; 98; 84; 84; 64; 64; 0; 0; 98; 98; 84; 84; 64; 64;
   0; 0; 0; 0; 0; 0; 0; 0; 0; 0; 0; 0; 140; 140; 140; 140;
   0; 0; 0; 0; 0; 0; 0; 0; 0; 0; 0; 0; 140; 140; 140; 140;
   0; 161; 0; 161; 0; 161; 0; 161; 0; 161; 0; 161; 140; 128; 140; 128;
   0; 161; 0; 161; 0; 161; 0; 161; 0; 161; 0; 161; 140; 128; 140; 128;
   0; 0; 0; 0; 0; 0; 0; 0; 0; 0; 0; 0; 140; 140; 140; 140;
   0; 0; 0; 0; 84; 84; 84; 84; 0; 0; 0; 0; 4; 4; 4; 4;
   0; 161; 98; 32; 0; 161; 98; 32; 0; 161; 98; 32; 140; 128; 0; 0;
   0; 161; 98; 32; 84; 0; 64; 0; 0; 161; 98; 32; 4; 0; 0; 0;
   0; 0; 0; 0; 0; 0; 0; 0; 0; 0; 266; 266; 0; 0; 266; 266;
   0; 273; 0; 273; 0; 273; 0; 273; 0; 273; 266; 256; 0; 273; 266; 256;
   0; 0; 0; 0; 0; 0; 0; 0; 0; 0; 266; 266; 0; 0; 266; 266;
   0; 273; 0; 273; 0; 273; 0; 273; 0; 273; 266; 256; 0; 273; 266; 256;
   0; 0; 0; 0; 0; 0; 0; 0; 0; 0; 266; 266; 0; 0; 266; 266;
   0; 273; 0; 273; 84; 16; 84; 16; 0; 273; 266; 256; 84; 16; 0; 0;
   0; 0; 98; 98; 0; 0; 98; 98; 0; 0; 2; 2; 0; 0; 2; 2;
   0; 273; 98; 0; 84; 16; 64; 0; 0; 273; 2; 0; 84; 16; 0; 0;
   0; 0; 0; 0; 0; 0; 0; 0; 0; 0; 266; 266; 140; 140; 8; 8;
   0; 273; 0; 273; 0; 273; 0; 273; 0; 273; 266; 256; 140; 0; 8; 0;
   0; 161; 0; 161; 0; 161; 0; 161; 0; 161; 266; 0; 140; 128; 8; 0;
   0; 1; 0; 1; 0; 1; 0; 1; 0; 1; 266; 0; 140; 0; 8; 0;
   0; 0; 0; 0; 0; 0; 0; 0; 0; 0; 266; 266; 140; 140; 8; 8;
   0; 273; 0; 273; 84; 16; 84; 16; 0; 273; 266; 256; 4; 0; 0; 0;
   0; 161; 98; 32; 0; 161; 98; 32; 0; 161; 2; 0; 140; 128; 0; 0;
   0; 1; 98; 0; 84; 0; 64; 0; 0; 1; 2; 0; 4; 0; 0; 0
  ].

(** src/solver.rs:851-884 [COLUMN_SINGLE] *)
Definition column_single_tbl : list N := [
   0; 0; 0; 0; 0; 0; 0; 0; 0; 0; 0; 0; 0; 0; 0; 0;
   0; 0; 0; 0; 0; 0; 0; 0; 0; 0; 0; 0; 0; 0; 0; 0;
   0; 0; 0; 0; 0; 0; 0; 0; 0; 0; 0; 0; 0; 0; 0; 0;
   0; 0; 0; 0; 0; 0; 0; 0; 0; 0; 0; 0; 0; 0; 0; 0;
   0; 0; 0; 0; 0; 0; 0; 0; 0; 511; 511; 438; 511; 438; 438; 438;
   0; 511; 511; 438; 511; 438; 438; 438; 0; 365; 365; 292; 365; 292; 292; 292;
   0; 511; 511; 438; 511; 438; 438; 438; 0; 365; 365; 292; 365; 292; 292; 292;
   0; 365; 365; 292; 365; 292; 292; 292; 0; 365; 365; 292; 365; 292; 292; 292;
   0; 0; 0; 0; 0; 0; 0; 0; 0; 511; 511; 438; 511; 438; 438; 438;
   0; 511; 511; 438; 511; 438; 438; 438; 0; 365; 365; 292; 365; 292; 292; 292;
   0; 511; 511; 438; 511; 438; 438; 438; 0; 365; 365; 292; 365; 292; 292; 292;
   0; 365; 365; 292; 365; 292; 292; 292; 0; 365; 365; 292; 365; 292; 292; 292;
   0; 0; 0; 0; 0; 0; 0; 0; 0; 219; 219; 146; 219; 146; 146; 146;
   0; 219; 219; 146; 219; 146; 146; 146; 0; 73; 73; 0; 73; 0; 0; 0;
   0; 219; 219; 146; 219; 146; 146; 146; 0; 73; 73; 0; 73; 0; 0; 0;
   0; 73; 73; 0; 73; 0; 0; 0; 0; 73; 73; 0; 73; 0; 0; 0;
   0; 0; 0; 0; 0; 0; 0; 0; 0; 511; 511; 438; 511; 438; 438; 438;
   0; 511; 511; 438; 511; 438; 438; 438; 0; 365; 365; 292; 365; 292; 292; 292;
   0; 511; 511; 438; 511; 438; 438; 438; 0; 365; 365; 292; 365; 292; 292; 292;
   0; 365; 365; 292; 365; 292; 292; 292; 0; 365; 365; 292; 365; 292; 292; 292;
   0; 0; 0; 0; 0; 0; 0; 0; 0; 219; 219; 146; 219; 146; 146; 146;
   0; 219; 219; 146; 219; 146; 146; 146; 0; 73; 73; 0; 73; 0; 0; 0;
   0; 219; 219; 146; 219; 146; 146; 146; 0; 73; 73; 0; 73; 0; 0; 0;
   0; 73; 73; 0; 73; 0; 0; 0; 0; 73; 73; 0; 73; 0; 0; 0;
   0; 0; 0; 0; 0; 0; 0; 0; 0; 219; 219; 146; 219; 146; 146; 146;
   0; 219; 219; 146; 219; 146; 146; 146; 0; 73; 73; 0; 73; 0; 0; 0;
   0; 219; 219; 146; 219; 146; 146; 146; 0; 73; 73; 0; 73; 0; 0; 0;
   0; 73; 73; 0; 73; 0; 0; 0; 0; 73; 73; 0; 73; 0; 0; 0;
   0; 0; 0; 0; 0; 0; 0; 0; 0; 219; 219; 146; 219; 146; 146; 146;
   0; 219; 219; 146; 219; 146; 146; 146; 0; 73; 73; 0; 73; 0; 0; 0;
   0; 219; 219; 146; 219; 146; 146; 146; 0; 73; 73; 0; 73; 0; 0; 0;
   0; 73; 73; 0; 73; 0; 0; 0; 0; 73; 73; 0; 73; 0; 0; 0
  ].
