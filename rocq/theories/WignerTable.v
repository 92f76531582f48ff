(** The numbers in freud/order/Wigner3j.cc:59-5833 (getWigner3j), each multiplied by 10^20 (no literal has more than 20 decimals),
    transcribed by a script; one row for every m1, the layout of the file itself has no rows. *)
From Coq Require Import ZArith List.
Import ListNotations.
Local Open Scope Z_scope.

(* Wigner3j.cc:64-65 *)
Definition w3j_0 : list (list Z) := [
  [100000000000000000000]].
(* Wigner3j.cc:68-70 *)
Definition w3j_1 : list (list Z) := [
  [40824829046386300000; -40824829046386300000];
  [-40824829046386300000; 0; 40824829046386300000];
  [40824829046386300000; -40824829046386300000]].
(* Wigner3j.cc:73-78 *)
Definition w3j_2 : list (list Z) := [
  [23904572186687872000; -29277002188455997000; 23904572186687872000];
  [-29277002188455997000; 11952286093343936000; 11952286093343936000; -29277002188455997000];
  [23904572186687872000; 11952286093343936000; -23904572186687872000; 11952286093343936000; 23904572186687872000];
  [-29277002188455997000; 11952286093343936000; 11952286093343936000; -29277002188455997000];
  [23904572186687872000; -29277002188455997000; 23904572186687872000]].
(* Wigner3j.cc:81-118 *)
Definition w3j_3 : list (list Z) := [
  [15430334996209190000; -21821789023599240000; 21821789023599240000; -15430334996209190000];
  [-21821789023599240000; 15430334996209190000; 0; -15430334996209190000; 21821789023599240000];
  [21821789023599240000; 0; -15430334996209190000; 15430334996209190000; 0; -21821789023599240000];
  [-15430334996209190000; -15430334996209190000; 15430334996209190000; 0; -15430334996209190000; 15430334996209190000; 15430334996209190000];
  [21821789023599240000; 0; -15430334996209190000; 15430334996209190000; 0; -21821789023599240000];
  [-21821789023599240000; 15430334996209190000; 0; -15430334996209190000; 21821789023599240000];
  [15430334996209190000; -21821789023599240000; 21821789023599240000; -15430334996209190000]].
(* Wigner3j.cc:121-137 *)
Definition w3j_4 : list (list Z) := [
  [10429770312912398000; -16490914830605122000; 18698939800169143000; -16490914830605122000; 10429770312912398000];
  [-16490914830605122000; 15644655469368596000; -6232979933389714400; -6232979933389714400; 15644655469368596000; -16490914830605122000];
  [18698939800169143000; -6232979933389714400; -8194819531574027000; 14135069854804390000; -8194819531574027000; -6232979933389714400; 18698939800169143000];
  [-16490914830605122000; -6232979933389714400; 14135069854804390000; -6704852344015114000; -6704852344015114000; 14135069854804390000; -6232979933389714400; -16490914830605122000];
  [10429770312912398000; 15644655469368596000; -8194819531574027000; -6704852344015114000; 13409704688030227000; -6704852344015114000; -8194819531574027000; 15644655469368596000; 10429770312912398000];
  [-16490914830605122000; -6232979933389714400; 14135069854804390000; -6704852344015114000; -6704852344015114000; 14135069854804390000; -6232979933389714400; -16490914830605122000];
  [18698939800169143000; -6232979933389714400; -8194819531574027000; 14135069854804390000; -8194819531574027000; -6232979933389714400; 18698939800169143000];
  [-16490914830605122000; 15644655469368596000; -6232979933389714400; -6232979933389714400; 15644655469368596000; -16490914830605122000];
  [10429770312912398000; -16490914830605122000; 18698939800169143000; -16490914830605122000; 10429770312912398000]].
(* Wigner3j.cc:140-231 *)
Definition w3j_5 : list (list Z) := [
  [7242068243779014000; -12543630150106360000; 15644655469368596000; -15644655469368596000; 12543630150106360000; -7242068243779014000];
  [-12543630150106360000; 14484136487558028000; -9349469900084571000; 0; 9349469900084571000; -14484136487558028000; 12543630150106360000];
  [15644655469368596000; -9349469900084571000; -2414022747926338000; 10795837927188262000; -10795837927188262000; 2414022747926338000; 9349469900084571000; -15644655469368596000];
  [-15644655469368596000; 0; 10795837927188262000; -9656090991705352000; 0; 9656090991705352000; -10795837927188262000; 0; 15644655469368596000];
  [12543630150106360000; 9349469900084571000; -10795837927188262000; 0; 9656090991705352000; -9656090991705352000; 0; 10795837927188262000; -9349469900084571000; -12543630150106360000];
  [-7242068243779014000; -14484136487558028000; 2414022747926338000; 9656090991705352000; -9656090991705352000; 0; 9656090991705352000; -9656090991705352000; -2414022747926338000; 14484136487558028000; 7242068243779014000];
  [12543630150106360000; 9349469900084571000; -10795837927188262000; 0; 9656090991705352000; -9656090991705352000; 0; 10795837927188262000; -9349469900084571000; -12543630150106360000];
  [-15644655469368596000; 0; 10795837927188262000; -9656090991705352000; 0; 9656090991705352000; -10795837927188262000; 0; 15644655469368596000];
  [15644655469368596000; -9349469900084571000; -2414022747926338000; 10795837927188262000; -10795837927188262000; 2414022747926338000; 9349469900084571000; -15644655469368596000];
  [-12543630150106360000; 14484136487558028000; -9349469900084571000; 0; 9349469900084571000; -14484136487558028000; 12543630150106360000];
  [7242068243779014000; -12543630150106360000; 15644655469368596000; -15644655469368596000; 12543630150106360000; -7242068243779014000]].
(* Wigner3j.cc:234-266 *)
Definition w3j_6 : list (list Z) := [
  [5118272511620991500; -9575411075314348000; 12911481660011878000; -14143819512005507000; 12911481660011878000; -9575411075314348000; 5118272511620991500];
  [-9575411075314348000; 12795681279052480000; -10607864634004130000; 4082969001312930000; 4082969001312930000; -10607864634004130000; 12795681279052480000; -9575411075314348000];
  [12911481660011878000; -10607864634004130000; 1861190004225815000; 6881842847817146000; -10445902991252017000; 6881842847817146000; 1861190004225815000; -10607864634004130000; 12911481660011878000];
  [-14143819512005507000; 4082969001312930000; 6881842847817146000; -10003896272713755000; 4523208677946051500; 4523208677946051500; -10003896272713755000; 6881842847817146000; 4082969001312930000; -14143819512005507000];
  [12911481660011878000; 4082969001312930000; -10445902991252017000; 4523208677946051500; 5118272511620991500; -9535761169699032000; 5118272511620991500; 4523208677946051500; -10445902991252017000; 4082969001312930000; 12911481660011878000];
  [-9575411075314348000; -10607864634004130000; 6881842847817146000; 4523208677946051500; -9535761169699032000; 4652975010564537600; 4652975010564537600; -9535761169699032000; 4523208677946051500; 6881842847817146000; -10607864634004130000; -9575411075314348000];
  [5118272511620991500; 12795681279052480000; 1861190004225815000; -10003896272713755000; 5118272511620991500; 4652975010564537600; -9305950021129075000; 4652975010564537600; 5118272511620991500; -10003896272713755000; 1861190004225815000; 12795681279052480000; 5118272511620991500];
  [-9575411075314348000; -10607864634004130000; 6881842847817146000; 4523208677946051500; -9535761169699032000; 4652975010564537600; 4652975010564537600; -9535761169699032000; 4523208677946051500; 6881842847817146000; -10607864634004130000; -9575411075314348000];
  [12911481660011878000; 4082969001312930000; -10445902991252017000; 4523208677946051500; 5118272511620991500; -9535761169699032000; 5118272511620991500; 4523208677946051500; -10445902991252017000; 4082969001312930000; 12911481660011878000];
  [-14143819512005507000; 4082969001312930000; 6881842847817146000; -10003896272713755000; 4523208677946051500; 4523208677946051500; -10003896272713755000; 6881842847817146000; 4082969001312930000; -14143819512005507000];
  [12911481660011878000; -10607864634004130000; 1861190004225815000; 6881842847817146000; -10445902991252017000; 6881842847817146000; 1861190004225815000; -10607864634004130000; 12911481660011878000];
  [-9575411075314348000; 12795681279052480000; -10607864634004130000; 4082969001312930000; 4082969001312930000; -10607864634004130000; 12795681279052480000; -9575411075314348000];
  [5118272511620991500; -9575411075314348000; 12911481660011878000; -14143819512005507000; 12911481660011878000; -9575411075314348000; 5118272511620991500]].
(* Wigner3j.cc:269-438 *)
Definition w3j_7 : list (list Z) := [
  [3662771173969050400; -7325542347938101000; 10557230146166803000; -12441815044835987000; 12441815044835987000; -10557230146166803000; 7325542347938101000; -3662771173969050400];
  [-7325542347938101000; 10988313521907152000; -10750956949750906000; 6583589693379592000; 0; -6583589693379592000; 10750956949750906000; -10988313521907152000; 7325542347938101000];
  [10557230146166803000; -10750956949750906000; 4789777689036451000; 3162654189033221000; -8564508030762896000; 8564508030762896000; -3162654189033221000; -4789777689036451000; 10750956949750906000; -10557230146166803000];
  [-12441815044835987000; 6583589693379592000; 3162654189033221000; -8734300491772351000; 6992891524445957000; 0; -6992891524445957000; 8734300491772351000; -3162654189033221000; -6583589693379592000; 12441815044835987000];
  [12441815044835987000; 0; -8564508030762896000; 6992891524445957000; 845254886300550100; -7454447412044773000; 7454447412044773000; -845254886300550100; -6992891524445957000; 8564508030762896000; 0; -12441815044835987000];
  [-10557230146166803000; -6583589693379592000; 8564508030762896000; 0; -7454447412044773000; 7043790719171251000; 0; -7043790719171251000; 7454447412044773000; 0; -8564508030762896000; 6583589693379592000; 10557230146166803000];
  [7325542347938101000; 10750956949750906000; -3162654189033221000; -6992891524445957000; 7454447412044773000; 0; -7043790719171251000; 7043790719171251000; 0; -7454447412044773000; 6992891524445957000; 3162654189033221000; -10750956949750906000; -7325542347938101000];
  [-3662771173969050400; -10988313521907152000; -4789777689036451000; 8734300491772351000; -845254886300550100; -7043790719171251000; 7043790719171251000; 0; -7043790719171251000; 7043790719171251000; 845254886300550100; -8734300491772351000; 4789777689036451000; 10988313521907152000; 3662771173969050400];
  [7325542347938101000; 10750956949750906000; -3162654189033221000; -6992891524445957000; 7454447412044773000; 0; -7043790719171251000; 7043790719171251000; 0; -7454447412044773000; 6992891524445957000; 3162654189033221000; -10750956949750906000; -7325542347938101000];
  [-10557230146166803000; -6583589693379592000; 8564508030762896000; 0; -7454447412044773000; 7043790719171251000; 0; -7043790719171251000; 7454447412044773000; 0; -8564508030762896000; 6583589693379592000; 10557230146166803000];
  [12441815044835987000; 0; -8564508030762896000; 6992891524445957000; 845254886300550100; -7454447412044773000; 7454447412044773000; -845254886300550100; -6992891524445957000; 8564508030762896000; 0; -12441815044835987000];
  [-12441815044835987000; 6583589693379592000; 3162654189033221000; -8734300491772351000; 6992891524445957000; 0; -6992891524445957000; 8734300491772351000; -3162654189033221000; -6583589693379592000; 12441815044835987000];
  [10557230146166803000; -10750956949750906000; 4789777689036451000; 3162654189033221000; -8564508030762896000; 8564508030762896000; -3162654189033221000; -4789777689036451000; 10750956949750906000; -10557230146166803000];
  [-7325542347938101000; 10988313521907152000; -10750956949750906000; 6583589693379592000; 0; -6583589693379592000; 10750956949750906000; -10988313521907152000; 7325542347938101000];
  [3662771173969050400; -7325542347938101000; 10557230146166803000; -12441815044835987000; 12441815044835987000; -10557230146166803000; 7325542347938101000; -3662771173969050400]].
(* Wigner3j.cc:441-658 *)
Definition w3j_8 : list (list Z) := [
  [2645674994617371000; -5612324188528877000; 8572966806188397000; -10746782631228280000; 11543896335436807000; -10746782631228280000; 8572966806188397000; -5612324188528877000; 2645674994617371000];
  [-5612324188528877000; 9259862481160800000; -10246655193630476000; 7937024983852113000; -2980621217166105500; -2980621217166105500; 7937024983852113000; -10246655193630476000; 9259862481160800000; -5612324188528877000];
  [8572966806188397000; -10246655193630476000; 6614187486543427000; 0; -6028603244005229000; 8430469899226617000; -6028603244005229000; 0; 6614187486543427000; -10246655193630476000; 8572966806188397000];
  [-10746782631228280000; 7937024983852113000; 0; -6614187486543427000; 7782893321641420000; -3362594233395219000; -3362594233395219000; 7782893321641420000; -6614187486543427000; 0; 7937024983852113000; -10746782631228280000];
  [11543896335436807000; -2980621217166105500; -6028603244005229000; 7782893321641420000; -2543918264055164400; -4458756536551671000; 7576606905360043000; -4458756536551671000; -2543918264055164400; 7782893321641420000; -6028603244005229000; -2980621217166105500; 11543896335436807000];
  [-10746782631228280000; -2980621217166105500; 8430469899226617000; -3362594233395219000; -4458756536551671000; 7428241331041080000; -3507287480528919000; -3507287480528919000; 7428241331041080000; -4458756536551671000; -3362594233395219000; 8430469899226617000; -2980621217166105500; -10746782631228280000];
  [8572966806188397000; 7937024983852113000; -6028603244005229000; -3362594233395219000; 7576606905360043000; -3507287480528919000; -3764999030801643000; 7224011237680622000; -3764999030801643000; -3507287480528919000; 7576606905360043000; -3362594233395219000; -6028603244005229000; 7937024983852113000; 8572966806188397000];
  [-5612324188528877000; -10246655193630476000; 0; 7782893321641420000; -4458756536551671000; -3507287480528919000; 7224011237680622000; -3561485569677230000; -3561485569677230000; 7224011237680622000; -3507287480528919000; -4458756536551671000; 7782893321641420000; 0; -10246655193630476000; -5612324188528877000];
  [2645674994617371000; 9259862481160800000; 6614187486543427000; -6614187486543427000; -2543918264055164400; 7428241331041080000; -3764999030801643000; -3561485569677230000; 7122971139354460000; -3561485569677230000; -3764999030801643000; 7428241331041080000; -2543918264055164400; -6614187486543427000; 6614187486543427000; 9259862481160800000; 2645674994617371000];
  [-5612324188528877000; -10246655193630476000; 0; 7782893321641420000; -4458756536551671000; -3507287480528919000; 7224011237680622000; -3561485569677230000; -3561485569677230000; 7224011237680622000; -3507287480528919000; -4458756536551671000; 7782893321641420000; 0; -10246655193630476000; -5612324188528877000];
  [8572966806188397000; 7937024983852113000; -6028603244005229000; -3362594233395219000; 7576606905360043000; -3507287480528919000; -3764999030801643000; 7224011237680622000; -3764999030801643000; -3507287480528919000; 7576606905360043000; -3362594233395219000; -6028603244005229000; 7937024983852113000; 8572966806188397000];
  [-10746782631228280000; -2980621217166105500; 8430469899226617000; -3362594233395219000; -4458756536551671000; 7428241331041080000; -3507287480528919000; -3507287480528919000; 7428241331041080000; -4458756536551671000; -3362594233395219000; 8430469899226617000; -2980621217166105500; -10746782631228280000];
  [11543896335436807000; -2980621217166105500; -6028603244005229000; 7782893321641420000; -2543918264055164400; -4458756536551671000; 7576606905360043000; -4458756536551671000; -2543918264055164400; 7782893321641420000; -6028603244005229000; -2980621217166105500; 11543896335436807000];
  [-10746782631228280000; 7937024983852113000; 0; -6614187486543427000; 7782893321641420000; -3362594233395219000; -3362594233395219000; 7782893321641420000; -6614187486543427000; 0; 7937024983852113000; -10746782631228280000];
  [8572966806188397000; -10246655193630476000; 6614187486543427000; 0; -6028603244005229000; 8430469899226617000; -6028603244005229000; 0; 6614187486543427000; -10246655193630476000; 8572966806188397000];
  [-5612324188528877000; 9259862481160800000; -10246655193630476000; 7937024983852113000; -2980621217166105500; -2980621217166105500; 7937024983852113000; -10246655193630476000; 9259862481160800000; -5612324188528877000];
  [2645674994617371000; -5612324188528877000; 8572966806188397000; -10746782631228280000; 11543896335436807000; -10746782631228280000; 8572966806188397000; -5612324188528877000; 2645674994617371000]].
(* Wigner3j.cc:661-932 *)
Definition w3j_9 : list (list Z) := [
  [1924815435324436800; -4304018157526291000; 6924301541391162000; -9159989940671116000; 10443995424508518000; -10443995424508518000; 9159989940671116000; -6924301541391162000; 4304018157526291000; -1924815435324436800];
  [-4304018157526291000; 7699261741297747000; -9394899606030287000; 8480502800787701000; -5017133117025978500; 0; 5017133117025978500; -8480502800787701000; 9394899606030287000; -7699261741297747000; 4304018157526291000];
  [6924301541391162000; -9394899606030287000; 7586037303925722000; -2480623136379577000; -3379706782758925400; 7198884165939960000; -7198884165939960000; 3379706782758925400; 2480623136379577000; -7586037303925722000; 9394899606030287000; -6924301541391162000];
  [-9159989940671116000; 8480502800787701000; -2480623136379577000; -4189304182764951000; 7349565596342092000; -5441844920067935000; 0; 5441844920067935000; -7349565596342092000; 4189304182764951000; 2480623136379577000; -8480502800787701000; 9159989940671116000];
  [10443995424508518000; -5017133117025978500; -3379706782758925400; 7349565596342092000; -4812038588311092000; -1348036666297144200; 6204657845062042000; -6204657845062042000; 1348036666297144200; 4812038588311092000; -7349565596342092000; 3379706782758925400; 5017133117025978500; -10443995424508518000];
  [-10443995424508518000; 0; 7198884165939960000; -5441844920067935000; -1348036666297144200; 6340568492833439000; -5533826277992775000; 0; 5533826277992775000; -6340568492833439000; 1348036666297144200; 5441844920067935000; -7198884165939960000; 0; 10443995424508518000];
  [9159989940671116000; 5017133117025978500; -7198884165939960000; 0; 6204657845062042000; -5533826277992775000; -396285530802089900; 5742722925916745000; -5742722925916745000; 396285530802089900; 5533826277992775000; -6204657845062042000; 0; 7198884165939960000; -5017133117025978500; -9159989940671116000];
  [-6924301541391162000; -8480502800787701000; 3379706782758925400; 5441844920067935000; -6204657845062042000; 0; 5742722925916745000; -5547997431229259600; 0; 5547997431229259600; -5742722925916745000; 0; 6204657845062042000; -5441844920067935000; -3379706782758925400; 8480502800787701000; 6924301541391162000];
  [4304018157526291000; 9394899606030287000; 2480623136379577000; -7349565596342092000; 1348036666297144200; 5533826277992775000; -5742722925916745000; 0; 5547997431229259600; -5547997431229259600; 0; 5742722925916745000; -5533826277992775000; -1348036666297144200; 7349565596342092000; -2480623136379577000; -9394899606030287000; -4304018157526291000];
  [-1924815435324436800; -7699261741297747000; -7586037303925722000; 4189304182764951000; 4812038588311092000; -6340568492833439000; 396285530802089900; 5547997431229259600; -5547997431229259600; 0; 5547997431229259600; -5547997431229259600; -396285530802089900; 6340568492833439000; -4812038588311092000; -4189304182764951000; 7586037303925722000; 7699261741297747000; 1924815435324436800];
  [4304018157526291000; 9394899606030287000; 2480623136379577000; -7349565596342092000; 1348036666297144200; 5533826277992775000; -5742722925916745000; 0; 5547997431229259600; -5547997431229259600; 0; 5742722925916745000; -5533826277992775000; -1348036666297144200; 7349565596342092000; -2480623136379577000; -9394899606030287000; -4304018157526291000];
  [-6924301541391162000; -8480502800787701000; 3379706782758925400; 5441844920067935000; -6204657845062042000; 0; 5742722925916745000; -5547997431229259600; 0; 5547997431229259600; -5742722925916745000; 0; 6204657845062042000; -5441844920067935000; -3379706782758925400; 8480502800787701000; 6924301541391162000];
  [9159989940671116000; 5017133117025978500; -7198884165939960000; 0; 6204657845062042000; -5533826277992775000; -396285530802089900; 5742722925916745000; -5742722925916745000; 396285530802089900; 5533826277992775000; -6204657845062042000; 0; 7198884165939960000; -5017133117025978500; -9159989940671116000];
  [-10443995424508518000; 0; 7198884165939960000; -5441844920067935000; -1348036666297144200; 6340568492833439000; -5533826277992775000; 0; 5533826277992775000; -6340568492833439000; 1348036666297144200; 5441844920067935000; -7198884165939960000; 0; 10443995424508518000];
  [10443995424508518000; -5017133117025978500; -3379706782758925400; 7349565596342092000; -4812038588311092000; -1348036666297144200; 6204657845062042000; -6204657845062042000; 1348036666297144200; 4812038588311092000; -7349565596342092000; 3379706782758925400; 5017133117025978500; -10443995424508518000];
  [-9159989940671116000; 8480502800787701000; -2480623136379577000; -4189304182764951000; 7349565596342092000; -5441844920067935000; 0; 5441844920067935000; -7349565596342092000; 4189304182764951000; 2480623136379577000; -8480502800787701000; 9159989940671116000];
  [6924301541391162000; -9394899606030287000; 7586037303925722000; -2480623136379577000; -3379706782758925400; 7198884165939960000; -7198884165939960000; 3379706782758925400; 2480623136379577000; -7586037303925722000; 9394899606030287000; -6924301541391162000];
  [-4304018157526291000; 7699261741297747000; -9394899606030287000; 8480502800787701000; -5017133117025978500; 0; 5017133117025978500; -8480502800787701000; 9394899606030287000; -7699261741297747000; 4304018157526291000];
  [1924815435324436800; -4304018157526291000; 6924301541391162000; -9159989940671116000; 10443995424508518000; -10443995424508518000; 9159989940671116000; -6924301541391162000; 4304018157526291000; -1924815435324436800]].
(* Wigner3j.cc:935-1018 *)
Definition w3j_10 : list (list Z) := [
  [1408420105401946900; -3303037929414734000; 5568441227650830000; -7727756515750789000; 9277095161439448000; -9839845347550115000; 9277095161439448000; -7727756515750789000; 5568441227650830000; -3303037929414734000; 1408420105401946900];
  [-3303037929414734000; 6337890474308760000; -8386964498510284000; 8472113529239220000; -6286446595773457000; 2319273790359862000; 2319273790359862000; -6286446595773457000; 8472113529239220000; -8386964498510284000; 6337890474308760000; -3303037929414734000];
  [5568441227650830000; -8386964498510284000; 7931629014632016000; -4284825115821172500; -933326375835373200; 5396790115001981500; -7138574104403102000; 5396790115001981500; -933326375835373200; -4284825115821172500; 7931629014632016000; -8386964498510284000; 5568441227650830000];
  [-7727756515750789000; 8472113529239220000; -4284825115821172500; -1816120662228826200; 6128213087410669000; -6353534304526190000; 2649508509090357000; 2649508509090357000; -6353534304526190000; 6128213087410669000; -1816120662228826200; -4284825115821172500; 8472113529239220000; -7727756515750789000];
  [9277095161439448000; -6286446595773457000; -933326375835373200; 6128213087410669000; -5978154688873279400; 1360074441523714000; 4032776579596398000; -6361417448848480000; 4032776579596398000; 1360074441523714000; -5978154688873279400; 6128213087410669000; -933326375835373200; -6286446595773457000; 9277095161439448000];
  [-9839845347550115000; 2319273790359862000; 5396790115001981500; -6353534304526190000; 1360074441523714000; 4383326040109310000; -6128239750305534000; 2789666093836111500; 2789666093836111500; -6128239750305534000; 4383326040109310000; 1360074441523714000; -6353534304526190000; 5396790115001981500; 2319273790359862000; -9839845347550115000];
  [9277095161439448000; 2319273790359862000; -7138574104403102000; 2649508509090357000; 4032776579596398000; -6128239750305534000; 2391697918925597000; 3338882214910382500; -5997601888052250000; 3338882214910382500; 2391697918925597000; -6128239750305534000; 4032776579596398000; 2649508509090357000; -7138574104403102000; 2319273790359862000; 9277095161439448000];
  [-7727756515750789000; -6286446595773457000; 5396790115001981500; 2649508509090357000; -6361417448848480000; 2789666093836111500; 3338882214910382500; -5929099809041168000; 2856595837293529600; 2856595837293529600; -5929099809041168000; 3338882214910382500; 2789666093836111500; -6361417448848480000; 2649508509090357000; 5396790115001981500; -6286446595773457000; -7727756515750789000];
  [5568441227650830000; 8472113529239220000; -933326375835373200; -6353534304526190000; 4032776579596398000; 2789666093836111500; -5997601888052250000; 2856595837293529600; 2991257561318066600; -5822024152320929000; 2991257561318066600; 2856595837293529600; -5997601888052250000; 2789666093836111500; 4032776579596398000; -6353534304526190000; -933326375835373200; 8472113529239220000; 5568441227650830000];
  [-3303037929414734000; -8386964498510284000; -4284825115821172500; 6128213087410669000; 1360074441523714000; -6128239750305534000; 3338882214910382500; 2856595837293529600; -5822024152320929000; 2884426934128136000; 2884426934128136000; -5822024152320929000; 2856595837293529600; 3338882214910382500; -6128239750305534000; 1360074441523714000; 6128213087410669000; -4284825115821172500; -8386964498510284000; -3303037929414734000];
  [1408420105401946900; 6337890474308760000; 7931629014632016000; -1816120662228826200; -5978154688873279400; 4383326040109310000; 2391697918925597000; -5929099809041168000; 2991257561318066600; 2884426934128136000; -5768853868256272000; 2884426934128136000; 2991257561318066600; -5929099809041168000; 2391697918925597000; 4383326040109310000; -5978154688873279400; -1816120662228826200; 7931629014632016000; 6337890474308760000; 1408420105401946900];
  [-3303037929414734000; -8386964498510284000; -4284825115821172500; 6128213087410669000; 1360074441523714000; -6128239750305534000; 3338882214910382500; 2856595837293529600; -5822024152320929000; 2884426934128136000; 2884426934128136000; -5822024152320929000; 2856595837293529600; 3338882214910382500; -6128239750305534000; 1360074441523714000; 6128213087410669000; -4284825115821172500; -8386964498510284000; -3303037929414734000];
  [5568441227650830000; 8472113529239220000; -933326375835373200; -6353534304526190000; 4032776579596398000; 2789666093836111500; -5997601888052250000; 2856595837293529600; 2991257561318066600; -5822024152320929000; 2991257561318066600; 2856595837293529600; -5997601888052250000; 2789666093836111500; 4032776579596398000; -6353534304526190000; -933326375835373200; 8472113529239220000; 5568441227650830000];
  [-7727756515750789000; -6286446595773457000; 5396790115001981500; 2649508509090357000; -6361417448848480000; 2789666093836111500; 3338882214910382500; -5929099809041168000; 2856595837293529600; 2856595837293529600; -5929099809041168000; 3338882214910382500; 2789666093836111500; -6361417448848480000; 2649508509090357000; 5396790115001981500; -6286446595773457000; -7727756515750789000];
  [9277095161439448000; 2319273790359862000; -7138574104403102000; 2649508509090357000; 4032776579596398000; -6128239750305534000; 2391697918925597000; 3338882214910382500; -5997601888052250000; 3338882214910382500; 2391697918925597000; -6128239750305534000; 4032776579596398000; 2649508509090357000; -7138574104403102000; 2319273790359862000; 9277095161439448000];
  [-9839845347550115000; 2319273790359862000; 5396790115001981500; -6353534304526190000; 1360074441523714000; 4383326040109310000; -6128239750305534000; 2789666093836111500; 2789666093836111500; -6128239750305534000; 4383326040109310000; 1360074441523714000; -6353534304526190000; 5396790115001981500; 2319273790359862000; -9839845347550115000];
  [9277095161439448000; -6286446595773457000; -933326375835373200; 6128213087410669000; -5978154688873279400; 1360074441523714000; 4032776579596398000; -6361417448848480000; 4032776579596398000; 1360074441523714000; -5978154688873279400; 6128213087410669000; -933326375835373200; -6286446595773457000; 9277095161439448000];
  [-7727756515750789000; 8472113529239220000; -4284825115821172500; -1816120662228826200; 6128213087410669000; -6353534304526190000; 2649508509090357000; 2649508509090357000; -6353534304526190000; 6128213087410669000; -1816120662228826200; -4284825115821172500; 8472113529239220000; -7727756515750789000];
  [5568441227650830000; -8386964498510284000; 7931629014632016000; -4284825115821172500; -933326375835373200; 5396790115001981500; -7138574104403102000; 5396790115001981500; -933326375835373200; -4284825115821172500; 7931629014632016000; -8386964498510284000; 5568441227650830000];
  [-3303037929414734000; 6337890474308760000; -8386964498510284000; 8472113529239220000; -6286446595773457000; 2319273790359862000; 2319273790359862000; -6286446595773457000; 8472113529239220000; -8386964498510284000; 6337890474308760000; -3303037929414734000];
  [1408420105401946900; -3303037929414734000; 5568441227650830000; -7727756515750789000; 9277095161439448000; -9839845347550115000; 9277095161439448000; -7727756515750789000; 5568441227650830000; -3303037929414734000; 1408420105401946900]].
(* Wigner3j.cc:1021-1418 *)
Definition w3j_11 : list (list Z) := [
  [1035395877357962700; -2536191581308319000; 4461995085008539000; -6466045181650430000; 8124984886574907000; -9063800094387633000; 9063800094387633000; -8124984886574907000; 6466045181650430000; -4461995085008539000; 2536191581308319000; -1035395877357962700];
  [-2536191581308319000; 5176979386789814000; -7342242818523824000; 8105616599464421000; -6957821371079587000; 4017100041566130000; 0; -4017100041566130000; 6957821371079587000; -8105616599464421000; 7342242818523824000; -5176979386789814000; 2536191581308319000];
  [4461995085008539000; -7342242818523824000; 7839425928567433000; -5484786670862292600; 1147742869018894400; 3395069191799715600; -6260198269876582000; 6260198269876582000; -3395069191799715600; -1147742869018894400; 5484786670862292600; -7839425928567433000; 7342242818523824000; -4461995085008539000];
  [-6466045181650430000; 8105616599464421000; -5484786670862292600; 295827393530846480; 4483491976341964000; -6325614866282217000; 4426628648202024000; 0; -4426628648202024000; 6325614866282217000; -4483491976341964000; -295827393530846480; 5484786670862292600; -8105616599464421000; 6466045181650430000];
  [8124984886574907000; -6957821371079587000; 1147742869018894400; 4483491976341964000; -6204590332739070000; 3394087248412062000; 1628484099302289500; -5373723365131875000; 5373723365131875000; -1628484099302289500; -3394087248412062000; 6204590332739070000; -4483491976341964000; -1147742869018894400; 6957821371079587000; -8124984886574907000];
  [-9063800094387633000; 4017100041566130000; 3395069191799715600; -6325614866282217000; 3394087248412062000; 2094146548942044800; -5570476104834648000; 4541625165775246000; 0; -4541625165775246000; 5570476104834648000; -2094146548942044800; -3394087248412062000; 6325614866282217000; -3395069191799715600; -4017100041566130000; 9063800094387633000];
  [9063800094387633000; 0; -6260198269876582000; 4426628648202024000; 1628484099302289500; -5570476104834648000; 4242787617745035000; 709924281828850900; -4926084132261772000; 4926084132261772000; -709924281828850900; -4242787617745035000; 5570476104834648000; -1628484099302289500; -4426628648202024000; 6260198269876582000; 0; -9063800094387633000];
  [-8124984886574907000; -4017100041566130000; 6260198269876582000; 0; -5373723365131875000; 4541625165775246000; 709924281828850900; -5013495827206978000; 4572346768555488000; 0; -4572346768555488000; 5013495827206978000; -709924281828850900; -4541625165775246000; 5373723365131875000; 0; -6260198269876582000; 4017100041566130000; 8124984886574907000];
  [6466045181650430000; 6957821371079587000; -3395069191799715600; -4426628648202024000; 5373723365131875000; 0; -4926084132261772000; 4572346768555488000; 217978079443781640; -4685261222228255000; 4685261222228255000; -217978079443781640; -4572346768555488000; 4926084132261772000; 0; -5373723365131875000; 4426628648202024000; 3395069191799715600; -6957821371079587000; -6466045181650430000];
  [-4461995085008539000; -8105616599464421000; -1147742869018894400; 6325614866282217000; -1628484099302289500; -4541625165775246000; 4926084132261772000; 0; -4685261222228255000; 4577539668319414000; 0; -4577539668319414000; 4685261222228255000; 0; -4926084132261772000; 4541625165775246000; 1628484099302289500; -6325614866282217000; 1147742869018894400; 8105616599464421000; 4461995085008539000];
  [2536191581308319000; 7342242818523824000; 5484786670862292600; -4483491976341964000; -3394087248412062000; 5570476104834648000; -709924281828850900; -4572346768555488000; 4685261222228255000; 0; -4577539668319414000; 4577539668319414000; 0; -4685261222228255000; 4572346768555488000; 709924281828850900; -5570476104834648000; 3394087248412062000; 4483491976341964000; -5484786670862292600; -7342242818523824000; -2536191581308319000];
  [-1035395877357962700; -5176979386789814000; -7839425928567433000; -295827393530846480; 6204590332739070000; -2094146548942044800; -4242787617745035000; 5013495827206978000; -217978079443781640; -4577539668319414000; 4577539668319414000; 0; -4577539668319414000; 4577539668319414000; 217978079443781640; -5013495827206978000; 4242787617745035000; 2094146548942044800; -6204590332739070000; 295827393530846480; 7839425928567433000; 5176979386789814000; 1035395877357962700];
  [2536191581308319000; 7342242818523824000; 5484786670862292600; -4483491976341964000; -3394087248412062000; 5570476104834648000; -709924281828850900; -4572346768555488000; 4685261222228255000; 0; -4577539668319414000; 4577539668319414000; 0; -4685261222228255000; 4572346768555488000; 709924281828850900; -5570476104834648000; 3394087248412062000; 4483491976341964000; -5484786670862292600; -7342242818523824000; -2536191581308319000];
  [-4461995085008539000; -8105616599464421000; -1147742869018894400; 6325614866282217000; -1628484099302289500; -4541625165775246000; 4926084132261772000; 0; -4685261222228255000; 4577539668319414000; 0; -4577539668319414000; 4685261222228255000; 0; -4926084132261772000; 4541625165775246000; 1628484099302289500; -6325614866282217000; 1147742869018894400; 8105616599464421000; 4461995085008539000];
  [6466045181650430000; 6957821371079587000; -3395069191799715600; -4426628648202024000; 5373723365131875000; 0; -4926084132261772000; 4572346768555488000; 217978079443781640; -4685261222228255000; 4685261222228255000; -217978079443781640; -4572346768555488000; 4926084132261772000; 0; -5373723365131875000; 4426628648202024000; 3395069191799715600; -6957821371079587000; -6466045181650430000];
  [-8124984886574907000; -4017100041566130000; 6260198269876582000; 0; -5373723365131875000; 4541625165775246000; 709924281828850900; -5013495827206978000; 4572346768555488000; 0; -4572346768555488000; 5013495827206978000; -709924281828850900; -4541625165775246000; 5373723365131875000; 0; -6260198269876582000; 4017100041566130000; 8124984886574907000];
  [9063800094387633000; 0; -6260198269876582000; 4426628648202024000; 1628484099302289500; -5570476104834648000; 4242787617745035000; 709924281828850900; -4926084132261772000; 4926084132261772000; -709924281828850900; -4242787617745035000; 5570476104834648000; -1628484099302289500; -4426628648202024000; 6260198269876582000; 0; -9063800094387633000];
  [-9063800094387633000; 4017100041566130000; 3395069191799715600; -6325614866282217000; 3394087248412062000; 2094146548942044800; -5570476104834648000; 4541625165775246000; 0; -4541625165775246000; 5570476104834648000; -2094146548942044800; -3394087248412062000; 6325614866282217000; -3395069191799715600; -4017100041566130000; 9063800094387633000];
  [8124984886574907000; -6957821371079587000; 1147742869018894400; 4483491976341964000; -6204590332739070000; 3394087248412062000; 1628484099302289500; -5373723365131875000; 5373723365131875000; -1628484099302289500; -3394087248412062000; 6204590332739070000; -4483491976341964000; -1147742869018894400; 6957821371079587000; -8124984886574907000];
  [-6466045181650430000; 8105616599464421000; -5484786670862292600; 295827393530846480; 4483491976341964000; -6325614866282217000; 4426628648202024000; 0; -4426628648202024000; 6325614866282217000; -4483491976341964000; -295827393530846480; 5484786670862292600; -8105616599464421000; 6466045181650430000];
  [4461995085008539000; -7342242818523824000; 7839425928567433000; -5484786670862292600; 1147742869018894400; 3395069191799715600; -6260198269876582000; 6260198269876582000; -3395069191799715600; -1147742869018894400; 5484786670862292600; -7839425928567433000; 7342242818523824000; -4461995085008539000];
  [-2536191581308319000; 5176979386789814000; -7342242818523824000; 8105616599464421000; -6957821371079587000; 4017100041566130000; 0; -4017100041566130000; 6957821371079587000; -8105616599464421000; 7342242818523824000; -5176979386789814000; 2536191581308319000];
  [1035395877357962700; -2536191581308319000; 4461995085008539000; -6466045181650430000; 8124984886574907000; -9063800094387633000; 9063800094387633000; -8124984886574907000; 6466045181650430000; -4461995085008539000; 2536191581308319000; -1035395877357962700]].
(* Wigner3j.cc:1421-1539 *)
Definition w3j_12 : list (list Z) := [
  [764132640913018500; -1948163623494334600; 3564567757202440000; -5373788086563255000; 7035940192950862000; -8205245760021009000; 8626297667839215000; -8205245760021009000; 7035940192950862000; -5373788086563255000; 3564567757202440000; -1948163623494334600; 764132640913018500];
  [-1948163623494334600; 4202729525021601400; -6332346173655777000; 7523303321188557000; -7181026388945431000; 5170339000040710000; -1882412477623535000; -1882412477623535000; 5170339000040710000; -7181026388945431000; 7523303321188557000; -6332346173655777000; 4202729525021601400; -1948163623494334600];
  [3564567757202440000; -6332346173655777000; 7458599038477072000; -6180400475030353000; 2800960520681357000; 1439947026061030000; -4902681079973495000; 6230905222287632000; -4902681079973495000; 1439947026061030000; 2800960520681357000; -6180400475030353000; 7458599038477072000; -6332346173655777000; 3564567757202440000];
  [-5373788086563255000; 7523303321188557000; -6180400475030353000; 2043224235484810200; 2693894213312211000; -5618545886391229600; 5349278735419260000; -2170319453598171000; -2170319453598171000; 5349278735419260000; -5618545886391229600; 2693894213312211000; 2043224235484810200; -6180400475030353000; 7523303321188557000; -5373788086563255000];
  [7035940192950862000; -7181026388945431000; 2800960520681357000; 2693894213312211000; -5714383227697355400; 4668267534468928400; -602866514888380800; -3709886503034876000; 5523107166263544600; -3709886503034876000; -602866514888380800; 4668267534468928400; -5714383227697355400; 2693894213312211000; 2800960520681357000; -7181026388945431000; 7035940192950862000];
  [-8205245760021009000; 5170339000040710000; 1439947026061030000; -5618545886391229600; 4668267534468928400; -116281054051981080; -4236208106508133000; 5220380452638073000; -2301294652609810200; -2301294652609810200; 5220380452638073000; -4236208106508133000; -116281054051981080; 4668267534468928400; -5618545886391229600; 1439947026061030000; 5170339000040710000; -8205245760021009000];
  [8626297667839215000; -1882412477623535000; -4902681079973495000; 5349278735419260000; -602866514888380800; -4236208106508133000; 5071777402673250000; -1613915273215004200; -3062128569169099000; 5172863807767612000; -3062128569169099000; -1613915273215004200; 5071777402673250000; -4236208106508133000; -602866514888380800; 5349278735419260000; -4902681079973495000; -1882412477623535000; 8626297667839215000];
  [-8205245760021009000; -1882412477623535000; 6230905222287632000; -2170319453598171000; -3709886503034876000; 5220380452638073000; -1613915273215004200; -3275978267163707400; 5062047373912593000; -2370503995879257700; -2370503995879257700; 5062047373912593000; -3275978267163707400; -1613915273215004200; 5220380452638073000; -3709886503034876000; -2170319453598171000; 6230905222287632000; -1882412477623535000; -8205245760021009000];
  [7035940192950862000; 5170339000040710000; -4902681079973495000; -2170319453598171000; 5523107166263544600; -2301294652609810200; -3062128569169099000; 5062047373912593000; -2145516591304974000; -2686301318080366000; 4979054301807810000; -2686301318080366000; -2145516591304974000; 5062047373912593000; -3062128569169099000; -2301294652609810200; 5523107166263544600; -2170319453598171000; -4902681079973495000; 5170339000040710000; 7035940192950862000];
  [-5373788086563255000; -7181026388945431000; 1439947026061030000; 5349278735419260000; -3709886503034876000; -2301294652609810200; 5172863807767612000; -2370503995879257700; -2686301318080366000; 4941507650389451000; -2407341777315654000; -2407341777315654000; 4941507650389451000; -2686301318080366000; -2370503995879257700; 5172863807767612000; -2301294652609810200; -3709886503034876000; 5349278735419260000; 1439947026061030000; -7181026388945431000; -5373788086563255000];
  [3564567757202440000; 7523303321188557000; 2800960520681357000; -5618545886391229600; -602866514888380800; 5220380452638073000; -3062128569169099000; -2370503995879257700; 4979054301807810000; -2407341777315654000; -2486491110705520000; 4878456976415475000; -2486491110705520000; -2407341777315654000; 4979054301807810000; -2370503995879257700; -3062128569169099000; 5220380452638073000; -602866514888380800; -5618545886391229600; 2800960520681357000; 7523303321188557000; 3564567757202440000];
  [-1948163623494334600; -6332346173655777000; -6180400475030353000; 2693894213312211000; 4668267534468928400; -4236208106508133000; -1613915273215004200; 5062047373912593000; -2686301318080366000; -2407341777315654000; 4878456976415475000; -2423541968662342200; -2423541968662342200; 4878456976415475000; -2407341777315654000; -2686301318080366000; 5062047373912593000; -1613915273215004200; -4236208106508133000; 4668267534468928400; 2693894213312211000; -6180400475030353000; -6332346173655777000; -1948163623494334600];
  [764132640913018500; 4202729525021601400; 7458599038477072000; 2043224235484810200; -5714383227697355400; -116281054051981080; 5071777402673250000; -3275978267163707400; -2145516591304974000; 4941507650389451000; -2486491110705520000; -2423541968662342200; 4847083937324684500; -2423541968662342200; -2486491110705520000; 4941507650389451000; -2145516591304974000; -3275978267163707400; 5071777402673250000; -116281054051981080; -5714383227697355400; 2043224235484810200; 7458599038477072000; 4202729525021601400; 764132640913018500];
  [-1948163623494334600; -6332346173655777000; -6180400475030353000; 2693894213312211000; 4668267534468928400; -4236208106508133000; -1613915273215004200; 5062047373912593000; -2686301318080366000; -2407341777315654000; 4878456976415475000; -2423541968662342200; -2423541968662342200; 4878456976415475000; -2407341777315654000; -2686301318080366000; 5062047373912593000; -1613915273215004200; -4236208106508133000; 4668267534468928400; 2693894213312211000; -6180400475030353000; -6332346173655777000; -1948163623494334600];
  [3564567757202440000; 7523303321188557000; 2800960520681357000; -5618545886391229600; -602866514888380800; 5220380452638073000; -3062128569169099000; -2370503995879257700; 4979054301807810000; -2407341777315654000; -2486491110705520000; 4878456976415475000; -2486491110705520000; -2407341777315654000; 4979054301807810000; -2370503995879257700; -3062128569169099000; 5220380452638073000; -602866514888380800; -5618545886391229600; 2800960520681357000; 7523303321188557000; 3564567757202440000];
  [-5373788086563255000; -7181026388945431000; 1439947026061030000; 5349278735419260000; -3709886503034876000; -2301294652609810200; 5172863807767612000; -2370503995879257700; -2686301318080366000; 4941507650389451000; -2407341777315654000; -2407341777315654000; 4941507650389451000; -2686301318080366000; -2370503995879257700; 5172863807767612000; -2301294652609810200; -3709886503034876000; 5349278735419260000; 1439947026061030000; -7181026388945431000; -5373788086563255000];
  [7035940192950862000; 5170339000040710000; -4902681079973495000; -2170319453598171000; 5523107166263544600; -2301294652609810200; -3062128569169099000; 5062047373912593000; -2145516591304974000; -2686301318080366000; 4979054301807810000; -2686301318080366000; -2145516591304974000; 5062047373912593000; -3062128569169099000; -2301294652609810200; 5523107166263544600; -2170319453598171000; -4902681079973495000; 5170339000040710000; 7035940192950862000];
  [-8205245760021009000; -1882412477623535000; 6230905222287632000; -2170319453598171000; -3709886503034876000; 5220380452638073000; -1613915273215004200; -3275978267163707400; 5062047373912593000; -2370503995879257700; -2370503995879257700; 5062047373912593000; -3275978267163707400; -1613915273215004200; 5220380452638073000; -3709886503034876000; -2170319453598171000; 6230905222287632000; -1882412477623535000; -8205245760021009000];
  [8626297667839215000; -1882412477623535000; -4902681079973495000; 5349278735419260000; -602866514888380800; -4236208106508133000; 5071777402673250000; -1613915273215004200; -3062128569169099000; 5172863807767612000; -3062128569169099000; -1613915273215004200; 5071777402673250000; -4236208106508133000; -602866514888380800; 5349278735419260000; -4902681079973495000; -1882412477623535000; 8626297667839215000];
  [-8205245760021009000; 5170339000040710000; 1439947026061030000; -5618545886391229600; 4668267534468928400; -116281054051981080; -4236208106508133000; 5220380452638073000; -2301294652609810200; -2301294652609810200; 5220380452638073000; -4236208106508133000; -116281054051981080; 4668267534468928400; -5618545886391229600; 1439947026061030000; 5170339000040710000; -8205245760021009000];
  [7035940192950862000; -7181026388945431000; 2800960520681357000; 2693894213312211000; -5714383227697355400; 4668267534468928400; -602866514888380800; -3709886503034876000; 5523107166263544600; -3709886503034876000; -602866514888380800; 4668267534468928400; -5714383227697355400; 2693894213312211000; 2800960520681357000; -7181026388945431000; 7035940192950862000];
  [-5373788086563255000; 7523303321188557000; -6180400475030353000; 2043224235484810200; 2693894213312211000; -5618545886391229600; 5349278735419260000; -2170319453598171000; -2170319453598171000; 5349278735419260000; -5618545886391229600; 2693894213312211000; 2043224235484810200; -6180400475030353000; 7523303321188557000; -5373788086563255000];
  [3564567757202440000; -6332346173655777000; 7458599038477072000; -6180400475030353000; 2800960520681357000; 1439947026061030000; -4902681079973495000; 6230905222287632000; -4902681079973495000; 1439947026061030000; 2800960520681357000; -6180400475030353000; 7458599038477072000; -6332346173655777000; 3564567757202440000];
  [-1948163623494334600; 4202729525021601400; -6332346173655777000; 7523303321188557000; -7181026388945431000; 5170339000040710000; -1882412477623535000; -1882412477623535000; 5170339000040710000; -7181026388945431000; 7523303321188557000; -6332346173655777000; 4202729525021601400; -1948163623494334600];
  [764132640913018500; -1948163623494334600; 3564567757202440000; -5373788086563255000; 7035940192950862000; -8205245760021009000; 8626297667839215000; -8205245760021009000; 7035940192950862000; -5373788086563255000; 3564567757202440000; -1948163623494334600; 764132640913018500]].
(* Wigner3j.cc:1542-2089 *)
Definition w3j_13 : list (list Z) := [
  [565791390379897460; -1496943312886671300; 2840250238127979200; -4440651492919240500; 6036389258584501400; -7325519054242073000; 8045905431571458000; -8045905431571458000; 7325519054242073000; -6036389258584501400; 4440651492919240500; -2840250238127979200; 1496943312886671300; -565791390379897460];
  [-1496943312886671300; 3394748342279385000; -5397305871075827600; 6827111912479490000; -7082078000048107000; 5869452126546280400; -3327666569794429700; 0; 3327666569794429700; -5869452126546280400; 7082078000048107000; -6827111912479490000; 5397305871075827600; -3394748342279385000; 1496943312886671300];
  [2840250238127979200; -5397305871075827600; 6902654962634750000; -6476767045290993000; 4026410941057507000; -318315734239092400; -3327666569794429700; 5568251201161527000; -5568251201161527000; 3327666569794429700; 318315734239092400; -4026410941057507000; 6476767045290993000; -6902654962634750000; 5397305871075827600; -2840250238127979200];
  [-4440651492919240500; 6827111912479490000; -6476767045290993000; 3394748342279385000; 954947202717277300; -4479099409424417000; 5534353782142295000; -3712167467441018000; 0; 3712167467441018000; -5534353782142295000; 4479099409424417000; -954947202717277300; -3394748342279385000; 6476767045290993000; -6827111912479490000; 4440651492919240500];
  [6036389258584501400; -7082078000048107000; 4026410941057507000; 954947202717277300; -4737887903789924500; 5220977169843273000; -2412901029070312000; -1780985716298997400; 4771505630759237400; -4771505630759237400; 1780985716298997400; 2412901029070312000; -5220977169843273000; 4737887903789924500; -954947202717277300; -4026410941057507000; 7082078000048107000; -6036389258584501400];
  [-7325519054242073000; 5869452126546280400; -318315734239092400; -4479099409424417000; 5220977169843273000; -1977809903762772000; -2501204970100351700; 4974908020295980000; -3838197538275717000; 0; 3838197538275717000; -4974908020295980000; 2501204970100351700; 1977809903762772000; -5220977169843273000; 4479099409424417000; 318315734239092400; -5869452126546280400; 7325519054242073000];
  [8045905431571458000; -3327666569794429700; -3327666569794429700; 5534353782142295000; -2412901029070312000; -2501204970100351700; 4983884160476836000; -3309650861181398500; -927872315042477000; 4352106929579084600; -4352106929579084600; 927872315042477000; 3309650861181398500; -4983884160476836000; 2501204970100351700; 2412901029070312000; -5534353782142295000; 3327666569794429700; 3327666569794429700; -8045905431571458000];
  [-8045905431571458000; 0; 5568251201161527000; -3712167467441018000; -1780985716298997400; 4974908020295980000; -3309650861181398500; -1210301582899606800; 4500685555710979000; -3881568378618365000; 0; 3881568378618365000; -4500685555710979000; 1210301582899606800; 3309650861181398500; -4974908020295980000; 1780985716298997400; 3712167467441018000; -5568251201161527000; 0; 8045905431571458000];
  [7325519054242073000; 3327666569794429700; -5568251201161527000; 0; 4771505630759237400; -3838197538275717000; -927872315042477000; 4500685555710979000; -3714543475972370600; -422397850779847400; 4104969247305556000; -4104969247305556000; 422397850779847400; 3714543475972370600; -4500685555710979000; 927872315042477000; 3838197538275717000; -4771505630759237400; 0; 5568251201161527000; -3327666569794429700; -7325519054242073000];
  [-6036389258584501400; -5869452126546280400; 3327666569794429700; 3712167467441018000; -4771505630759237400; 0; 4352106929579084600; -3881568378618365000; -422397850779847400; 4162256663142550000; -3894315763929770000; 0; 3894315763929770000; -4162256663142550000; 422397850779847400; 3881568378618365000; -4352106929579084600; 0; 4771505630759237400; -3712167467441018000; -3327666569794429700; 5869452126546280400; 6036389258584501400];
  [4440651492919240500; 7082078000048107000; 318315734239092400; -5534353782142295000; 1780985716298997400; 3838197538275717000; -4352106929579084600; 0; 4104969247305556000; -3894315763929770000; -132837978610932450; 3962443072426683000; -3962443072426683000; 132837978610932450; 3894315763929770000; -4104969247305556000; 0; 4352106929579084600; -3838197538275717000; -1780985716298997400; 5534353782142295000; -318315734239092400; -7082078000048107000; -4440651492919240500];
  [-2840250238127979200; -6827111912479490000; -4026410941057507000; 4479099409424417000; 2412901029070312000; -4974908020295980000; 927872315042477000; 3881568378618365000; -4104969247305556000; 0; 3962443072426683000; -3896580705920685000; 0; 3896580705920685000; -3962443072426683000; 0; 4104969247305556000; -3881568378618365000; -927872315042477000; 4974908020295980000; -2412901029070312000; -4479099409424417000; 4026410941057507000; 6827111912479490000; 2840250238127979200];
  [1496943312886671300; 5397305871075827600; 6476767045290993000; -954947202717277300; -5220977169843273000; 2501204970100351700; 3309650861181398500; -4500685555710979000; 422397850779847400; 3894315763929770000; -3962443072426683000; 0; 3896580705920685000; -3896580705920685000; 0; 3962443072426683000; -3894315763929770000; -422397850779847400; 4500685555710979000; -3309650861181398500; -2501204970100351700; 5220977169843273000; 954947202717277300; -6476767045290993000; -5397305871075827600; -1496943312886671300];
  [-565791390379897460; -3394748342279385000; -6902654962634750000; -3394748342279385000; 4737887903789924500; 1977809903762772000; -4983884160476836000; 1210301582899606800; 3714543475972370600; -4162256663142550000; 132837978610932450; 3896580705920685000; -3896580705920685000; 0; 3896580705920685000; -3896580705920685000; -132837978610932450; 4162256663142550000; -3714543475972370600; -1210301582899606800; 4983884160476836000; -1977809903762772000; -4737887903789924500; 3394748342279385000; 6902654962634750000; 3394748342279385000; 565791390379897460];
  [1496943312886671300; 5397305871075827600; 6476767045290993000; -954947202717277300; -5220977169843273000; 2501204970100351700; 3309650861181398500; -4500685555710979000; 422397850779847400; 3894315763929770000; -3962443072426683000; 0; 3896580705920685000; -3896580705920685000; 0; 3962443072426683000; -3894315763929770000; -422397850779847400; 4500685555710979000; -3309650861181398500; -2501204970100351700; 5220977169843273000; 954947202717277300; -6476767045290993000; -5397305871075827600; -1496943312886671300];
  [-2840250238127979200; -6827111912479490000; -4026410941057507000; 4479099409424417000; 2412901029070312000; -4974908020295980000; 927872315042477000; 3881568378618365000; -4104969247305556000; 0; 3962443072426683000; -3896580705920685000; 0; 3896580705920685000; -3962443072426683000; 0; 4104969247305556000; -3881568378618365000; -927872315042477000; 4974908020295980000; -2412901029070312000; -4479099409424417000; 4026410941057507000; 6827111912479490000; 2840250238127979200];
  [4440651492919240500; 7082078000048107000; 318315734239092400; -5534353782142295000; 1780985716298997400; 3838197538275717000; -4352106929579084600; 0; 4104969247305556000; -3894315763929770000; -132837978610932450; 3962443072426683000; -3962443072426683000; 132837978610932450; 3894315763929770000; -4104969247305556000; 0; 4352106929579084600; -3838197538275717000; -1780985716298997400; 5534353782142295000; -318315734239092400; -7082078000048107000; -4440651492919240500];
  [-6036389258584501400; -5869452126546280400; 3327666569794429700; 3712167467441018000; -4771505630759237400; 0; 4352106929579084600; -3881568378618365000; -422397850779847400; 4162256663142550000; -3894315763929770000; 0; 3894315763929770000; -4162256663142550000; 422397850779847400; 3881568378618365000; -4352106929579084600; 0; 4771505630759237400; -3712167467441018000; -3327666569794429700; 5869452126546280400; 6036389258584501400];
  [7325519054242073000; 3327666569794429700; -5568251201161527000; 0; 4771505630759237400; -3838197538275717000; -927872315042477000; 4500685555710979000; -3714543475972370600; -422397850779847400; 4104969247305556000; -4104969247305556000; 422397850779847400; 3714543475972370600; -4500685555710979000; 927872315042477000; 3838197538275717000; -4771505630759237400; 0; 5568251201161527000; -3327666569794429700; -7325519054242073000];
  [-8045905431571458000; 0; 5568251201161527000; -3712167467441018000; -1780985716298997400; 4974908020295980000; -3309650861181398500; -1210301582899606800; 4500685555710979000; -3881568378618365000; 0; 3881568378618365000; -4500685555710979000; 1210301582899606800; 3309650861181398500; -4974908020295980000; 1780985716298997400; 3712167467441018000; -5568251201161527000; 0; 8045905431571458000];
  [8045905431571458000; -3327666569794429700; -3327666569794429700; 5534353782142295000; -2412901029070312000; -2501204970100351700; 4983884160476836000; -3309650861181398500; -927872315042477000; 4352106929579084600; -4352106929579084600; 927872315042477000; 3309650861181398500; -4983884160476836000; 2501204970100351700; 2412901029070312000; -5534353782142295000; 3327666569794429700; 3327666569794429700; -8045905431571458000];
  [-7325519054242073000; 5869452126546280400; -318315734239092400; -4479099409424417000; 5220977169843273000; -1977809903762772000; -2501204970100351700; 4974908020295980000; -3838197538275717000; 0; 3838197538275717000; -4974908020295980000; 2501204970100351700; 1977809903762772000; -5220977169843273000; 4479099409424417000; 318315734239092400; -5869452126546280400; 7325519054242073000];
  [6036389258584501400; -7082078000048107000; 4026410941057507000; 954947202717277300; -4737887903789924500; 5220977169843273000; -2412901029070312000; -1780985716298997400; 4771505630759237400; -4771505630759237400; 1780985716298997400; 2412901029070312000; -5220977169843273000; 4737887903789924500; -954947202717277300; -4026410941057507000; 7082078000048107000; -6036389258584501400];
  [-4440651492919240500; 6827111912479490000; -6476767045290993000; 3394748342279385000; 954947202717277300; -4479099409424417000; 5534353782142295000; -3712167467441018000; 0; 3712167467441018000; -5534353782142295000; 4479099409424417000; -954947202717277300; -3394748342279385000; 6476767045290993000; -6827111912479490000; 4440651492919240500];
  [2840250238127979200; -5397305871075827600; 6902654962634750000; -6476767045290993000; 4026410941057507000; -318315734239092400; -3327666569794429700; 5568251201161527000; -5568251201161527000; 3327666569794429700; 318315734239092400; -4026410941057507000; 6476767045290993000; -6902654962634750000; 5397305871075827600; -2840250238127979200];
  [-1496943312886671300; 3394748342279385000; -5397305871075827600; 6827111912479490000; -7082078000048107000; 5869452126546280400; -3327666569794429700; 0; 3327666569794429700; -5869452126546280400; 7082078000048107000; -6827111912479490000; 5397305871075827600; -3394748342279385000; 1496943312886671300];
  [565791390379897460; -1496943312886671300; 2840250238127979200; -4440651492919240500; 6036389258584501400; -7325519054242073000; 8045905431571458000; -8045905431571458000; 7325519054242073000; -6036389258584501400; 4440651492919240500; -2840250238127979200; 1496943312886671300; -565791390379897460]].
(* Wigner3j.cc:2092-2250 *)
Definition w3j_14 : list (list Z) := [
  [420110282026177100; -1150519390527971600; 2258024917603623400; -3651711948047222500; 5138414181436862000; -6465696054949265000; 7384345263283243000; -7712697085199444000; 7384345263283243000; -6465696054949265000; 5138414181436862000; -3651711948047222500; 2258024917603623400; -1150519390527971600; 420110282026177100];
  [-1150519390527971600; 2730716833170151000; -4556577567973464600; 6087976371789230000; -6763065171923319000; 6205224648430349000; -4368637572353741000; 1574347699949146000; 1574347699949146000; -4368637572353741000; 6205224648430349000; -6763065171923319000; 6087976371789230000; -4556577567973464600; 2730716833170151000; -1150519390527971600];
  [2258024917603623400; -4556577567973464600; 6254975310167525000; -6472020085013493000; 4860349405838362000; -1800318269128790500; -1725171708879962700; 4503152242785616000; -5553776654949301600; 4503152242785616000; -1725171708879962700; -1800318269128790500; 4860349405838362000; -6472020085013493000; 6254975310167525000; -4556577567973464600; 2258024917603623400];
  [-3651711948047222500; 6087976371789230000; -6472020085013493000; 4364479041049728500; -608797637178923000; -3117019631779660200; 5143285630404252000; -4604161364601333500; 1827971682698654700; 1827971682698654700; -4604161364601333500; 5143285630404252000; -3117019631779660200; -608797637178923000; 4364479041049728500; -6472020085013493000; 6087976371789230000; -3651711948047222500];
  [5138414181436862000; -6763065171923319000; 4860349405838362000; -608797637178923000; -3482247448794757000; 5162334041281263500; -3684412264500153000; 95979693445761070; 3447990108345921000; -4904962732150642000; 3447990108345921000; 95979693445761070; -3684412264500153000; 5162334041281263500; -3482247448794757000; -608797637178923000; 4860349405838362000; -6763065171923319000; 5138414181436862000];
  [-6465696054949265000; 6205224648430349000; -1800318269128790500; -3117019631779660200; 5162334041281263500; -3346878580141877000; -685232364250303800; 4048718548226120000; -4542588191860526000; 1949034554679506000; 1949034554679506000; -4542588191860526000; 4048718548226120000; -685232364250303800; -3346878580141877000; 5162334041281263500; -3117019631779660200; -1800318269128790500; 6205224648430349000; -6465696054949265000];
  [7384345263283243000; -4368637572353741000; -1725171708879962700; 5143285630404252000; -3684412264500153000; -685232364250303800; 4192172939870876500; -4246743412686900000; 1055877043639689000; 2853400720029854200; -4573901331970019000; 2853400720029854200; 1055877043639689000; -4246743412686900000; 4192172939870876500; -685232364250303800; -3684412264500153000; 5143285630404252000; -1725171708879962700; -4368637572353741000; 7384345263283243000];
  [-7712697085199444000; 1574347699949146000; 4503152242785616000; -4604161364601333500; 95979693445761070; 4048718548226120000; -4246743412686900000; 766954954481605500; 3208465556041536400; -4425643468117621000; 2016900907623292800; 2016900907623292800; -4425643468117621000; 3208465556041536400; 766954954481605500; -4246743412686900000; 4048718548226120000; 95979693445761070; -4604161364601333500; 4503152242785616000; 1574347699949146000; -7712697085199444000];
  [7384345263283243000; 1574347699949146000; -5553776654949301600; 1827971682698654700; 3447990108345921000; -4542588191860526000; 1055877043639689000; 3208465556041536400; -4354128497869374000; 1603324083721916300; 2483989088878600600; -4379177123430918000; 2483989088878600600; 1603324083721916300; -4354128497869374000; 3208465556041536400; 1055877043639689000; -4542588191860526000; 3447990108345921000; 1827971682698654700; -5553776654949301600; 1574347699949146000; 7384345263283243000];
  [-6465696054949265000; -4368637572353741000; 4503152242785616000; 1827971682698654700; -4904962732150642000; 1949034554679506000; 2853400720029854200; -4425643468117621000; 1603324083721916300; 2622340557517021200; -4317466942632204600; 2056760317242623300; 2056760317242623300; -4317466942632204600; 2622340557517021200; 1603324083721916300; -4425643468117621000; 2853400720029854200; 1949034554679506000; -4904962732150642000; 1827971682698654700; 4503152242785616000; -4368637572353741000; -6465696054949265000];
  [5138414181436862000; 6205224648430349000; -1725171708879962700; -4604161364601333500; 3447990108345921000; 1949034554679506000; -4573901331970019000; 2016900907623292800; 2483989088878600600; -4317466942632204600; 1916677054809283500; 2255442242640827800; -4262378018077729600; 2255442242640827800; 1916677054809283500; -4317466942632204600; 2483989088878600600; 2016900907623292800; -4573901331970019000; 1949034554679506000; 3447990108345921000; -4604161364601333500; -1725171708879962700; 6205224648430349000; 5138414181436862000];
  [-3651711948047222500; -6763065171923319000; -1800318269128790500; 5143285630404252000; 95979693445761070; -4542588191860526000; 2853400720029854200; 2016900907623292800; -4379177123430918000; 2056760317242623300; 2255442242640827800; -4239460715577204000; 2079327490746610300; 2079327490746610300; -4239460715577204000; 2255442242640827800; 2056760317242623300; -4379177123430918000; 2016900907623292800; 2853400720029854200; -4542588191860526000; 95979693445761070; 5143285630404252000; -1800318269128790500; -6763065171923319000; -3651711948047222500];
  [2258024917603623400; 6087976371789230000; 4860349405838362000; -3117019631779660200; -3684412264500153000; 4048718548226120000; 1055877043639689000; -4425643468117621000; 2483989088878600600; 2056760317242623300; -4262378018077729600; 2079327490746610300; 2129776473228358500; -4199228186005081000; 2129776473228358500; 2079327490746610300; -4262378018077729600; 2056760317242623300; 2483989088878600600; -4425643468117621000; 1055877043639689000; 4048718548226120000; -3684412264500153000; -3117019631779660200; 4860349405838362000; 6087976371789230000; 2258024917603623400];
  [-1150519390527971600; -4556577567973464600; -6472020085013493000; -608797637178923000; 5162334041281263500; -685232364250303800; -4246743412686900000; 3208465556041536400; 1603324083721916300; -4317466942632204600; 2255442242640827800; 2079327490746610300; -4199228186005081000; 2089592011469333000; 2089592011469333000; -4199228186005081000; 2079327490746610300; 2255442242640827800; -4317466942632204600; 1603324083721916300; 3208465556041536400; -4246743412686900000; -685232364250303800; 5162334041281263500; -608797637178923000; -6472020085013493000; -4556577567973464600; -1150519390527971600];
  [420110282026177100; 2730716833170151000; 6254975310167525000; 4364479041049728500; -3482247448794757000; -3346878580141877000; 4192172939870876500; 766954954481605500; -4354128497869374000; 2622340557517021200; 1916677054809283500; -4239460715577204000; 2129776473228358500; 2089592011469333000; -4179184022938666000; 2089592011469333000; 2129776473228358500; -4239460715577204000; 1916677054809283500; 2622340557517021200; -4354128497869374000; 766954954481605500; 4192172939870876500; -3346878580141877000; -3482247448794757000; 4364479041049728500; 6254975310167525000; 2730716833170151000; 420110282026177100];
  [-1150519390527971600; -4556577567973464600; -6472020085013493000; -608797637178923000; 5162334041281263500; -685232364250303800; -4246743412686900000; 3208465556041536400; 1603324083721916300; -4317466942632204600; 2255442242640827800; 2079327490746610300; -4199228186005081000; 2089592011469333000; 2089592011469333000; -4199228186005081000; 2079327490746610300; 2255442242640827800; -4317466942632204600; 1603324083721916300; 3208465556041536400; -4246743412686900000; -685232364250303800; 5162334041281263500; -608797637178923000; -6472020085013493000; -4556577567973464600; -1150519390527971600];
  [2258024917603623400; 6087976371789230000; 4860349405838362000; -3117019631779660200; -3684412264500153000; 4048718548226120000; 1055877043639689000; -4425643468117621000; 2483989088878600600; 2056760317242623300; -4262378018077729600; 2079327490746610300; 2129776473228358500; -4199228186005081000; 2129776473228358500; 2079327490746610300; -4262378018077729600; 2056760317242623300; 2483989088878600600; -4425643468117621000; 1055877043639689000; 4048718548226120000; -3684412264500153000; -3117019631779660200; 4860349405838362000; 6087976371789230000; 2258024917603623400];
  [-3651711948047222500; -6763065171923319000; -1800318269128790500; 5143285630404252000; 95979693445761070; -4542588191860526000; 2853400720029854200; 2016900907623292800; -4379177123430918000; 2056760317242623300; 2255442242640827800; -4239460715577204000; 2079327490746610300; 2079327490746610300; -4239460715577204000; 2255442242640827800; 2056760317242623300; -4379177123430918000; 2016900907623292800; 2853400720029854200; -4542588191860526000; 95979693445761070; 5143285630404252000; -1800318269128790500; -6763065171923319000; -3651711948047222500];
  [5138414181436862000; 6205224648430349000; -1725171708879962700; -4604161364601333500; 3447990108345921000; 1949034554679506000; -4573901331970019000; 2016900907623292800; 2483989088878600600; -4317466942632204600; 1916677054809283500; 2255442242640827800; -4262378018077729600; 2255442242640827800; 1916677054809283500; -4317466942632204600; 2483989088878600600; 2016900907623292800; -4573901331970019000; 1949034554679506000; 3447990108345921000; -4604161364601333500; -1725171708879962700; 6205224648430349000; 5138414181436862000];
  [-6465696054949265000; -4368637572353741000; 4503152242785616000; 1827971682698654700; -4904962732150642000; 1949034554679506000; 2853400720029854200; -4425643468117621000; 1603324083721916300; 2622340557517021200; -4317466942632204600; 2056760317242623300; 2056760317242623300; -4317466942632204600; 2622340557517021200; 1603324083721916300; -4425643468117621000; 2853400720029854200; 1949034554679506000; -4904962732150642000; 1827971682698654700; 4503152242785616000; -4368637572353741000; -6465696054949265000];
  [7384345263283243000; 1574347699949146000; -5553776654949301600; 1827971682698654700; 3447990108345921000; -4542588191860526000; 1055877043639689000; 3208465556041536400; -4354128497869374000; 1603324083721916300; 2483989088878600600; -4379177123430918000; 2483989088878600600; 1603324083721916300; -4354128497869374000; 3208465556041536400; 1055877043639689000; -4542588191860526000; 3447990108345921000; 1827971682698654700; -5553776654949301600; 1574347699949146000; 7384345263283243000];
  [-7712697085199444000; 1574347699949146000; 4503152242785616000; -4604161364601333500; 95979693445761070; 4048718548226120000; -4246743412686900000; 766954954481605500; 3208465556041536400; -4425643468117621000; 2016900907623292800; 2016900907623292800; -4425643468117621000; 3208465556041536400; 766954954481605500; -4246743412686900000; 4048718548226120000; 95979693445761070; -4604161364601333500; 4503152242785616000; 1574347699949146000; -7712697085199444000];
  [7384345263283243000; -4368637572353741000; -1725171708879962700; 5143285630404252000; -3684412264500153000; -685232364250303800; 4192172939870876500; -4246743412686900000; 1055877043639689000; 2853400720029854200; -4573901331970019000; 2853400720029854200; 1055877043639689000; -4246743412686900000; 4192172939870876500; -685232364250303800; -3684412264500153000; 5143285630404252000; -1725171708879962700; -4368637572353741000; 7384345263283243000];
  [-6465696054949265000; 6205224648430349000; -1800318269128790500; -3117019631779660200; 5162334041281263500; -3346878580141877000; -685232364250303800; 4048718548226120000; -4542588191860526000; 1949034554679506000; 1949034554679506000; -4542588191860526000; 4048718548226120000; -685232364250303800; -3346878580141877000; 5162334041281263500; -3117019631779660200; -1800318269128790500; 6205224648430349000; -6465696054949265000];
  [5138414181436862000; -6763065171923319000; 4860349405838362000; -608797637178923000; -3482247448794757000; 5162334041281263500; -3684412264500153000; 95979693445761070; 3447990108345921000; -4904962732150642000; 3447990108345921000; 95979693445761070; -3684412264500153000; 5162334041281263500; -3482247448794757000; -608797637178923000; 4860349405838362000; -6763065171923319000; 5138414181436862000];
  [-3651711948047222500; 6087976371789230000; -6472020085013493000; 4364479041049728500; -608797637178923000; -3117019631779660200; 5143285630404252000; -4604161364601333500; 1827971682698654700; 1827971682698654700; -4604161364601333500; 5143285630404252000; -3117019631779660200; -608797637178923000; 4364479041049728500; -6472020085013493000; 6087976371789230000; -3651711948047222500];
  [2258024917603623400; -4556577567973464600; 6254975310167525000; -6472020085013493000; 4860349405838362000; -1800318269128790500; -1725171708879962700; 4503152242785616000; -5553776654949301600; 4503152242785616000; -1725171708879962700; -1800318269128790500; 4860349405838362000; -6472020085013493000; 6254975310167525000; -4556577567973464600; 2258024917603623400];
  [-1150519390527971600; 2730716833170151000; -4556577567973464600; 6087976371789230000; -6763065171923319000; 6205224648430349000; -4368637572353741000; 1574347699949146000; 1574347699949146000; -4368637572353741000; 6205224648430349000; -6763065171923319000; 6087976371789230000; -4556577567973464600; 2730716833170151000; -1150519390527971600];
  [420110282026177100; -1150519390527971600; 2258024917603623400; -3651711948047222500; 5138414181436862000; -6465696054949265000; 7384345263283243000; -7712697085199444000; 7384345263283243000; -6465696054949265000; 5138414181436862000; -3651711948047222500; 2258024917603623400; -1150519390527971600; 420110282026177100]].
(* Wigner3j.cc:2253-2974 *)
Definition w3j_15 : list (list Z) := [
  [312698230000429960; -884444155593339000; 1791615859566177000; -2990289142036184700; 4344789394034224000; -5652081218639529000; 6687632686006072000; -7260229780692978000; 7260229780692978000; -6687632686006072000; 5652081218639529000; -4344789394034224000; 2990289142036184700; -1791615859566177000; 884444155593339000; -312698230000429960];
  [-884444155593339000; 2188887610003009700; -3816526633382115500; 5353476330726815400; -6304083034203398000; 6261507939047613000; -5055375127691135600; 2826040609319764600; 0; -2826040609319764600; 5055375127691135600; -6261507939047613000; 6304083034203398000; -5353476330726815400; 3816526633382115500; -2188887610003009700; 884444155593339000];
  [1791615859566177000; -3816526633382115500; 5574654652076630600; -6251547321318089000; 5357167111124354000; -2976597472238238000; -223768038281310400; 3226452673976127000; -5033537552047327000; 5033537552047327000; -3226452673976127000; 223768038281310400; 2976597472238238000; -5357167111124354000; 6251547321318089000; -5574654652076630600; 3816526633382115500; -1791615859566177000];
  [-2990289142036184700; 5353476330726815400; -6251547321318089000; 4992388982420658000; -1928867582689173700; -1696416833276328700; 4346305529542573000; -4905064815727292000; 3183488670491578500; 0; -3183488670491578500; 4905064815727292000; -4346305529542573000; 1696416833276328700; 1928867582689173700; -4992388982420658000; 6251547321318089000; -5353476330726815400; 2990289142036184700];
  [4344789394034224000; -6304083034203398000; 5357167111124354000; -1928867582689173700; -2117002959428198000; 4634536720004783000; -4398342103938570500; 1706098551160941200; 1858756926545898300; -4310464036632843000; 4310464036632843000; -1858756926545898300; -1706098551160941200; 4398342103938570500; -4634536720004783000; 2117002959428198000; 1928867582689173700; -5357167111124354000; 6304083034203398000; -4344789394034224000];
  [-5652081218639529000; 6261507939047613000; -2976597472238238000; -1696416833276328700; 4634536720004783000; -4180092430925287600; 972926281381031800; 2711051235023537000; -4491349286240468000; 3313480062523981000; 0; -3313480062523981000; 4491349286240468000; -2711051235023537000; -972926281381031800; 4180092430925287600; -4634536720004783000; 1696416833276328700; 2976597472238238000; -6261507939047613000; 5652081218639529000];
  [6687632686006072000; -5055375127691135600; -223768038281310400; 4346305529542573000; -4398342103938570500; 972926281381031800; 2949427213084515300; -4444568709275543000; 2607069076210622200; 1075034889262176100; -3920562481920355000; 3920562481920355000; -1075034889262176100; -2607069076210622200; 4444568709275543000; -2949427213084515300; -972926281381031800; 4398342103938570500; -4346305529542573000; 223768038281310400; 5055375127691135600; -6687632686006072000];
  [-7260229780692978000; 2826040609319764600; 3226452673976127000; -4905064815727292000; 1706098551160941200; 2711051235023537000; -4444568709275543000; 2362848464394053500; 1548369342509218700; -4099036495434464600; 3365391526803858400; 0; -3365391526803858400; 4099036495434464600; -1548369342509218700; -2362848464394053500; 4444568709275543000; -2711051235023537000; -1706098551160941200; 4905064815727292000; -3226452673976127000; -2826040609319764600; 7260229780692978000];
  [7260229780692978000; 0; -5033537552047327000; 3183488670491578500; 1858756926545898300; -4491349286240468000; 2607069076210622200; 1548369342509218700; -4131210868534416000; 3055687892248714500; 583876851559000400; -3679917021387186000; 3679917021387186000; -583876851559000400; -3055687892248714500; 4131210868534416000; -1548369342509218700; -2607069076210622200; 4491349286240468000; -1858756926545898300; -3183488670491578500; 5033537552047327000; 0; -7260229780692978000];
  [-6687632686006072000; -2826040609319764600; 5033537552047327000; 0; -4310464036632843000; 3313480062523981000; 1075034889262176100; -4099036495434464600; 3055687892248714500; 767009221633238500; -3787065692170211000; 3385031327286540000; 0; -3385031327286540000; 3787065692170211000; -767009221633238500; -3055687892248714500; 4099036495434464600; -1075034889262176100; -3313480062523981000; 4310464036632843000; 0; -5033537552047327000; 2826040609319764600; 6687632686006072000];
  [5652081218639529000; 5055375127691135600; -3226452673976127000; -3183488670491578500; 4310464036632843000; 0; -3920562481920355000; 3365391526803858400; 583876851559000400; -3787065692170211000; 3281534298740144000; 272544279843990300; -3527121891429442500; 3527121891429442500; -272544279843990300; -3281534298740144000; 3787065692170211000; -583876851559000400; -3365391526803858400; 3920562481920355000; 0; -4310464036632843000; 3183488670491578500; 3226452673976127000; -5055375127691135600; -5652081218639529000];
  [-4344789394034224000; -6261507939047613000; 223768038281310400; 4905064815727292000; -1858756926545898300; -3313480062523981000; 3920562481920355000; 0; -3679917021387186000; 3385031327286540000; 272544279843990300; -3566197515016398000; 3391121343593522000; 0; -3391121343593522000; 3566197515016398000; -272544279843990300; -3385031327286540000; 3679917021387186000; 0; -3920562481920355000; 3313480062523981000; 1858756926545898300; -4905064815727292000; -223768038281310400; 6261507939047613000; 4344789394034224000];
  [2990289142036184700; 6304083034203398000; 2976597472238238000; -4346305529542573000; -1706098551160941200; 4491349286240468000; -1075034889262176100; -3365391526803858400; 3679917021387186000; 0; -3527121891429442500; 3391121343593522000; 86980427195521890; -3435451608679731400; 3435451608679731400; -86980427195521890; -3391121343593522000; 3527121891429442500; 0; -3679917021387186000; 3365391526803858400; 1075034889262176100; -4491349286240468000; 1706098551160941200; 4346305529542573000; -2976597472238238000; -6304083034203398000; -2990289142036184700];
  [-1791615859566177000; -5353476330726815400; -5357167111124354000; 1696416833276328700; 4398342103938570500; -2711051235023537000; -2607069076210622200; 4099036495434464600; -583876851559000400; -3385031327286540000; 3527121891429442500; 0; -3435451608679731400; 3392236660625353600; 0; -3392236660625353600; 3435451608679731400; 0; -3527121891429442500; 3385031327286540000; 583876851559000400; -4099036495434464600; 2607069076210622200; 2711051235023537000; -4398342103938570500; -1696416833276328700; 5357167111124354000; 5353476330726815400; 1791615859566177000];
  [884444155593339000; 3816526633382115500; 6251547321318089000; 1928867582689173700; -4634536720004783000; -972926281381031800; 4444568709275543000; -1548369342509218700; -3055687892248714500; 3787065692170211000; -272544279843990300; -3391121343593522000; 3435451608679731400; 0; -3392236660625353600; 3392236660625353600; 0; -3435451608679731400; 3391121343593522000; 272544279843990300; -3787065692170211000; 3055687892248714500; 1548369342509218700; -4444568709275543000; 972926281381031800; 4634536720004783000; -1928867582689173700; -6251547321318089000; -3816526633382115500; -884444155593339000];
  [-312698230000429960; -2188887610003009700; -5574654652076630600; -4992388982420658000; 2117002959428198000; 4180092430925287600; -2949427213084515300; -2362848464394053500; 4131210868534416000; -767009221633238500; -3281534298740144000; 3566197515016398000; -86980427195521890; -3392236660625353600; 3392236660625353600; 0; -3392236660625353600; 3392236660625353600; 86980427195521890; -3566197515016398000; 3281534298740144000; 767009221633238500; -4131210868534416000; 2362848464394053500; 2949427213084515300; -4180092430925287600; -2117002959428198000; 4992388982420658000; 5574654652076630600; 2188887610003009700; 312698230000429960];
  [884444155593339000; 3816526633382115500; 6251547321318089000; 1928867582689173700; -4634536720004783000; -972926281381031800; 4444568709275543000; -1548369342509218700; -3055687892248714500; 3787065692170211000; -272544279843990300; -3391121343593522000; 3435451608679731400; 0; -3392236660625353600; 3392236660625353600; 0; -3435451608679731400; 3391121343593522000; 272544279843990300; -3787065692170211000; 3055687892248714500; 1548369342509218700; -4444568709275543000; 972926281381031800; 4634536720004783000; -1928867582689173700; -6251547321318089000; -3816526633382115500; -884444155593339000];
  [-1791615859566177000; -5353476330726815400; -5357167111124354000; 1696416833276328700; 4398342103938570500; -2711051235023537000; -2607069076210622200; 4099036495434464600; -583876851559000400; -3385031327286540000; 3527121891429442500; 0; -3435451608679731400; 3392236660625353600; 0; -3392236660625353600; 3435451608679731400; 0; -3527121891429442500; 3385031327286540000; 583876851559000400; -4099036495434464600; 2607069076210622200; 2711051235023537000; -4398342103938570500; -1696416833276328700; 5357167111124354000; 5353476330726815400; 1791615859566177000];
  [2990289142036184700; 6304083034203398000; 2976597472238238000; -4346305529542573000; -1706098551160941200; 4491349286240468000; -1075034889262176100; -3365391526803858400; 3679917021387186000; 0; -3527121891429442500; 3391121343593522000; 86980427195521890; -3435451608679731400; 3435451608679731400; -86980427195521890; -3391121343593522000; 3527121891429442500; 0; -3679917021387186000; 3365391526803858400; 1075034889262176100; -4491349286240468000; 1706098551160941200; 4346305529542573000; -2976597472238238000; -6304083034203398000; -2990289142036184700];
  [-4344789394034224000; -6261507939047613000; 223768038281310400; 4905064815727292000; -1858756926545898300; -3313480062523981000; 3920562481920355000; 0; -3679917021387186000; 3385031327286540000; 272544279843990300; -3566197515016398000; 3391121343593522000; 0; -3391121343593522000; 3566197515016398000; -272544279843990300; -3385031327286540000; 3679917021387186000; 0; -3920562481920355000; 3313480062523981000; 1858756926545898300; -4905064815727292000; -223768038281310400; 6261507939047613000; 4344789394034224000];
  [5652081218639529000; 5055375127691135600; -3226452673976127000; -3183488670491578500; 4310464036632843000; 0; -3920562481920355000; 3365391526803858400; 583876851559000400; -3787065692170211000; 3281534298740144000; 272544279843990300; -3527121891429442500; 3527121891429442500; -272544279843990300; -3281534298740144000; 3787065692170211000; -583876851559000400; -3365391526803858400; 3920562481920355000; 0; -4310464036632843000; 3183488670491578500; 3226452673976127000; -5055375127691135600; -5652081218639529000];
  [-6687632686006072000; -2826040609319764600; 5033537552047327000; 0; -4310464036632843000; 3313480062523981000; 1075034889262176100; -4099036495434464600; 3055687892248714500; 767009221633238500; -3787065692170211000; 3385031327286540000; 0; -3385031327286540000; 3787065692170211000; -767009221633238500; -3055687892248714500; 4099036495434464600; -1075034889262176100; -3313480062523981000; 4310464036632843000; 0; -5033537552047327000; 2826040609319764600; 6687632686006072000];
  [7260229780692978000; 0; -5033537552047327000; 3183488670491578500; 1858756926545898300; -4491349286240468000; 2607069076210622200; 1548369342509218700; -4131210868534416000; 3055687892248714500; 583876851559000400; -3679917021387186000; 3679917021387186000; -583876851559000400; -3055687892248714500; 4131210868534416000; -1548369342509218700; -2607069076210622200; 4491349286240468000; -1858756926545898300; -3183488670491578500; 5033537552047327000; 0; -7260229780692978000];
  [-7260229780692978000; 2826040609319764600; 3226452673976127000; -4905064815727292000; 1706098551160941200; 2711051235023537000; -4444568709275543000; 2362848464394053500; 1548369342509218700; -4099036495434464600; 3365391526803858400; 0; -3365391526803858400; 4099036495434464600; -1548369342509218700; -2362848464394053500; 4444568709275543000; -2711051235023537000; -1706098551160941200; 4905064815727292000; -3226452673976127000; -2826040609319764600; 7260229780692978000];
  [6687632686006072000; -5055375127691135600; -223768038281310400; 4346305529542573000; -4398342103938570500; 972926281381031800; 2949427213084515300; -4444568709275543000; 2607069076210622200; 1075034889262176100; -3920562481920355000; 3920562481920355000; -1075034889262176100; -2607069076210622200; 4444568709275543000; -2949427213084515300; -972926281381031800; 4398342103938570500; -4346305529542573000; 223768038281310400; 5055375127691135600; -6687632686006072000];
  [-5652081218639529000; 6261507939047613000; -2976597472238238000; -1696416833276328700; 4634536720004783000; -4180092430925287600; 972926281381031800; 2711051235023537000; -4491349286240468000; 3313480062523981000; 0; -3313480062523981000; 4491349286240468000; -2711051235023537000; -972926281381031800; 4180092430925287600; -4634536720004783000; 1696416833276328700; 2976597472238238000; -6261507939047613000; 5652081218639529000];
  [4344789394034224000; -6304083034203398000; 5357167111124354000; -1928867582689173700; -2117002959428198000; 4634536720004783000; -4398342103938570500; 1706098551160941200; 1858756926545898300; -4310464036632843000; 4310464036632843000; -1858756926545898300; -1706098551160941200; 4398342103938570500; -4634536720004783000; 2117002959428198000; 1928867582689173700; -5357167111124354000; 6304083034203398000; -4344789394034224000];
  [-2990289142036184700; 5353476330726815400; -6251547321318089000; 4992388982420658000; -1928867582689173700; -1696416833276328700; 4346305529542573000; -4905064815727292000; 3183488670491578500; 0; -3183488670491578500; 4905064815727292000; -4346305529542573000; 1696416833276328700; 1928867582689173700; -4992388982420658000; 6251547321318089000; -5353476330726815400; 2990289142036184700];
  [1791615859566177000; -3816526633382115500; 5574654652076630600; -6251547321318089000; 5357167111124354000; -2976597472238238000; -223768038281310400; 3226452673976127000; -5033537552047327000; 5033537552047327000; -3226452673976127000; 223768038281310400; 2976597472238238000; -5357167111124354000; 6251547321318089000; -5574654652076630600; 3816526633382115500; -1791615859566177000];
  [-884444155593339000; 2188887610003009700; -3816526633382115500; 5353476330726815400; -6304083034203398000; 6261507939047613000; -5055375127691135600; 2826040609319764600; 0; -2826040609319764600; 5055375127691135600; -6261507939047613000; 6304083034203398000; -5353476330726815400; 3816526633382115500; -2188887610003009700; 884444155593339000];
  [312698230000429960; -884444155593339000; 1791615859566177000; -2990289142036184700; 4344789394034224000; -5652081218639529000; 6687632686006072000; -7260229780692978000; 7260229780692978000; -6687632686006072000; 5652081218639529000; -4344789394034224000; 2990289142036184700; -1791615859566177000; 884444155593339000; -312698230000429960]].
(* Wigner3j.cc:2977-3183 *)
Definition w3j_16 : list (list Z) := [
  [233243481953652300; -680015761528982300; 1419073912579320700; -2439633453002056000; 3652433010669585400; -4900253097072844500; 5989198229755699000; -6732818568756019000; 6996950303537157000; -6732818568756019000; 5989198229755699000; -4900253097072844500; 3652433010669585400; -2439633453002056000; 1419073912579320700; -680015761528982300; 233243481953652300];
  [-680015761528982300; 1749326114652392000; -3175495342041885000; 4653947075981801000; -5766112191581057000; 6111689399241497500; -5444725663414272000; 3767031413024793000; -1346563713751203700; -1346563713751203700; 3767031413024793000; -5444725663414272000; 6111689399241497500; -5766112191581057000; 4653947075981801000; -3175495342041885000; 1749326114652392000; -680015761528982300];
  [1419073912579320700; -3175495342041885000; 4901875112671112000; -5886044394387448000; 5577578858625062400; -3850957655394699000; 1097691820444607700; 1886219725776403600; -4172236023864111000; 5026757490132502000; -4172236023864111000; 1886219725776403600; 1097691820444607700; -3850957655394699000; 5577578858625062400; -5886044394387448000; 4901875112671112000; -3175495342041885000; 1419073912579320700];
  [-2439633453002056000; 4653947075981801000; -5886044394387448000; 5330742160134279000; -2978268355759361400; -336000898444003060; 3300884520108706600; -4717220408692665600; 4029752117966596000; -1572227088992985500; -1572227088992985500; 4029752117966596000; -4717220408692665600; 3300884520108706600; -336000898444003060; -2978268355759361400; 5330742160134279000; -5886044394387448000; 4653947075981801000; -2439633453002056000];
  [3652433010669585400; -5766112191581057000; 5577578858625062400; -2978268355759361400; -770170496306359100; 3784508554399198000; -4601456578709650000; 2927628765579554000; 254517659968263140; -3228026116417114000; 4427720455204181000; -3228026116417114000; 254517659968263140; 2927628765579554000; -4601456578709650000; 3784508554399198000; -770170496306359100; -2978268355759361400; 5577578858625062400; -5766112191581057000; 3652433010669585400];
  [-4900253097072844500; 6111689399241497500; -3850957655394699000; -336000898444003060; 3784508554399198000; -4504920132260558000; 2319163876360244200; 1211009947428471100; -3846034762840496000; 4014710529172678000; -1683862142516636200; -1683862142516636200; 4014710529172678000; -3846034762840496000; 1211009947428471100; 2319163876360244200; -4504920132260558000; 3784508554399198000; -336000898444003060; -3850957655394699000; 6111689399241497500; -4900253097072844500];
  [5989198229755699000; -5444725663414272000; 1097691820444607700; 3300884520108706600; -4601456578709650000; 2319163876360244200; 1499823910189549600; -4021564159683018000; 3582726352161462000; -645064126777699300; -2683518706457341300; 4116107459485110500; -2683518706457341300; -645064126777699300; 3582726352161462000; -4021564159683018000; 1499823910189549600; 2319163876360244200; -4601456578709650000; 3300884520108706600; 1097691820444607700; -5444725663414272000; 5989198229755699000];
  [-6732818568756019000; 3767031413024793000; 1886219725776403600; -4717220408692665600; 2927628765579554000; 1211009947428471100; -4021564159683018000; 3416537032376719000; -148004913614205640; -3123211832102366200; 3932573780534777000; -1749009354663283400; -1749009354663283400; 3932573780534777000; -3123211832102366200; -148004913614205640; 3416537032376719000; -4021564159683018000; 1211009947428471100; 2927628765579554000; -4717220408692665600; 1886219725776403600; 3767031413024793000; -6732818568756019000];
  [6996950303537157000; -1346563713751203700; -4172236023864111000; 4029752117966596000; 254517659968263140; -3846034762840496000; 3582726352161462000; -148004913614205640; -3243935126079685500; 3782655441812914000; -1185993770041077500; -2331653674132676000; 3926516262847559000; -2331653674132676000; -1185993770041077500; 3782655441812914000; -3243935126079685500; -148004913614205640; 3582726352161462000; -3846034762840496000; 254517659968263140; 4029752117966596000; -4172236023864111000; -1346563713751203700; 6996950303537157000];
  [-6732818568756019000; -1346563713751203700; 5026757490132502000; -1572227088992985500; -3228026116417114000; 4014710529172678000; -645064126777699300; -3123211832102366200; 3782655441812914000; -1000836797777171700; -2577335681870103800; 3842831211221362000; -1789441917695982300; -1789441917695982300; 3842831211221362000; -2577335681870103800; -1000836797777171700; 3782655441812914000; -3123211832102366200; -645064126777699300; 4014710529172678000; -3228026116417114000; -1572227088992985500; 5026757490132502000; -1346563713751203700; -6732818568756019000];
  [5989198229755699000; 3767031413024793000; -4172236023864111000; -1572227088992985500; 4427720455204181000; -1683862142516636200; -2683518706457341300; 3932573780534777000; -1185993770041077500; -2577335681870103800; 3803633000201913000; -1519886915275011100; -2098026010263819700; 3805137529297539000; -2098026010263819700; -1519886915275011100; 3803633000201913000; -2577335681870103800; -1185993770041077500; 3932573780534777000; -2683518706457341300; -1683862142516636200; 4427720455204181000; -1572227088992985500; -4172236023864111000; 3767031413024793000; 5989198229755699000];
  [-4900253097072844500; -5444725663414272000; 1886219725776403600; 4029752117966596000; -3228026116417114000; -1683862142516636200; 4116107459485110500; -1749009354663283400; -2331653674132676000; 3842831211221362000; -1519886915275011100; -2192289820461293700; 3767049791253155400; -1814709977885351000; -1814709977885351000; 3767049791253155400; -2192289820461293700; -1519886915275011100; 3842831211221362000; -2331653674132676000; -1749009354663283400; 4116107459485110500; -1683862142516636200; -3228026116417114000; 4029752117966596000; 1886219725776403600; -5444725663414272000; -4900253097072844500];
  [3652433010669585400; 6111689399241497500; 1097691820444607700; -4717220408692665600; 254517659968263140; 4014710529172678000; -2683518706457341300; -1749009354663283400; 3926516262847559000; -1789441917695982300; -2098026010263819700; 3767049791253155400; -1721392245660538500; -1947973775896720500; 3728874533001326500; -1947973775896720500; -1721392245660538500; 3767049791253155400; -2098026010263819700; -1789441917695982300; 3926516262847559000; -1749009354663283400; -2683518706457341300; 4014710529172678000; 254517659968263140; -4717220408692665600; 1097691820444607700; 6111689399241497500; 3652433010669585400];
  [-2439633453002056000; -5766112191581057000; -3850957655394699000; 3300884520108706600; 2927628765579554000; -3846034762840496000; -645064126777699300; 3932573780534777000; -2331653674132676000; -1789441917695982300; 3805137529297539000; -1814709977885351000; -1947973775896720500; 3713812206595289000; -1829584898667091000; -1829584898667091000; 3713812206595289000; -1947973775896720500; -1814709977885351000; 3805137529297539000; -1789441917695982300; -2331653674132676000; 3932573780534777000; -645064126777699300; -3846034762840496000; 2927628765579554000; 3300884520108706600; -3850957655394699000; -5766112191581057000; -2439633453002056000];
  [1419073912579320700; 4653947075981801000; 5577578858625062400; -336000898444003060; -4601456578709650000; 1211009947428471100; 3582726352161462000; -3123211832102366200; -1185993770041077500; 3842831211221362000; -2098026010263819700; -1814709977885351000; 3728874533001326500; -1829584898667091000; -1863707957155877700; 3686579691985189000; -1863707957155877700; -1829584898667091000; 3728874533001326500; -1814709977885351000; -2098026010263819700; 3842831211221362000; -1185993770041077500; -3123211832102366200; 3582726352161462000; 1211009947428471100; -4601456578709650000; -336000898444003060; 5577578858625062400; 4653947075981801000; 1419073912579320700];
  [-680015761528982300; -3175495342041885000; -5886044394387448000; -2978268355759361400; 3784508554399198000; 2319163876360244200; -4021564159683018000; -148004913614205640; 3782655441812914000; -2577335681870103800; -1519886915275011100; 3767049791253155400; -1947973775896720500; -1829584898667091000; 3686579691985189000; -1836500541722945300; -1836500541722945300; 3686579691985189000; -1829584898667091000; -1947973775896720500; 3767049791253155400; -1519886915275011100; -2577335681870103800; 3782655441812914000; -148004913614205640; -4021564159683018000; 2319163876360244200; 3784508554399198000; -2978268355759361400; -5886044394387448000; -3175495342041885000; -680015761528982300];
  [233243481953652300; 1749326114652392000; 4901875112671112000; 5330742160134279000; -770170496306359100; -4504920132260558000; 1499823910189549600; 3416537032376719000; -3243935126079685500; -1000836797777171700; 3803633000201913000; -2192289820461293700; -1721392245660538500; 3713812206595289000; -1863707957155877700; -1836500541722945300; 3673001083445890500; -1836500541722945300; -1863707957155877700; 3713812206595289000; -1721392245660538500; -2192289820461293700; 3803633000201913000; -1000836797777171700; -3243935126079685500; 3416537032376719000; 1499823910189549600; -4504920132260558000; -770170496306359100; 5330742160134279000; 4901875112671112000; 1749326114652392000; 233243481953652300];
  [-680015761528982300; -3175495342041885000; -5886044394387448000; -2978268355759361400; 3784508554399198000; 2319163876360244200; -4021564159683018000; -148004913614205640; 3782655441812914000; -2577335681870103800; -1519886915275011100; 3767049791253155400; -1947973775896720500; -1829584898667091000; 3686579691985189000; -1836500541722945300; -1836500541722945300; 3686579691985189000; -1829584898667091000; -1947973775896720500; 3767049791253155400; -1519886915275011100; -2577335681870103800; 3782655441812914000; -148004913614205640; -4021564159683018000; 2319163876360244200; 3784508554399198000; -2978268355759361400; -5886044394387448000; -3175495342041885000; -680015761528982300];
  [1419073912579320700; 4653947075981801000; 5577578858625062400; -336000898444003060; -4601456578709650000; 1211009947428471100; 3582726352161462000; -3123211832102366200; -1185993770041077500; 3842831211221362000; -2098026010263819700; -1814709977885351000; 3728874533001326500; -1829584898667091000; -1863707957155877700; 3686579691985189000; -1863707957155877700; -1829584898667091000; 3728874533001326500; -1814709977885351000; -2098026010263819700; 3842831211221362000; -1185993770041077500; -3123211832102366200; 3582726352161462000; 1211009947428471100; -4601456578709650000; -336000898444003060; 5577578858625062400; 4653947075981801000; 1419073912579320700];
  [-2439633453002056000; -5766112191581057000; -3850957655394699000; 3300884520108706600; 2927628765579554000; -3846034762840496000; -645064126777699300; 3932573780534777000; -2331653674132676000; -1789441917695982300; 3805137529297539000; -1814709977885351000; -1947973775896720500; 3713812206595289000; -1829584898667091000; -1829584898667091000; 3713812206595289000; -1947973775896720500; -1814709977885351000; 3805137529297539000; -1789441917695982300; -2331653674132676000; 3932573780534777000; -645064126777699300; -3846034762840496000; 2927628765579554000; 3300884520108706600; -3850957655394699000; -5766112191581057000; -2439633453002056000];
  [3652433010669585400; 6111689399241497500; 1097691820444607700; -4717220408692665600; 254517659968263140; 4014710529172678000; -2683518706457341300; -1749009354663283400; 3926516262847559000; -1789441917695982300; -2098026010263819700; 3767049791253155400; -1721392245660538500; -1947973775896720500; 3728874533001326500; -1947973775896720500; -1721392245660538500; 3767049791253155400; -2098026010263819700; -1789441917695982300; 3926516262847559000; -1749009354663283400; -2683518706457341300; 4014710529172678000; 254517659968263140; -4717220408692665600; 1097691820444607700; 6111689399241497500; 3652433010669585400];
  [-4900253097072844500; -5444725663414272000; 1886219725776403600; 4029752117966596000; -3228026116417114000; -1683862142516636200; 4116107459485110500; -1749009354663283400; -2331653674132676000; 3842831211221362000; -1519886915275011100; -2192289820461293700; 3767049791253155400; -1814709977885351000; -1814709977885351000; 3767049791253155400; -2192289820461293700; -1519886915275011100; 3842831211221362000; -2331653674132676000; -1749009354663283400; 4116107459485110500; -1683862142516636200; -3228026116417114000; 4029752117966596000; 1886219725776403600; -5444725663414272000; -4900253097072844500];
  [5989198229755699000; 3767031413024793000; -4172236023864111000; -1572227088992985500; 4427720455204181000; -1683862142516636200; -2683518706457341300; 3932573780534777000; -1185993770041077500; -2577335681870103800; 3803633000201913000; -1519886915275011100; -2098026010263819700; 3805137529297539000; -2098026010263819700; -1519886915275011100; 3803633000201913000; -2577335681870103800; -1185993770041077500; 3932573780534777000; -2683518706457341300; -1683862142516636200; 4427720455204181000; -1572227088992985500; -4172236023864111000; 3767031413024793000; 5989198229755699000];
  [-6732818568756019000; -1346563713751203700; 5026757490132502000; -1572227088992985500; -3228026116417114000; 4014710529172678000; -645064126777699300; -3123211832102366200; 3782655441812914000; -1000836797777171700; -2577335681870103800; 3842831211221362000; -1789441917695982300; -1789441917695982300; 3842831211221362000; -2577335681870103800; -1000836797777171700; 3782655441812914000; -3123211832102366200; -645064126777699300; 4014710529172678000; -3228026116417114000; -1572227088992985500; 5026757490132502000; -1346563713751203700; -6732818568756019000];
  [6996950303537157000; -1346563713751203700; -4172236023864111000; 4029752117966596000; 254517659968263140; -3846034762840496000; 3582726352161462000; -148004913614205640; -3243935126079685500; 3782655441812914000; -1185993770041077500; -2331653674132676000; 3926516262847559000; -2331653674132676000; -1185993770041077500; 3782655441812914000; -3243935126079685500; -148004913614205640; 3582726352161462000; -3846034762840496000; 254517659968263140; 4029752117966596000; -4172236023864111000; -1346563713751203700; 6996950303537157000];
  [-6732818568756019000; 3767031413024793000; 1886219725776403600; -4717220408692665600; 2927628765579554000; 1211009947428471100; -4021564159683018000; 3416537032376719000; -148004913614205640; -3123211832102366200; 3932573780534777000; -1749009354663283400; -1749009354663283400; 3932573780534777000; -3123211832102366200; -148004913614205640; 3416537032376719000; -4021564159683018000; 1211009947428471100; 2927628765579554000; -4717220408692665600; 1886219725776403600; 3767031413024793000; -6732818568756019000];
  [5989198229755699000; -5444725663414272000; 1097691820444607700; 3300884520108706600; -4601456578709650000; 2319163876360244200; 1499823910189549600; -4021564159683018000; 3582726352161462000; -645064126777699300; -2683518706457341300; 4116107459485110500; -2683518706457341300; -645064126777699300; 3582726352161462000; -4021564159683018000; 1499823910189549600; 2319163876360244200; -4601456578709650000; 3300884520108706600; 1097691820444607700; -5444725663414272000; 5989198229755699000];
  [-4900253097072844500; 6111689399241497500; -3850957655394699000; -336000898444003060; 3784508554399198000; -4504920132260558000; 2319163876360244200; 1211009947428471100; -3846034762840496000; 4014710529172678000; -1683862142516636200; -1683862142516636200; 4014710529172678000; -3846034762840496000; 1211009947428471100; 2319163876360244200; -4504920132260558000; 3784508554399198000; -336000898444003060; -3850957655394699000; 6111689399241497500; -4900253097072844500];
  [3652433010669585400; -5766112191581057000; 5577578858625062400; -2978268355759361400; -770170496306359100; 3784508554399198000; -4601456578709650000; 2927628765579554000; 254517659968263140; -3228026116417114000; 4427720455204181000; -3228026116417114000; 254517659968263140; 2927628765579554000; -4601456578709650000; 3784508554399198000; -770170496306359100; -2978268355759361400; 5577578858625062400; -5766112191581057000; 3652433010669585400];
  [-2439633453002056000; 4653947075981801000; -5886044394387448000; 5330742160134279000; -2978268355759361400; -336000898444003060; 3300884520108706600; -4717220408692665600; 4029752117966596000; -1572227088992985500; -1572227088992985500; 4029752117966596000; -4717220408692665600; 3300884520108706600; -336000898444003060; -2978268355759361400; 5330742160134279000; -5886044394387448000; 4653947075981801000; -2439633453002056000];
  [1419073912579320700; -3175495342041885000; 4901875112671112000; -5886044394387448000; 5577578858625062400; -3850957655394699000; 1097691820444607700; 1886219725776403600; -4172236023864111000; 5026757490132502000; -4172236023864111000; 1886219725776403600; 1097691820444607700; -3850957655394699000; 5577578858625062400; -5886044394387448000; 4901875112671112000; -3175495342041885000; 1419073912579320700];
  [-680015761528982300; 1749326114652392000; -3175495342041885000; 4653947075981801000; -5766112191581057000; 6111689399241497500; -5444725663414272000; 3767031413024793000; -1346563713751203700; -1346563713751203700; 3767031413024793000; -5444725663414272000; 6111689399241497500; -5766112191581057000; 4653947075981801000; -3175495342041885000; 1749326114652392000; -680015761528982300];
  [233243481953652300; -680015761528982300; 1419073912579320700; -2439633453002056000; 3652433010669585400; -4900253097072844500; 5989198229755699000; -6732818568756019000; 6996950303537157000; -6732818568756019000; 5989198229755699000; -4900253097072844500; 3652433010669585400; -2439633453002056000; 1419073912579320700; -680015761528982300; 233243481953652300]].
(* Wigner3j.cc:3186-4105 *)
Definition w3j_17 : list (list Z) := [
  [174303517066826380; -522910551200479100; 1122256757374930800; -1983888408430599000; 3054780872016841400; -4218105614567936600; 5312480714382452500; -6165542478218704000; 6633067594020957000; -6633067594020957000; 6165542478218704000; -5312480714382452500; 4218105614567936600; -3054780872016841400; 1983888408430599000; -1122256757374930800; 522910551200479100; -174303517066826380];
  [-522910551200479100; 1394428136534611000; -2627198792329643600; 4007258155620823500; -5194166419616664000; 5817466389970664000; -5593756259894403600; 4425259926836782500; -2446154462852199300; 0; 2446154462852199300; -4425259926836782500; 5593756259894403600; -5817466389970664000; 5194166419616664000; -4007258155620823500; 2627198792329643600; -1394428136534611000; 522910551200479100];
  [1122256757374930800; -2627198792329643600; 4262513280997845000; -5431750219531801000; 5581296007723946000; -4447724287235580000; 2198580208525325500; 590180398461752500; -3113287498175526200; 4605956564248058000; -4605956564248058000; 3113287498175526200; -590180398461752500; -2198580208525325500; 4447724287235580000; -5581296007723946000; 5431750219531801000; -4262513280997845000; 2627198792329643600; -1122256757374930800];
  [-1983888408430599000; 4007258155620823500; -5431750219531801000; 5435100577629222600; -3758722668151627500; 885920001226023200; 2140416710945290300; -4160150009219351000; 4393565188548602400; -2777496313506416800; 0; 2777496313506416800; -4393565188548602400; 4160150009219351000; -2140416710945290300; -885920001226023200; 3758722668151627500; -5435100577629222600; 5431750219531801000; -4007258155620823500; 1983888408430599000];
  [3054780872016841400; -5194166419616664000; 5581296007723946000; -3758722668151627500; 469494957260645200; 2746903252821021600; -4378704734301017000; 3714765638707382600; -1181844261133563700; -1891727828740926600; 3943779752083912500; -3943779752083912500; 1891727828740926600; 1181844261133563700; -3714765638707382600; 4378704734301017000; -2746903252821021600; -469494957260645200; 3758722668151627500; -5581296007723946000; 5194166419616664000; -3054780872016841400];
  [-4218105614567936600; 5817466389970664000; -4447724287235580000; 885920001226023200; 2746903252821021600; -4392857553291220000; 3275064400283913000; -248195525069174800; -2803136800861870000; 4088260543598040000; -2907393006456636700; 0; 2907393006456636700; -4088260543598040000; 2803136800861870000; 248195525069174800; -3275064400283913000; 4392857553291220000; -2746903252821021600; -885920001226023200; 4447724287235580000; -5817466389970664000; 4218105614567936600];
  [5312480714382452500; -5593756259894403600; 2198580208525325500; 2140416710945290300; -4378704734301017000; 3275064400283913000; 49696507874397510; -3147885739407487600; 3957231453160374400; -2063491182265216400; -1172974606256218700; 3581220655585093000; -3581220655585093000; 1172974606256218700; 2063491182265216400; -3957231453160374400; 3147885739407487600; -49696507874397510; -3275064400283913000; 4378704734301017000; -2140416710945290300; -2198580208525325500; 5593756259894403600; -5312480714382452500];
  [-6165542478218704000; 4425259926836782500; 590180398461752500; -4160150009219351000; 3714765638707382600; -248195525069174800; -3147885739407487600; 3883554274330157000; -1623743215808160000; -1770948965133313500; 3767070371724776000; -2964668232987460000; 0; 2964668232987460000; -3767070371724776000; 1770948965133313500; 1623743215808160000; -3883554274330157000; 3147885739407487600; 248195525069174800; -3714765638707382600; 4160150009219351000; -590180398461752500; -4425259926836782500; 6165542478218704000];
  [6633067594020957000; -2446154462852199300; -3113287498175526200; 4393565188548602400; -1181844261133563700; -2803136800861870000; 3957231453160374400; -1623743215808160000; -1950913280659160000; 3790996708892741000; -2534297272604589500; -705873388806538100; 3351226374434976000; -3351226374434976000; 705873388806538100; 2534297272604589500; -3790996708892741000; 1950913280659160000; 1623743215808160000; -3957231453160374400; 2803136800861870000; 1181844261133563700; -4393565188548602400; 3113287498175526200; 2446154462852199300; -6633067594020957000];
  [-6633067594020957000; 0; 4605956564248058000; -2777496313506416800; -1891727828740926600; 4088260543598040000; -2063491182265216400; -1770948965133313500; 3790996708892741000; -2384257311283738800; -1029867157324651700; 3491098784232530400; -2989771714360907000; 0; 2989771714360907000; -3491098784232530400; 1029867157324651700; 2384257311283738800; -3790996708892741000; 1770948965133313500; 2063491182265216400; -4088260543598040000; 1891727828740926600; 2777496313506416800; -4605956564248058000; 0; 6633067594020957000];
  [6165542478218704000; 2446154462852199300; -4605956564248058000; 0; 3943779752083912500; -2907393006456636700; -1172974606256218700; 3767070371724776000; -2534297272604589500; -1029867157324651700; 3523646036330995600; -2791407414340819200; -393015698339126700; 3197798106536353000; -3197798106536353000; 393015698339126700; 2791407414340819200; -3523646036330995600; 1029867157324651700; 2534297272604589500; -3767070371724776000; 1172974606256218700; 2907393006456636700; -3943779752083912500; 0; 4605956564248058000; -2446154462852199300; -6165542478218704000];
  [-5312480714382452500; -4425259926836782500; 3113287498175526200; 2777496313506416800; -3943779752083912500; 0; 3581220655585093000; -2964668232987460000; -705873388806538100; 3491098784232530400; -2791407414340819200; -518386544454213700; 3275883438521618000; -2999800527126326700; 0; 2999800527126326700; -3275883438521618000; 518386544454213700; 2791407414340819200; -3491098784232530400; 705873388806538100; 2964668232987460000; -3581220655585093000; 0; 3943779752083912500; -2777496313506416800; -3113287498175526200; 4425259926836782500; 5312480714382452500];
  [4218105614567936600; 5593756259894403600; -590180398461752500; -4393565188548602400; 1891727828740926600; 2907393006456636700; -3581220655585093000; 0; 3351226374434976000; -2989771714360907000; -393015698339126700; 3275883438521618000; -2930942399235858200; -186411864097214680; 3096075204557980000; -3096075204557980000; 186411864097214680; 2930942399235858200; -3275883438521618000; 393015698339126700; 2989771714360907000; -3351226374434976000; 0; 3581220655585093000; -2907393006456636700; -1891727828740926600; 4393565188548602400; 590180398461752500; -5593756259894403600; -4218105614567936600];
  [-3054780872016841400; -5817466389970664000; -2198580208525325500; 4160150009219351000; 1181844261133563700; -4088260543598040000; 1172974606256218700; 2964668232987460000; -3351226374434976000; 0; 3197798106536353000; -2999800527126326700; -186411864097214680; 3123762029628471000; -3003016552629621600; 0; 3003016552629621600; -3123762029628471000; 186411864097214680; 2999800527126326700; -3197798106536353000; 0; 3351226374434976000; -2964668232987460000; -1172974606256218700; 4088260543598040000; -1181844261133563700; -4160150009219351000; 2198580208525325500; 5817466389970664000; 3054780872016841400];
  [1983888408430599000; 5194166419616664000; 4447724287235580000; -2140416710945290300; -3714765638707382600; 2803136800861870000; 2063491182265216400; -3767070371724776000; 705873388806538100; 2989771714360907000; -3197798106536353000; 0; 3096075204557980000; -3003016552629621600; -60072346723624440; 3033504811971220200; -3033504811971220200; 60072346723624440; 3003016552629621600; -3096075204557980000; 0; 3197798106536353000; -2989771714360907000; -705873388806538100; 3767070371724776000; -2063491182265216400; -2803136800861870000; 3714765638707382600; 2140416710945290300; -4447724287235580000; -5194166419616664000; -1983888408430599000];
  [-1122256757374930800; -4007258155620823500; -5581296007723946000; -885920001226023200; 4378704734301017000; 248195525069174800; -3957231453160374400; 1770948965133313500; 2534297272604589500; -3491098784232530400; 393015698339126700; 2999800527126326700; -3096075204557980000; 0; 3033504811971220200; -3003617336181222200; 0; 3003617336181222200; -3033504811971220200; 0; 3096075204557980000; -2999800527126326700; -393015698339126700; 3491098784232530400; -2534297272604589500; -1770948965133313500; 3957231453160374400; -248195525069174800; -4378704734301017000; 885920001226023200; 5581296007723946000; 4007258155620823500; 1122256757374930800];
  [522910551200479100; 2627198792329643600; 5431750219531801000; 3758722668151627500; -2746903252821021600; -3275064400283913000; 3147885739407487600; 1623743215808160000; -3790996708892741000; 1029867157324651700; 2791407414340819200; -3275883438521618000; 186411864097214680; 3003016552629621600; -3033504811971220200; 0; 3003617336181222200; -3003617336181222200; 0; 3033504811971220200; -3003016552629621600; -186411864097214680; 3275883438521618000; -2791407414340819200; -1029867157324651700; 3790996708892741000; -1623743215808160000; -3147885739407487600; 3275064400283913000; 2746903252821021600; -3758722668151627500; -5431750219531801000; -2627198792329643600; -522910551200479100];
  [-174303517066826380; -1394428136534611000; -4262513280997845000; -5435100577629222600; -469494957260645200; 4392857553291220000; -49696507874397510; -3883554274330157000; 1950913280659160000; 2384257311283738800; -3523646036330995600; 518386544454213700; 2930942399235858200; -3123762029628471000; 60072346723624440; 3003617336181222200; -3003617336181222200; 0; 3003617336181222200; -3003617336181222200; -60072346723624440; 3123762029628471000; -2930942399235858200; -518386544454213700; 3523646036330995600; -2384257311283738800; -1950913280659160000; 3883554274330157000; 49696507874397510; -4392857553291220000; 469494957260645200; 5435100577629222600; 4262513280997845000; 1394428136534611000; 174303517066826380];
  [522910551200479100; 2627198792329643600; 5431750219531801000; 3758722668151627500; -2746903252821021600; -3275064400283913000; 3147885739407487600; 1623743215808160000; -3790996708892741000; 1029867157324651700; 2791407414340819200; -3275883438521618000; 186411864097214680; 3003016552629621600; -3033504811971220200; 0; 3003617336181222200; -3003617336181222200; 0; 3033504811971220200; -3003016552629621600; -186411864097214680; 3275883438521618000; -2791407414340819200; -1029867157324651700; 3790996708892741000; -1623743215808160000; -3147885739407487600; 3275064400283913000; 2746903252821021600; -3758722668151627500; -5431750219531801000; -2627198792329643600; -522910551200479100];
  [-1122256757374930800; -4007258155620823500; -5581296007723946000; -885920001226023200; 4378704734301017000; 248195525069174800; -3957231453160374400; 1770948965133313500; 2534297272604589500; -3491098784232530400; 393015698339126700; 2999800527126326700; -3096075204557980000; 0; 3033504811971220200; -3003617336181222200; 0; 3003617336181222200; -3033504811971220200; 0; 3096075204557980000; -2999800527126326700; -393015698339126700; 3491098784232530400; -2534297272604589500; -1770948965133313500; 3957231453160374400; -248195525069174800; -4378704734301017000; 885920001226023200; 5581296007723946000; 4007258155620823500; 1122256757374930800];
  [1983888408430599000; 5194166419616664000; 4447724287235580000; -2140416710945290300; -3714765638707382600; 2803136800861870000; 2063491182265216400; -3767070371724776000; 705873388806538100; 2989771714360907000; -3197798106536353000; 0; 3096075204557980000; -3003016552629621600; -60072346723624440; 3033504811971220200; -3033504811971220200; 60072346723624440; 3003016552629621600; -3096075204557980000; 0; 3197798106536353000; -2989771714360907000; -705873388806538100; 3767070371724776000; -2063491182265216400; -2803136800861870000; 3714765638707382600; 2140416710945290300; -4447724287235580000; -5194166419616664000; -1983888408430599000];
  [-3054780872016841400; -5817466389970664000; -2198580208525325500; 4160150009219351000; 1181844261133563700; -4088260543598040000; 1172974606256218700; 2964668232987460000; -3351226374434976000; 0; 3197798106536353000; -2999800527126326700; -186411864097214680; 3123762029628471000; -3003016552629621600; 0; 3003016552629621600; -3123762029628471000; 186411864097214680; 2999800527126326700; -3197798106536353000; 0; 3351226374434976000; -2964668232987460000; -1172974606256218700; 4088260543598040000; -1181844261133563700; -4160150009219351000; 2198580208525325500; 5817466389970664000; 3054780872016841400];
  [4218105614567936600; 5593756259894403600; -590180398461752500; -4393565188548602400; 1891727828740926600; 2907393006456636700; -3581220655585093000; 0; 3351226374434976000; -2989771714360907000; -393015698339126700; 3275883438521618000; -2930942399235858200; -186411864097214680; 3096075204557980000; -3096075204557980000; 186411864097214680; 2930942399235858200; -3275883438521618000; 393015698339126700; 2989771714360907000; -3351226374434976000; 0; 3581220655585093000; -2907393006456636700; -1891727828740926600; 4393565188548602400; 590180398461752500; -5593756259894403600; -4218105614567936600];
  [-5312480714382452500; -4425259926836782500; 3113287498175526200; 2777496313506416800; -3943779752083912500; 0; 3581220655585093000; -2964668232987460000; -705873388806538100; 3491098784232530400; -2791407414340819200; -518386544454213700; 3275883438521618000; -2999800527126326700; 0; 2999800527126326700; -3275883438521618000; 518386544454213700; 2791407414340819200; -3491098784232530400; 705873388806538100; 2964668232987460000; -3581220655585093000; 0; 3943779752083912500; -2777496313506416800; -3113287498175526200; 4425259926836782500; 5312480714382452500];
  [6165542478218704000; 2446154462852199300; -4605956564248058000; 0; 3943779752083912500; -2907393006456636700; -1172974606256218700; 3767070371724776000; -2534297272604589500; -1029867157324651700; 3523646036330995600; -2791407414340819200; -393015698339126700; 3197798106536353000; -3197798106536353000; 393015698339126700; 2791407414340819200; -3523646036330995600; 1029867157324651700; 2534297272604589500; -3767070371724776000; 1172974606256218700; 2907393006456636700; -3943779752083912500; 0; 4605956564248058000; -2446154462852199300; -6165542478218704000];
  [-6633067594020957000; 0; 4605956564248058000; -2777496313506416800; -1891727828740926600; 4088260543598040000; -2063491182265216400; -1770948965133313500; 3790996708892741000; -2384257311283738800; -1029867157324651700; 3491098784232530400; -2989771714360907000; 0; 2989771714360907000; -3491098784232530400; 1029867157324651700; 2384257311283738800; -3790996708892741000; 1770948965133313500; 2063491182265216400; -4088260543598040000; 1891727828740926600; 2777496313506416800; -4605956564248058000; 0; 6633067594020957000];
  [6633067594020957000; -2446154462852199300; -3113287498175526200; 4393565188548602400; -1181844261133563700; -2803136800861870000; 3957231453160374400; -1623743215808160000; -1950913280659160000; 3790996708892741000; -2534297272604589500; -705873388806538100; 3351226374434976000; -3351226374434976000; 705873388806538100; 2534297272604589500; -3790996708892741000; 1950913280659160000; 1623743215808160000; -3957231453160374400; 2803136800861870000; 1181844261133563700; -4393565188548602400; 3113287498175526200; 2446154462852199300; -6633067594020957000];
  [-6165542478218704000; 4425259926836782500; 590180398461752500; -4160150009219351000; 3714765638707382600; -248195525069174800; -3147885739407487600; 3883554274330157000; -1623743215808160000; -1770948965133313500; 3767070371724776000; -2964668232987460000; 0; 2964668232987460000; -3767070371724776000; 1770948965133313500; 1623743215808160000; -3883554274330157000; 3147885739407487600; 248195525069174800; -3714765638707382600; 4160150009219351000; -590180398461752500; -4425259926836782500; 6165542478218704000];
  [5312480714382452500; -5593756259894403600; 2198580208525325500; 2140416710945290300; -4378704734301017000; 3275064400283913000; 49696507874397510; -3147885739407487600; 3957231453160374400; -2063491182265216400; -1172974606256218700; 3581220655585093000; -3581220655585093000; 1172974606256218700; 2063491182265216400; -3957231453160374400; 3147885739407487600; -49696507874397510; -3275064400283913000; 4378704734301017000; -2140416710945290300; -2198580208525325500; 5593756259894403600; -5312480714382452500];
  [-4218105614567936600; 5817466389970664000; -4447724287235580000; 885920001226023200; 2746903252821021600; -4392857553291220000; 3275064400283913000; -248195525069174800; -2803136800861870000; 4088260543598040000; -2907393006456636700; 0; 2907393006456636700; -4088260543598040000; 2803136800861870000; 248195525069174800; -3275064400283913000; 4392857553291220000; -2746903252821021600; -885920001226023200; 4447724287235580000; -5817466389970664000; 4218105614567936600];
  [3054780872016841400; -5194166419616664000; 5581296007723946000; -3758722668151627500; 469494957260645200; 2746903252821021600; -4378704734301017000; 3714765638707382600; -1181844261133563700; -1891727828740926600; 3943779752083912500; -3943779752083912500; 1891727828740926600; 1181844261133563700; -3714765638707382600; 4378704734301017000; -2746903252821021600; -469494957260645200; 3758722668151627500; -5581296007723946000; 5194166419616664000; -3054780872016841400];
  [-1983888408430599000; 4007258155620823500; -5431750219531801000; 5435100577629222600; -3758722668151627500; 885920001226023200; 2140416710945290300; -4160150009219351000; 4393565188548602400; -2777496313506416800; 0; 2777496313506416800; -4393565188548602400; 4160150009219351000; -2140416710945290300; -885920001226023200; 3758722668151627500; -5435100577629222600; 5431750219531801000; -4007258155620823500; 1983888408430599000];
  [1122256757374930800; -2627198792329643600; 4262513280997845000; -5431750219531801000; 5581296007723946000; -4447724287235580000; 2198580208525325500; 590180398461752500; -3113287498175526200; 4605956564248058000; -4605956564248058000; 3113287498175526200; -590180398461752500; -2198580208525325500; 4447724287235580000; -5581296007723946000; 5431750219531801000; -4262513280997845000; 2627198792329643600; -1122256757374930800];
  [-522910551200479100; 1394428136534611000; -2627198792329643600; 4007258155620823500; -5194166419616664000; 5817466389970664000; -5593756259894403600; 4425259926836782500; -2446154462852199300; 0; 2446154462852199300; -4425259926836782500; 5593756259894403600; -5817466389970664000; 5194166419616664000; -4007258155620823500; 2627198792329643600; -1394428136534611000; 522910551200479100];
  [174303517066826380; -522910551200479100; 1122256757374930800; -1983888408430599000; 3054780872016841400; -4218105614567936600; 5312480714382452500; -6165542478218704000; 6633067594020957000; -6633067594020957000; 6165542478218704000; -5312480714382452500; 4218105614567936600; -3054780872016841400; 1983888408430599000; -1122256757374930800; 522910551200479100; -174303517066826380]].
(* Wigner3j.cc:4108-4365 *)
Definition w3j_18 : list (list Z) := [
  [130474092073770070; -402148160102105900; 886291378312645800; -1608592640408423500; 2543408285537412200; -3608145366419910500; 4673097595438579000; -5585419940279951000; 6201472972293868000; -6419134373058690000; 6201472972293868000; -5585419940279951000; 4673097595438579000; -3608145366419910500; 2543408285537412200; -1608592640408423500; 886291378312645800; -402148160102105900; 130474092073770070];
  [-402148160102105900; 1109029782627045600; -2162965437653512800; 3422480999330937400; -4620330597793104000; 5429000161378429000; -5555803139913008000; 4837115559086600000; -3300307057717762000; 1171968231927008800; 1171968231927008800; -3300307057717762000; 4837115559086600000; -5555803139913008000; 5429000161378429000; -4620330597793104000; 3422480999330937400; -2162965437653512800; 1109029782627045600; -402148160102105900];
  [886291378312645800; -2162965437653512800; 3671913734076100000; -4931818185098251000; 5422841339019883000; -4802382253689016000; 3066195532786935800; -589159182562042600; -1973771137680790000; 3892975414086468000; -4603399829904926000; 3892975414086468000; -1973771137680790000; -589159182562042600; 3066195532786935800; -4802382253689016000; 5422841339019883000; -4931818185098251000; 3671913734076100000; -2162965437653512800; 886291378312645800];
  [-1608592640408423500; 3422480999330937400; -4931818185098251000; 5358757353029842000; -4290306983665025000; 1924351818143815700; 969904353780411100; -3352769397781691000; 4340564707727172000; -3574003564221639500; 1374566549412193200; 1374566549412193200; -3574003564221639500; 4340564707727172000; -3352769397781691000; 969904353780411100; 1924351818143815700; -4290306983665025000; 5358757353029842000; -4931818185098251000; 3422480999330937400; -1608592640408423500];
  [2543408285537412200; -4620330597793104000; 5422841339019883000; -4290306983665025000; 1547049948874702200; 1635048183559765000; -3831736454607647000; 4077841448577397000; -2334449861508459300; -502635215549569900; 3039280995849173700; -4046614353087303600; 3039280995849173700; -502635215549569900; -2334449861508459300; 4077841448577397000; -3831736454607647000; 1635048183559765000; 1547049948874702200; -4290306983665025000; 5422841339019883000; -4620330597793104000; 2543408285537412200];
  [-3608145366419910500; 5429000161378429000; -4802382253689016000; 1924351818143815700; 1635048183559765000; -3937521707226275500; 3822770339091649500; -1519548087665878500; -1557772979377068100; 3642762758110730500; -3591182640396406000; 1477614641806727400; 1477614641806727400; -3591182640396406000; 3642762758110730500; -1557772979377068100; -1519548087665878500; 3822770339091649500; -3937521707226275500; 1635048183559765000; 1924351818143815700; -4802382253689016000; 5429000161378429000; -3608145366419910500];
  [4673097595438579000; -5555803139913008000; 3066195532786935800; 969904353780411100; -3831736454607647000; 3822770339091649500; -1246117768769071200; -2007461368954067600; 3790792529466053400; -3038908942012052600; 336171537718550450; 2539380369106576300; -3753144943335908000; 2539380369106576300; 336171537718550450; -3038908942012052600; 3790792529466053400; -2007461368954067600; -1246117768769071200; 3822770339091649500; -3831736454607647000; 969904353780411100; 3066195532786935800; -5555803139913008000; 4673097595438579000];
  [-5585419940279951000; 4837115559086600000; -589159182562042600; -3352769397781691000; 4077841448577397000; -1519548087665878500; -2007461368954067600; 3807949509798176600; -2713477165544653000; -308655614976993940; 3024385525866823000; -3536774251023544500; 1539563802171607800; 1539563802171607800; -3536774251023544500; 3024385525866823000; -308655614976993940; -2713477165544653000; 3807949509798176600; -2007461368954067600; -1519548087665878500; 4077841448577397000; -3352769397781691000; -589159182562042600; 4837115559086600000; -5585419940279951000];
  [6201472972293868000; -3300307057717762000; -1973771137680790000; 4340564707727172000; -2334449861508459300; -1557772979377068100; 3790792529466053400; -2713477165544653000; -513406118699623600; 3201673832739309500; -3306701265073660000; 860168393953378600; 2208064880231568400; -3570762718433615000; 2208064880231568400; 860168393953378600; -3306701265073660000; 3201673832739309500; -513406118699623600; -2713477165544653000; 3790792529466053400; -1557772979377068100; -2334449861508459300; 4340564707727172000; -1973771137680790000; -3300307057717762000; 6201472972293868000];
  [-6419134373058690000; 1171968231927008800; 3892975414086468000; -3574003564221639500; -502635215549569900; 3642762758110730500; -3038908942012052600; -308655614976993940; 3201673832739309500; -3216431021499327000; 526862899442405900; 2529479706979020200; -3465307055560398000; 1579440720512491000; 1579440720512491000; -3465307055560398000; 2529479706979020200; 526862899442405900; -3216431021499327000; 3201673832739309500; -308655614976993940; -3038908942012052600; 3642762758110730500; -502635215549569900; -3574003564221639500; 3892975414086468000; 1171968231927008800; -6419134373058690000];
  [6201472972293868000; 1171968231927008800; -4603399829904926000; 1374566549412193200; 3039280995849173700; -3591182640396406000; 336171537718550450; 3024385525866823000; -3306701265073660000; 526862899442405900; 2623466391785866600; -3380748189477056000; 1199406134328838000; 1978955738340553000; -3449684521604605000; 1978955738340553000; 1199406134328838000; -3380748189477056000; 2623466391785866600; 526862899442405900; -3306701265073660000; 3024385525866823000; 336171537718550450; -3591182640396406000; 3039280995849173700; 1374566549412193200; -4603399829904926000; 1171968231927008800; 6201472972293868000];
  [-5585419940279951000; -3300307057717762000; 3892975414086468000; 1374566549412193200; -4046614353087303600; 1477614641806727400; 2539380369106576300; -3536774251023544500; 860168393953378600; 2529479706979020200; -3380748189477056000; 1073477510358890900; 2154761290740908000; -3397716162642046000; 1605740757832031000; 1605740757832031000; -3397716162642046000; 2154761290740908000; 1073477510358890900; -3380748189477056000; 2529479706979020200; 860168393953378600; -3536774251023544500; 2539380369106576300; 1477614641806727400; -4046614353087303600; 1374566549412193200; 3892975414086468000; -3300307057717762000; -5585419940279951000];
  [4673097595438579000; 4837115559086600000; -1973771137680790000; -3574003564221639500; 3039280995849173700; 1477614641806727400; -3753144943335908000; 1539563802171607800; 2208064880231568400; -3465307055560398000; 1199406134328838000; 2154761290740908000; -3374133001927757000; 1419711098215965500; 1820738877970262300; -3368230229363357000; 1820738877970262300; 1419711098215965500; -3374133001927757000; 2154761290740908000; 1199406134328838000; -3465307055560398000; 2208064880231568400; 1539563802171607800; -3753144943335908000; 1477614641806727400; 3039280995849173700; -3574003564221639500; -1973771137680790000; 4837115559086600000; 4673097595438579000];
  [-3608145366419910500; -5555803139913008000; -589159182562042600; 4340564707727172000; -502635215549569900; -3591182640396406000; 2539380369106576300; 1539563802171607800; -3570762718433615000; 1579440720512491000; 1978955738340553000; -3397716162642046000; 1419711098215965500; 1887732876323164300; -3342967036216636000; 1622853931317354300; 1622853931317354300; -3342967036216636000; 1887732876323164300; 1419711098215965500; -3397716162642046000; 1978955738340553000; 1579440720512491000; -3570762718433615000; 1539563802171607800; 2539380369106576300; -3591182640396406000; -502635215549569900; 4340564707727172000; -589159182562042600; -5555803139913008000; -3608145366419910500];
  [2543408285537412200; 5429000161378429000; 3066195532786935800; -3352769397781691000; -2334449861508459300; 3642762758110730500; 336171537718550450; -3536774251023544500; 2208064880231568400; 1579440720512491000; -3449684521604605000; 1605740757832031000; 1820738877970262300; -3342967036216636000; 1557489120233218600; 1716643375421933800; -3315516018003377600; 1716643375421933800; 1557489120233218600; -3342967036216636000; 1820738877970262300; 1605740757832031000; -3449684521604605000; 1579440720512491000; 2208064880231568400; -3536774251023544500; 336171537718550450; 3642762758110730500; -2334449861508459300; -3352769397781691000; 3066195532786935800; 5429000161378429000; 2543408285537412200];
  [-1608592640408423500; -4620330597793104000; -4802382253689016000; 969904353780411100; 4077841448577397000; -1557772979377068100; -3038908942012052600; 3024385525866823000; 860168393953378600; -3465307055560398000; 1978955738340553000; 1605740757832031000; -3368230229363357000; 1622853931317354300; 1716643375421933800; -3305065495298050600; 1633197273318100200; 1633197273318100200; -3305065495298050600; 1716643375421933800; 1622853931317354300; -3368230229363357000; 1605740757832031000; 1978955738340553000; -3465307055560398000; 860168393953378600; 3024385525866823000; -3038908942012052600; -1557772979377068100; 4077841448577397000; 969904353780411100; -4802382253689016000; -4620330597793104000; -1608592640408423500];
  [886291378312645800; 3422480999330937400; 5422841339019883000; 1924351818143815700; -3831736454607647000; -1519548087665878500; 3790792529466053400; -308655614976993940; -3306701265073660000; 2529479706979020200; 1199406134328838000; -3397716162642046000; 1820738877970262300; 1622853931317354300; -3315516018003377600; 1633197273318100200; 1657350627379780200; -3285779847665091000; 1657350627379780200; 1633197273318100200; -3315516018003377600; 1622853931317354300; 1820738877970262300; -3397716162642046000; 1199406134328838000; 2529479706979020200; -3306701265073660000; -308655614976993940; 3790792529466053400; -1519548087665878500; -3831736454607647000; 1924351818143815700; 5422841339019883000; 3422480999330937400; 886291378312645800];
  [-402148160102105900; -2162965437653512800; -4931818185098251000; -4290306983665025000; 1635048183559765000; 3822770339091649500; -2007461368954067600; -2713477165544653000; 3201673832739309500; 526862899442405900; -3380748189477056000; 2154761290740908000; 1419711098215965500; -3342967036216636000; 1716643375421933800; 1633197273318100200; -3285779847665091000; 1638079108456759500; 1638079108456759500; -3285779847665091000; 1633197273318100200; 1716643375421933800; -3342967036216636000; 1419711098215965500; 2154761290740908000; -3380748189477056000; 526862899442405900; 3201673832739309500; -2713477165544653000; -2007461368954067600; 3822770339091649500; 1635048183559765000; -4290306983665025000; -4931818185098251000; -2162965437653512800; -402148160102105900];
  [130474092073770070; 1109029782627045600; 3671913734076100000; 5358757353029842000; 1547049948874702200; -3937521707226275500; -1246117768769071200; 3807949509798176600; -513406118699623600; -3216431021499327000; 2623466391785866600; 1073477510358890900; -3374133001927757000; 1887732876323164300; 1557489120233218600; -3305065495298050600; 1657350627379780200; 1638079108456759500; -3276158216913519000; 1638079108456759500; 1657350627379780200; -3305065495298050600; 1557489120233218600; 1887732876323164300; -3374133001927757000; 1073477510358890900; 2623466391785866600; -3216431021499327000; -513406118699623600; 3807949509798176600; -1246117768769071200; -3937521707226275500; 1547049948874702200; 5358757353029842000; 3671913734076100000; 1109029782627045600; 130474092073770070];
  [-402148160102105900; -2162965437653512800; -4931818185098251000; -4290306983665025000; 1635048183559765000; 3822770339091649500; -2007461368954067600; -2713477165544653000; 3201673832739309500; 526862899442405900; -3380748189477056000; 2154761290740908000; 1419711098215965500; -3342967036216636000; 1716643375421933800; 1633197273318100200; -3285779847665091000; 1638079108456759500; 1638079108456759500; -3285779847665091000; 1633197273318100200; 1716643375421933800; -3342967036216636000; 1419711098215965500; 2154761290740908000; -3380748189477056000; 526862899442405900; 3201673832739309500; -2713477165544653000; -2007461368954067600; 3822770339091649500; 1635048183559765000; -4290306983665025000; -4931818185098251000; -2162965437653512800; -402148160102105900];
  [886291378312645800; 3422480999330937400; 5422841339019883000; 1924351818143815700; -3831736454607647000; -1519548087665878500; 3790792529466053400; -308655614976993940; -3306701265073660000; 2529479706979020200; 1199406134328838000; -3397716162642046000; 1820738877970262300; 1622853931317354300; -3315516018003377600; 1633197273318100200; 1657350627379780200; -3285779847665091000; 1657350627379780200; 1633197273318100200; -3315516018003377600; 1622853931317354300; 1820738877970262300; -3397716162642046000; 1199406134328838000; 2529479706979020200; -3306701265073660000; -308655614976993940; 3790792529466053400; -1519548087665878500; -3831736454607647000; 1924351818143815700; 5422841339019883000; 3422480999330937400; 886291378312645800];
  [-1608592640408423500; -4620330597793104000; -4802382253689016000; 969904353780411100; 4077841448577397000; -1557772979377068100; -3038908942012052600; 3024385525866823000; 860168393953378600; -3465307055560398000; 1978955738340553000; 1605740757832031000; -3368230229363357000; 1622853931317354300; 1716643375421933800; -3305065495298050600; 1633197273318100200; 1633197273318100200; -3305065495298050600; 1716643375421933800; 1622853931317354300; -3368230229363357000; 1605740757832031000; 1978955738340553000; -3465307055560398000; 860168393953378600; 3024385525866823000; -3038908942012052600; -1557772979377068100; 4077841448577397000; 969904353780411100; -4802382253689016000; -4620330597793104000; -1608592640408423500];
  [2543408285537412200; 5429000161378429000; 3066195532786935800; -3352769397781691000; -2334449861508459300; 3642762758110730500; 336171537718550450; -3536774251023544500; 2208064880231568400; 1579440720512491000; -3449684521604605000; 1605740757832031000; 1820738877970262300; -3342967036216636000; 1557489120233218600; 1716643375421933800; -3315516018003377600; 1716643375421933800; 1557489120233218600; -3342967036216636000; 1820738877970262300; 1605740757832031000; -3449684521604605000; 1579440720512491000; 2208064880231568400; -3536774251023544500; 336171537718550450; 3642762758110730500; -2334449861508459300; -3352769397781691000; 3066195532786935800; 5429000161378429000; 2543408285537412200];
  [-3608145366419910500; -5555803139913008000; -589159182562042600; 4340564707727172000; -502635215549569900; -3591182640396406000; 2539380369106576300; 1539563802171607800; -3570762718433615000; 1579440720512491000; 1978955738340553000; -3397716162642046000; 1419711098215965500; 1887732876323164300; -3342967036216636000; 1622853931317354300; 1622853931317354300; -3342967036216636000; 1887732876323164300; 1419711098215965500; -3397716162642046000; 1978955738340553000; 1579440720512491000; -3570762718433615000; 1539563802171607800; 2539380369106576300; -3591182640396406000; -502635215549569900; 4340564707727172000; -589159182562042600; -5555803139913008000; -3608145366419910500];
  [4673097595438579000; 4837115559086600000; -1973771137680790000; -3574003564221639500; 3039280995849173700; 1477614641806727400; -3753144943335908000; 1539563802171607800; 2208064880231568400; -3465307055560398000; 1199406134328838000; 2154761290740908000; -3374133001927757000; 1419711098215965500; 1820738877970262300; -3368230229363357000; 1820738877970262300; 1419711098215965500; -3374133001927757000; 2154761290740908000; 1199406134328838000; -3465307055560398000; 2208064880231568400; 1539563802171607800; -3753144943335908000; 1477614641806727400; 3039280995849173700; -3574003564221639500; -1973771137680790000; 4837115559086600000; 4673097595438579000];
  [-5585419940279951000; -3300307057717762000; 3892975414086468000; 1374566549412193200; -4046614353087303600; 1477614641806727400; 2539380369106576300; -3536774251023544500; 860168393953378600; 2529479706979020200; -3380748189477056000; 1073477510358890900; 2154761290740908000; -3397716162642046000; 1605740757832031000; 1605740757832031000; -3397716162642046000; 2154761290740908000; 1073477510358890900; -3380748189477056000; 2529479706979020200; 860168393953378600; -3536774251023544500; 2539380369106576300; 1477614641806727400; -4046614353087303600; 1374566549412193200; 3892975414086468000; -3300307057717762000; -5585419940279951000];
  [6201472972293868000; 1171968231927008800; -4603399829904926000; 1374566549412193200; 3039280995849173700; -3591182640396406000; 336171537718550450; 3024385525866823000; -3306701265073660000; 526862899442405900; 2623466391785866600; -3380748189477056000; 1199406134328838000; 1978955738340553000; -3449684521604605000; 1978955738340553000; 1199406134328838000; -3380748189477056000; 2623466391785866600; 526862899442405900; -3306701265073660000; 3024385525866823000; 336171537718550450; -3591182640396406000; 3039280995849173700; 1374566549412193200; -4603399829904926000; 1171968231927008800; 6201472972293868000];
  [-6419134373058690000; 1171968231927008800; 3892975414086468000; -3574003564221639500; -502635215549569900; 3642762758110730500; -3038908942012052600; -308655614976993940; 3201673832739309500; -3216431021499327000; 526862899442405900; 2529479706979020200; -3465307055560398000; 1579440720512491000; 1579440720512491000; -3465307055560398000; 2529479706979020200; 526862899442405900; -3216431021499327000; 3201673832739309500; -308655614976993940; -3038908942012052600; 3642762758110730500; -502635215549569900; -3574003564221639500; 3892975414086468000; 1171968231927008800; -6419134373058690000];
  [6201472972293868000; -3300307057717762000; -1973771137680790000; 4340564707727172000; -2334449861508459300; -1557772979377068100; 3790792529466053400; -2713477165544653000; -513406118699623600; 3201673832739309500; -3306701265073660000; 860168393953378600; 2208064880231568400; -3570762718433615000; 2208064880231568400; 860168393953378600; -3306701265073660000; 3201673832739309500; -513406118699623600; -2713477165544653000; 3790792529466053400; -1557772979377068100; -2334449861508459300; 4340564707727172000; -1973771137680790000; -3300307057717762000; 6201472972293868000];
  [-5585419940279951000; 4837115559086600000; -589159182562042600; -3352769397781691000; 4077841448577397000; -1519548087665878500; -2007461368954067600; 3807949509798176600; -2713477165544653000; -308655614976993940; 3024385525866823000; -3536774251023544500; 1539563802171607800; 1539563802171607800; -3536774251023544500; 3024385525866823000; -308655614976993940; -2713477165544653000; 3807949509798176600; -2007461368954067600; -1519548087665878500; 4077841448577397000; -3352769397781691000; -589159182562042600; 4837115559086600000; -5585419940279951000];
  [4673097595438579000; -5555803139913008000; 3066195532786935800; 969904353780411100; -3831736454607647000; 3822770339091649500; -1246117768769071200; -2007461368954067600; 3790792529466053400; -3038908942012052600; 336171537718550450; 2539380369106576300; -3753144943335908000; 2539380369106576300; 336171537718550450; -3038908942012052600; 3790792529466053400; -2007461368954067600; -1246117768769071200; 3822770339091649500; -3831736454607647000; 969904353780411100; 3066195532786935800; -5555803139913008000; 4673097595438579000];
  [-3608145366419910500; 5429000161378429000; -4802382253689016000; 1924351818143815700; 1635048183559765000; -3937521707226275500; 3822770339091649500; -1519548087665878500; -1557772979377068100; 3642762758110730500; -3591182640396406000; 1477614641806727400; 1477614641806727400; -3591182640396406000; 3642762758110730500; -1557772979377068100; -1519548087665878500; 3822770339091649500; -3937521707226275500; 1635048183559765000; 1924351818143815700; -4802382253689016000; 5429000161378429000; -3608145366419910500];
  [2543408285537412200; -4620330597793104000; 5422841339019883000; -4290306983665025000; 1547049948874702200; 1635048183559765000; -3831736454607647000; 4077841448577397000; -2334449861508459300; -502635215549569900; 3039280995849173700; -4046614353087303600; 3039280995849173700; -502635215549569900; -2334449861508459300; 4077841448577397000; -3831736454607647000; 1635048183559765000; 1547049948874702200; -4290306983665025000; 5422841339019883000; -4620330597793104000; 2543408285537412200];
  [-1608592640408423500; 3422480999330937400; -4931818185098251000; 5358757353029842000; -4290306983665025000; 1924351818143815700; 969904353780411100; -3352769397781691000; 4340564707727172000; -3574003564221639500; 1374566549412193200; 1374566549412193200; -3574003564221639500; 4340564707727172000; -3352769397781691000; 969904353780411100; 1924351818143815700; -4290306983665025000; 5358757353029842000; -4931818185098251000; 3422480999330937400; -1608592640408423500];
  [886291378312645800; -2162965437653512800; 3671913734076100000; -4931818185098251000; 5422841339019883000; -4802382253689016000; 3066195532786935800; -589159182562042600; -1973771137680790000; 3892975414086468000; -4603399829904926000; 3892975414086468000; -1973771137680790000; -589159182562042600; 3066195532786935800; -4802382253689016000; 5422841339019883000; -4931818185098251000; 3671913734076100000; -2162965437653512800; 886291378312645800];
  [-402148160102105900; 1109029782627045600; -2162965437653512800; 3422480999330937400; -4620330597793104000; 5429000161378429000; -5555803139913008000; 4837115559086600000; -3300307057717762000; 1171968231927008800; 1171968231927008800; -3300307057717762000; 4837115559086600000; -5555803139913008000; 5429000161378429000; -4620330597793104000; 3422480999330937400; -2162965437653512800; 1109029782627045600; -402148160102105900];
  [130474092073770070; -402148160102105900; 886291378312645800; -1608592640408423500; 2543408285537412200; -3608145366419910500; 4673097595438579000; -5585419940279951000; 6201472972293868000; -6419134373058690000; 6201472972293868000; -5585419940279951000; 4673097595438579000; -3608145366419910500; 2543408285537412200; -1608592640408423500; 886291378312645800; -402148160102105900; 130474092073770070]].
(* Wigner3j.cc:4368-5509 *)
Definition w3j_19 : list (list Z) := [
  [97810924877149520; -309305302659417500; 699064753174828300; -1300892257527777600; 2109119662282997000; -3069219933409357200; 4080650850415323000; -5012608406688618000; 5729417138265093000; -6119330630674403600; 6119330630674403600; -5729417138265093000; 5012608406688618000; -4080650850415323000; 3069219933409357200; -2109119662282997000; 1300892257527777600; -699064753174828300; 309305302659417500; -97810924877149520];
  [-309305302659417500; 880298323894345600; -1773181905791168200; 2902654639455120800; -4066496096739570000; 4985842581654878500; -5378327012504151000; 5042181574222642000; -3924277692885753000; 2149415414307857800; 0; -2149415414307857800; 3924277692885753000; -5042181574222642000; 5378327012504151000; -4985842581654878500; 4066496096739570000; -2902654639455120800; 1773181905791168200; -880298323894345600; 309305302659417500];
  [699064753174828300; -1773181905791168200; 3137880211599364000; -4418178582513785000; 5149493595840834400; -4954988389892809000; 3707085620620460000; -1608303714920613000; -843654133574013000; 2998373599114278000; -4255038540725863000; 4255038540725863000; -2998373599114278000; 843654133574013000; 1608303714920613000; -3707085620620460000; 4954988389892809000; -5149493595840834400; 4418178582513785000; -3137880211599364000; 1773181905791168200; -699064753174828300];
  [-1300892257527777600; 2902654639455120800; -4418178582513785000; 5149613017856412000; -4603502774374157400; 2760093480082734300; -133884199470114690; -2402466065403757700; 3955899720567498000; -3970416239623425500; 2456647646900309400; 0; -2456647646900309400; 3970416239623425500; -3955899720567498000; 2402466065403757700; 133884199470114690; -2760093480082734300; 4603502774374157400; -5149613017856412000; 4418178582513785000; -2902654639455120800; 1300892257527777600];
  [2109119662282997000; -4066496096739570000; 5149493595840834400; -4603502774374157400; 2434698967887965000; 537516607951733200; -3063579431833898000; 4064438525125160000; -3145989219716722000; 784102077086435700; 1897272817329680500; -3643797312453839000; 3643797312453839000; -1897272817329680500; -784102077086435700; 3145989219716722000; -4064438525125160000; 3063579431833898000; -537516607951733200; -2434698967887965000; 4603502774374157400; -5149493595840834400; 4066496096739570000; -2109119662282997000];
  [-3069219933409357200; 4985842581654878500; -4954988389892809000; 2760093480082734300; 537516607951733200; -3238334674986706500; 3988161386986895000; -2511890236743878300; -280425778002324000; 2823703319891857000; -3746432342742005000; 2584165485810193200; 0; -2584165485810193200; 3746432342742005000; -2823703319891857000; 280425778002324000; 2511890236743878300; -3988161386986895000; 3238334674986706500; -537516607951733200; -2760093480082734300; 4954988389892809000; -4985842581654878500; 3069219933409357200];
  [4080650850415323000; -5378327012504151000; 3707085620620460000; -133884199470114690; -3063579431833898000; 3988161386986895000; -2286660811317144000; -771261138115314100; 3196622343172400000; -3522086909726457000; 1634369757191148000; 1236870551406125800; -3305675596537063000; 3305675596537063000; -1236870551406125800; -1634369757191148000; 3522086909726457000; -3196622343172400000; 771261138115314100; 2286660811317144000; -3988161386986895000; 3063579431833898000; 133884199470114690; -3707085620620460000; 5378327012504151000; -4080650850415323000];
  [-5012608406688618000; 5042181574222642000; -1608303714920613000; -2402466065403757700; 4064438525125160000; -2511890236743878300; -771261138115314100; 3291205445190572000; -3341006660469944500; 1041520679143347800; 1912677179646862400; -3484488030230979000; 2644540477229650700; 0; -2644540477229650700; 3484488030230979000; -1912677179646862400; -1041520679143347800; 3341006660469944500; -3291205445190572000; 771261138115314100; 2511890236743878300; -4064438525125160000; 2402466065403757700; 1608303714920613000; -5042181574222642000; 5012608406688618000];
  [5729417138265093000; -3924277692885753000; -843654133574013000; 3955899720567498000; -3145989219716722000; -280425778002324000; 3196622343172400000; -3341006660469944500; 844440003135111600; 2200205129024406300; -3475096492554382400; 2113073952454542000; 796554760265960300; -3087327692376608600; 3087327692376608600; -796554760265960300; -2113073952454542000; 3475096492554382400; -2200205129024406300; -844440003135111600; 3341006660469944500; -3196622343172400000; 280425778002324000; 3145989219716722000; -3955899720567498000; 843654133574013000; 3924277692885753000; -5729417138265093000];
  [-6119330630674403600; 2149415414307857800; 2998373599114278000; -3970416239623425500; 784102077086435700; 2823703319891857000; -3522086909726457000; 1041520679143347800; 2200205129024406300; -3454635817925582000; 1831551039344182400; 1224634033819354400; -3244702397283322000; 2673704211405331400; 0; -2673704211405331400; 3244702397283322000; -1224634033819354400; -1831551039344182400; 3454635817925582000; -2200205129024406300; -1041520679143347800; 3522086909726457000; -2823703319891857000; -784102077086435700; 3970416239623425500; -2998373599114278000; -2149415414307857800; 6119330630674403600];
  [6119330630674403600; 0; -4255038540725863000; 2456647646900309400; 1897272817329680500; -3746432342742005000; 1634369757191148000; 1912677179646862400; -3475096492554382400; 1831551039344182400; 1358053953034912500; -3285684871811529000; 2390347160772400200; 491068076403457150; -2937300527948040000; 2937300527948040000; -491068076403457150; -2390347160772400200; 3285684871811529000; -1358053953034912500; -1831551039344182400; 3475096492554382400; -1912677179646862400; -1634369757191148000; 3746432342742005000; -1897272817329680500; -2456647646900309400; 4255038540725863000; 0; -6119330630674403600];
  [-5729417138265093000; -2149415414307857800; 4255038540725863000; 0; -3643797312453839000; 2584165485810193200; 1236870551406125800; -3484488030230979000; 2113073952454542000; 1224634033819354400; -3285684871811529000; 2291521511158467000; 721864314707975600; -3045186288978191800; 2687199018827110200; 0; -2687199018827110200; 3045186288978191800; -721864314707975600; -2291521511158467000; 3285684871811529000; -1224634033819354400; -2113073952454542000; 3484488030230979000; -1236870551406125800; -2584165485810193200; 3643797312453839000; 0; -4255038540725863000; 2149415414307857800; 5729417138265093000];
  [5012608406688618000; 3924277692885753000; -2998373599114278000; -2456647646900309400; 3643797312453839000; 0; -3305675596537063000; 2644540477229650700; 796554760265960300; -3244702397283322000; 2390347160772400200; 721864314707975600; -3073284068971255200; 2551881899941798500; 277903506640438460; -2832556475221119400; 2832556475221119400; -277903506640438460; -2551881899941798500; 3073284068971255200; -721864314707975600; -2390347160772400200; 3244702397283322000; -796554760265960300; -2644540477229650700; 3305675596537063000; 0; -3643797312453839000; 2456647646900309400; 2998373599114278000; -3924277692885753000; -5012608406688618000];
  [-4080650850415323000; -5042181574222642000; 843654133574013000; 3970416239623425500; -1897272817329680500; -2584165485810193200; 3305675596537063000; 0; -3087327692376608600; 2673704211405331400; 491068076403457150; -3045186288978191800; 2551881899941798500; 367494490634765300; -2890674305960421000; 2692781572145533400; 0; -2692781572145533400; 2890674305960421000; -367494490634765300; -2551881899941798500; 3045186288978191800; -491068076403457150; -2673704211405331400; 3087327692376608600; 0; -3305675596537063000; 2584165485810193200; 1897272817329680500; -3970416239623425500; -843654133574013000; 5042181574222642000; 4080650850415323000];
  [3069219933409357200; 5378327012504151000; 1608303714920613000; -3955899720567498000; -784102077086435700; 3746432342742005000; -1236870551406125800; -2644540477229650700; 3087327692376608600; 0; -2937300527948040000; 2687199018827110200; 277903506640438460; -2890674305960421000; 2644519177705076000; 133258128475464630; -2761156442541244600; 2761156442541244600; -133258128475464630; -2644519177705076000; 2890674305960421000; -277903506640438460; -2687199018827110200; 2937300527948040000; 0; -3087327692376608600; 2644540477229650700; 1236870551406125800; -3746432342742005000; 784102077086435700; 3955899720567498000; -1608303714920613000; -5378327012504151000; -3069219933409357200];
  [-2109119662282997000; -4985842581654878500; -3707085620620460000; 2402466065403757700; 3145989219716722000; -2823703319891857000; -1634369757191148000; 3484488030230979000; -796554760265960300; -2673704211405331400; 2937300527948040000; 0; -2832556475221119400; 2692781572145533400; 133258128475464630; -2781428889902341400; 2694612773698313000; 0; -2694612773698313000; 2781428889902341400; -133258128475464630; -2692781572145533400; 2832556475221119400; 0; -2937300527948040000; 2673704211405331400; 796554760265960300; -3484488030230979000; 1634369757191148000; 2823703319891857000; -3145989219716722000; -2402466065403757700; 3707085620620460000; 4985842581654878500; 2109119662282997000];
  [1300892257527777600; 4066496096739570000; 4954988389892809000; 133884199470114690; -4064438525125160000; 280425778002324000; 3522086909726457000; -1912677179646862400; -2113073952454542000; 3244702397283322000; -491068076403457150; -2687199018827110200; 2832556475221119400; 0; -2761156442541244600; 2694612773698313000; 43234645957031215; -2716490909036265000; 2716490909036265000; -43234645957031215; -2694612773698313000; 2761156442541244600; 0; -2832556475221119400; 2687199018827110200; 491068076403457150; -3244702397283322000; 2113073952454542000; 1912677179646862400; -3522086909726457000; -280425778002324000; 4064438525125160000; -133884199470114690; -4954988389892809000; -4066496096739570000; -1300892257527777600];
  [-699064753174828300; -2902654639455120800; -5149493595840834400; -2760093480082734300; 3063579431833898000; 2511890236743878300; -3196622343172400000; -1041520679143347800; 3475096492554382400; -1224634033819354400; -2390347160772400200; 3045186288978191800; -277903506640438460; -2692781572145533400; 2761156442541244600; 0; -2716490909036265000; 2694959597988279000; 0; -2694959597988279000; 2716490909036265000; 0; -2761156442541244600; 2692781572145533400; 277903506640438460; -3045186288978191800; 2390347160772400200; 1224634033819354400; -3475096492554382400; 1041520679143347800; 3196622343172400000; -2511890236743878300; -3063579431833898000; 2760093480082734300; 5149493595840834400; 2902654639455120800; 699064753174828300];
  [309305302659417500; 1773181905791168200; 4418178582513785000; 4603502774374157400; -537516607951733200; -3988161386986895000; 771261138115314100; 3341006660469944500; -2200205129024406300; -1831551039344182400; 3285684871811529000; -721864314707975600; -2551881899941798500; 2890674305960421000; -133258128475464630; -2694612773698313000; 2716490909036265000; 0; -2694959597988279000; 2694959597988279000; 0; -2716490909036265000; 2694612773698313000; 133258128475464630; -2890674305960421000; 2551881899941798500; 721864314707975600; -3285684871811529000; 1831551039344182400; 2200205129024406300; -3341006660469944500; -771261138115314100; 3988161386986895000; 537516607951733200; -4603502774374157400; -4418178582513785000; -1773181905791168200; -309305302659417500];
  [-97810924877149520; -880298323894345600; -3137880211599364000; -5149613017856412000; -2434698967887965000; 3238334674986706500; 2286660811317144000; -3291205445190572000; -844440003135111600; 3454635817925582000; -1358053953034912500; -2291521511158467000; 3073284068971255200; -367494490634765300; -2644519177705076000; 2781428889902341400; -43234645957031215; -2694959597988279000; 2694959597988279000; 0; -2694959597988279000; 2694959597988279000; 43234645957031215; -2781428889902341400; 2644519177705076000; 367494490634765300; -3073284068971255200; 2291521511158467000; 1358053953034912500; -3454635817925582000; 844440003135111600; 3291205445190572000; -2286660811317144000; -3238334674986706500; 2434698967887965000; 5149613017856412000; 3137880211599364000; 880298323894345600; 97810924877149520];
  [309305302659417500; 1773181905791168200; 4418178582513785000; 4603502774374157400; -537516607951733200; -3988161386986895000; 771261138115314100; 3341006660469944500; -2200205129024406300; -1831551039344182400; 3285684871811529000; -721864314707975600; -2551881899941798500; 2890674305960421000; -133258128475464630; -2694612773698313000; 2716490909036265000; 0; -2694959597988279000; 2694959597988279000; 0; -2716490909036265000; 2694612773698313000; 133258128475464630; -2890674305960421000; 2551881899941798500; 721864314707975600; -3285684871811529000; 1831551039344182400; 2200205129024406300; -3341006660469944500; -771261138115314100; 3988161386986895000; 537516607951733200; -4603502774374157400; -4418178582513785000; -1773181905791168200; -309305302659417500];
  [-699064753174828300; -2902654639455120800; -5149493595840834400; -2760093480082734300; 3063579431833898000; 2511890236743878300; -3196622343172400000; -1041520679143347800; 3475096492554382400; -1224634033819354400; -2390347160772400200; 3045186288978191800; -277903506640438460; -2692781572145533400; 2761156442541244600; 0; -2716490909036265000; 2694959597988279000; 0; -2694959597988279000; 2716490909036265000; 0; -2761156442541244600; 2692781572145533400; 277903506640438460; -3045186288978191800; 2390347160772400200; 1224634033819354400; -3475096492554382400; 1041520679143347800; 3196622343172400000; -2511890236743878300; -3063579431833898000; 2760093480082734300; 5149493595840834400; 2902654639455120800; 699064753174828300];
  [1300892257527777600; 4066496096739570000; 4954988389892809000; 133884199470114690; -4064438525125160000; 280425778002324000; 3522086909726457000; -1912677179646862400; -2113073952454542000; 3244702397283322000; -491068076403457150; -2687199018827110200; 2832556475221119400; 0; -2761156442541244600; 2694612773698313000; 43234645957031215; -2716490909036265000; 2716490909036265000; -43234645957031215; -2694612773698313000; 2761156442541244600; 0; -2832556475221119400; 2687199018827110200; 491068076403457150; -3244702397283322000; 2113073952454542000; 1912677179646862400; -3522086909726457000; -280425778002324000; 4064438525125160000; -133884199470114690; -4954988389892809000; -4066496096739570000; -1300892257527777600];
  [-2109119662282997000; -4985842581654878500; -3707085620620460000; 2402466065403757700; 3145989219716722000; -2823703319891857000; -1634369757191148000; 3484488030230979000; -796554760265960300; -2673704211405331400; 2937300527948040000; 0; -2832556475221119400; 2692781572145533400; 133258128475464630; -2781428889902341400; 2694612773698313000; 0; -2694612773698313000; 2781428889902341400; -133258128475464630; -2692781572145533400; 2832556475221119400; 0; -2937300527948040000; 2673704211405331400; 796554760265960300; -3484488030230979000; 1634369757191148000; 2823703319891857000; -3145989219716722000; -2402466065403757700; 3707085620620460000; 4985842581654878500; 2109119662282997000];
  [3069219933409357200; 5378327012504151000; 1608303714920613000; -3955899720567498000; -784102077086435700; 3746432342742005000; -1236870551406125800; -2644540477229650700; 3087327692376608600; 0; -2937300527948040000; 2687199018827110200; 277903506640438460; -2890674305960421000; 2644519177705076000; 133258128475464630; -2761156442541244600; 2761156442541244600; -133258128475464630; -2644519177705076000; 2890674305960421000; -277903506640438460; -2687199018827110200; 2937300527948040000; 0; -3087327692376608600; 2644540477229650700; 1236870551406125800; -3746432342742005000; 784102077086435700; 3955899720567498000; -1608303714920613000; -5378327012504151000; -3069219933409357200];
  [-4080650850415323000; -5042181574222642000; 843654133574013000; 3970416239623425500; -1897272817329680500; -2584165485810193200; 3305675596537063000; 0; -3087327692376608600; 2673704211405331400; 491068076403457150; -3045186288978191800; 2551881899941798500; 367494490634765300; -2890674305960421000; 2692781572145533400; 0; -2692781572145533400; 2890674305960421000; -367494490634765300; -2551881899941798500; 3045186288978191800; -491068076403457150; -2673704211405331400; 3087327692376608600; 0; -3305675596537063000; 2584165485810193200; 1897272817329680500; -3970416239623425500; -843654133574013000; 5042181574222642000; 4080650850415323000];
  [5012608406688618000; 3924277692885753000; -2998373599114278000; -2456647646900309400; 3643797312453839000; 0; -3305675596537063000; 2644540477229650700; 796554760265960300; -3244702397283322000; 2390347160772400200; 721864314707975600; -3073284068971255200; 2551881899941798500; 277903506640438460; -2832556475221119400; 2832556475221119400; -277903506640438460; -2551881899941798500; 3073284068971255200; -721864314707975600; -2390347160772400200; 3244702397283322000; -796554760265960300; -2644540477229650700; 3305675596537063000; 0; -3643797312453839000; 2456647646900309400; 2998373599114278000; -3924277692885753000; -5012608406688618000];
  [-5729417138265093000; -2149415414307857800; 4255038540725863000; 0; -3643797312453839000; 2584165485810193200; 1236870551406125800; -3484488030230979000; 2113073952454542000; 1224634033819354400; -3285684871811529000; 2291521511158467000; 721864314707975600; -3045186288978191800; 2687199018827110200; 0; -2687199018827110200; 3045186288978191800; -721864314707975600; -2291521511158467000; 3285684871811529000; -1224634033819354400; -2113073952454542000; 3484488030230979000; -1236870551406125800; -2584165485810193200; 3643797312453839000; 0; -4255038540725863000; 2149415414307857800; 5729417138265093000];
  [6119330630674403600; 0; -4255038540725863000; 2456647646900309400; 1897272817329680500; -3746432342742005000; 1634369757191148000; 1912677179646862400; -3475096492554382400; 1831551039344182400; 1358053953034912500; -3285684871811529000; 2390347160772400200; 491068076403457150; -2937300527948040000; 2937300527948040000; -491068076403457150; -2390347160772400200; 3285684871811529000; -1358053953034912500; -1831551039344182400; 3475096492554382400; -1912677179646862400; -1634369757191148000; 3746432342742005000; -1897272817329680500; -2456647646900309400; 4255038540725863000; 0; -6119330630674403600];
  [-6119330630674403600; 2149415414307857800; 2998373599114278000; -3970416239623425500; 784102077086435700; 2823703319891857000; -3522086909726457000; 1041520679143347800; 2200205129024406300; -3454635817925582000; 1831551039344182400; 1224634033819354400; -3244702397283322000; 2673704211405331400; 0; -2673704211405331400; 3244702397283322000; -1224634033819354400; -1831551039344182400; 3454635817925582000; -2200205129024406300; -1041520679143347800; 3522086909726457000; -2823703319891857000; -784102077086435700; 3970416239623425500; -2998373599114278000; -2149415414307857800; 6119330630674403600];
  [5729417138265093000; -3924277692885753000; -843654133574013000; 3955899720567498000; -3145989219716722000; -280425778002324000; 3196622343172400000; -3341006660469944500; 844440003135111600; 2200205129024406300; -3475096492554382400; 2113073952454542000; 796554760265960300; -3087327692376608600; 3087327692376608600; -796554760265960300; -2113073952454542000; 3475096492554382400; -2200205129024406300; -844440003135111600; 3341006660469944500; -3196622343172400000; 280425778002324000; 3145989219716722000; -3955899720567498000; 843654133574013000; 3924277692885753000; -5729417138265093000];
  [-5012608406688618000; 5042181574222642000; -1608303714920613000; -2402466065403757700; 4064438525125160000; -2511890236743878300; -771261138115314100; 3291205445190572000; -3341006660469944500; 1041520679143347800; 1912677179646862400; -3484488030230979000; 2644540477229650700; 0; -2644540477229650700; 3484488030230979000; -1912677179646862400; -1041520679143347800; 3341006660469944500; -3291205445190572000; 771261138115314100; 2511890236743878300; -4064438525125160000; 2402466065403757700; 1608303714920613000; -5042181574222642000; 5012608406688618000];
  [4080650850415323000; -5378327012504151000; 3707085620620460000; -133884199470114690; -3063579431833898000; 3988161386986895000; -2286660811317144000; -771261138115314100; 3196622343172400000; -3522086909726457000; 1634369757191148000; 1236870551406125800; -3305675596537063000; 3305675596537063000; -1236870551406125800; -1634369757191148000; 3522086909726457000; -3196622343172400000; 771261138115314100; 2286660811317144000; -3988161386986895000; 3063579431833898000; 133884199470114690; -3707085620620460000; 5378327012504151000; -4080650850415323000];
  [-3069219933409357200; 4985842581654878500; -4954988389892809000; 2760093480082734300; 537516607951733200; -3238334674986706500; 3988161386986895000; -2511890236743878300; -280425778002324000; 2823703319891857000; -3746432342742005000; 2584165485810193200; 0; -2584165485810193200; 3746432342742005000; -2823703319891857000; 280425778002324000; 2511890236743878300; -3988161386986895000; 3238334674986706500; -537516607951733200; -2760093480082734300; 4954988389892809000; -4985842581654878500; 3069219933409357200];
  [2109119662282997000; -4066496096739570000; 5149493595840834400; -4603502774374157400; 2434698967887965000; 537516607951733200; -3063579431833898000; 4064438525125160000; -3145989219716722000; 784102077086435700; 1897272817329680500; -3643797312453839000; 3643797312453839000; -1897272817329680500; -784102077086435700; 3145989219716722000; -4064438525125160000; 3063579431833898000; -537516607951733200; -2434698967887965000; 4603502774374157400; -5149493595840834400; 4066496096739570000; -2109119662282997000];
  [-1300892257527777600; 2902654639455120800; -4418178582513785000; 5149613017856412000; -4603502774374157400; 2760093480082734300; -133884199470114690; -2402466065403757700; 3955899720567498000; -3970416239623425500; 2456647646900309400; 0; -2456647646900309400; 3970416239623425500; -3955899720567498000; 2402466065403757700; 133884199470114690; -2760093480082734300; 4603502774374157400; -5149613017856412000; 4418178582513785000; -2902654639455120800; 1300892257527777600];
  [699064753174828300; -1773181905791168200; 3137880211599364000; -4418178582513785000; 5149493595840834400; -4954988389892809000; 3707085620620460000; -1608303714920613000; -843654133574013000; 2998373599114278000; -4255038540725863000; 4255038540725863000; -2998373599114278000; 843654133574013000; 1608303714920613000; -3707085620620460000; 4954988389892809000; -5149493595840834400; 4418178582513785000; -3137880211599364000; 1773181905791168200; -699064753174828300];
  [-309305302659417500; 880298323894345600; -1773181905791168200; 2902654639455120800; -4066496096739570000; 4985842581654878500; -5378327012504151000; 5042181574222642000; -3924277692885753000; 2149415414307857800; 0; -2149415414307857800; 3924277692885753000; -5042181574222642000; 5378327012504151000; -4985842581654878500; 4066496096739570000; -2902654639455120800; 1773181905791168200; -880298323894345600; 309305302659417500];
  [97810924877149520; -309305302659417500; 699064753174828300; -1300892257527777600; 2109119662282997000; -3069219933409357200; 4080650850415323000; -5012608406688618000; 5729417138265093000; -6119330630674403600; 6119330630674403600; -5729417138265093000; 5012608406688618000; -4080650850415323000; 3069219933409357200; -2109119662282997000; 1300892257527777600; -699064753174828300; 309305302659417500; -97810924877149520]].
(* Wigner3j.cc:5512-5829 *)
Definition w3j_20 : list (list Z) := [
  [73422711256811720; -237916776514734320; 550764458063118500; -1049575420181234600; 1742660852943758700; -2597805419273339200; 3540212038711747000; -4461559569939831000; 5238843492903513000; -5758757653750022000; 5941620721064861500; -5758757653750022000; 5238843492903513000; -4461559569939831000; 3540212038711747000; -2597805419273339200; 1742660852943758700; -1049575420181234600; 550764458063118500; -237916776514734320; 73422711256811720];
  [-237916776514734320; 697515756939711400; -1448193810788593400; 2446835314824622300; -3546713811018778500; 4518240123557836600; -5101988560537101000; 5079709028063259000; -4341649268139871600; 2928602543403673400; -1034303407700774300; -1034303407700774300; 2928602543403673400; -4341649268139871600; 5079709028063259000; -5101988560537101000; 4518240123557836600; -3546713811018778500; 2446835314824622300; -1448193810788593400; 697515756939711400; -237916776514734320];
  [550764458063118500; -1448193810788593400; 2662985258275902000; -3913510349250114000; 4800618423230556400; -4945765456426555500; 4140086207487967000; -2446462241497902500; 212393304393939260; 2016138817151691400; -3653709520858106000; 4254882974255448000; -3653709520858106000; 2016138817151691400; 212393304393939260; -2446462241497902500; 4140086207487967000; -4945765456426555500; 4800618423230556400; -3913510349250114000; 2662985258275902000; -1448193810788593400; 550764458063118500];
  [-1049575420181234600; 2446835314824622300; -3913510349250114000; 4848722893382527400; -4733407971019610400; 3392724527115009000; -1119659459824389300; -1399342971059626600; 3330112778850788400; -4008835708335762000; 3204111379717317000; -1217644265628854000; -1217644265628854000; 3204111379717317000; -4008835708335762000; 3330112778850788400; -1399342971059626600; -1119659459824389300; 3392724527115009000; -4733407971019610400; 4848722893382527400; -3913510349250114000; 2446835314824622300; -1049575420181234600];
  [1742660852943758700; -3546713811018778500; 4800618423230556400; -4733407971019610400; 3125120930479639000; -481613811695490800; -2168714413169529200; 3743250465851851000; -3605732040518568000; 1862169853353005200; 681252230509414100; -2874878114896644400; 3734299854965229000; -2874878114896644400; 681252230509414100; 1862169853353005200; -3605732040518568000; 3743250465851851000; -2168714413169529200; -481613811695490800; 3125120930479639000; -4733407971019610400; 4800618423230556400; -3546713811018778500; 1742660852943758700];
  [-2597805419273339200; 4518240123557836600; -4945765456426555500; 3392724527115009000; -481613811695490800; -2389443681202707200; 3825071407679321000; -3183160768329086600; 895291506833797100; 1784971433615329200; -3446566146260097000; 3243674305583818500; -1313000080875205600; -1313000080875205600; 3243674305583818500; -3446566146260097000; 1784971433615329200; 895291506833797100; -3183160768329086600; 3825071407679321000; -2389443681202707200; -481613811695490800; 3392724527115009000; -4945765456426555500; 4518240123557836600; -2597805419273339200];
  [3540212038711747000; -5101988560537101000; 4140086207487967000; -1119659459824389300; -2168714413169529200; 3825071407679321000; -3020024180582934300; 418838607586827000; 2311978630848388800; -3536465665737663000; 2587998259040890000; -99883653575610430; -2414009446801960300; 3457289864304533000; -2414009446801960300; -99883653575610430; 2587998259040890000; -3536465665737663000; 2311978630848388800; 418838607586827000; -3020024180582934300; 3825071407679321000; -2168714413169529200; -1119659459824389300; 4140086207487967000; -5101988560537101000; 3540212038711747000];
  [-4461559569939831000; 5079709028063259000; -2446462241497902500; -1399342971059626600; 3743250465851851000; -3183160768329086600; 418838607586827000; 2463629622306263600; -3505086225914956500; 2120977870646221000; 647613917725627200; -2917931194865307000; 3210953125911026500; -1371666006814302500; -1371666006814302500; 3210953125911026500; -2917931194865307000; 647613917725627200; 2120977870646221000; -3505086225914956500; 2463629622306263600; 418838607586827000; -3183160768329086600; 3743250465851851000; -1399342971059626600; -2446462241497902500; 5079709028063259000; -4461559569939831000];
  [5238843492903513000; -4341649268139871600; 212393304393939260; 3330112778850788400; -3605732040518568000; 895291506833797100; 2311978630848388800; -3505086225914956500; 1957379264960700000; 992104537403930500; -3109331855343597000; 2903410079514328000; -602272011783828300; -2103193407163441200; 3282632825779599500; -2103193407163441200; -602272011783828300; 2903410079514328000; -3109331855343597000; 992104537403930500; 1957379264960700000; -3505086225914956500; 2311978630848388800; 895291506833797100; -3605732040518568000; 3330112778850788400; 212393304393939260; -4341649268139871600; 5238843492903513000];
  [-5758757653750022000; 2928602543403673400; 2016138817151691400; -4008835708335762000; 1862169853353005200; 1784971433615329200; -3536465665737663000; 2120977870646221000; 992104537403930500; -3155459316887729000; 2716623941683059000; -152725492264604310; -2474703698653145700; 3155728338308133600; -1410445315530519200; -1410445315530519200; 3155728338308133600; -2474703698653145700; -152725492264604310; 2716623941683059000; -3155459316887729000; 992104537403930500; 2120977870646221000; -3536465665737663000; 1784971433615329200; 1862169853353005200; -4008835708335762000; 2016138817151691400; 2928602543403673400; -5758757653750022000];
  [5941620721064861500; -1034303407700774300; -3653709520858106000; 3204111379717317000; 681252230509414100; -3446566146260097000; 2587998259040890000; 647613917725627200; -3109331855343597000; 2716623941683059000; -6624096460212324; -2625542420933199200; 3021660804280599400; -938741545554534800; -1882535905007650200; 3164008962427204000; -1882535905007650200; -938741545554534800; 3021660804280599400; -2625542420933199200; -6624096460212324; 2716623941683059000; -3109331855343597000; 647613917725627200; 2587998259040890000; -3446566146260097000; 681252230509414100; 3204111379717317000; -3653709520858106000; -1034303407700774300; 5941620721064861500];
  [-5758757653750022000; -1034303407700774300; 4254882974255448000; -1217644265628854000; -2874878114896644400; 3243674305583818500; -99883653575610430; -2917931194865307000; 2903410079514328000; -152725492264604310; -2625542420933199200; 2968635422595281000; -704569596529055600; -2122055311920687000; 3097923933051460400; -1436926928319054100; -1436926928319054100; 3097923933051460400; -2122055311920687000; -704569596529055600; 2968635422595281000; -2625542420933199200; -152725492264604310; 2903410079514328000; -2917931194865307000; -99883653575610430; 3243674305583818500; -2874878114896644400; -1217644265628854000; 4254882974255448000; -1034303407700774300; -5758757653750022000];
  [5238843492903513000; 2928602543403673400; -3653709520858106000; -1217644265628854000; 3734299854965229000; -1313000080875205600; -2414009446801960300; 3210953125911026500; -602272011783828300; -2474703698653145700; 3021660804280599400; -704569596529055600; -2194603411487679200; 3046292757574619000; -1167313793782544200; -1723667190041236000; 3081094742993654600; -1723667190041236000; -1167313793782544200; 3046292757574619000; -2194603411487679200; -704569596529055600; 3021660804280599400; -2474703698653145700; -602272011783828300; 3210953125911026500; -2414009446801960300; -1313000080875205600; 3734299854965229000; -1217644265628854000; -3653709520858106000; 2928602543403673400; 5238843492903513000];
  [-4461559569939831000; -4341649268139871600; 2016138817151691400; 3204111379717317000; -2874878114896644400; -1313000080875205600; 3457289864304533000; -1371666006814302500; -2103193407163441200; 3155728338308133600; -938741545554534800; -2122055311920687000; 3046292757574619000; -1077639920078998300; -1853415469867900400; 3046527453909969000; -1455109471483652600; -1455109471483652600; 3046527453909969000; -1853415469867900400; -1077639920078998300; 3046292757574619000; -2122055311920687000; -938741545554534800; 3155728338308133600; -2103193407163441200; -1371666006814302500; 3457289864304533000; -1313000080875205600; -2874878114896644400; 3204111379717317000; 2016138817151691400; -4341649268139871600; -4461559569939831000];
  [3540212038711747000; 5079709028063259000; 212393304393939260; -4008835708335762000; 681252230509414100; 3243674305583818500; -2414009446801960300; -1371666006814302500; 3282632825779599500; -1410445315530519200; -1882535905007650200; 3097923933051460400; -1167313793782544200; -1853415469867900400; 3031311365203578600; -1321061863426439800; -1611104488636372000; 3023499108513313000; -1611104488636372000; -1321061863426439800; 3031311365203578600; -1853415469867900400; -1167313793782544200; 3097923933051460400; -1882535905007650200; -1410445315530519200; 3282632825779599500; -1371666006814302500; -2414009446801960300; 3243674305583818500; 681252230509414100; -4008835708335762000; 212393304393939260; 5079709028063259000; 3540212038711747000];
  [-2597805419273339200; -5101988560537101000; -2446462241497902500; 3330112778850788400; 1862169853353005200; -3446566146260097000; -99883653575610430; 3210953125911026500; -2103193407163441200; -1410445315530519200; 3164008962427204000; -1436926928319054100; -1723667190041236000; 3046527453909969000; -1321061863426439800; -1660380680258933400; 3005827979895120000; -1467276568486752600; -1467276568486752600; 3005827979895120000; -1660380680258933400; -1321061863426439800; 3046527453909969000; -1723667190041236000; -1436926928319054100; 3164008962427204000; -1410445315530519200; -2103193407163441200; 3210953125911026500; -99883653575610430; -3446566146260097000; 1862169853353005200; 3330112778850788400; -2446462241497902500; -5101988560537101000; -2597805419273339200];
  [1742660852943758700; 4518240123557836600; 4140086207487967000; -1399342971059626600; -3605732040518568000; 1784971433615329200; 2587998259040890000; -2917931194865307000; -602272011783828300; 3155728338308133600; -1882535905007650200; -1436926928319054100; 3081094742993654600; -1455109471483652600; -1611104488636372000; 3005827979895120000; -1419676451833975900; -1535810437054133000; 2985466159195457700; -1535810437054133000; -1419676451833975900; 3005827979895120000; -1611104488636372000; -1455109471483652600; 3081094742993654600; -1436926928319054100; -1882535905007650200; 3155728338308133600; -602272011783828300; -2917931194865307000; 2587998259040890000; 1784971433615329200; -3605732040518568000; -1399342971059626600; 4140086207487967000; 4518240123557836600; 1742660852943758700];
  [-1049575420181234600; -3546713811018778500; -4945765456426555500; -1119659459824389300; 3743250465851851000; 895291506833797100; -3536465665737663000; 647613917725627200; 2903410079514328000; -2474703698653145700; -938741545554534800; 3097923933051460400; -1723667190041236000; -1455109471483652600; 3023499108513313000; -1467276568486752600; -1535810437054133000; 2977908665233225400; -1474769331688136000; -1474769331688136000; 2977908665233225400; -1535810437054133000; -1467276568486752600; 3023499108513313000; -1455109471483652600; -1723667190041236000; 3097923933051460400; -938741545554534800; -2474703698653145700; 2903410079514328000; 647613917725627200; -3536465665737663000; 895291506833797100; 3743250465851851000; -1119659459824389300; -4945765456426555500; -3546713811018778500; -1049575420181234600];
  [550764458063118500; 2446835314824622300; 4800618423230556400; 3392724527115009000; -2168714413169529200; -3183160768329086600; 2311978630848388800; 2120977870646221000; -3109331855343597000; -152725492264604310; 3021660804280599400; -2122055311920687000; -1167313793782544200; 3046527453909969000; -1611104488636372000; -1467276568486752600; 2985466159195457700; -1474769331688136000; -1492491041245155700; 2963753389874984600; -1492491041245155700; -1474769331688136000; 2985466159195457700; -1467276568486752600; -1611104488636372000; 3046527453909969000; -1167313793782544200; -2122055311920687000; 3021660804280599400; -152725492264604310; -3109331855343597000; 2120977870646221000; 2311978630848388800; -3183160768329086600; -2168714413169529200; 3392724527115009000; 4800618423230556400; 2446835314824622300; 550764458063118500];
  [-237916776514734320; -1448193810788593400; -3913510349250114000; -4733407971019610400; -481613811695490800; 3825071407679321000; 418838607586827000; -3505086225914956500; 992104537403930500; 2716623941683059000; -2625542420933199200; -704569596529055600; 3046292757574619000; -1853415469867900400; -1321061863426439800; 3005827979895120000; -1535810437054133000; -1474769331688136000; 2963753389874984600; -1478344206730983600; -1478344206730983600; 2963753389874984600; -1474769331688136000; -1535810437054133000; 3005827979895120000; -1321061863426439800; -1853415469867900400; 3046292757574619000; -704569596529055600; -2625542420933199200; 2716623941683059000; 992104537403930500; -3505086225914956500; 418838607586827000; 3825071407679321000; -481613811695490800; -4733407971019610400; -3913510349250114000; -1448193810788593400; -237916776514734320];
  [73422711256811720; 697515756939711400; 2662985258275902000; 4848722893382527400; 3125120930479639000; -2389443681202707200; -3020024180582934300; 2463629622306263600; 1957379264960700000; -3155459316887729000; -6624096460212324; 2968635422595281000; -2194603411487679200; -1077639920078998300; 3031311365203578600; -1660380680258933400; -1419676451833975900; 2977908665233225400; -1492491041245155700; -1478344206730983600; 2956688413461967000; -1478344206730983600; -1492491041245155700; 2977908665233225400; -1419676451833975900; -1660380680258933400; 3031311365203578600; -1077639920078998300; -2194603411487679200; 2968635422595281000; -6624096460212324; -3155459316887729000; 1957379264960700000; 2463629622306263600; -3020024180582934300; -2389443681202707200; 3125120930479639000; 4848722893382527400; 2662985258275902000; 697515756939711400; 73422711256811720];
  [-237916776514734320; -1448193810788593400; -3913510349250114000; -4733407971019610400; -481613811695490800; 3825071407679321000; 418838607586827000; -3505086225914956500; 992104537403930500; 2716623941683059000; -2625542420933199200; -704569596529055600; 3046292757574619000; -1853415469867900400; -1321061863426439800; 3005827979895120000; -1535810437054133000; -1474769331688136000; 2963753389874984600; -1478344206730983600; -1478344206730983600; 2963753389874984600; -1474769331688136000; -1535810437054133000; 3005827979895120000; -1321061863426439800; -1853415469867900400; 3046292757574619000; -704569596529055600; -2625542420933199200; 2716623941683059000; 992104537403930500; -3505086225914956500; 418838607586827000; 3825071407679321000; -481613811695490800; -4733407971019610400; -3913510349250114000; -1448193810788593400; -237916776514734320];
  [550764458063118500; 2446835314824622300; 4800618423230556400; 3392724527115009000; -2168714413169529200; -3183160768329086600; 2311978630848388800; 2120977870646221000; -3109331855343597000; -152725492264604310; 3021660804280599400; -2122055311920687000; -1167313793782544200; 3046527453909969000; -1611104488636372000; -1467276568486752600; 2985466159195457700; -1474769331688136000; -1492491041245155700; 2963753389874984600; -1492491041245155700; -1474769331688136000; 2985466159195457700; -1467276568486752600; -1611104488636372000; 3046527453909969000; -1167313793782544200; -2122055311920687000; 3021660804280599400; -152725492264604310; -3109331855343597000; 2120977870646221000; 2311978630848388800; -3183160768329086600; -2168714413169529200; 3392724527115009000; 4800618423230556400; 2446835314824622300; 550764458063118500];
  [-1049575420181234600; -3546713811018778500; -4945765456426555500; -1119659459824389300; 3743250465851851000; 895291506833797100; -3536465665737663000; 647613917725627200; 2903410079514328000; -2474703698653145700; -938741545554534800; 3097923933051460400; -1723667190041236000; -1455109471483652600; 3023499108513313000; -1467276568486752600; -1535810437054133000; 2977908665233225400; -1474769331688136000; -1474769331688136000; 2977908665233225400; -1535810437054133000; -1467276568486752600; 3023499108513313000; -1455109471483652600; -1723667190041236000; 3097923933051460400; -938741545554534800; -2474703698653145700; 2903410079514328000; 647613917725627200; -3536465665737663000; 895291506833797100; 3743250465851851000; -1119659459824389300; -4945765456426555500; -3546713811018778500; -1049575420181234600];
  [1742660852943758700; 4518240123557836600; 4140086207487967000; -1399342971059626600; -3605732040518568000; 1784971433615329200; 2587998259040890000; -2917931194865307000; -602272011783828300; 3155728338308133600; -1882535905007650200; -1436926928319054100; 3081094742993654600; -1455109471483652600; -1611104488636372000; 3005827979895120000; -1419676451833975900; -1535810437054133000; 2985466159195457700; -1535810437054133000; -1419676451833975900; 3005827979895120000; -1611104488636372000; -1455109471483652600; 3081094742993654600; -1436926928319054100; -1882535905007650200; 3155728338308133600; -602272011783828300; -2917931194865307000; 2587998259040890000; 1784971433615329200; -3605732040518568000; -1399342971059626600; 4140086207487967000; 4518240123557836600; 1742660852943758700];
  [-2597805419273339200; -5101988560537101000; -2446462241497902500; 3330112778850788400; 1862169853353005200; -3446566146260097000; -99883653575610430; 3210953125911026500; -2103193407163441200; -1410445315530519200; 3164008962427204000; -1436926928319054100; -1723667190041236000; 3046527453909969000; -1321061863426439800; -1660380680258933400; 3005827979895120000; -1467276568486752600; -1467276568486752600; 3005827979895120000; -1660380680258933400; -1321061863426439800; 3046527453909969000; -1723667190041236000; -1436926928319054100; 3164008962427204000; -1410445315530519200; -2103193407163441200; 3210953125911026500; -99883653575610430; -3446566146260097000; 1862169853353005200; 3330112778850788400; -2446462241497902500; -5101988560537101000; -2597805419273339200];
  [3540212038711747000; 5079709028063259000; 212393304393939260; -4008835708335762000; 681252230509414100; 3243674305583818500; -2414009446801960300; -1371666006814302500; 3282632825779599500; -1410445315530519200; -1882535905007650200; 3097923933051460400; -1167313793782544200; -1853415469867900400; 3031311365203578600; -1321061863426439800; -1611104488636372000; 3023499108513313000; -1611104488636372000; -1321061863426439800; 3031311365203578600; -1853415469867900400; -1167313793782544200; 3097923933051460400; -1882535905007650200; -1410445315530519200; 3282632825779599500; -1371666006814302500; -2414009446801960300; 3243674305583818500; 681252230509414100; -4008835708335762000; 212393304393939260; 5079709028063259000; 3540212038711747000];
  [-4461559569939831000; -4341649268139871600; 2016138817151691400; 3204111379717317000; -2874878114896644400; -1313000080875205600; 3457289864304533000; -1371666006814302500; -2103193407163441200; 3155728338308133600; -938741545554534800; -2122055311920687000; 3046292757574619000; -1077639920078998300; -1853415469867900400; 3046527453909969000; -1455109471483652600; -1455109471483652600; 3046527453909969000; -1853415469867900400; -1077639920078998300; 3046292757574619000; -2122055311920687000; -938741545554534800; 3155728338308133600; -2103193407163441200; -1371666006814302500; 3457289864304533000; -1313000080875205600; -2874878114896644400; 3204111379717317000; 2016138817151691400; -4341649268139871600; -4461559569939831000];
  [5238843492903513000; 2928602543403673400; -3653709520858106000; -1217644265628854000; 3734299854965229000; -1313000080875205600; -2414009446801960300; 3210953125911026500; -602272011783828300; -2474703698653145700; 3021660804280599400; -704569596529055600; -2194603411487679200; 3046292757574619000; -1167313793782544200; -1723667190041236000; 3081094742993654600; -1723667190041236000; -1167313793782544200; 3046292757574619000; -2194603411487679200; -704569596529055600; 3021660804280599400; -2474703698653145700; -602272011783828300; 3210953125911026500; -2414009446801960300; -1313000080875205600; 3734299854965229000; -1217644265628854000; -3653709520858106000; 2928602543403673400; 5238843492903513000];
  [-5758757653750022000; -1034303407700774300; 4254882974255448000; -1217644265628854000; -2874878114896644400; 3243674305583818500; -99883653575610430; -2917931194865307000; 2903410079514328000; -152725492264604310; -2625542420933199200; 2968635422595281000; -704569596529055600; -2122055311920687000; 3097923933051460400; -1436926928319054100; -1436926928319054100; 3097923933051460400; -2122055311920687000; -704569596529055600; 2968635422595281000; -2625542420933199200; -152725492264604310; 2903410079514328000; -2917931194865307000; -99883653575610430; 3243674305583818500; -2874878114896644400; -1217644265628854000; 4254882974255448000; -1034303407700774300; -5758757653750022000];
  [5941620721064861500; -1034303407700774300; -3653709520858106000; 3204111379717317000; 681252230509414100; -3446566146260097000; 2587998259040890000; 647613917725627200; -3109331855343597000; 2716623941683059000; -6624096460212324; -2625542420933199200; 3021660804280599400; -938741545554534800; -1882535905007650200; 3164008962427204000; -1882535905007650200; -938741545554534800; 3021660804280599400; -2625542420933199200; -6624096460212324; 2716623941683059000; -3109331855343597000; 647613917725627200; 2587998259040890000; -3446566146260097000; 681252230509414100; 3204111379717317000; -3653709520858106000; -1034303407700774300; 5941620721064861500];
  [-5758757653750022000; 2928602543403673400; 2016138817151691400; -4008835708335762000; 1862169853353005200; 1784971433615329200; -3536465665737663000; 2120977870646221000; 992104537403930500; -3155459316887729000; 2716623941683059000; -152725492264604310; -2474703698653145700; 3155728338308133600; -1410445315530519200; -1410445315530519200; 3155728338308133600; -2474703698653145700; -152725492264604310; 2716623941683059000; -3155459316887729000; 992104537403930500; 2120977870646221000; -3536465665737663000; 1784971433615329200; 1862169853353005200; -4008835708335762000; 2016138817151691400; 2928602543403673400; -5758757653750022000];
  [5238843492903513000; -4341649268139871600; 212393304393939260; 3330112778850788400; -3605732040518568000; 895291506833797100; 2311978630848388800; -3505086225914956500; 1957379264960700000; 992104537403930500; -3109331855343597000; 2903410079514328000; -602272011783828300; -2103193407163441200; 3282632825779599500; -2103193407163441200; -602272011783828300; 2903410079514328000; -3109331855343597000; 992104537403930500; 1957379264960700000; -3505086225914956500; 2311978630848388800; 895291506833797100; -3605732040518568000; 3330112778850788400; 212393304393939260; -4341649268139871600; 5238843492903513000];
  [-4461559569939831000; 5079709028063259000; -2446462241497902500; -1399342971059626600; 3743250465851851000; -3183160768329086600; 418838607586827000; 2463629622306263600; -3505086225914956500; 2120977870646221000; 647613917725627200; -2917931194865307000; 3210953125911026500; -1371666006814302500; -1371666006814302500; 3210953125911026500; -2917931194865307000; 647613917725627200; 2120977870646221000; -3505086225914956500; 2463629622306263600; 418838607586827000; -3183160768329086600; 3743250465851851000; -1399342971059626600; -2446462241497902500; 5079709028063259000; -4461559569939831000];
  [3540212038711747000; -5101988560537101000; 4140086207487967000; -1119659459824389300; -2168714413169529200; 3825071407679321000; -3020024180582934300; 418838607586827000; 2311978630848388800; -3536465665737663000; 2587998259040890000; -99883653575610430; -2414009446801960300; 3457289864304533000; -2414009446801960300; -99883653575610430; 2587998259040890000; -3536465665737663000; 2311978630848388800; 418838607586827000; -3020024180582934300; 3825071407679321000; -2168714413169529200; -1119659459824389300; 4140086207487967000; -5101988560537101000; 3540212038711747000];
  [-2597805419273339200; 4518240123557836600; -4945765456426555500; 3392724527115009000; -481613811695490800; -2389443681202707200; 3825071407679321000; -3183160768329086600; 895291506833797100; 1784971433615329200; -3446566146260097000; 3243674305583818500; -1313000080875205600; -1313000080875205600; 3243674305583818500; -3446566146260097000; 1784971433615329200; 895291506833797100; -3183160768329086600; 3825071407679321000; -2389443681202707200; -481613811695490800; 3392724527115009000; -4945765456426555500; 4518240123557836600; -2597805419273339200];
  [1742660852943758700; -3546713811018778500; 4800618423230556400; -4733407971019610400; 3125120930479639000; -481613811695490800; -2168714413169529200; 3743250465851851000; -3605732040518568000; 1862169853353005200; 681252230509414100; -2874878114896644400; 3734299854965229000; -2874878114896644400; 681252230509414100; 1862169853353005200; -3605732040518568000; 3743250465851851000; -2168714413169529200; -481613811695490800; 3125120930479639000; -4733407971019610400; 4800618423230556400; -3546713811018778500; 1742660852943758700];
  [-1049575420181234600; 2446835314824622300; -3913510349250114000; 4848722893382527400; -4733407971019610400; 3392724527115009000; -1119659459824389300; -1399342971059626600; 3330112778850788400; -4008835708335762000; 3204111379717317000; -1217644265628854000; -1217644265628854000; 3204111379717317000; -4008835708335762000; 3330112778850788400; -1399342971059626600; -1119659459824389300; 3392724527115009000; -4733407971019610400; 4848722893382527400; -3913510349250114000; 2446835314824622300; -1049575420181234600];
  [550764458063118500; -1448193810788593400; 2662985258275902000; -3913510349250114000; 4800618423230556400; -4945765456426555500; 4140086207487967000; -2446462241497902500; 212393304393939260; 2016138817151691400; -3653709520858106000; 4254882974255448000; -3653709520858106000; 2016138817151691400; 212393304393939260; -2446462241497902500; 4140086207487967000; -4945765456426555500; 4800618423230556400; -3913510349250114000; 2662985258275902000; -1448193810788593400; 550764458063118500];
  [-237916776514734320; 697515756939711400; -1448193810788593400; 2446835314824622300; -3546713811018778500; 4518240123557836600; -5101988560537101000; 5079709028063259000; -4341649268139871600; 2928602543403673400; -1034303407700774300; -1034303407700774300; 2928602543403673400; -4341649268139871600; 5079709028063259000; -5101988560537101000; 4518240123557836600; -3546713811018778500; 2446835314824622300; -1448193810788593400; 697515756939711400; -237916776514734320];
  [73422711256811720; -237916776514734320; 550764458063118500; -1049575420181234600; 1742660852943758700; -2597805419273339200; 3540212038711747000; -4461559569939831000; 5238843492903513000; -5758757653750022000; 5941620721064861500; -5758757653750022000; 5238843492903513000; -4461559569939831000; 3540212038711747000; -2597805419273339200; 1742660852943758700; -1049575420181234600; 550764458063118500; -237916776514734320; 73422711256811720]].
(* Wigner3j.cc:59-63, 5831-5833  the switch; [None] is std::out_of_range *)
Definition w3j_rows (l : nat) : option (list (list Z)) :=
  match l with
  | 0%nat => Some w3j_0
  | 1%nat => Some w3j_1
  | 2%nat => Some w3j_2
  | 3%nat => Some w3j_3
  | 4%nat => Some w3j_4
  | 5%nat => Some w3j_5
  | 6%nat => Some w3j_6
  | 7%nat => Some w3j_7
  | 8%nat => Some w3j_8
  | 9%nat => Some w3j_9
  | 10%nat => Some w3j_10
  | 11%nat => Some w3j_11
  | 12%nat => Some w3j_12
  | 13%nat => Some w3j_13
  | 14%nat => Some w3j_14
  | 15%nat => Some w3j_15
  | 16%nat => Some w3j_16
  | 17%nat => Some w3j_17
  | 18%nat => Some w3j_18
  | 19%nat => Some w3j_19
  | 20%nat => Some w3j_20
  | _ => None
  end.
