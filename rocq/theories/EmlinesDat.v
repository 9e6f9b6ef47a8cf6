(** * dsps/data/emlines_info.dat, lines 1-166, as text (generated from the file).
      Each line is "<wavelength in Angstrom>,<line name>". *)
From Coq Require Import String List.
Import ListNotations.
Local Open Scope string_scope.

Definition emlines_info_dat : list string := [
  "923.15,Ly-8 923";
  "926.226,Ly-7 926";
  "930.748,Ly-6 930";
  "937.804,Ly-5 937";
  "949.743,Ly-delta 949.749A";
  "972.537,Ly-gamma 972";
  "1025.72,Ly-beta 1025";
  "1084.94,He II 1084.94A";
  "1215.13,He II 1215.13A";
  "1215.67,Ly-alpha 1215";
  "1486.5,[N IV] 1486";
  "1548.19,C IV 1548";
  "1550.78,C IV 1551";
  "1640.43,He II 1640";
  "1660.81,[O III] 1661";
  "1666,[O III] 1666";
  "1814.56,[Ne III] 1815";
  "1854.72,[Al III] 1855";
  "1862.79,[Al III] 1863";
  "1906.68,[C III] 1907";
  "1908.73,[C III] 1910";
  "2141.7057,[N II] 2141";
  "2321.6986,[O III] 2321";
  "2324.2492,[C II] 2324";
  "2325.4395,[C II] 2325";
  "2327.6801,[C II] 2327";
  "2328.8703,[C II] 2328";
  "2424.7739,Blnd 2424";
  "2471.7856,[O II] 2471";
  "2661.1836,[Al II] 2660";
  "2669.9859,[Al II] 2670";
  "2796.3985,[Mg II] 2795.53A";
  "2803.5804,[Mg II] 2802.71A";
  "2854.5437,Ar IV 2854";
  "3110.1312,[Ar III] 3109";
  "3343.1936,[Ne III] 3343";
  "3427.0663,[Ne V] 3426";
  "3722.7468,[S III] 3722";
  "3727.118,[O II] 3726";
  "3730.1188,[O II] 3729";
  "3799.0277,Ba-8 3798";
  "3836.528,Ba-7 3835";
  "3868.1567,[O II] 3867";
  "3869.9172,[Ne III] 3869";
  "3889.7926,He I 3888.63A";
  "3890.2127,Ba-6 3889";
  "3968.6543,[Ne III] 3968";
  "3971.2551,Ba-5 3970";
  "4069.8122,[S II] 4070";
  "4077.5644,[S II] 4078";
  "4102.9514,Ba-delta 4101.76A";
  "4341.7476,Ba-gamma 4341";
  "4364.2938,[O III] 4363";
  "4472.814,He I 4471.49A";
  "4622.9359,[C  I] 4621";
  "4687.0237,He II 4685.64A";
  "4712.6509,[Ar IV] 4711";
  "4721.3933,[Ne IV] 4720";
  "4741.519,[Ar IV] 4740";
  "4862.7629,Ba-beta 4861";
  "4932.6825,[O III] 4931";
  "4960.3702,[O III] 4959";
  "5008.3137,[O III] 5007";
  "5193.3456,[Ar III] 5192";
  "5201.788,[N I] 5200";
  "5519.3273,[Cl III] 5518";
  "5539.493,[Cl III] 5538";
  "5578.9741,[O I] 5577";
  "5756.2941,[N II] 5755";
  "5877.3583,He I 5875.64A";
  "6302.1385,[O I] 6300";
  "6313.9018,[S III] 6312";
  "6365.6364,[O I] 6363";
  "6549.9587,[N II] 6548";
  "6564.7229,Ba-alpha 6563";
  "6585.3687,[N II] 6584";
  "6680.0956,He I 6678.15A";
  "6718.3965,[S II] 6716";
  "6732.7805,[S II] 6731";
  "7067.2755,He I 7065.22A";
  "7137.8656,[Ar III] 7135";
  "7172.7855,[Ar IV] 7171";
  "7239.8746,[Ar IV] 7237";
  "7265.4418,[Ar IV] 7263";
  "7325.1288,[O II] 7323";
  "7334.1314,[O II] 7332";
  "7334.2814,[Ar IV] 7332";
  "7753.3606,[Ar III] 7751";
  "8581.1866,[Cl II] 8579";
  "8729.6589,[C I] 8727";
  "9017.4811,Pa-7 9015";
  "9071.2464,[S III] 9069";
  "9126.2421,[Cl II] 9124";
  "9231.6422,Pa-6 9229";
  "9533.3784,[S III] 9532";
  "9548.6928,Pa-5 9546";
  "9852.8497,[C I] 9850";
  "10052.207,Pa-delta 1.00494um";
  "10111.824,Fe VI 1.01089m";
  "10126.228,He II 1.01233um";
  "10323.484,[S II] 1.0324um";
  "10833.43,He I 1.08303um";
  "10941.161,Pa-gamma 1.09381um";
  "12570.427,Fe II 1.25668um";
  "12821.699,Pa-beta 1.28181um";
  "17367.003,Br-6 1.73621um";
  "18179.236,Br-5 1.81741um";
  "18756.402,Pa-alpha 1.8751um";
  "19451.001,Br-delta 1.94456um";
  "19630.353,[Si VI] 1.96247um";
  "20587.227,He I 2.05813um";
  "21661.336,Br-gamma 2.16553um";
  "26258.856,Br-beta 2.62515um";
  "29053.359,[Al V] 2.90450um";
  "30392.244,Pf-5 3.03837um";
  "32070.226,[Ca IV] 3.20610um";
  "32970.185,Pf-delta 3.29609um";
  "36603.729,[Al VI] 3.65932um";
  "37405.86,Pf-gamma 3.73953um";
  "40522.956,Br-alpha 4.05116um";
  "44884.109,[Mg IV] 4.48712um";
  "45293.027,[Ar VI] 4.52800um";
  "46538.085,Pf-beta 4.65250um";
  "51286.95,Hu-delta 5.12725um";
  "56086.13,[Mg V] 5.60700um";
  "59082.491,Hu-gamma 5.90659um";
  "59820.203,K IV 5.98030m";
  "69853.788,Ar II 6.98337um";
  "73191.647,Na III 7.31706m";
  "74599.152,Pf-alpha 7.45781um";
  "75025.374,Hu-beta 7.50043um";
  "76453.785,[Ne VI] 7.64318um";
  "78126.166,[Fe VII] 7.81037m";
  "79019.823,[Ar V] 7.89971um";
  "89915.656,Ar III 8.98898um";
  "90335.776,[Na IV] 9.03098um";
  "95103.647,[Fe VII] 9.50763m";
  "105106.22,[S IV] 10.5076um";
  "123109.4,[Fe VI] 12.3074m";
  "123719.57,Hu-alpha 12.3685um";
  "128137.85,Ne II 12.8101um";
  "131022.67,[Ar V] 13.0985um";
  "143269.2,[Ne V] 14.3228um";
  "143680.31,Cl II 14.3639um";
  "147712.47,[Fe VI] 14.7670m";
  "155553.73,Ne III 15.5509um";
  "187131.81,S III 18.7078um";
  "195583.24,[Fe VI] 19.5527m";
  "218362.79,Ar III 21.8300um";
  "242134.62,[Ne V] 24.2065um";
  "258906.44,O IV 25.8832um";
  "328714.52,P II 32.8620um";
  "334800.27,S III 33.4704um";
  "348146.1,Si II 34.8046um";
  "360139.55,Ne III 36.0036um";
  "518152.99,O III 51.8004um";
  "573402.87,N III 57.3238um";
  "606437.37,P II 60.6263um";
  "631860.68,O I 63.1679um";
  "883577.06,O III 88.3323um";
  "1218020.2,N II 121.767um";
  "1455368.5,O I 145.495um";
  "1576813.4,C II 157.636um";
  "2053030.3,N II 205.244um";
  "3703755,[C I] 370.269um";
  "6097653.3,[C I] 609.590um"
].
