open Fl
open Drv
let () =
 let open M_Utils in
 chk "V" [6008.379892351815; 4074.7728261714988] (out (utils_V p (f 37.) (f 44.) (f 2.65)));
 chk "poi" [0.07419354838709677] (out (utils_poi p (f 37.) (f 44.)));
 chk "lame" [7.666666666666668] (out (utils_lame p (f 37.) (f 44.)));
 chk "M_from_V" [38.866666666666674; 42.4] (out (utils_M_from_V p (f 2.65) (f 6000.) (f 4000.)));
 chk "write_HTI" (m6 40. 10. 10. 20. 10. 20. 5. 30. 30.) (out (utils_write_HTI_matrix (f 40.) (f 20.) (f 10.) (f 5.) (f 30.)));
 let s = inv (mat [[40.;10.;10.;0.;0.;0.];[10.;40.;10.;0.;0.;0.];[10.;10.;20.;0.;0.;0.];[0.;0.;0.;5.;0.;0.];[0.;0.;0.;0.;5.;0.];[0.;0.;0.;0.;0.;15.]]) in
 let g i j = Stdlib.List.nth (Stdlib.List.nth s i) j in
 chk "write_VTI_compliance" (m6 0.02916667 (-0.00416667) (-0.0125) 0.02916667 (-0.0125) 0.0625 0.2 0.2 0.06666667) (out (utils_write_VTI_compliance (g 0 0) (g 0 1) (g 0 2) (g 2 2) (g 3 3)));
 chk "write_VTI" (m6 40. 10. 10. 40. 10. 20. 5. 5. 15.) (out (utils_write_VTI_matrix (f 40.) (f 20.) (f 10.) (f 5.) (f 15.)));
 chk "write_matrix" (m6 40. 10. 10. 5. 20. 20. 5. 30. 15.) (out (utils_write_matrix (f 40.) (f 5.) (f 20.) (f 10.) (f 10.) (f 20.) (f 5.) (f 30.) (f 15.)));
 chk "write_iso" (m6 95.66666667 7.66666667 7.66666667 95.66666667 7.66666667 95.66666667 44. 44. 44.) (out (utils_write_iso p (f 37.) (f 44.)));
 chk "crack_por" [0.004188790204786391] (out (utils_crack_por p (f 0.01) (f 0.1)));
 chk "v_to_c_VTI" (m6 40. 0.8 14.55337367 40. 14.55337367 75.625 22.5 22.5 19.6) (out (utils_v_to_c_VTI (f 5.5) (f 2.8) (f 4.) (f 3.) (f 2.8) (f 2.5)));
 let open M_EM in
 let lf = map f in
 chk "VRH" [26.0; 23.076923076923077; 24.53846153846154] (out (coq_EM_VRH (lf [0.1;0.2;0.7]) (lf [10.;20.;30.])));
 chk "cripor" [46.9998825 ; 41.77767333; 36.55546417; 31.333255  ; 26.11104583; 20.88883667; 15.6666275 ; 10.44441833;  5.22220917;  0.        ; 43.99989   ; 39.11101333; 34.22213667; 29.33326   ; 24.44438333; 19.55550667; 14.66663   ;  9.77775333;  4.88887667;  0.]
  (arr (fun x -> coq_EM_cripor n (f 47.) (f 44.) (f x) (f 0.4)) (linspace 1e-6 0.4 10));
 chk "cripor_reuss" [4.13533835] (out (coq_EM_cripor_reuss (f 10.) (f 2.2) (f 0.4) false));
 chk "HS" [37.4025974 ; 42.99401198; 17.34042553; 24.55645161] (arr (fun (k1,k2,g1,g2) -> coq_EM_HS n (f 0.5) (f k1) (f k2) (f g1) (f g2) (str "upper")) [(40.,35.,20.,15.);(50.,37.,30.,20.)]);
 chk "Eshelby_Cheng" [96.00459425; 86.77207515;  6.82580934; 41.68262752; 44.48956533] (out (coq_EM_Eshelby_Cheng p (f 37.) (f 45.) (f 0.01) (f 0.1) (f 2.1) false));
 chk "hudson" (m6 96.97879354  6.97879354  6.70613902 96.97879354 6.70613902 92.92792646 43.84179104 43.84179104 45.) (out (coq_EM_hudson p (f 37.) (f 45.) (f 2.1) (f 0.) (f 0.1) (f 0.01) 1 3));
 chk "hudson_rand" [36.407517410762416; 34.5451882169223] (out (coq_EM_hudson_rand p (f 37.) (f 45.) (f 2.1) (f 0.) (f 0.1) (f 0.01)));
 chk "hudson_ortho" (m6 96.32208655  6.60756844  3.31174022 95.35527413  3.24666631 46.38868342 32.25970149 33.30208955 43.72597015) (out (coq_EM_hudson_ortho p (f 37.) (f 45.) (f 2.1) (f 0.) ((f 0.1,f 0.01),f 1.) ((f 0.001,f 0.01),f 0.1)));
 chk "hudson_cone" (m6 96.357946  6.91943677  6.84590313 96.357946 6.84590313 93.72927864 44.09224946 44.09224946 44.6370931) (out (coq_EM_hudson_cone p (f 37.) (f 45.) (f 2.1) (f 0.) (f 0.1) (f 0.01) (f 30.)));
 chk "Berryman_sc" [38.20809896060306; 22.544608086722757] (out (coq_EM_Berryman_sc fsolve DFloat (lf [47.;35.]) (lf [30.;20.]) (lf [0.3;0.7]) [0.1;1.2]));
 let al=[0.005;0.001;0.01;0.1] in
 chk "PQ_vectorize" ([15.72732627; 15.39575083; 11.02069818;  3.90846602; 55.03822226; 250.79531002;  29.06865426;   4.82746831]@al) (out (coq_EM_PQ_vectorize DFloat (f 37.) (f 44.) (lf (linspace 2. 3. 4)) (lf [0.;0.;0.;0.]) al));
 let pp = linspace 0.1 0.3 5 in
 let sw = map (fun (k,g) -> arr (fun x -> coq_EM_Swiss_cheese n (f k) (f g) (f x)) pp) [(30.,10.);(40.,20.);(50.,30.)] in
 let take i l = Stdlib.List.filteri (fun j _ -> j/5 = i) l in
 chk "Swiss_cheese" [22.64150943; 20.16806723; 18.18181818; 16.55172414; 15.18987342; 32.        ; 29.09090909; 26.66666667; 24.61538462; 22.85714286; 40.81632653; 37.38317757; 34.48275862; 32.        ; 29.85074627;
   8.43373494;  7.82122905;  7.29166667;  6.82926829;  6.42201835; 16.77419355; 15.52238806; 14.44444444; 13.50649351; 12.68292683; 25.09090909; 23.19327731; 21.5625    ; 20.1459854 ; 18.90410959]
   (Stdlib.List.concat (map (take 0) sw) @ Stdlib.List.concat (map (take 1) sw));
 chk "SC" [30.84267143; 24.35677881; 17.39208156; 34.82985709; 25.77929529; 16.94540536] (arr (fun x -> coq_EM_SC n (f x) (f 37.) (f 44.) 10) [0.1;0.2;0.3]);
 let cd=[0.001;0.01;0.1] in
 chk "Dilute_crack" [36.92334526; 36.24748381; 30.63915556; 43.92603192; 43.27134365; 37.65858256] (arr (fun x -> coq_EM_Dilute_crack n (f 37.) (f 44.) (f x)) cd);
 chk "OConnell_Budiansky" [36.9232084 ; 36.2340839 ; 29.53604499; 43.9258999 ; 43.25832733; 36.51631015] (arr (fun x -> coq_EM_OConnell_Budiansky n (f 37.) (f 44.) (f x)) cd);
 chk "OConnell_Budiansky_fl" [31.248892685984856; 37.30710074731592] (out (coq_EM_OConnell_Budiansky_fl p fsolve (f 37.) (f 44.) (f 2.1) (f 0.1) (f 0.1)));
 chk "PQ" [4.234473045076649; 4.924519092069241] (out (coq_EM_PQ p (f 37.) (f 44.) (f 2.1) (f 0.) 0.1));
 chk "Berryman_DEM" [37.        ; 36.30333795; 35.61335154; 34.93004012; 34.2534029 ; 33.58343942; 32.92014877; 32.26353014; 31.6135827 ; 30.97030572; 30.3336984 ; 44.        ; 43.11432154; 42.23763304; 41.36993471; 40.51122677; 39.66150938; 38.82078278; 37.98904724; 37.16630299; 36.35255026; 35.54778928; 0.  ; 0.01; 0.02; 0.03; 0.04; 0.05; 0.06; 0.07; 0.08; 0.09; 0.1]
   (out (coq_EM_Berryman_DEM p odeint (fun a b s -> map f (Stdlib.List.init (int_of_float (ceil ((gf b -. gf a)/. gf s -. 1e-9))) (fun i -> gf a +. gf s *. float_of_int i))) (f 37.) (f 44.) (f 0.) (f 0.) 1. (f 0.1)));
 let fs = linspace 0. 0.4 5 in
 chk "SC_dilute" [1.        ; 1.18537201; 1.45510836; 1.88376754; 2.67045455; 1.        ; 1.25214408; 1.67431193; 2.52595156; 5.14084507] (arr (fun x -> coq_EM_SC_dilute n (f 6.5) (f 3.) (f 325.) (f 150.) (f x) (str "stress")) fs);
 chk "SC_flex" [6.5       ;  7.72808652;  9.61307829; 12.88577277; 19.66902292; 3.        ;  3.7470363 ;  4.94410361;  7.10044198; 11.64810309] (arr (fun x -> coq_EM_SC_flex n (f x) 100 (f 6.5) (f 325.) (f 3.) (f 150.)) fs);
 chk "MT_average" [5.        ; 10.84269663; 17.83950617; 26.36986301; 37.        ;10.        ; 15.77381712; 23.02430955; 32.40103909; 45.] (arr (fun x -> coq_EM_MT_average n (f x) (f 37.) (f 45.) (f 37.) (f 45.) (f 5.) (f 10.)) (linspace 0. 1. 5));
 let open M_Anis in
 chk "Thomsen" [3606.972956129558; 1607.1738588279738; 2515.5764746872637; 0.0; 0.5; 0.75] (out (coq_Anis_Thomsen p (f 20.) (f 20.) (f 10.) (f 10.) (f 20.) (f 2.) (f 30.)));
 chk "Tsvankin" [-0.375; -10.0; -0.25; 0.0; -3.75; -0.2; 3.0] (out (coq_Anis_Thomsen_Tsvankin p (f 20.) (f 5.) (f 20.) (f 10.) (f 10.) (f 20.) (f 25.) (f 30.) (f 15.)));
 chk "Backus" [41.098130841121495; 41.12149532710281; 12.429906542056075; 13.953488372093023; 14.5] (out (coq_Anis_Backus (lf [0.1;0.2;0.7]) (lf [15.;20.;10.]) (lf [20.;10.;15.])));
 chk "Backus_log" [29.133954660361283; 29.45167576239999; 20.018242129339992; 4.6065956954832; 4.6448540000000005; 2.305] (out (coq_Anis_Backus_log (lf [3.;3.5;4.]) (lf [1.55;1.32;1.4]) (lf [2.2;2.3;2.35]) (lf [1000.;1700.;2300.;4000.])));
 let dg = linspace 0. 90. 10 in
 let m9 a b c d e g x y z = mat [[a;b;c;0.;0.;0.];[b;d;e;0.;0.;0.];[c;e;g;0.;0.;0.];[0.;0.;0.;x;0.;0.];[0.;0.;0.;0.;y;0.];[0.;0.;0.;0.;0.;z]] in
 chk "vel_azi_HTI" [3.61157559; 3.88601535; 4.19614812; 4.41664613; 4.53013766; 4.53013766; 4.41664613; 4.19614812; 3.88601535; 3.61157559; 3.29690237; 2.9684892 ; 2.51105246; 2.0991142 ; 1.84143863; 1.84143863; 2.0991142 ; 2.51105246; 2.9684892 ; 3.29690237; 3.29690237; 3.26694211; 3.1790984 ; 3.03959379; 2.85918515; 2.65376178; 2.44504823; 2.26069119; 2.13177874; 2.08514414]
  (arr (fun x -> coq_Anis_vel_azi_HTI n (m9 30. 15. 15. 30. 10. 30. 10. 25. 25.) (f 2.3) (f x)) dg);
 let cv = m9 50. 30. 15. 50. 15. 30. 20. 20. 10. in
 chk "vel_azi_VTI" [3.61157559; 3.77222919; 4.05016857; 4.30648876; 4.50469172; 4.63315913; 4.69307069; 4.69810515; 4.67602567; 4.66252404; 2.94883912; 2.9265251 ; 2.8613027 ; 2.75838642; 2.62663952; 2.47875838; 2.33126202; 2.20372982; 2.11634805; 2.08514414; 2.94883912; 2.78776315; 2.5204093 ; 2.31672139; 2.2449314 ; 2.31857393; 2.49718983; 2.71023847; 2.88224921; 2.94883912]
  (arr (fun x -> coq_Anis_vel_azi_VTI n cv (f 2.3) (f x)) dg);
 chk "Bond_trans" [44.375;35.625;15.;0.;0.;-2.16506351; 35.625;44.375;15.;0.;0.;2.16506351; 15.;15.;30.;0.;0.;0.; 0.;0.;0.;20.;0.;0.; 0.;0.;0.;0.;20.;0.; -2.16506351;2.16506351;0.;0.;0.;10.] (out (coq_Anis_Bond_trans cv (f 30.) 3));
 let open M_AVO in
 let th4 = linspace 0. 20. 4 in
 chk "AVO_HTI" [-0.26513677; -0.23127679; -0.13089322;  0.03261608; -0.26513677; -0.23164028; -0.13233472;  0.02941735; -0.26513677; -0.2327113 ; -0.13658373;  0.01998204; -0.26513677; -0.23443248; -0.14341743;  0.00478649]
   (out (coq_AVO_HTI (f 2.2) (f 2.4) (m9 97. 7. 7. 97. 7. 97. 45. 45. 45.) (m9 100. 30. 15. 100. 15. 30. 20. 20. 10.) (lf th4) (lf th4)));
 let th = linspace 0. 40. 10 in
 let take10 i l = Stdlib.List.filteri (fun j _ -> j/10 = i) l in
 let ak = arr (fun x -> coq_AVO_Aki_Richards n (f x) (f 2000.) (f 3000.) (f 1000.) (f 1200.) (f 2200.) (f 2300.)) th in
 chk "Aki_Richards" [0.22222222; 0.22248164; 0.22334161; 0.22505294; 0.22805364; 0.2330032 ; 0.24084072; 0.25288048; 0.27096972; 0.29775439; 0.        ; -0.01942277; -0.03799843; -0.05490899; -0.069394  ; -0.08077786; -0.08849507; -0.09211298; -0.09135103; -0.08609571; 0.22222222222222224; 0.04199111111111112]
   (take10 0 ak @ take10 1 ak @ [Stdlib.List.nth ak 20; Stdlib.List.nth ak 30]);
 chk "zoeppritz" [-0.33333333;  0.63570799;  0.2306779 ;  0.49624365;  0.62297421; -0.23233527;  0.58942721; -0.17987888;  0.558575  ;  0.46210946; 0.        ;  0.06837842;  0.3803706 ;  0.27702168; -0.05652195; -0.24909291; -0.1180928 ; -0.29264611; -0.10438406;  0.21227566]
   (arr (fun x -> coq_AVO_zoeppritz (f 4400.) (f 3200.) (f 2500.) (f 2500.) (f 1300.) (f 2200.) (f x)) th);
 chk "AVO_abe" [0.05; 0.14975845; 0.2; 0.31447918; 0.14255428; 0.04734781; 0.3355; 0.16089461; 0.0592; 0.27984688;  0.01213751; -0.144512; 0.36631579;  0.00614048; -0.18181818]
   (arr (fun (a,b,c,d,e,g) -> coq_AVO_AVO_abe n (f a) (f b) (f c) (f d) (f e) (f g)) [(1500.,900.,1.5,2500.,1000.,1.);(1750.,950.,1.85,2750.,1100.,1.6);(2000.,1000.,2.2,3000.,1200.,2.2)]);
 let smp=[((f 2500.,f 1500.),f 2.);((f 2750.,f 1750.),f 2.1);((f 3000.,f 2000.),f 2.2)] in
 let ei = map (fun x -> match coq_AVO_EI_ref n smp (f x) (f 0.5) true with Ret l -> map (fun r -> [r.coq_EI_pp;r.coq_EI_psv;r.coq_EI_svp;r.coq_EI_svsv;r.coq_EI_shsh]) l | _ -> []) (linspace 0. 40. 4) in
 chk "EI_ref" [5000.        ; 5068.65592815; 5245.25596794; 5418.791153  ; 5775.        ; 5775.        ; 5775.        ; 5775.        ; 6600.        ; 6522.64313991; 6333.50579279; 6164.26231533;
  5775.        ; 6314.14415614; 6703.71276525; 6769.41465685; 5775.        ; 5775.        ; 5775.        ; 5775.        ; 5775.        ; 5335.09168518; 5057.60056572; 5010.44840975;
  3675.        ; 3878.87409752; 4027.7227177 ; 4030.1759451 ; 3675.        ; 3675.        ; 3675.        ; 3675.        ; 3675.        ; 3486.13535395; 3372.38883288; 3446.06997545;
  4501.875     ; 4393.62795852; 4108.14932587; 3739.56534509; 3675.        ; 3675.        ; 3675.        ; 3675.        ; 3069.46022727; 3151.62398647; 3389.42657025; 3750.17554161;
  4501.875     ; 4488.3492232 ; 4447.94597164; 4382.23399945; 3675.        ; 3675.        ; 3675.        ; 3675.        ; 3069.46022727; 3079.39898699; 3110.02516231; 3163.05498124]
  (Stdlib.List.concat (Stdlib.List.init 5 (fun q -> Stdlib.List.concat (Stdlib.List.init 3 (fun s -> map (fun e -> gf (Stdlib.List.nth (Stdlib.List.nth e s) q)) ei)))));
 let open M_BW in
 let pt = Stdlib.List.combine (linspace 20. 40. 4) (linspace 40. 100. 4) in
 chk "rho_K_co2" [0.61592007; 0.60874166; 0.60099684; 0.59403165; 0.11058432; 0.15243223; 0.18276998; 0.20478121] (arr (fun (x,t) -> coq_BW_rho_K_co2 n (f x) (f t) (f 1.2)) pt);
 chk "rho_K_gas" [0.41957204; 0.41635711; 0.41348241; 0.41128399; 0.16693798; 0.2037523 ; 0.22983503; 0.24951797] (arr (fun (x,t) -> coq_BW_rho_K_gas n (f x) (f t) (f 1.2)) pt);
 chk "rho_K_oil" [0.87622229; 0.86380022; 0.85103238; 0.83806654; 1.84963494; 1.73858842; 1.63828494; 1.54822048] (arr (fun (x,t) -> coq_BW_rho_K_oil n (f x) (f t) (f 0.88)) pt);
 chk "rho_K_go" [0.78527236; 0.77059486; 0.75630133; 0.74238677; 1.05535966; 0.97603187; 0.91739857; 0.8784189] (arr (fun (x,t) -> coq_BW_rho_K_go n (f x) (f t) (f 0.88) (f 1.2) (Some (f 85.))) pt);
 chk "rho_K_water" [1.00014216; 0.99467699; 0.98698636; 0.9773372; 2.4395262 ; 2.5457876 ; 2.59353244; 2.59199095] (arr (fun (x,t) -> coq_BW_rho_K_water (f t) (f x)) pt);
 chk "v_water" [1561.78726157; 1599.81604506; 1621.0270707 ; 1628.52536] (arr (fun (x,t) -> coq_BW_v_water (f t) (f x)) pt);
 chk "rho_K_brine" [1.17846792; 1.17025331; 1.16027916; 1.1488124; 3.84408197; 3.87376277; 3.86013756; 3.8135643] (arr (fun (x,t) -> coq_BW_rho_K_brine n (f t) (f x) (f 0.24)) pt);
 chk "v_brine" [1806.0818885 ; 1819.39321897; 1823.98030992; 1821.96898287] (arr (fun (x,t) -> coq_BW_v_brine n (f t) (f x) (f 0.24)) pt);
 let open M_Emp in
 chk "krief" [17.66661367; 12.4344996 ;  7.65139849;  3.83078846;  1.37376; 43.999868  ; 30.96894241; 19.05631323;  9.54083163;  3.42144; 46.999859  ; 33.08046121; 20.35560731; 10.19134288;  3.65472] (arr (fun x -> coq_Emp_krief n (f x) (f 47.) (f 44.)) (linspace 1e-6 0.4 5));
 chk "esti_VS" [1544.70332922; 1931.5034334 ;  979.50251832] (arr (fun (a,b) -> coq_Emp_esti_VS n (f a) (f b)) [(3000.,0.1);(3500.,0.2);(2300.,0.15)]);
 chk "Cp" [8.64] (out (coq_Emp_Cp (f 0.4)));
 let open M_Fluid in
 let rhodry = 0.8 *. 2.75 in let gd = rhodry *. 1.3 *. 1.3 in let kd = rhodry *. 2.5 *. 2.5 -. 4./.3. *. gd in
 let k0=37. and rho0=2.75 and rhofl=1.2 and kfl=2.3 and nu=0.1 and phi=0.2 and perm=0.001 and a=0.02 and alpha=2. in
 let freq = map (fun e -> 10. ** e) (linspace (-1.) 3. 4) in
 chk "Brie" [1.2       ; 1.20013717; 1.20219479; 1.21111111; 1.2351166 ; 1.28573388; 1.37777778; 1.52935528; 1.76186557; 2.1] (arr (fun s -> coq_Fluid_Brie n (f 2.1) (f 1.2) (f s) (f 4.)) (linspace 0. 1. 10));
 chk "Biot" [2.82259127; 2.82512442; 2.82636373; 2.82636977; 0.28457234; 0.74286946; 0.77719293; 0.77747519; 1.23458051; 1.25693158; 1.26585154; 1.26589411; 1.77718961e-04; 1.26089932e-03; 8.71068103e-05; 5.67820847e-06; 1.39142536e+01; 6.44535023e-01; 2.99632580e-02; 1.95001446e-03; 3.68817365e-03; 2.27117947e-02; 1.47416907e-03; 9.60675136e-05]
   (arr (fun w -> coq_Fluid_Biot n jv (f kd) (f gd) (f k0) (f kfl) (f rho0) (f rhofl) (f nu) (f phi) (f perm) (f a) (f alpha) (f w)) freq);
 chk "Biot_HF" [2.8263748996477673; 0.7779580777841519; 1.2659329393362635] (out (coq_Fluid_Biot_HF p (f kd) (f gd) (f k0) (f kfl) (f rho0) (f rhofl) (f phi) (f alpha)));
 chk "GS_HF" [2.9314866269776054; 1.2659329393362635] (out (coq_Fluid_Geertsma_Smit_HF p (f kd) (f gd) (f k0) (f kfl) (f rho0) (f rhofl) (f phi) (f alpha)));
 chk "GS_LF" [2501.12305747; 2754.93967911; 2998.96267556; 2999.99776048] (arr (fun w -> coq_Fluid_Geertsma_Smit_LF n (f 2500.) (f 3000.) (f w) (f phi) (f rhofl) (f perm) (f nu)) freq);
 chk "Gassmann" [14.481969751202783; 3.718000000000001] (out (coq_Fluid_Gassmann p (f kd) (f gd) (f k0) (f kfl) (f phi)));
 chk "Gassmann_sub" [13.0832864 ; 18.8777377 ; 24.45146108; 29.81683308] (arr (fun k -> coq_Fluid_Gassmann_sub n (f phi) (f k0) (f k) (f 2.3) (f 1.4)) [15.;20.;25.;30.]);
 chk "vels" [2870.0161728517414; 1255.1588460484033; 2.3600000000000003] (out (coq_Fluid_vels p (f kd) (f gd) (f k0) (f 2.65) (f kfl) (f 1.2) (f phi)));
 chk "Gassmann_vels" [1763.02252647; 2203.76025   ; 2644.5006265 ; 3085.24251897; 3525.98535888; 1526.78783106; 1908.48478883; 2290.18174659; 2671.87870436; 3053.57566213]
   (arr (fun (vp,vs) -> coq_Fluid_Gassmann_vels n (f vp) (f vs) (f 2.3) (f 1.2) (f 2.3) (f 0.8) (f 1.4) (f k0) (f 0.2)) (Stdlib.List.combine (linspace 3500. 4000. 5) (linspace 1500. 3000. 5)));
 chk "Gassmann_approx" [33.76101321585903] (out (coq_Fluid_Gassmann_approx p (f 35.) (f 65.) (f 4.) (f 0.2) (f 3.)));
 let bc = m9 100. 30. 15. 100. 15. 30. 20. 20. 10. in let bs = inv bc in
 chk "BK_dry2sat" (m6 0.01125505 (-0.00303066) (-0.00333797) 0.01125505 (-0.00333797) 0.0333532 0.05 0.05 0.1) (out (coq_Fluid_Brown_Korringa_dry2sat p npinv bs (f 37.) (f 44.) (f 2.3) (f 0.2)));
 chk "BK_sat2dry" (m6 0.01179714 (-0.00248858) (-0.0056612) 0.01179714 (-0.0056612) 0.0433099 0.05 0.05 0.1) (out (coq_Fluid_Brown_Korringa_sat2dry p npinv bs (f 37.) (f 44.) (f 2.3) (f 0.2)));
 chk "BK_sub" (m6 99.53530254 29.53530254 15.6970462 99.53530254 15.6970462 28.95443071 20. 20. 10. @ m6 0.01160511 (-0.0026806) (-0.00483824) 0.01160511 (-0.00483824) 0.03978293 0.05 0.05 0.1) (out (coq_Fluid_Brown_Korringa_sub p npinv bc (f 37.) (f 44.) (f 2.3) (f 1.4) (f 0.2)));
 let mj = arr (fun (a,b) -> coq_Fluid_Mavko_Jizba n (f 4500.) (f 3500.) (f a) (f b) (f 37.) (f 2.4) (f 1.2) (f 2.1) (f 0.2)) [(2500.,1500.);(3000.,2000.);(3500.,2500.);(4000.,3000.)] in
 chk "Mavko_Jizba" ([14.458807159572448;14.458807159572448;14.458807159572448;14.458807159572448;5.57519432;  9.78163185; 15.        ; 21.32773109;2879.68324683; 3227.54380282; 3612.83523974; 4030.93069323;1453.20887391; 1924.88014667; 2383.65647311; 2842.30294301]) mj;
 let t5 (a,b,c,d,e) = ((((f a,f b),f c),f d),f e) in
 chk "Squirt" [0.07253425; 0.04520548; 0.04226027; 0.15547945; 0.16347603] (out (coq_Fluid_Squirt_anisotropic p (t5 (0.01,0.,0.04,0.05,0.1)) (t5 (0.015,0.1,0.045,0.15,0.15))));
 chk "White" [2.83876535; 2.83876095; 2.83876095; 2.83876095; 3.50342118e-07;  6.29187915e-09; -4.37822267e-09;  6.70571512e-09; 14.58474426;14.5846837;14.58468365;14.58468365;6.18646709e-05;5.15697916e-08;-1.66563376e-09;1.18411378e-10]
  (arr (fun w -> coq_Fluid_White_Dutta_Ode n (f kd) (f gd) (f k0) (f phi) (f rho0) (f 1.05) (f 1.2) (f 2.3) (f 2.4) (f 0.001) (f 0.002) (f 0.01) (f 0.0001) (f 0.5) (f w)) freq);
 let open M_GM in
 let phic=0.4 and sigma=20. and cn=8.6 and ff=0.5 and k0=36.6 and g0=45. and phib=0.3 in
 let ph = linspace 1e-7 0.4 5 in
 chk "ThomasStieber" [0.3 ; 0.1 ; 0.1 ; 0.15; 0.2;0.3  ; 0.275; 0.25 ; 0.225; 0.2] (arr (fun v -> coq_GM_ThomasStieber (f 0.3) (f 0.2) (f v)) (linspace 0. 1. 5));
 chk "contactcement" [15.23060407; 13.38715662; 11.12410371;  8.05043534;  0.04975205;20.63320692; 18.20079046; 15.18898382; 11.0578813 ;  0.12356857] (arr (fun x -> coq_GM_contactcement n (f k0) (f g0) (f k0) (f g0) (f x) (f phic) (f cn) 2) ph);
 chk "hertzmindlin" [1.9063198609211909; 2.802805417138183] (out (coq_GM_hertzmindlin p (f k0) (f g0) (f phic) (f cn) (f sigma) (f 1.)));
 chk "softsand" [36.59992501; 10.84323519;  5.50294039;  3.19420155;  1.90631986;44.99986823; 10.43728104;  5.22047177;  3.11303278;  1.97329867] (arr (fun x -> coq_GM_softsand n (f k0) (f g0) (f x) (f phic) (f cn) (f sigma) (f ff)) ph);
 chk "Walton" [1.9063198609211907; 1.9732986668454486] (out (coq_GM_Walton p (f k0) (f g0) (f phic) (f cn) (f sigma) (f ff)));
 chk "johnson" (m6 13.55173859  2.99195167  0.10545295 13.55173859 0.10545295 14.1114226 6.14910708 6.14910708 5.27989346 @ [-0.7568273233538366; -0.21993424428637734]) (out (coq_GM_johnson p (f 37.) (f 44.) (f 6.) (f 0.36) (f (-0.03)) (f (-0.05)) (str "together")));
 chk "stiffsand" [36.59998647; 24.72898818; 15.45629949;  8.0129985 ;  1.90631986;44.99997843; 27.76374785; 16.29187542;  8.1069418 ;  1.97329867] (arr (fun x -> coq_GM_stiffsand n (f k0) (f g0) (f x) (f phic) (f cn) (f sigma) (f ff)) ph);
 chk "constantcement" [36.59997856; 21.47765637; 13.23657067;  8.05043523;  4.48617491;44.9999703 ; 25.73592158; 16.48882383; 11.0578815 ;  7.48484988] (arr (fun x -> coq_GM_constantcement n (f phib) (f k0) (f g0) (f k0) (f g0) (f x) (f phic) (f cn) 2) ph);
 chk "MUHS" [36.59998649; 24.7483484 ; 15.48701406;  8.05043461;  1.94767854;44.99998129; 29.63592467; 18.93672859; 11.05788087;  5.01406624] (arr (fun x -> coq_GM_MUHS n (f k0) (f g0) (f k0) (f g0) (f x) (f phib) (f phic) (f cn) 2) ph);
 chk "Digby" [5.81155426; 8.51375906] (out (coq_GM_Digby p roots3 (f 37.) (f 44.) (f 0.36) (f 9.) (f 20.) (f 0.2)));
 chk "pcm" [36.59996762; 18.18928411; 10.87569332;  6.94950669;  4.49985482;44.9999437 ; 18.71837729; 10.71568312;  6.84274853;  4.55850738] (arr (fun x -> coq_GM_pcm n (f ff) (f sigma) (f k0) (f g0) (f x) (f phic) (f 0.1) (f 0.111) (f k0) (f g0) (f cn) (str "stiff") 2 (f 0.)) ph);
 chk "Kozeny_Carman" [3.0612244897959185e-12] (out (M_Perm.coq_Perm_Kozeny_Carman p (f 0.3) (f 0.0001)));
 Printf.printf "bad: %d\n" !bad
