(** Tables of normal.go, generated by tools/mkzig.py.
    A pair (m, e) of a _bin table is the float64 m * 2^e; a pair (D, k) of a _dec table is the literal D * 10^-k as
    written in the source. Proofs/ZigTables.v checks that each _bin entry is the double nearest to its literal. *)
From Coq Require Import NArith ZArith List.
Import ListNotations.

(** normal.go:54-311 *)
Definition normalK : list N := [
  0x1e3e4a8bb4f969; 0x00000000000000; 0x181f29db804409; 0x1b5405b352f86e; 0x1cb0a36a1f2595; 0x1d70cf1f08543f; 0x1dea3fdec95c06; 0x1e3dd13ea3711f;
  0x1e7ac893a08e18; 0x1ea9327c8026c9; 0x1ecdb2d523da52; 0x1eeb25f2755db1; 0x1f03679c0bc516; 0x1f17ba339b0015; 0x1f28ffd70bf283; 0x1f37dbc4c52f7b;
  0x1f44c6c3ccd493; 0x1f501c1707a95a; 0x1f5a21fa11984b; 0x1f630f59b3e4a2; 0x1f6b0fc75879ee; 0x1f724642d86756; 0x1f78cf3bfdf0b2; 0x1f7ec20a54817f;
  0x1f8432047bca75; 0x1f892f52b0ec52; 0x1f8dc78f86f1af; 0x1f92064407767c; 0x1f95f548979015; 0x1f999d11599f25; 0x1f9d04eaf01bed; 0x1fa0332b3b9e8d;
  0x1fa32d58c32bba; 0x1fa5f84acbf75e; 0x1fa89843a9c534; 0x1fab11067580f1; 0x1fad65e91365d5; 0x1faf99e33eb118; 0x1fb1af9b29dd9e; 0x1fb3a9702490cd;
  0x1fb58983a15ca6; 0x1fb751c0e399e9; 0x1fb903e38fa03a; 0x1fbaa17d4c9e56; 0x1fbc2bfa9e9a72; 0x1fbda4a7182e32; 0x1fbf0cb0fdfea0; 0x1fc0652c7172ad;
  0x1fc1af163487b8; 0x1fc2eb5615adbe; 0x1fc41ac110297d; 0x1fc53e1b2b7e2b; 0x1fc6561922bce0; 0x1fc76361db3ca1; 0x1fc8668fb11d50; 0x1fc960319f06f6;
  0x1fca50cc45cd32; 0x1fcb38dad7f552; 0x1fcc18cfec8ea5; 0x1fccf1163c5415; 0x1fcdc2114ba767; 0x1fce8c1e039f9e; 0x1fcf4f933c1983; 0x1fd00cc23879c0;
  0x1fd0c3f7189988; 0x1fd175793f27b8; 0x1fd2218baea00d; 0x1fd2c86d5dd6f8; 0x1fd36a5984fa74; 0x1fd40787e3cdd6; 0x1fd4a02d01cfc7; 0x1fd5347a68e59f;
  0x1fd5c49edb15ee; 0x1fd650c683ccb7; 0x1fd6d91b25168d; 0x1fd75dc44133ec; 0x1fd7dee740dbea; 0x1fd85ca7967c19; 0x1fd8d726debb7d; 0x1fd94e84fe7f49;
  0x1fd9c2e03ea9be; 0x1fda345565c5f2; 0x1fdaa2ffcfce40; 0x1fdb0ef98436ae; 0x1fdb785b4a60a6; 0x1fdbdf3cbc99c1; 0x1fdc43b459c453; 0x1fdca5d795c56f;
  0x1fdd05bae8d1aa; 0x1fdd6371ddaf92; 0x1fddbf0f1f04b2; 0x1fde18a483c02e; 0x1fde70431ab464; 0x1fdec5fb356f5b; 0x1fdf19dc72608f; 0x1fdf6bf5c65954;
  0x1fdfbc55857404; 0x1fe00b096b6d11; 0x1fe0581ea37840; 0x1fe0a3a1cf9b69; 0x1fe0ed9f0f9767; 0x1fe13622076726; 0x1fe17d35e55c22; 0x1fe1c2e567df1b;
  0x1fe2073ae2db30; 0x1fe24a4044d923; 0x1fe28bff1bd019; 0x1fe2cc8099b0bf; 0x1fe30bcd98af57; 0x1fe349ee9f50e8; 0x1fe386ebe43f80; 0x1fe3c2cd51e913;
  0x1fe3fd9a89ec66; 0x1fe4375ae8570f; 0x1fe4701586b78b; 0x1fe4a7d13f05ff; 0x1fe4de94ae663a; 0x1fe5146637c547; 0x1fe5494c0654b9; 0x1fe57d4c0fe5bf;
  0x1fe5b06c1725db; 0x1fe5e2b1adbf0c; 0x1fe61422365d09; 0x1fe644c2e69917; 0x1fe67498c8cdf2; 0x1fe6a3a8bdd51a; 0x1fe6d1f77eaed3; 0x1fe6ff899e15f3;
  0x1fe72c638a00b6; 0x1fe758898d0f81; 0x1fe783ffcfeaab; 0x1fe7aeca5a9027; 0x1fe7d8ed1591e8; 0x1fe8026bcb45dc; 0x1fe82b4a28e834; 0x1fe8538bbfb0ae;
  0x1fe87b3405db9e; 0x1fe8a24657a740; 0x1fe8c8c5f845fe; 0x1fe8eeb612c634; 0x1fe91419baeff1; 0x1fe938f3ee1944; 0x1fe95d4793f180; 0x1fe981177f43ef;
  0x1fe9a4666eb25c; 0x1fe9c7370d67e2; 0x1fe9e98bf3c44b; 0x1fea0b67a8007a; 0x1fea2ccc9ecc0f; 0x1fea4dbd3be4bd; 0x1fea6e3bd2a777; 0x1fea8e4aa69be8;
  0x1feaadebebfa4b; 0x1feacd21c82c13; 0x1feaebee524779; 0x1feb0a53938647; 0x1feb285387b805; 0x1feb45f01dafcc; 0x1feb632b37adde; 0x1feb8006abc545;
  0x1feb9c84443da0; 0x1febb8a5bff13c; 0x1febd46cd2a7bb; 0x1febefdb256d57; 0x1fec0af256e6f4; 0x1fec25b3fba31f; 0x1fec40219e681f; 0x1fec5a3cc07f32;
  0x1fec7406d9fd18; 0x1fec8d815a080a; 0x1feca6ada71b32; 0x1fecbf8d1f47ca; 0x1fecd8211873e9; 0x1fecf06ae0972a; 0x1fed086bbdf533; 0x1fed2024ef563b;
  0x1fed3797ac3da1; 0x1fed4ec5251ea8; 0x1fed65ae838f64; 0x1fed7c54ea79fc; 0x1fed92b9764c3b; 0x1feda8dd3d2593; 0x1fedbec14f0397; 0x1fedd466b5ecfd;
  0x1fede9ce761b3e; 0x1fedfef98e22d4; 0x1fee13e8f71a2b; 0x1fee289da4bf5a; 0x1fee3d18859c9b; 0x1fee515a832ba1; 0x1fee656481f7cc; 0x1fee793761bf49;
  0x1fee8cd3fd932e; 0x1feea03b2bf68b; 0x1feeb36dbefc8f; 0x1feec66c8465b5; 0x1feed93845bc16; 0x1feeebd1c86ed3; 0x1feefe39cdecb0; 0x1fef107113bde3;
  0x1fef2278539d12; 0x1fef3450438fa0; 0x1fef45f995fd32; 0x1fef5774f9c68b; 0x1fef68c31a5bbb; 0x1fef79e49fd1a0; 0x1fef8ada2ef6ce; 0x1fef9ba46967da;
  0x1fefac43eda30a; 0x1fefbcb9571b77; 0x1fefcd053e4ba5; 0x1fefdd2838c792; 0x1fefed22d94e3b; 0x1feffcf5afdaaf; 0x1ff00ca149b499; 0x1ff01c26318063;
  0x1ff02b84ef4ed5; 0x1ff03abe08ac52; 0x1ff049d200afa8; 0x1ff058c158086d; 0x1ff0678c8d0d07; 0x1ff076341bc844; 0x1ff084b87e06a0; 0x1ff0931a2b6325;
  0x1ff0a1599953fa; 0x1ff0af773b3694; 0x1ff0bd73825ba2; 0x1ff0cb4ede1296; 0x1ff0d909bbb4ed; 0x1ff0e6a486b127; 0x1ff0f41fa89576; 0x1ff1017b891a25;
  0x1ff10eb88e2bbb; 0x1ff11bd71bf4d9; 0x1ff128d794e7dd; 0x1ff135ba59c83a; 0x1ff1427fc9b3a2; 0x1ff14f28422ae8; 0x1ff15bb41f1aaf; 0x1ff16823bae3e0;
  0x1ff174776e63ea; 0x1ff180af90fcc9; 0x1ff18ccc789ce2; 0x1ff198ce79c6a4; 0x1ff1a4b5e79801; 0x1ff1b08313d1b4; 0x1ff1bc364ede58; 0x1ff1c7cfe7d957;
  0x1ff1d3502c95a9; 0x1ff1deb769a471; 0x1ff1ea05ea5b66; 0x1ff1f53bf8db20; 0x1ff20059de1536; 0x1ff20b5fe1d23d; 0x1ff2164e4ab79f; 0x1ff221255e4d4c;
  0x1ff22be5610354; 0x1ff2368e963750; 0x1ff241214039b9; 0x1ff24b9da05312; 0x1ff25603f6c902; 0x1ff2605482e340; 0x1ff26a8f82f072; 0x1ff274b5344ae2;
  0x1ff27ec5d35d1e; 0x1ff288c19ba681; 0x1ff292a8c7bf95; 0x1ff29c7b915e6d; 0x1ff2a63a315ad3; 0x1ff2afe4dfb272; 0x1ff2b97bd38cd6; 0x1ff2c2ff433f61;
  0x1ff2cc6f645127; 0x1ff2d5cc6b7eaf; 0x1ff2df168cbda7; 0x1ff2e84dfb4081; 0x1ff2f172e979f2; 0x1ff2fa85892070; 0x1ff303860b318c; 0x1ff30c749ff540;
  0x1ff3155177012e; 0x1ff31e1cbf3bc8; 0x1ff326d6a6df6a; 0x1ff32f7f5b7d5e; 0x1ff338170a00d8; 0x1ff3409ddeb1de; 0x1ff34914053818; 0x1ff35179a89da4;
  0x1ff359cef351c4; 0x1ff362140f2b93; 0x1ff36a49256c9a; 0x1ff3726e5ec365; 0x1ff37a83e34e01; 0x1ff38289da9c72; 0x1ff38a806bb31a; 0x1ff39267bd0d12;
  0x1ff39a3ff49e7f; 0x1ff3a20937d6cb; 0x1ff3a9c3aba2e6; 0x1ff3b16f746f6b; 0x1ff3b90cb62ac2; 0x1ff3c09b944738; 0x1ff3c81c31bd05; 0x1ff3cf8eb10c53;
  0x1ff3d6f3343f2f; 0x1ff3de49dceb77; 0x1ff3e592cc34be; 0x1ff3ecce22ce25; 0x1ff3f3fc00fc28; 0x1ff3fb1c86966c; 0x1ff4022fd30974; 0x1ff4093605585e;
  0x1ff4102f3c1e8b; 0x1ff4171b959149; 0x1ff41dfb2f816b; 0x1ff424ce275cdf; 0x1ff42b949a303c; 0x1ff4324ea4a849; 0x1ff438fc631377; 0x1ff43f9df1635b;
  0x1ff446336b2e1e; 0x1ff44cbcebafe4; 0x1ff4533a8dcc30; 0x1ff459ac6c0f40; 0x1ff46012a0af5f; 0x1ff4666d458e38; 0x1ff46cbc743a19; 0x1ff4730045ef3d;
  0x1ff47938d39902; 0x1ff47f6635d322; 0x1ff4858884eae8; 0x1ff48b9fd8e052; 0x1ff491ac496743; 0x1ff497adede899; 0x1ff49da4dd8351; 0x1ff4a3912f0d95;
  0x1ff4a972f915d8; 0x1ff4af4a51e3d7; 0x1ff4b5174f79aa; 0x1ff4bada0794c1; 0x1ff4c0928faee5; 0x1ff4c640fcff32; 0x1ff4cbe5647b0d; 0x1ff4d17fdad710;
  0x1ff4d710748800; 0x1ff4dc9745c3ac; 0x1ff4e2146281d9; 0x1ff4e787de7d20; 0x1ff4ecf1cd33c9; 0x1ff4f25241e8a6; 0x1ff4f7a94fa3e8; 0x1ff4fcf70933f1;
  0x1ff5023b812e1f; 0x1ff50776c9ef9a; 0x1ff50ca8f59e19; 0x1ff511d21628a4; 0x1ff516f23d4859; 0x1ff51c097c8121; 0x1ff52117e52273; 0x1ff5261d884803;
  0x1ff52b1a76da79; 0x1ff5300ec19020; 0x1ff534fa78ed95; 0x1ff539ddad466f; 0x1ff53eb86ebdeb; 0x1ff5438acd478c; 0x1ff54854d8a7bf; 0x1ff54d16a0747b;
  0x1ff551d03415df; 0x1ff55681a2c6ca; 0x1ff55b2afb9571; 0x1ff55fcc4d63fb; 0x1ff56465a6e90c; 0x1ff568f716b059; 0x1ff56d80ab1b36; 0x1ff57202726122;
  0x1ff5767c7a904e; 0x1ff57aeed18e28; 0x1ff57f598517db; 0x1ff583bca2c2d6; 0x1ff5881837fd4b; 0x1ff58c6c520eae; 0x1ff590b8fe1830; 0x1ff594fe49153e;
  0x1ff5993c3fdbf3; 0x1ff59d72ef1d94; 0x1ff5a1a2636704; 0x1ff5a5caa92134; 0x1ff5a9ebcc9197; 0x1ff5ae05d9da92; 0x1ff5b218dcfbe5; 0x1ff5b624e1d31c;
  0x1ff5ba29f41bf8; 0x1ff5be281f70d3; 0x1ff5c21f6f4b0c; 0x1ff5c60fef036d; 0x1ff5c9f9a9d288; 0x1ff5cddcaad120; 0x1ff5d1b8fcf885; 0x1ff5d58eab22f6;
  0x1ff5d95dc00bfc; 0x1ff5dd264650ca; 0x1ff5e0e8487091; 0x1ff5e4a3d0cce1; 0x1ff5e858e9a9fc; 0x1ff5ec079d2f2d; 0x1ff5efaff5671e; 0x1ff5f351fc402d;
  0x1ff5f6edbb8cbd; 0x1ff5fa833d0387; 0x1ff5fe128a3fec; 0x1ff6019bacc241; 0x1ff6051eadf020; 0x1ff6089b9714b1; 0x1ff60c127160fa; 0x1ff60f8345ec23;
  0x1ff612ee1db3c4; 0x1ff61653019c2a; 0x1ff619b1fa70a1; 0x1ff61d0b10e3b4; 0x1ff6205e4d8f79; 0x1ff623abb8f5ce; 0x1ff626f35b80a2; 0x1ff62a353d822f;
  0x1ff62d71673541; 0x1ff630a7e0bd75; 0x1ff633d8b22772; 0x1ff63703e3692d; 0x1ff63a297c6224; 0x1ff63d4984db99; 0x1ff640640488cc; 0x1ff64379030737;
  0x1ff6468887dec8; 0x1ff649929a8217; 0x1ff64c97424e9d; 0x1ff64f96868cee; 0x1ff652906e70ec; 0x1ff655850119fd; 0x1ff6587445933f; 0x1ff65b5e42d3bc;
  0x1ff65e42ffbe9a; 0x1ff66122832352; 0x1ff663fcd3bddc; 0x1ff666d1f836e2; 0x1ff669a1f723f1; 0x1ff66c6cd707a3; 0x1ff66f329e51d2; 0x1ff671f3535fc4;
  0x1ff674aefc7c57; 0x1ff677659fe02e; 0x1ff67a1743b1dd; 0x1ff67cc3ee0611; 0x1ff67f6ba4dfbe; 0x1ff6820e6e3048; 0x1ff684ac4fd7a7; 0x1ff687454fa496;
  0x1ff689d97354b6; 0x1ff68c68c094b8; 0x1ff68ef33d0080; 0x1ff69178ee234f; 0x1ff693f9d977e4; 0x1ff696760468a4; 0x1ff698ed744fbd; 0x1ff69b602e774a;
  0x1ff69dce381973; 0x1ff6a037966094; 0x1ff6a29c4e675d; 0x1ff6a4fc6538f2; 0x1ff6a757dfd10d; 0x1ff6a9aec31c20; 0x1ff6ac0113f771; 0x1ff6ae4ed7313c;
  0x1ff6b0981188d2; 0x1ff6b2dcc7aeb7; 0x1ff6b51cfe44be; 0x1ff6b758b9de28; 0x1ff6b98ffeffc2; 0x1ff6bbc2d21fff; 0x1ff6bdf137a714; 0x1ff6c01b33ef17;
  0x1ff6c240cb4414; 0x1ff6c46201e42f; 0x1ff6c67edbffb6; 0x1ff6c8975db942; 0x1ff6caab8b25cc; 0x1ff6ccbb684cc6; 0x1ff6cec6f92835; 0x1ff6d0ce41a4c9;
  0x1ff6d2d145a1f3; 0x1ff6d4d008f1fd; 0x1ff6d6ca8f5a20; 0x1ff6d8c0dc929d; 0x1ff6dab2f446cf; 0x1ff6dca0da1544; 0x1ff6de8a918fcf; 0x1ff6e0701e3ba1;
  0x1ff6e251839158; 0x1ff6e42ec4fd17; 0x1ff6e607e5de9a; 0x1ff6e7dce98945; 0x1ff6e9add3443d; 0x1ff6eb7aa64a73; 0x1ff6ed4365cabe; 0x1ff6ef0814e7e7;
  0x1ff6f0c8b6b8bd; 0x1ff6f2854e4827; 0x1ff6f43dde9531; 0x1ff6f5f26a9321; 0x1ff6f7a2f52985; 0x1ff6f94f813440; 0x1ff6faf811839f; 0x1ff6fc9ca8dc62;
  0x1ff6fe3d49f7d2; 0x1ff6ffd9f783c7; 0x1ff70172b422bb; 0x1ff70307826bda; 0x1ff7049864eb08; 0x1ff706255e20f5; 0x1ff707ae708327; 0x1ff709339e7c06;
  0x1ff70ab4ea6ae7; 0x1ff70c3256a41e; 0x1ff70dabe57101; 0x1ff70f21990ff8; 0x1ff7109373b489; 0x1ff7120177875e; 0x1ff7136ba6a655; 0x1ff714d2032484;
  0x1ff716348f0a47; 0x1ff717934c5549; 0x1ff718ee3cf889; 0x1ff71a4562dc69; 0x1ff71b98bfdeb2; 0x1ff71ce855d29d; 0x1ff71e342680dc; 0x1ff71f7c33a7a0;
  0x1ff720c07efaa4; 0x1ff722010a232d; 0x1ff7233dd6c019; 0x1ff72476e665de; 0x1ff725ac3a9e96; 0x1ff726ddd4ea03; 0x1ff7280bb6bd90; 0x1ff72935e1845e;
  0x1ff72a5c569f44; 0x1ff72b7f1764d5; 0x1ff72c9e252165; 0x1ff72db981170a; 0x1ff72ed12c7da6; 0x1ff72fe52882e4; 0x1ff730f5764a3f; 0x1ff7320216ed05;
  0x1ff7330b0b7a59; 0x1ff7341054f733; 0x1ff73511f45e68; 0x1ff7360feaa0a5; 0x1ff7370a38a475; 0x1ff73800df4643; 0x1ff738f3df5857; 0x1ff739e339a2d9;
  0x1ff73aceeee3d2; 0x1ff73bb6ffcf2d; 0x1ff73c9b6d0eb2; 0x1ff73d7c37420b; 0x1ff73e595efec1; 0x1ff73f32e4d03b; 0x1ff74008c937bd; 0x1ff740db0cac66;
  0x1ff741a9af9b2e; 0x1ff74274b266e5; 0x1ff7433c15682f; 0x1ff743ffd8ed83; 0x1ff744bffd3b27; 0x1ff7457c828b2a; 0x1ff74635690d67; 0x1ff746eab0e779;
  0x1ff7479c5a34bd; 0x1ff7484a65064a; 0x1ff748f4d162ee; 0x1ff7499b9f4729; 0x1ff74a3ecea523; 0x1ff74ade5f64ae; 0x1ff74b7a516339; 0x1ff74c12a473cd;
  0x1ff74ca7585f06; 0x1ff74d386ce30b; 0x1ff74dc5e1b386; 0x1ff74e4fb679a0; 0x1ff74ed5ead3f3; 0x1ff74f587e5688; 0x1ff74fd7708ac9; 0x1ff75052c0ef7d;
  0x1ff750ca6ef8b9; 0x1ff7513e7a0fdb; 0x1ff751aee1937e; 0x1ff7521ba4d76f; 0x1ff75284c324a4; 0x1ff752ea3bb930; 0x1ff7534c0dc837; 0x1ff753aa3879e4;
  0x1ff75404baeb5b; 0x1ff7545b942eac; 0x1ff754aec34aca; 0x1ff754fe473b79; 0x1ff7554a1ef144; 0x1ff7559249516b; 0x1ff755d6c535da; 0x1ff75617916d16;
  0x1ff75654acba30; 0x1ff7568e15d4b3; 0x1ff756c3cb6898; 0x1ff756f5cc1631; 0x1ff7572416721c; 0x1ff7574ea90531; 0x1ff75775824c6e; 0x1ff75798a0b8ea;
  0x1ff757b802afbc; 0x1ff757d3a689ee; 0x1ff757eb8a9465; 0x1ff757ffad0fd3; 0x1ff758100c309b; 0x1ff7581ca61ec5; 0x1ff7582578f5e2; 0x1ff7582a82c4f9;
  0x1ff7582bc18e71; 0x1ff758293347fd; 0x1ff75822d5da7f; 0x1ff75818a721f5; 0x1ff7580aa4ed62; 0x1ff757f8ccfeaf; 0x1ff757e31d0a9c; 0x1ff757c992b89c;
  0x1ff757ac2ba2c2; 0x1ff7578ae555a4; 0x1ff75765bd5041; 0x1ff7573cb103e2; 0x1ff7570fbdd403; 0x1ff756dee11630; 0x1ff756aa1811ee; 0x1ff75671600098;
  0x1ff75634b60d44; 0x1ff755f41754a0; 0x1ff755af80e4d7; 0x1ff75566efbd6d; 0x1ff7551a60cf1e; 0x1ff754c9d0fbbe; 0x1ff754753d1618; 0x1ff7541ca1e1c6;
  0x1ff753bffc1313; 0x1ff7535f484ed3; 0x1ff752fa832a3f; 0x1ff75291a92ad1; 0x1ff75224b6c619; 0x1ff751b3a8619c; 0x1ff7513e7a52a8; 0x1ff750c528de2c;
  0x1ff75047b0388f; 0x1ff74fc60c8586; 0x1ff74f4039d7e9; 0x1ff74eb6343187; 0x1ff74e27f782fa; 0x1ff74d957fab78; 0x1ff74cfec878a7; 0x1ff74c63cda66c;
  0x1ff74bc48adebc; 0x1ff74b20fbb96c; 0x1ff74a791bbbfd; 0x1ff749cce6596a; 0x1ff7491c56f1f6; 0x1ff7486768d2f6; 0x1ff747ae17369b; 0x1ff746f05d43be;
  0x1ff7462e360da5; 0x1ff745679c93cc; 0x1ff7449c8bc1ac; 0x1ff743ccfe6e81; 0x1ff742f8ef5d0b; 0x1ff74220593b53; 0x1ff7414336a271; 0x1ff74061821644;
  0x1ff73f7b36053a; 0x1ff73e904cc80b; 0x1ff73da0c0a176; 0x1ff73cac8bbdfd; 0x1ff73bb3a833a2; 0x1ff73ab61001a0; 0x1ff739b3bd101f; 0x1ff738aca92ff1;
  0x1ff737a0ce1a45; 0x1ff73690257059; 0x1ff7357aa8bb30; 0x1ff73460516b42; 0x1ff7334118d82c; 0x1ff7321cf8405e; 0x1ff730f3e8c8c9; 0x1ff72fc5e37c89;
  0x1ff72e92e14c8d; 0x1ff72d5adb0f45; 0x1ff72c1dc98042; 0x1ff72adba53fde; 0x1ff7299466d2df; 0x1ff7284806a216; 0x1ff726f67cfa02; 0x1ff7259fc20a6a;
  0x1ff72443cde5fc; 0x1ff722e29881e5; 0x1ff7217c19b568; 0x1ff72010493976; 0x1ff71e9f1ea842; 0x1ff71d28917cd1; 0x1ff71bac99128b; 0x1ff71a2b2ca4c8;
  0x1ff718a4434e5a; 0x1ff71717d4091b; 0x1ff71585d5ad6d; 0x1ff713ee3ef1c5; 0x1ff71251066a27; 0x1ff710ae2287ab; 0x1ff70f058997f4; 0x1ff70d5731c4b2;
  0x1ff70ba3111313; 0x1ff709e91d633c; 0x1ff708294c6fbc; 0x1ff7066393ccf7; 0x1ff70497e8e898; 0x1ff702c64108f9; 0x1ff700ee914c89; 0x1ff6ff10cea92f;
  0x1ff6fd2cedebb0; 0x1ff6fb42e3b704; 0x1ff6f952a483b7; 0x1ff6f75c249f3f; 0x1ff6f55f582b4b; 0x1ff6f35c331d18; 0x1ff6f152a93cba; 0x1ff6ef42ae2467;
  0x1ff6ed2c353fb9; 0x1ff6eb0f31caf1; 0x1ff6e8eb96d235; 0x1ff6e6c15730c8; 0x1ff6e49065903c; 0x1ff6e258b467a8; 0x1ff6e01a35fad1; 0x1ff6ddd4dc5952;
  0x1ff6db88995dc0; 0x1ff6d9355eaccb; 0x1ff6d6db1db452; 0x1ff6d479c7aa7f; 0x1ff6d2114d8cd3; 0x1ff6cfa1a01f30; 0x1ff6cd2aafeae3; 0x1ff6caac6d3da1;
  0x1ff6c826c82883; 0x1ff6c599b07efa; 0x1ff6c30515d5c0; 0x1ff6c068e781c1; 0x1ff6bdc51496fd; 0x1ff6bb198be767; 0x1ff6b8663c01bb; 0x1ff6b5ab13304e;
  0x1ff6b2e7ff77d6; 0x1ff6b01cee962f; 0x1ff6ad49ce0117; 0x1ff6aa6e8ae4dd; 0x1ff6a78b122313; 0x1ff6a49f505133; 0x1ff6a1ab31b737; 0x1ff69eaea24e32;
  0x1ff69ba98dbee0; 0x1ff6989bdf6021; 0x1ff6958582357e; 0x1ff6926660ed97; 0x1ff68f3e65e08c; 0x1ff68c0d7b0e62; 0x1ff688d38a1d50; 0x1ff685907c5815;
  0x1ff682443aac35; 0x1ff67eeeada832; 0x1ff67b8fbd79b6; 0x1ff6782751ebb9; 0x1ff674b5526495; 0x1ff67139a5e411; 0x1ff66db433015c; 0x1ff66a24dfe905;
  0x1ff6668b925adc; 0x1ff662e82fa7cb; 0x1ff65f3a9cafa1; 0x1ff65b82bdded0; 0x1ff657c0772c16; 0x1ff653f3ac1625; 0x1ff6501c3fa12b; 0x1ff64c3a14545c;
  0x1ff6484d0c375a; 0x1ff6445508cf9b; 0x1ff64051eb1db8; 0x1ff63c43939aaa; 0x1ff63829e234f5; 0x1ff63404b64dc3; 0x1ff62fd3eeb5ec; 0x1ff62b9769aae5;
  0x1ff6274f04d3a0; 0x1ff622fa9d3d57; 0x1ff61e9a0f583d; 0x1ff61a2d36f41f; 0x1ff615b3ef3ce8; 0x1ff6112e12b713; 0x1ff60c9b7b3c00; 0x1ff607fc01f632;
  0x1ff6034f7f5d75; 0x1ff5fe95cb32e3; 0x1ff5f9cebc7cd8; 0x1ff5f4fa2982be; 0x1ff5f017e7c8c3; 0x1ff5eb27cc0b70; 0x1ff5e629aa3b1b; 0x1ff5e11d557743;
  0x1ff5dc02a009c3; 0x1ff5d6d95b61e0; 0x1ff5d1a1580f3e; 0x1ff5cc5a65bca7; 0x1ff5c704532aaf; 0x1ff5c19eee2a33; 0x1ff5bc2a0396a9; 0x1ff5b6a55f5050;
  0x1ff5b110cc362c; 0x1ff5ab6c141fd7; 0x1ff5a5b6ffd727; 0x1ff59ff15711a2; 0x1ff59a1ae069be; 0x1ff594336157f4; 0x1ff58e3a9e2b92; 0x1ff588305a0368;
  0x1ff5821456c627; 0x1ff57be6551a9a; 0x1ff575a6145f8d; 0x1ff56f5352a388; 0x1ff568edcc9c3a; 0x1ff562753d9da7; 0x1ff55be95f910f; 0x1ff55549eaeb8b;
  0x1ff54e9696a459; 0x1ff547cf182ae8; 0x1ff540f3235c80; 0x1ff53a026a79a3; 0x1ff532fc9e1b10; 0x1ff52be16d266d; 0x1ff524b084c292; 0x1ff51d69904b6f;
  0x1ff5160c394592; 0x1ff50e9827513e; 0x1ff5070d001d15; 0x1ff4ff6a67584e; 0x1ff4f7affea47a; 0x1ff4efdd6586c6; 0x1ff4e7f23958bf; 0x1ff4dfee153892;
  0x1ff4d7d091f8be; 0x1ff4cf99460f37; 0x1ff4c747c583f1; 0x1ff4bedba1dece; 0x1ff4b6546a14e7; 0x1ff4adb1aa7531; 0x1ff4a4f2ec9465; 0x1ff49c17b73838;
  0x1ff4931f8e41d1; 0x1ff48a09f29772; 0x1ff480d6620d53; 0x1ff47784574d9d; 0x1ff46e1349bf86; 0x1ff46482ad6d7c; 0x1ff45ad1f2ea57; 0x1ff45100873586;
  0x1ff4470dd39e2d; 0x1ff43cf93da529; 0x1ff432c226dde4; 0x1ff42867eccdff; 0x1ff41de9e8cbaa; 0x1ff413476fdaaf; 0x1ff4087fd2881c; 0x1ff3fd925cc472;
  0x1ff3f27e55bc50; 0x1ff3e742ffaf8e; 0x1ff3dbdf97c69c; 0x1ff3d05355e633; 0x1ff3c49d6c811e; 0x1ff3b8bd086824; 0x1ff3acb15097e4; 0x1ff3a079660494;
  0x1ff39414636388; 0x1ff387815cf25c; 0x1ff37abf603bae; 0x1ff36dcd73d93f; 0x1ff360aa97335f; 0x1ff35355c23d7b; 0x1ff345cde52fa6; 0x1ff33811e83cff;
  0x1ff32a20ab46b7; 0x1ff31bf9058b9d; 0x1ff30d99c553f1; 0x1ff2ff01af994e; 0x1ff2f02f7faa77; 0x1ff2e121e6cacd; 0x1ff2d1d78bcd30; 0x1ff2c24f0aa9fc;
  0x1ff2b286f40ff7; 0x1ff2a27dccefc9; 0x1ff292320e01bd; 0x1ff281a2234579; 0x1ff270cc6b7b45; 0x1ff25faf379689; 0x1ff24e48ca291a; 0x1ff23c9756c6e6;
  0x1ff22a99016188; 0x1ff2184bdd9b42; 0x1ff205adee10dd; 0x1ff1f2bd2399d8; 0x1ff1df775c7e47; 0x1ff1cbda63a1c6; 0x1ff1b7e3efa2bd; 0x1ff1a391a1ed42;
  0x1ff18ee105c0be; 0x1ff179cf8f277f; 0x1ff1645a99df44; 0x1ff14e7f6831b7; 0x1ff1383b21bbd2; 0x1ff1218ad222e8; 0x1ff10a6b67b62c; 0x1ff0f2d9b1fb37;
  0x1ff0dad260242a; 0x1ff0c251ff6dc6; 0x1ff0a954f963be; 0x1ff08fd792096b; 0x1ff075d5e5e4c3; 0x1ff05b4be7e977; 0x1ff040355f41b4; 0x1ff0248de4f201;
  0x1ff00850e1554c; 0x1fefeb79896e21; 0x1fefce02dc0989; 0x1fefafe79eb009; 0x1fef91225a608c; 0x1fef71ad5810eb; 0x1fef51829cef30; 0x1fef309be65e4d;
  0x1fef0ef2a5a86b; 0x1feeec7ffb607f; 0x1feec93cb26c08; 0x1feea5213aad4d; 0x1fee8025a34587; 0x1fee5a4194658e; 0x1fee336c48a2ab; 0x1fee0b9c85c3fe;
  0x1fede2c894fbb8; 0x1fedb8e63a7e12; 0x1fed8deaac662b; 0x1fed61ca88d768; 0x1fed3479cb47be; 0x1fed05ebc0dd34; 0x1fecd612fbc640; 0x1feca4e14571c2;
  0x1fec72478f8813; 0x1fec3e35e382d9; 0x1fec089b50bcfa; 0x1febd165d8cf35; 0x1feb98825a0821; 0x1feb5ddc77c7ff; 0x1feb215e808137; 0x1feae2f15115db;
  0x1feaa27c354088; 0x1fea5fe4c4ab79; 0x1fea1b0ebc4b44; 0x1fe9d3dbd38321; 0x1fe98a2b8c864e; 0x1fe93ddaff54db; 0x1fe8eec49e9910; 0x1fe89cbff58d03;
  0x1fe847a15ded0d; 0x1fe7ef39acd24e; 0x1fe79355d51f26; 0x1fe733be7dec95; 0x1fe6d0378b20ea; 0x1fe6687f96032e; 0x1fe5fc4f53381e; 0x1fe58b58e31928;
  0x1fe5154708be3a; 0x1fe499bc4359d8; 0x1fe41851c4a2c7; 0x1fe390963decfc; 0x1fe3020c7c359c; 0x1fe26c29c9b0d3; 0x1fe1ce54094389; 0x1fe127df7d9d7d;
  0x1fe0780c2a3655; 0x1fdfbe02b80705; 0x1fdef8d0c228c6; 0x1fde2764671edb; 0x1fdd4886f1e212; 0x1fdc5ad660fb45; 0x1fdb5cbd80ed3b; 0x1fda4c6a383af4;
  0x1fd927c1841e8c; 0x1fd7ec507a1247; 0x1fd697396681f0; 0x1fd5251bcca40f; 0x1fd391f592d6f4; 0x1fd1d8faf7a490; 0x1fcff461e8ca45; 0x1fcddd1bd07028;
  0x1fcb8a769788b3; 0x1fc8f199f36e14; 0x1fc604d032640d; 0x1fc2b28000dbca; 0x1fbee3ac0cc16a; 0x1fba79b024d12d; 0x1fb54abd9de691; 0x1faf1c31164e6c;
  0x1fa79908ab5576; 0x1f9e40f74adba6; 0x1f92485b7f7ce4; 0x1f82566f32613d; 0x1f6beeb86a3986; 0x1f49e14c562fc1; 0x1f0f1b3f87a334; 0x1e8d218970e9f8]%N.
(** normal.go:313-570, as written *)
Definition normalW_dec : list (Z * Z) := [
  (474447736997673454, 33); (149950672584574354, 34); (198925244441675334, 34); (232931734656154252, 34);
  (259805409399221482, 34); (282390849337205807, 34); (302072404382168115, 34); (319637756999175384, 34);
  (335581847741996873, 34); (350237918907125268, 34); (363842088069319060, 34); (376568359621902072, 34);
  (388549029674455544, 34); (399887271404885479, 34); (410665260620887388, 34); (420949623559874980, 34);
  (430795206891502077, 34); (440247757990233704, 34); (449345875327002910, 34); (458122456815039448, 34);
  (466605794695609696, 34); (474820416413924252, 34); (482787739593837055, 34); (490526588719055837, 34);
  (498053607414183723, 34); (505383590857482273, 34); (512529756349615950, 34); (519503965463335850, 34);
  (526316907899034361, 34); (532978254770334355, 34); (539496787274974680, 34); (545880505387522068, 34);
  (552136720216588931, 34); (558272132912632662, 34); (564292902430992755, 34); (570204704004093791, 34);
  (576012779824455802, 34); (581721983162684134, 34); (587336816924484999, 34); (592861467474938743, 34);
  (598299834416924934, 34); (603655556896294455, 34); (608932036913414661, 34); (614132460044681435, 34);
  (619259813915100218, 34); (624316904711406697, 34); (629306371982363009, 34); (634230701937148089, 34);
  (639092239422872284, 34); (643893198737117100, 34); (648635673410207942, 34); (653321645073973591, 34);
  (657952991518495417, 34); (662531494025336163, 34); (667058844054618932, 34); (671536649353770298, 34);
  (675966439547528951, 34); (680349671261725714, 34); (684687732827198133, 34); (688981948604878165, 34);
  (693233582968452103, 34); (697443843976946282, 34); (701613886766060445, 34); (705744816683965032, 34);
  (709837692194563100, 34); (713893527568816509, 34); (717913295382624915, 34); (721897928837879015, 34);
  (725848323921652097, 34); (729765341417029167, 34); (733649808777767593, 34); (737502521877819875, 34);
  (741324246645715269, 34); (745115720592869447, 34); (748877654244062334, 34); (752610732477584599, 34);
  (756315615781880504, 34); (759992941434922814, 34); (763643324612008193, 34); (767267359427181052, 34);
  (770865619913048833, 34); (774438660943359153, 34); (777987019102345971, 34); (781511213504527397, 34);
  (785011746568341703, 34); (788489104746738531, 34); (791943759217598825, 34); (795376166536632234, 34);
  (798786769255199909, 34); (802175996505322284, 34); (805544264553965537, 34); (808891977328541654, 34);
  (812219526915416622, 34); (815527294033093489, 34); (818815648481611505, 34); (822084949569601272, 34);
  (825335546520325750, 34); (828567778857952906, 34); (831781976775214191, 34); (834978461483526289, 34);
  (838157545546582758, 34); (841319533198352248, 34); (844464720646359403, 34); (847593396361067142, 34);
  (850705841352126876, 34); (853802329432211436, 34); (856883127469103091, 34); (859948495626664423, 34);
  (862998687595283339, 34); (866033950812341692, 34); (869054526673231507, 34); (872060650733402476, 34);
  (875052552901901087, 34); (878030457626832078, 34); (880994584073148199, 34); (883945146293149688, 34);
  (886882353390052602, 34); (889806409674966714, 34); (892717514817601226, 34); (895615863991000534, 34);
  (898501648010593776, 34); (901375053467829477, 34); (904236262858645734, 34); (907085454707019519, 34);
  (909922803683819417, 34); (912748480721179123, 34); (915562653122592837, 34); (918365484668927203, 34);
  (921157135720530599, 34); (923937763315613461, 34); (926707521265065175, 34); (929466560243859386, 34);
  (932215027879200085, 34); (934953068835544793, 34); (937680824896640050, 34); (940398435044695816, 34);
  (943106035536817829, 34); (945803759978813803, 34); (948491739396480449, 34); (951170102304477559, 34);
  (953838974772884575, 34); (956498480491536385, 34); (959148740832225374, 34); (961789874908857124, 34);
  (964421999635639259, 34); (967045229783381953, 34); (969659678033983937, 34); (972265455033173770, 34);
  (974862669441574773, 34); (977451427984157614, 34); (980031835498141046, 34); (982603994979400724, 34);
  (985168007627442285, 34); (987723972888990225, 34); (990271988500247306, 34); (992812150527869959, 34);
  (995344553408709128, 34); (997869289988361404, 34); (100038645155857078, 33); (100289612789352646, 33);
  (100539840728509293, 33); (100789337657701088, 33); (101038112119810637, 33); (101286172519454187, 33);
  (101533527126114272, 33); (101780184077183157, 33); (102026151380920064, 33); (102271436919325215, 33);
  (102516048450933459, 33); (102759993613530225, 33); (103003279926792351, 33); (103245914794856472, 33);
  (103487905508817134, 33); (103729259249157121, 33); (103969983088112181, 33); (104210083991972242, 33);
  (104449568823321212, 33); (104688444343217438, 33); (104926717213316494, 33); (105164393997938393, 33);
  (105401481166080830, 33); (105637985093380197, 33); (105873912064022036, 33); (106109268272602417, 33);
  (106344059825941985, 33); (106578292744853757, 33); (106811972965866535, 33); (107045106342904891, 33);
  (107277698648927354, 33); (107509755577523864, 33); (107741282744473731, 33); (107972285689265456, 33);
  (108202769876579329, 33); (108432740697733980, 33); (108662203472098044, 33); (108891163448467797, 33);
  (109119625806411894, 33); (109347595657584053, 33); (109575078047004702, 33); (109802077954312416, 33);
  (110028600294985997, 33); (110254649921538112, 33); (110480231624681227, 33); (110705350134466619, 33);
  (110930010121397184, 33); (111154216197514961, 33); (111377972917463705, 33); (111601284779527719, 33);
  (111824156226646909, 33); (112046591647409526, 33); (112268595377022417, 33); (112490171698260027, 33);
  (112711324842392217, 33); (112932058990091879, 33); (113152378272322600, 33); (113372286771207094, 33);
  (113591788520876717, 33); (113810887508302768, 33); (114029587674109985, 33); (114247892913372475, 33);
  (114465807076393063, 33); (114683333969465801, 33); (114900477355622693, 33); (115117240955364632, 33);
  (115333628447377160, 33); (115549643469231402, 33); (115765289618070321, 33); (115980570451281153, 33);
  (116195489487153828, 33); (116410050205526140, 33); (116624256048415675, 33); (116838110420639135, 33);
  (117051616690419100, 33); (117264778189978654, 33); (117477598216124283, 33); (117690080030816980, 33);
  (117902226861732367, 33); (118114041902809514, 33); (118325528314789292, 33); (118536689225741999, 33);
  (118747527731584844, 33); (118958046896589566, 33); (119168249753880024, 33); (119378139305920529, 33);
  (119587718524994711, 33); (119796990353675279, 33); (120005957705285091, 33); (120214623464349316, 33);
  (120422990487039293, 33); (120631061601607983, 33); (120838839608817553, 33); (121046327282358784, 33);
  (121253527369262875, 33); (121460442590305813, 33); (121667075640405169, 33); (121873429189009816, 33);
  (122079505880482533, 33); (122285308334475695, 33); (122490839146300340, 33); (122696100887288524, 33);
  (122901096105149173, 33); (123105827324317920, 33); (123310297046300403, 33); (123514507750009754, 33);
  (123718461892098188, 33); (123922161907282683, 33); (124125610208665206, 33); (124328809188047147, 33);
  (124531761216238629, 33); (124734468643362243, 33); (124936933799151901, 33); (125139158993246347, 33);
  (125341146515477847, 33); (125542898636156042, 33); (125744417606346799, 33); (125945705658146865, 33);
  (126146765004953410, 33); (126347597841729526, 33); (126548206345265193, 33); (126748592674433881, 33);
  (126948758970445083, 33); (127148707357092735, 33); (127348439940999464, 33); (127547958811857043, 33);
  (127747266042662928, 33); (127946363689952995, 33); (128145253794030531, 33); (128343938379191752, 33);
  (128542419453947447, 33); (128740699011241539, 33); (128938779028665833, 33); (129136661468671601, 33);
  (129334348278777961, 33); (129531841391776789, 33); (129729142725934690, 33); (129926254185191790, 33);
  (130123177659357399, 33); (130319915024302888, 33); (130516468142151432, 33); (130712838861465124, 33);
  (130909029017429017, 33); (131105040432032597, 33); (131300874914248551, 33); (131496534260208708, 33);
  (131692020253377668, 33); (131887334664723511, 33); (132082479252886468, 33); (132277455764344604, 33);
  (132472265933577584, 33); (132666911483227721, 33); (132861394124258933, 33); (133055715556113282, 33);
  (133249877466865345, 33); (133443881533374438, 33); (133637729421434525, 33); (133831422785922204, 33);
  (134024963270942571, 33); (134218352509972918, 33); (134411592126004677, 33); (134604683731683146, 33);
  (134797628929445493, 33); (134990429311656808, 33); (135183086460744187, 33); (135375601949329231, 33);
  (135567977340358535, 33); (135760214187232539, 33); (135952314033932682, 33); (136144278415146737, 33);
  (136336108856392608, 33); (136527806874140459, 33); (136719373975933210, 33); (136910811660505482, 33);
  (137102121417901019, 33); (137293304729588643, 33); (137484363068576449, 33); (137675297899525000, 33);
  (137866110678858586, 33); (138056802854875466, 33); (138247375867856532, 33); (138437831150172545, 33);
  (138628170126390264, 33); (138818394213377092, 33); (139008504820404364, 33); (139198503349249610, 33);
  (139388391194297375, 33); (139578169742638765, 33); (139767840374170084, 33); (139957404461689955, 33);
  (140146863370995443, 33); (140336218460977037, 33); (140525471083712499, 33); (140714622584559582, 33);
  (140903674302247659, 33); (141092627568968296, 33); (141281483710464933, 33); (141470244046121191, 33);
  (141658909889048506, 33); (141847482546172657, 33); (142035963318319189, 33); (142224353500298137, 33);
  (142412654380987524, 33); (142600867243416144, 33); (142788993364845401, 33); (142977034016850123, 33);
  (143164990465398655, 33); (143352863970932038, 33); (143540655788442258, 33); (143728367167549800, 33);
  (143915999352580287, 33); (144103553582640315, 33); (144291031091692587, 33); (144478433108630120, 33);
  (144665760857349899, 33); (144853015556825483, 33); (145040198421179183, 33); (145227310659753352, 33);
  (145414353477180922, 33); (145601328073455406, 33); (145788235643999982, 33); (145975077379736164, 33);
  (146161854467151629, 33); (146348568088367408, 33); (146535219421204479, 33); (146721809639249732, 33);
  (146908339911921321, 33); (147094811404533351, 33); (147281225278359998, 33); (147467582690699136, 33);
  (147653884794935197, 33); (147840132740601544, 33); (148026327673442515, 33); (148212470735474443, 33);
  (148398563065046663, 33); (148584605796901542, 33); (148770600062234361, 33); (148956546988752401, 33);
  (149142447700733740, 33); (149328303319085359, 33); (149514114961401023, 33); (149699883742018446, 33);
  (149885610772076122, 33); (150071297159569644, 33); (150256944009407648, 33); (150442552423467298, 33);
  (150628123500649215, 33); (150813658336932202, 33); (150999158025427356, 33); (151184623656431905, 33);
  (151370056317482610, 33); (151555457093408735, 33); (151740827066384657, 33); (151926167315982156, 33);
  (152111478919222251, 33); (152296762950626730, 33); (152482020482269297, 33); (152667252583826406, 33);
  (152852460322627702, 33); (153037644763706229, 33); (153222806969848164, 33); (153407948001642307, 33);
  (153593068917529416, 33); (153778170773850820, 33); (153963254624897277, 33); (154148321522957072, 33);
  (154333372518364035, 33); (154518408659545323, 33); (154703430993068819, 33); (154888440563690345, 33);
  (155073438414400447, 33); (155258425586471264, 33); (155443403119502720, 33); (155628372051468800, 33);
  (155813333418763447, 33); (155998288256246273, 33); (156183237597287937, 33); (156368182473815509, 33);
  (156553123916357383, 33); (156738062954088145, 33); (156923000614873167, 33); (157107937925313055, 33);
  (157292875910787753, 33); (157477815595500715, 33); (157662758002522667, 33); (157847704153835213, 33);
  (158032655070374495, 33); (158217611772074282, 33); (158402575277909386, 33); (158587546605938480, 33);
  (158772526773346968, 33); (158957516796489804, 33); (159142517690933871, 33); (159327530471500604, 33);
  (159512556152308068, 33); (159697595746813264, 33); (159882650267854158, 33); (160067720727691494, 33);
  (160252808138050671, 33); (160437913510163487, 33); (160623037854809549, 33); (160808182182358008, 33);
  (160993347502808732, 33); (161178534825833717, 33); (161363745160818308, 33); (161548979516902315, 33);
  (161734238903021013, 33); (161919524327946235, 33); (162104836800327194, 33); (162290177328731408, 33);
  (162475546921685447, 33); (162660946587715659, 33); (162846377335388972, 33); (163031840173353340, 33);
  (163217336110378526, 33); (163402866155396600, 33); (163588431317542441, 33); (163774032606194296, 33);
  (163959671031014176, 33); (164145347601988414, 33); (164331063329468093, 33); (164516819224209351, 33);
  (164702616297413983, 33); (164888455560769796, 33); (165074338026490941, 33); (165260264707358512, 33);
  (165446236616760854, 33); (165632254768734066, 33); (165818320178002477, 33); (166004433860019153, 33);
  (166190596831006396, 33); (166376810107996302, 33); (166563074708871354, 33); (166749391652405106, 33);
  (166935761958302707, 33); (167122186647241872, 33); (167308666740913411, 33); (167495203262062202, 33);
  (167681797234528034, 33); (167868449683286657, 33); (168055161634490654, 33); (168241934115510684, 33);
  (168428768154976623, 33); (168615664782818811, 33); (168802625030309414, 33); (168989649930103916, 33);
  (169176740516282557, 33); (169363897824392121, 33); (169551122891487517, 33); (169738416756173820, 33);
  (169925780458648072, 33); (170113215040741441, 33); (170300721545961501, 33); (170488301019534381, 33);
  (170675954508447491, 33); (170863683061491848, 33); (171051487729305094, 33); (171239369564414194, 33);
  (171427329621278499, 33); (171615368956333015, 33); (171803488628031764, 33); (171991689696891194, 33);
  (172179973225533961, 33); (172368340278732717, 33); (172556791923454226, 33); (172745329228903502, 33);
  (172933953266568298, 33); (173122665110263629, 33); (173311465836176617, 33); (173500356522911404, 33);
  (173689338251534511, 33); (173878412105620125, 33); (174067579171295755, 33); (174256840537288131, 33);
  (174446197294969232, 33); (174635650538402629, 33); (174825201364390081, 33); (175014850872518221, 33);
  (175204600165205693, 33); (175394450347750386, 33); (175584402528377059, 33); (175774457818285092, 33);
  (175964617331696586, 33); (176154882185904747, 33); (176345253501322533, 33); (176535732401531556, 33);
  (176726320013331317, 33); (176917017466788702, 33); (177107825895287836, 33); (177298746435580239, 33);
  (177489780227835149, 33); (177680928415690476, 33); (177872192146303730, 33); (178063572570403470, 33);
  (178255070842341199, 33); (178446688120143329, 33); (178638425565563711, 33); (178830284344136445, 33);
  (179022265625229025, 33); (179214370582096009, 33); (179406600391932782, 33); (179598956235930015, 33);
  (179791439299328341, 33); (179984050771473379, 33); (180176791845871372, 33); (180369663720244977, 33);
  (180562667596589690, 33); (180755804681230620, 33); (180949076184879612, 33); (181142483322692948, 33);
  (181336027314329363, 33); (181529709384008685, 33); (181723530760570754, 33); (181917492677534886, 33);
  (182111596373159921, 33); (182305843090504525, 33); (182500234077488199, 33); (182694770586952716, 33);
  (182889453876723996, 33); (183084285209674620, 33); (183279265853786772, 33); (183474397082215812, 33);
  (183669680173354273, 33); (183865116410896499, 33); (184060707083903826, 33); (184256453486870350, 33);
  (184452356919789194, 33); (184648418688219438, 33); (184844640103353661, 33); (185041022482086013, 33);
  (185237567147080959, 33); (185434275426842659, 33); (185631148655784948, 33); (185828188174301943, 33);
  (186025395328839383, 33); (186222771471966616, 33); (186420317962449118, 33); (186618036165322016, 33);
  (186815927451963908, 33); (187013993200171716, 33); (187212234794236140, 33); (187410653625017811, 33);
  (187609251090024227, 33); (187808028593487431, 33); (188006987546442507, 33); (188206129366806730, 33);
  (188405455479459693, 33); (188604967316324034, 33); (188804666316447089, 33); (189004553926083401, 33);
  (189204631598778014, 33); (189404900795450567, 33); (189605362984480414, 33); (189806019641792510, 33);
  (190006872250944115, 33); (190207922303212699, 33); (190409171297684347, 33); (190610620741343491, 33);
  (190812272149163355, 33); (191014127044197493, 33); (191216186957672204, 33); (191418453429080014, 33);
  (191620928006274167, 33); (191823612245564126, 33); (192026507711812086, 33); (192229615978530618, 33);
  (192432938627981378, 33); (192636477251274823, 33); (192840233448471084, 33); (193044208828682129, 33);
  (193248405010174753, 33); (193452823620475007, 33); (193657466296473707, 33); (193862334684533052, 33);
  (194067430440594702, 33); (194272755230288857, 33); (194478310729044679, 33); (194684098622202085, 33);
  (194890120605124601, 33); (195096378383313925, 33); (195302873672525343, 33); (195509608198885001, 33);
  (195716583699008082, 33); (195923801920118843, 33); (196131264620171745, 33); (196338973567974205, 33);
  (196546930543310761, 33); (196755137337068747, 33); (196963595751365526, 33); (197172307599677147, 33);
  (197381274706968798, 33); (197590498909826627, 33); (197799982056591400, 33); (198009726007493495, 33);
  (198219732634790018, 33); (198430003822903198, 33); (198640541468560777, 33); (198851347480938084, 33);
  (199062423781801849, 33); (199273772305655999, 33); (199485394999888997, 33); (199697293824923460, 33);
  (199909470754367371, 33); (200121927775167314, 33); (200334666887763859, 33); (200547690106248615, 33);
  (200760999458523754, 33); (200974596986463113, 33); (201188484746075952, 33); (201402664807672376, 33);
  (201617139256031204, 33); (201831910190570004, 33); (202046979725517451, 33); (202262349990087744, 33);
  (202478023128657676, 33); (202694001300945836, 33); (202910286682194359, 33); (203126881463353032, 33);
  (203343787851266055, 33); (203561008068861073, 33); (203778544355341163, 33); (203996398966379117, 33);
  (204214574174314534, 33); (204433072268353697, 33); (204651895554772137, 33); (204871046357119987, 33);
  (205090527016430335, 33); (205310339891430272, 33); (205530487358755239, 33); (205750971813166063, 33);
  (205971795667769198, 33); (206192961354240216, 33); (206414471323050314, 33); (206636328043696062, 33);
  (206858534004932669, 33); (207081091715010262, 33); (207304003701913928, 33); (207527272513607002, 33);
  (207750900718278004, 33); (207974890904591225, 33); (208199245681940768, 33); (208423967680708700, 33);
  (208649059552526584, 33); (208874523970541329, 33); (209100363629684556, 33); (209326581246946409, 33);
  (209553179561653111, 33); (209780161335748933, 33); (210007529354082279, 33); (210235286424696207, 33);
  (210463435379123218, 33); (210691979072684753, 33); (210920920384795075, 33); (211150262219269886, 33);
  (211380007504639803, 33); (211610159194468464, 33); (211840720267675765, 33); (212071693728866099, 33);
  (212303082608661626, 33); (212534889964040817, 33); (212767118878682447, 33); (212999772463314863, 33);
  (213232853856070774, 33); (213466366222847959, 33); (213700312757675320, 33); (213934696683085155, 33);
  (214169521250491287, 33); (214404789740573224, 33); (214640505463666660, 33); (214876671760160278, 33);
  (215113292000899053, 33); (215350369587594066, 33); (215587907953239220, 33); (215825910562534686, 33);
  (216064380912317420, 33); (216303322531998814, 33); (216542738984009734, 33); (216782633864252784, 33);
  (217023010802562531, 33); (217263873463173056, 33); (217505225545193831, 33); (217747070783093344, 33);
  (217989412947191270, 33); (218232255844158759, 33); (218475603317527623, 33); (218719459248207995, 33);
  (218963827555015296, 33); (219208712195205965, 33); (219454117165022956, 33); (219700046500250362, 33);
  (219946504276778083, 33); (220193494611176348, 33); (220441021661280425, 33); (220689089626785699, 33);
  (220937702749853317, 33); (221186865315726858, 33); (221436581653359894, 33); (221686856136054942, 33);
  (221937693182114032, 33); (222189097255501124, 33); (222441072866516438, 33); (222693624572483403, 33);
  (222946756978448060, 33); (223200474737891420, 33); (223454782553455078, 33); (223709685177680317, 33);
  (223965187413761033, 33); (224221294116310704, 33); (224478010192143950, 33); (224735340601072695, 33);
  (224993290356717806, 33); (225251864527335669, 33); (225511068236660988, 33); (225770906664765761, 33);
  (226031385048934614, 33); (226292508684557299, 33); (226554282926038454, 33); (226816713187725245, 33);
  (227079804944853071, 33); (227343563734509889, 33); (227607995156619834, 33); (227873104874946097, 33);
  (228138898618114040, 33); (228405382180654552, 33); (228672561424068725, 33); (228940442277913664, 33);
  (229209030740910595, 33); (229478332882075400, 33); (229748354841872325, 33); (230019102833391553, 33);
  (230290583143550690, 33); (230562802134321389, 33); (230835766243981675, 33); (231109481988394137, 33);
  (231383955962310960, 33); (231659194840706844, 33); (231935205380139600, 33); (232211994420140264, 33);
  (232489568884632461, 33); (232767935783382326, 33); (233047102213479990, 33); (233327075360852757, 33);
  (233607862501811426, 33); (233889471004630226, 33); (234171908331161568, 33); (234455182038486539, 33);
  (234739299780601484, 33); (235024269310142658, 33); (235310098480149078, 33); (235596795245865223, 33);
  (235884367666584153, 33); (236172823907532549, 33); (236462172241798779, 33); (236752421052304909, 33);
  (237043578833824211, 33); (237335654195045218, 33); (237628655860683558, 33); (237922592673643427, 33);
  (238217473597229409, 33); (238513307717410312, 33); (238810104245136988, 33); (239107872518714978, 33);
  (239406622006233812, 33); (239706362308055024, 33); (240007103159359781, 33); (240308854432758683, 33);
  (240611626140965008, 33); (240915428439533449, 33); (241220271629666530, 33); (241526166161090201, 33);
  (241833122635001274, 33); (242141151807088262, 33); (242450264590628499, 33); (242760472059663353, 33);
  (243071785452253955, 33); (243384216173820543, 33); (243697775800567012, 33); (244012476082994146, 33);
  (244328328949503883, 33); (244645346510097687, 33); (244963541060172056, 33); (245282925084413619, 33);
  (245603511260798023, 33); (245925312464695211, 33); (246248341773084802, 33); (246572612468884914, 33);
  (246898138045398530, 33); (247224932210881050, 33); (247553008893232735, 33); (247882382244820962, 33);
  (248213066647435849, 33); (248545076717383929, 33); (248878427310725201, 33); (249213133528657057, 33);
  (249549210723051837, 33); (249886674502151619, 33); (250225540736427036, 33); (250565825564604868, 33);
  (250907545399870849, 33); (251250716936253727, 33); (251595357155197067, 33); (251941483332325008, 33);
  (252289113044409985, 33); (252638264176548250, 33); (252988954929552291, 33); (253341203827566889, 33);
  (253695029725917248, 33); (254050451819198764, 33); (254407489649615630, 33); (254766163115579469, 33);
  (255126492480576575, 33); (255488498382314161, 33); (255852201842156964, 33); (256217624274864101, 33);
  (256584787498639260, 33); (256953713745505156, 33); (257324425672015814, 33); (257696946370319564, 33);
  (258071299379586766, 33); (258447508697817042, 33); (258825598794041129, 33); (259205594620933284, 33);
  (259587521627851403, 33); (259971405774321563, 33); (260357273543986857, 33); (260745151959038123, 33);
  (261135068595148270, 33); (261527051596930741, 33); (261921129693944567, 33); (262317332217269715, 33);
  (262715689116676891, 33); (263116230978418474, 33); (263518989043666858, 33); (263923995227629638, 33);
  (264331282139371511, 33); (264740883102374362, 33); (265152832175869293, 33); (265567164176975513, 33);
  (265983914703683452, 33); (266403120158720668, 33); (266824817774342438, 33); (267249045638089843, 33);
  (267675842719561636, 33); (268105248898248263, 33); (268537304992478964, 33); (268972052789536590, 33);
  (269409535076996728, 33); (269849795675352128, 33); (270292879471985739, 33); (270738832456561375, 33);
  (271187701757902172, 33); (271639535682434544, 33); (272094383754277006, 33); (272552296757060603, 33);
  (273013326777570319, 33); (273477527251305989, 33); (273944953010062883, 33); (274415660331643014, 33);
  (274889706991811436, 33); (275367152318622187, 33); (275848057249244035, 33); (276332484389427272, 33);
  (276820498075759143, 33); (277312164440868967, 33); (277807551481750737, 33); (278306729131386911, 33);
  (278809769333864928, 33); (279316746123195850, 33); (279827735706055869, 33); (280342816548688546, 33);
  (280862069468222715, 33); (281385577728678776, 33); (281913427141956598, 33); (282445706174119685, 33);
  (282982506057313632, 33); (283523920907682935, 33); (284070047849676934, 33); (284620987147167709, 33);
  (285176842341833248, 33); (285737720399297479, 33); (286303731863556198, 33); (286874991020261423, 33);
  (287451616069484142, 33); (288033729308625231, 33); (288621457326201151, 33); (289214931207294048, 33);
  (289814286751520329, 33); (290419664704450013, 33); (291031211003487324, 33); (291649077039316802, 33);
  (292273419934115806, 33); (292904402837846035, 33); (293542195244058016, 33); (294186973326777314, 33);
  (294838920300190389, 33); (295498226803014513, 33); (296165091309621205, 33); (296839720570187142, 33);
  (297522330082377811, 33); (298213144597323628, 33); (298912398662936796, 33); (299620337207938216, 33);
  (300337216170323839, 33); (301063303174408234, 33); (301798878261037434, 33); (302544234676082479, 33);
  (303299679722906963, 33); (304065535685164049, 33); (304842140827029101, 33); (305629850478829276, 33);
  (306429038217004164, 33); (307240097148445145, 33); (308063441310535995, 33); (308899507199679313, 33);
  (309748755442777747, 33); (310611672628080962, 33); (311488773314056120, 33); (312380602237545336, 33);
  (313287736745505053, 33); (314210789478158786, 33); (315150411335531828, 33); (316107294764196377, 33);
  (317082177406775642, 33); (318075846163520967, 33); (319089141723296803, 33); (320122963630864177, 33);
  (321178275968770732, 33); (322256113745867004, 33); (323357590100994689, 33); (324483904450408877, 33);
  (325636351731853417, 33); (326816332927997937, 33); (328025367088565772, 33); (329265105115761608, 33);
  (330537345633910606, 33); (331844053334676314, 33); (333187380277964729, 33); (334569690741175435, 33);
  (335993590353275734, 33); (337461960435388315, 33); (338977998710125106, 33); (340545267857112052, 33);
  (342167753809213188, 33); (343849936241510247, 33); (345596874458802672, 33); (347414312918604623, 33);
  (349308812056019781, 33); (351287912086532920, 33); (353360340332304427, 33); (355536276785065996, 33);
  (357827698785524979, 33); (360248835015253167, 33); (362816773398704201, 33); (365552290358827903, 33);
  (368481006182555539, 33); (371635034248583084, 33); (375055402359963201, 33); (378795726991530772, 33);
  (382928012531150890, 33); (387552252064390461, 33); (392813291480759925, 33); (398932778384521284, 33);
  (406276074536607163, 33); (415513537416232808, 33); (428102293057815158, 33); (448402409215454173, 33)]%Z.
(** normal.go:313-570, as float64 *)
Definition normalW_bin : list (Z * Z) := [
  (4811471668656207, -103); (4866177538725437, -108); (6455493261236147, -108); (7559066963176361, -108);
  (8431167569087078, -108); (4582053499664236, -107); (4901404988511230, -107); (5186419129799803, -107);
  (5445126793162760, -107); (5682935144003882, -107); (5903675409015867, -107); (6110170970901298, -107);
  (6304568456766972, -107); (6488541947136409, -107); (6663424820722562, -107); (6830298150035491, -107);
  (6990051873170648, -107); (7143428283717786, -107); (7291053677674936, -107); (7433461854203083, -107);
  (7571111881163003, -107); (7704401739106930, -107); (7833678948850658, -107); (7959248955105497, -107);
  (8081381816120639, -107); (8200317597388612, -107); (8316270761874161, -107); (8429433774598951, -107);
  (8539980085868501, -107); (8648066618473069, -107); (8753835855492135, -107); (8857417603934484, -107);
  (8958930493319743, -107); (4529241628015313, -106); (4578087913415537, -106); (4626050145815996, -106);
  (4673170854935055, -106); (4719489415181648, -106); (4765042358466951, -106); (4809863648619488, -106);
  (4853984922976417, -106); (4897435705796440, -106); (4940243597385526, -106); (4982434442209789, -106);
  (5024032478762870, -106); (5065060473536288, -106); (5105539841093708, -106); (5145490751960301, -106);
  (5184932229795887, -106); (5223882239116679, -106); (5262357764658508, -106); (5300374883328748, -106);
  (5337948829570431, -106); (5375094054856467, -106); (5411824281941674, -106); (5448152554422790, -106);
  (5484091282090011, -106); (5519652282496033, -106); (5554846819118741, -106); (5589685636450489, -106);
  (5624178992309276, -106); (5658336687634301, -106); (5692168093999728, -106); (5725682179055296, -106);
  (5758887530080378, -106); (5791792375818613, -106); (5824404606743108, -106); (5856731793887059, -106);
  (5888781206361194, -106); (5920559827667557, -106); (5952074370908562, -106); (5983331292980808, -106);
  (6014336807834758, -106); (6045096898873860, -106); (6075617330559962, -106); (6105903659285872, -106);
  (6135961243570456, -106); (6165795253626864, -106); (6195410680350034, -106); (6224812343765726, -106);
  (6254004900979728, -106); (6282992853662691, -106); (6311780555103103, -106); (6340372216858279, -106);
  (6368771915030842, -106); (6396983596195983, -106); (6425011083002813, -106); (6452858079471296, -106);
  (6480528176004623, -106); (6508024854135359, -106); (6535351491022349, -106); (6562511363714081, -106);
  (6589507653193065, -106); (6616343448214750, -106); (6643021748953483, -106); (6669545470467192, -106);
  (6695917445991582, -106); (6722140430073951, -106); (6748217101555990, -106); (6774150066414308, -106);
  (6799941860466849, -106); (6825594951952800, -106); (6851111743993098, -106); (6876494576938178, -106);
  (6901745730609181, -106); (6926867426438421, -106); (6951861829514566, -106); (6976731050537626, -106);
  (7001477147688545, -106); (7026102128417855, -106); (7050607951157643, -106); (7074996526960755, -106);
  (7099269721070972, -106); (7123429354427652, -106); (7147477205108132, -106); (7171415009710984, -106);
  (7195244464683039, -106); (7218967227592943, -106); (7242584918353827, -106); (7266099120397543, -106);
  (7289511381802768, -106); (7312823216379177, -106); (7336036104709717, -106); (7359151495152958, -106);
  (7382170804807341, -106); (7405095420439086, -106); (7427926699375392, -106); (7450665970364508, -106);
  (7473314534404142, -106); (7495873665539617, -106); (7518344611633117, -106); (7540728595105255, -106);
  (7563026813650199, -106); (7585240440925462, -106); (7607370627217453, -106); (7629418500083816, -106);
  (7651385164973523, -106); (7673271705825661, -106); (7695079185647781, -106); (7716808647074671, -106);
  (7738461112908327, -106); (7760037586639907, -106); (7781539052954374, -106); (7802966478218537, -106);
  (7824320810953135, -106); (7845602982289601, -106); (7866813906412105, -106); (7887954480985442, -106);
  (7909025587569320, -106); (7930028092019567, -106); (7950962844876748, -106); (7971830681742678, -106);
  (7992632423645287, -106); (8013368877392255, -106); (8034040835913861, -106); (8054649078595415, -106);
  (8075194371599674, -106); (8095677468179606, -106); (8116099108981829, -106); (8136460022341094, -106);
  (8156760924566105, -106); (8177002520216990, -106); (8197185502374726, -106); (8217310552902790, -106);
  (8237378342701310, -106); (8257389531953978, -106); (8277344770367969, -106); (8297244697407111, -106);
  (8317089942518531, -106); (8336881125352999, -106); (8356618855979178, -106); (8376303735091996, -106);
  (8395936354215317, -106); (8415517295899113, -106); (8435047133911313, -106); (8454526433424500, -106);
  (8473955751197625, -106); (8493335635752907, -106); (8512666627548054, -106); (8531949259143975, -106);
  (8551184055368114, -106); (8570371533473546, -106); (8589512203293972, -106); (8608606567394731, -106);
  (8627655121219974, -106); (8646658353236084, -106); (8665616745071496, -106); (8684530771652994, -106);
  (8703400901338616, -106); (8722227596047255, -106); (8741011311385056, -106); (8759752496768718, -106);
  (8778451595545777, -106); (8797109045111964, -106); (8815725277025733, -106); (8834300717120028, -106);
  (8852835785611381, -106); (8871330897206410, -106); (8889786461205798, -106); (8908202881605822, -106);
  (8926580557197500, -106); (8944919881663430, -106); (8963221243672382, -106); (8981485026971706, -106);
  (8999711610477613, -106); (4508950684181703, -105); (4518027335072843, -105); (4527085940384316, -105);
  (4536126680343176, -105); (4545149732971712, -105); (4554155274126806, -105); (4563143477538429, -105);
  (4572114514847278, -105); (4581068555641593, -105); (4590005767493165, -105); (4598926315992564, -105);
  (4607830364783599, -105); (4616718075597040, -105); (4625589608283617, -105); (4634445120846307, -105);
  (4643284769471948, -105); (4652108708562170, -105); (4660917090763686, -105); (4669710066997942, -105);
  (4678487786490152, -105); (4687250396797731, -105); (4695998043838133, -105); (4704730871916128, -105);
  (4713449023750511, -105); (4722152640500273, -105); (4730841861790235, -105); (4739516825736171, -105);
  (4748177668969421, -105); (4756824526661012, -105); (4765457532545303, -105); (4774076818943152, -105);
  (4782682516784637, -105); (4791274755631319, -105); (4799853663698080, -105); (4808419367874526, -105);
  (4816971993745979, -105); (4825511665614068, -105); (4834038506516914, -105); (4842552638248939, -105);
  (4851054181380291, -105); (4859543255275900, -105); (4868019978114181, -105); (4876484466905376, -105);
  (4884936837509559, -105); (4893377204654300, -105); (4901805681952010, -105); (4910222381916954, -105);
  (4918627415981956, -105); (4927020894514802, -105); (4935402926834336, -105); (4943773621226269, -105);
  (4952133084958699, -105); (4960481424297351, -105); (4968818744520548, -105); (4977145149933910, -105);
  (4985460743884789, -105); (4993765628776460, -105); (5002059906082047, -105); (5010343676358213, -105);
  (5018617039258611, -105); (5026880093547095, -105); (5035132937110710, -105); (5043375666972447, -105);
  (5051608379303790, -105); (5059831169437037, -105); (5068044131877423, -105); (5076247360315026, -105);
  (5084440947636478, -105); (5092624985936479, -105); (5100799566529109, -105); (5108964779958969, -105);
  (5117120716012115, -105); (5125267463726828, -105); (5133405111404200, -105); (5141533746618543, -105);
  (5149653456227633, -105); (5157764326382787, -105); (5165866442538771, -105); (5173959889463554, -105);
  (5182044751247903, -105); (5190121111314824, -105); (5198189052428851, -105); (5206248656705194, -105);
  (5214300005618730, -105); (5222343180012869, -105); (5230378260108265, -105); (5238405325511399, -105);
  (5246424455223032, -105); (5254435727646517, -105); (5262439220595992, -105); (5270435011304444, -105);
  (5278423176431646, -105); (5286403792071981, -105); (5294376933762139, -105); (5302342676488707, -105);
  (5310301094695635, -105); (5318252262291597, -105); (5326196252657243, -105); (5334133138652336, -105);
  (5342062992622795, -105); (5349985886407620, -105); (5357901891345734, -105); (5365811078282704, -105);
  (5373713517577384, -105); (5381609279108448, -105); (5389498432280838, -105); (5397381046032114, -105);
  (5405257188838716, -105); (5413126928722139, -105); (5420990333255014, -105); (5428847469567111, -105);
  (5436698404351256, -105); (5444543203869160, -105); (5452381933957177, -105); (5460214660031972, -105);
  (5468041447096119, -105); (5475862359743620, -105); (5483677462165344, -105); (5491486818154402, -105);
  (5499290491111440, -105); (5507088544049866, -105); (5514881039601008, -105); (5522668040019198, -105);
  (5530449607186794, -105); (5538225802619134, -105); (5545996687469424, -105); (5553762322533563, -105);
  (5561522768254906, -105); (5569278084728968, -105); (5577028331708056, -105); (5584773568605861, -105);
  (5592513854501971, -105); (5600249248146343, -105); (5607979807963711, -105); (5615705592057936, -105);
  (5623426658216311, -105); (5631143063913806, -105); (5638854866317258, -105); (5646562122289519, -105);
  (5654264888393546, -105); (5661963220896439, -105); (5669657175773442, -105); (5677346808711883, -105);
  (5685032175115073, -105); (5692713330106159, -105); (5700390328531931, -105); (5708063224966583, -105);
  (5715732073715430, -105); (5723396928818582, -105); (5731057844054582, -105); (5738714872943988, -105);
  (5746368068752928, -105); (5754017484496610, -105); (5761663172942787, -105); (5769305186615194, -105);
  (5776943577796935, -105); (5784578398533841, -105); (5792209700637790, -105); (5799837535689985, -105);
  (5807461955044203, -105); (5815083009830007, -105); (5822700750955920, -105); (5830315229112571, -105);
  (5837926494775804, -105); (5845534598209754, -105); (5853139589469895, -105); (5860741518406050, -105);
  (5868340434665379, -105); (5875936387695324, -105); (5883529426746537, -105); (5891119600875772, -105);
  (5898706958948746, -105); (5906291549642979, -105); (5913873421450596, -105); (5921452622681113, -105);
  (5929029201464188, -105); (5936603205752347, -105); (5944174683323685, -105); (5951743681784542, -105);
  (5959310248572154, -105); (5966874430957277, -105); (5974436276046788, -105); (5981995830786266, -105);
  (5989553141962542, -105); (5997108256206229, -105); (6004661219994239, -105); (6012212079652258, -105);
  (6019760881357221, -105); (6027307671139747, -105); (6034852494886568, -105); (6042395398342926, -105);
  (6049936427114958, -105); (6057475626672053, -105); (6065013042349200, -105); (6072548719349307, -105);
  (6080082702745506, -105); (6087615037483438, -105); (6095145768383522, -105); (6102674940143206, -105);
  (6110202597339195, -105); (6117728784429671, -105); (6125253545756488, -105); (6132776925547356, -105);
  (6140298967918007, -105); (6147819716874344, -105); (6155339216314575, -105); (6162857510031334, -105);
  (6170374641713784, -105); (6177890654949707, -105); (6185405593227579, -105); (6192919499938632, -105);
  (6200432418378900, -105); (6207944391751256, -105); (6215455463167429, -105); (6222965675650012, -105);
  (6230475072134463, -105); (6237983695471077, -105); (6245491588426968, -105); (6252998793688020, -105);
  (6260505353860835, -105); (6268011311474671, -105); (6275516708983365, -105); (6283021588767248, -105);
  (6290525993135043, -105); (6298029964325766, -105); (6305533544510600, -105); (6313036775794772, -105);
  (6320539700219415, -105); (6328042359763422, -105); (6335544796345287, -105); (6343047051824945, -105);
  (6350549168005594, -105); (6358051186635515, -105); (6365553149409881, -105); (6373055097972560, -105);
  (6380557073917904, -105); (6388059118792541, -105); (6395561274097150, -105); (6403063581288230, -105);
  (6410566081779871, -105); (6418068816945502, -105); (6425571828119652, -105); (6433075156599687, -105);
  (6440578843647549, -105); (6448082930491493, -105); (6455587458327806, -105); (6463092468322536, -105);
  (6470598001613199, -105); (6478104099310495, -105); (6485610802500013, -105); (6493118152243927, -105);
  (6500626189582695, -105); (6508134955536752, -105); (6515644491108190, -105); (6523154837282451, -105);
  (6530666035029997, -105); (6538178125307990, -105); (6545691149061964, -105); (6553205147227493, -105);
  (6560720160731854, -105); (6568236230495694, -105); (6575753397434686, -105); (6583271702461189, -105);
  (6590791186485901, -105); (6598311890419511, -105); (6605833855174354, -105); (6613357121666052, -105);
  (6620881730815168, -105); (6628407723548849, -105); (6635935140802469, -105); (6643464023521274, -105);
  (6650994412662021, -105); (6658526349194623, -105); (6666059874103789, -105); (6673595028390659, -105);
  (6681131853074451, -105); (6688670389194098, -105); (6696210677809884, -105); (6703752760005091, -105);
  (6711296676887634, -105); (6718842469591704, -105); (6726390179279410, -105); (6733939847142422, -105);
  (6741491514403614, -105); (6749045222318709, -105); (6756601012177926, -105); (6764158925307630, -105);
  (6771719003071976, -105); (6779281286874571, -105); (6786845818160118, -105); (6794412638416078, -105);
  (6801981789174327, -105); (6809553312012821, -105); (6817127248557254, -105); (6824703640482731, -105);
  (6832282529515437, -105); (6839863957434310, -105); (6847447966072719, -105); (6855034597320147, -105);
  (6862623893123872, -105); (6870215895490662, -105); (6877810646488462, -105); (6885408188248099, -105);
  (6893008562964978, -105); (6900611812900792, -105); (6908217980385237, -105); (6915827107817722, -105);
  (6923439237669102, -105); (6931054412483395, -105); (6938672674879527, -105); (6946294067553064, -105);
  (6953918633277959, -105); (6961546414908307, -105); (6969177455380104, -105); (6976811797713008, -105);
  (6984449485012115, -105); (6992090560469735, -105); (6999735067367182, -105); (7007383049076564, -105);
  (7015034549062588, -105); (7022689610884366, -105); (7030348278197234, -105); (7038010594754574, -105);
  (7045676604409654, -105); (7053346351117465, -105); (7061019878936573, -105); (7068697232030981, -105);
  (7076378454671996, -105); (7084063591240109, -105); (7091752686226885, -105); (7099445784236857, -105);
  (7107142929989438, -105); (7114844168320837, -105); (7122549544185991, -105); (7130259102660502, -105);
  (7137972888942588, -105); (7145690948355046, -105); (7153413326347225, -105); (7161140068497010, -105);
  (7168871220512819, -105); (7176606828235611, -105); (7184346937640908, -105); (7192091594840830, -105);
  (7199840846086136, -105); (7207594737768291, -105); (7215353316421532, -105); (7223116628724955, -105);
  (7230884721504620, -105); (7238657641735659, -105); (7246435436544407, -105); (7254218153210544, -105);
  (7262005839169251, -105); (7269798542013387, -105); (7277596309495670, -105); (7285399189530886, -105);
  (7293207230198107, -105); (7301020479742923, -105); (7308838986579699, -105); (7316662799293838, -105);
  (7324491966644070, -105); (7332326537564755, -105); (7340166561168200, -105); (7348012086747000, -105);
  (7355863163776391, -105); (7363719841916629, -105); (7371582171015380, -105); (7379450201110132, -105);
  (7387323982430631, -105); (7395203565401327, -105); (7403089000643849, -105); (7410980338979497, -105);
  (7418877631431752, -105); (7426780929228812, -105); (7434690283806145, -105); (7442605746809068, -105);
  (7450527370095343, -105); (7458455205737799, -105); (7466389306026976, -105); (7474329723473793, -105);
  (7482276510812236, -105); (7490229721002073, -105); (7498189407231594, -105); (7506155622920372, -105);
  (7514128421722052, -105); (7522107857527165, -105); (7530093984465967, -105); (7538086856911303, -105);
  (7546086529481501, -105); (7554093057043292, -105); (7562106494714752, -105); (7570126897868284, -105);
  (7578154322133613, -105); (7586188823400822, -105); (7594230457823413, -105); (7602279281821396, -105);
  (7610335352084410, -105); (7618398725574874, -105); (7626469459531171, -105); (7634547611470859, -105);
  (7642633239193921, -105); (7650726400786040, -105); (7658827154621911, -105); (7666935559368588, -105);
  (7675051673988863, -105); (7683175557744677, -105); (7691307270200573, -105); (7699446871227180, -105);
  (7707594421004730, -105); (7715749980026624, -105); (7723913609103018, -105); (7732085369364463, -105);
  (7740265322265574, -105); (7748453529588743, -105); (7756650053447888, -105); (7764854956292245, -105);
  (7773068300910201, -105); (7781290150433168, -105); (7789520568339498, -105); (7797759618458444, -105);
  (7806007364974164, -105); (7814263872429766, -105); (7822529205731400, -105); (7830803430152402, -105);
  (7839086611337472, -105); (7847378815306910, -105); (7855680108460896, -105); (7863990557583815, -105);
  (7872310229848641, -105); (7880639192821362, -105); (7888977514465459, -105); (7897325263146441, -105);
  (7905682507636423, -105); (7914049317118773, -105); (7922425761192794, -105); (7930811909878481, -105);
  (7939207833621315, -105); (7947613603297132, -105); (7956029290217037, -105); (7964454966132383, -105);
  (7972890703239808, -105); (7981336574186333, -105); (7989792652074523, -105); (7998259010467706, -105);
  (8006735723395265, -105); (8015222865357985, -105); (8023720511333475, -105); (8032228736781644, -105);
  (8040747617650263, -105); (8049277230380579, -105); (8057817651913010, -105); (8066368959692908, -105);
  (8074931231676393, -105); (8083504546336267, -105); (8092088982667991, -105); (8100684620195754, -105);
  (8109291538978607, -105); (8117909819616679, -105); (8126539543257480, -105); (8135180791602272, -105);
  (8143833646912540, -105); (8152498192016527, -105); (8161174510315877, -105); (8169862685792345, -105);
  (8178562803014607, -105); (8187274947145157, -105); (8195999203947299, -105); (8204735659792222, -105);
  (8213484401666183, -105); (8222245517177776, -105); (8231019094565305, -105); (8239805222704252, -105);
  (8248603991114853, -105); (8257415489969766, -105); (8266239810101859, -105); (8275077043012091, -105);
  (8283927280877507, -105); (8292790616559346, -105); (8301667143611258, -105); (8310556956287634, -105);
  (8319460149552058, -105); (8328376819085868, -105); (8337307061296851, -105); (8346250973328047, -105);
  (8355208653066683, -105); (8364180199153239, -105); (8373165710990636, -105); (8382165288753556, -105);
  (8391179033397904, -105); (8400207046670393, -105); (8409249431118281, -105); (8418306290099240, -105);
  (8427377727791373, -105); (8436463849203379, -105); (8445564760184858, -105); (8454680567436783, -105);
  (8463811378522109, -105); (8472957301876557, -105); (8482118446819541, -105); (8491294923565275, -105);
  (8500486843234032, -105); (8509694317863582, -105); (8518917460420797, -105); (8528156384813436, -105);
  (8537411205902103, -105); (8546682039512396, -105); (8555969002447234, -105); (8565272212499376, -105);
  (8574591788464137, -105); (8583927850152292, -105); (8593280518403188, -105); (8602649915098059, -105);
  (8612036163173545, -105); (8621439386635425, -105); (8630859710572571, -105); (8640297261171116, -105);
  (8649752165728846, -105); (8659224552669832, -105); (8668714551559279, -105); (8678222293118627, -105);
  (8687747909240890, -105); (8697291533006239, -105); (8706853298697843, -105); (8716433341817965, -105);
  (8726031799104322, -105); (8735648808546709, -105); (8745284509403903, -105); (8754939042220840, -105);
  (8764612548846079, -105); (8774305172449555, -105); (8784017057540632, -105); (8793748349986449, -105);
  (8803499197030589, -105); (8813269747312045, -105); (8823060150884524, -105); (8832870559236065, -105);
  (8842701125309004, -105); (8852552003520268, -105); (8862423349782030, -105); (8872315321522708, -105);
  (8882228077708341, -105); (8892161778864321, -105); (8902116587097521, -105); (8912092666118793, -105);
  (8922090181265874, -105); (8932109299526691, -105); (8942150189563080, -105); (8952213021734925, -105);
  (8962297968124726, -105); (8972405202562614, -105); (8982534900651808, -105); (8992687239794534, -105);
  (9002862399218415, -105); (4506530280001671, -104); (4511640952554414, -104); (4516763309700937, -104);
  (4521897444842670, -104); (4527043452363421, -104); (4532201427644093, -104); (4537371467077675, -104);
  (4542553668084513, -104); (4547748129127866, -104); (4552954949729758, -104); (4558174230487126, -104);
  (4563406073088282, -104); (4568650580329678, -104); (4573907856133000, -104); (4579178005562590, -104);
  (4584461134843200, -104); (4589757351378094, -104); (4595066763767500, -104); (4600389481827425, -104);
  (4605725616608836, -104); (4611075280417219, -104); (4616438586832529, -104); (4621815650729531, -104);
  (4627206588298551, -104); (4632611517066638, -104); (4638030555919158, -104); (4643463825121817, -104);
  (4648911446343136, -104); (4654373542677381, -104); (4659850238667963, -104); (4665341660331322, -104);
  (4670847935181296, -104); (4676369192254000, -104); (4681905562133226, -104); (4687457176976368, -104);
  (4693024170540891, -104); (4698606678211366, -104); (4704204837027066, -104); (4709818785710161, -104);
  (4715448664694506, -104); (4721094616155049, -104); (4726756784037879, -104); (4732435314090917, -104);
  (4738130353895279, -104); (4743842052897321, -104); (4749570562441390, -104); (4755316035803300, -104);
  (4761078628224540, -104); (4766858496947254, -104); (4772655801249996, -104); (4778470702484293, -104);
  (4784303364112028, -104); (4790153951743673, -104); (4796022633177395, -104); (4801909578439053, -104);
  (4807814959823118, -104); (4813738951934537, -104); (4819681731731566, -104); (4825643478569610, -104);
  (4831624374246084, -104); (4837624603046329, -104); (4843644351790623, -104); (4849683809882304, -104);
  (4855743169357042, -104); (4861822624933302, -104); (4867922374064016, -104); (4874042616989516, -104);
  (4880183556791754, -104); (4886345399449850, -104); (4892528353897013, -104); (4898732632078865, -104);
  (4904958449013222, -104); (4911206022851364, -104); (4917475574940852, -104); (4923767329889929, -104);
  (4930081515633554, -104); (4936418363501132, -104); (4942778108285972, -104); (4949160988316544, -104);
  (4955567245529582, -104); (4961997125545096, -104); (4968450877743354, -104); (4974928755343884, -104);
  (4981431015486581, -104); (4987957919314972, -104); (4994509732061714, -104); (5001086723136393, -104);
  (5007689166215707, -104); (5014317339336107, -104); (5020971524988971, -104); (5027652010218411, -104);
  (5034359086721785, -104); (5041093050953009, -104); (5047854204228777, -104); (5054642852837760, -104);
  (5061459308152921, -104); (5068303886747019, -104); (5075176910511440, -104); (5082078706778451, -104);
  (5089009608447008, -104); (5095969954112240, -104); (5102960088198741, -104); (5109980361097796, -104);
  (5117031129308703, -104); (5124112755584310, -104); (5131225609080951, -104); (5138370065512918, -104);
  (5145546507311640, -104); (5152755323789763, -104); (5159996911310277, -104); (5167271673460917, -104);
  (5174580021234012, -104); (5181922373211993, -104); (5189299155758790, -104); (5196710803217319, -104);
  (5204157758113324, -104); (5211640471365796, -104); (5219159402504244, -104); (5226715019893079, -104);
  (5234307800963396, -104); (5241938232452453, -104); (5249606810651154, -104); (5257314041659859, -104);
  (5265060441652869, -104); (5272846537151925, -104); (5280672865309124, -104); (5288539974199609, -104);
  (5296448423124473, -104); (5304398782924294, -104); (5312391636303756, -104); (5320427578167837, -104);
  (5328507215970054, -104); (5336631170073306, -104); (5344800074123848, -104); (5353014575438993, -104);
  (5361275335409148, -104); (5369583029914822, -104); (5377938349759291, -104); (5386342001117628, -104);
  (5394794706002856, -104); (5403297202750006, -104); (5411850246518930, -104); (5420454609816737, -104);
  (5429111083040791, -104); (5437820475043252, -104); (5446583613718193, -104); (5455401346612401, -104);
  (5464274541561010, -104); (5473204087349203, -104); (5482190894401267, -104); (5491235895498401, -104);
  (5500340046526700, -104); (5509504327256891, -104); (5518729742157431, -104); (5528017321242726, -104);
  (5537368120958284, -104); (5546783225104800, -104); (5556263745803205, -104); (5565810824502931, -104);
  (5575425633035710, -104); (5585109374717435, -104); (5594863285500723, -104); (5604688635181045, -104);
  (5614586728659416, -104); (5624558907264912, -104); (5634606550140417, -104); (5644731075695326, -104);
  (5654933943129089, -104); (5665216654029843, -104); (5675580754052609, -104); (5686027834681879, -104);
  (5696559535083763, -104); (5707177544053228, -104); (5717883602062376, -104); (5728679503416143, -104);
  (5739567098522275, -104); (5750548296282965, -104); (5761625066616077, -104); (5772799443114533, -104);
  (5784073525853057, -104); (5795449484352247, -104); (5806929560710705, -104); (5818516072916837, -104);
  (5830211418352898, -104); (5842018077504866, -104); (5853938617892883, -104); (5865975698238278, -104);
  (5878132072884495, -104); (5890410596490835, -104); (5902814229019507, -104); (5915346041038385, -104);
  (5928009219363828, -104); (5940807073070186, -104); (5953743039895076, -104); (5966820693072246, -104);
  (5980043748626871, -104); (5993416073171501, -104); (6006941692244635, -104); (6020624799238042, -104);
  (6034469764963642, -104); (6048481147915921, -104); (6062663705291706, -104); (6077022404835638, -104);
  (6091562437586984, -104); (6106289231611712, -104); (6121208466812967, -104); (6136326090923620, -104);
  (6151648336796364, -104); (6167181741120261, -104); (6182933164707870, -104); (6198909814514431, -104);
  (6215119267570310, -104); (6231569497030496, -104); (6248268900570798, -104); (6265226331390044, -104);
  (6282451132111748, -104); (6299953171918098, -104); (6317742887294690, -104); (6335831326817282, -104);
  (6354230200473328, -104); (6372951934082781, -104); (6392009729466565, -104); (6411417631109686, -104);
  (6431190600181969, -104); (6451344596916629, -104); (6471896672509564, -104); (6492865071896074, -104);
  (6514269348993282, -104); (6536130496274638, -104); (6558471090878075, -104); (6581315459855364, -104);
  (6604689867664237, -104); (6628622729609047, -104); (6653144855678491, -104); (6678289730147300, -104);
  (6704093833450760, -104); (6730597014269936, -104); (6757842921565333, -104); (6785879508579586, -104);
  (6814759623746685, -104); (6844541707201840, -104); (6875290616464865, -104); (6907078611263220, -104);
  (6939986535919906, -104); (6974105249039822, -104); (7009537365515220, -104); (7046399396786353, -104);
  (7084824404285172, -104); (7124965321750639, -104); (7166999160305554, -104); (7211132394711981, -104);
  (7257607954300109, -104); (7306714431017697, -104); (7358798409147790, -104); (7414281284610755, -104);
  (7473682698560295, -104); (7537653987696879, -104); (7607027294727159, -104); (7682890090955240, -104);
  (7766702798869062, -104); (7860493519187626, -104); (7967200075571388, -104); (8091318015517658, -104);
  (8240257755915183, -104); (8427615761738278, -104); (8682946060061132, -104); (4547340665486037, -103)]%Z.
(** normal.go:572-829, as written *)
Definition normalF_dec : list (Z * Z) := [
  (100000000000000000, 17); (990920388454552659, 18); (984076139692321328, 18); (978231105909971754, 18);
  (972990668995302288, 18); (968169358881174835, 18); (963662181667052309, 18); (959402691577932454, 18);
  (955345577442565874, 18); (951458237481504931, 18); (947716246374123439, 18); (944100717285557556, 18);
  (940596670809911495, 18); (937191976648821257, 18); (933876639344691784, 18); (930642300170011705, 18);
  (927481880006865822, 18); (924389317163929802, 18); (921359370895800223, 18); (918387471488135487, 18);
  (915469604043015805, 18); (912602217108963720, 18); (909782149931632533, 18); (907006573868361698, 18);
  (904272944721260075, 18); (901578963589548921, 18); (898922544442798399, 18); (896301787050057031, 18);
  (893714954216809576, 18); (891160452516485568, 18); (888636815879234265, 18); (886142691534053673, 18);
  (883676827902465489, 18); (881238064120824949, 18); (878825320929866649, 18); (876437592718426473, 18);
  (874073940546574613, 18); (871733486003934854, 18); (869415405783498851, 18); (867118926871072171, 18);
  (864843322266612646, 18); (862587907166904810, 18); (860352035549855843, 18); (858135097109657741, 18);
  (855936514499494705, 18); (853755740844685751, 18); (851592257494346083, 18); (849445571984029368, 18);
  (847315216185504871, 18); (845200744622958799, 18); (843101732937572401, 18); (841017776484710100, 18);
  (838948489049897606, 18); (836893501671449380, 18); (834852461559049686, 18); (832825031098840651, 18);
  (830810886936657389, 18); (828809719131987754, 18); (826821230376063032, 18); (824845135268196361, 18);
  (822881159645122096, 18); (820929039958635198, 18); (818988522697322141, 18); (817059363848598785, 18);
  (815141328397653298, 18); (813234189860225887, 18); (811337729846456579, 18); (809451737653296699, 18);
  (807576009883215873, 18); (805710350087146532, 18); (803854568429798744, 18); (802008481375642179, 18);
  (800171911394008784, 18); (798344686681902060, 18); (796526640903221672, 18); (794717612943223628, 18);
  (792917446677135151, 18); (791125990751931574, 18); (789343098380367647, 18); (787568627146425171, 18);
  (785802438821409321, 18); (784044399189983920, 18); (782294377885492942, 18); (780552248233966739, 18);
  (778817887106253326, 18); (777091174777763016, 18); (775371994795346575, 18); (773660233850868018, 18);
  (771955781661060270, 18); (770258530853285106, 18); (768568376856843427, 18); (766885217799508023, 18);
  (765208954408972408, 18); (763539489918932612, 18); (761876729979535705, 18); (760220582571948023, 18);
  (758570957926812284, 18); (756927768446377658, 18); (755290928630101610, 18); (753660355003534566, 18);
  (752035966050311422, 18); (750417682147083043, 18); (748805425501234856, 18); (747199120091244895, 18);
  (745598691609547282, 18); (744004067407769920, 18); (742415176444228830, 18); (740831949233563880, 18);
  (739254317798410443, 18); (737682215623005622, 18); (736115577608635774, 18); (734554340030834862, 18);
  (732998440498250803, 18); (731447817913099985, 18); (729902412433134584, 18); (728362165435053277, 18);
  (726827019479287850, 18); (725296918276101654, 18); (723771806652941940, 18); (722251630522988797, 18);
  (720736336854845838, 18); (719225873643324132, 18); (717720189881270398, 18); (716219235532392307, 18);
  (714722961505041332, 18); (713231319626907778, 18); (711744262620592538, 18); (710261744080016855, 18);
  (708783718447634881, 18); (707310140992416736, 18); (705840967788569307, 18); (704376155694964479, 18);
  (702915662335246938, 18); (701459446078593341, 18); (700007466021097091, 18); (698559681967754087, 18);
  (697116054415024444, 18); (695676544533950447, 18); (694241114153805183, 18); (692809725746255434, 18);
  (691382342410016060, 18); (689958927855978454, 18); (688539446392795629, 18); (687123862912905614, 18);
  (685712142878977637, 18); (684304252310765526, 18); (682900157772352912, 18); (681499826359775795, 18);
  (680103225689010160, 18); (678710323884309297, 18); (677321089566880752, 18); (675935491843888570, 18);
  (674553500297771169, 18); (673175084975862648, 18); (671800216380307957, 18); (670428865458260304, 18);
  (669061003592352765, 18); (667696602591433708, 18); (666335634681557210, 18); (664978072497219963, 18);
  (663623889072836981, 18); (662273057834447121, 18); (660925552591641208, 18); (659581347529706430, 18);
  (658240417201978012, 18); (656902736522392949, 18); (655568280758239696, 18); (654237025523094706, 18);
  (652908946769944043, 18); (651584020784480300, 18); (650262224178572046, 18); (648943533883898693, 18);
  (647627927145746574, 18); (646315381516960996, 18); (645005874852049188, 18); (643699385301430116, 18);
  (642395891305825861, 18); (641095371590791330, 18); (639797805161376965, 18); (638503171296921690, 18);
  (637211449545970976, 18); (635922619721317472, 18); (634636661895159881, 18); (633353556394376738, 18);
  (632073283795911989, 18); (630795824922268822, 18); (629521160837109073, 18); (628249272840954220, 18);
  (626980142466987078, 18); (625713751476948299, 18); (624450081857128136, 18); (623189115814448580, 18);
  (621930835772635082, 18); (620675224368472667, 18); (619422264448148518, 18); (618171939063673404, 18);
  (616924231469384243, 18); (615679125118523185, 18); (614436603659891389, 18); (613196650934576870, 18);
  (611959250972752056, 18); (610724387990541850, 18); (609492046386958308, 18); (608262210740900700, 18);
  (607034865808220636, 18); (605809996518847704, 18); (604587587973977381, 18); (603367625443316347, 18);
  (602150094362386978, 18); (600934980329886126, 18); (599722269105100403, 18); (598511946605372547, 18);
  (597303998903621736, 18); (596098412225913199, 18); (594895172949077344, 18); (593694267598377290, 18);
  (592495682845222915, 18); (591299405504931430, 18); (590105422534531132, 18); (588913721030610349, 18);
  (587724288227207459, 18); (586537111493743324, 18); (585352178332993578, 18); (584169476379100883, 18);
  (582988993395625044, 18); (581810717273631650, 18); (580634636029816353, 18); (579460737804666337, 18);
  (578289010860655317, 18); (577119443580473956, 18); (575952024465293255, 18); (574786742133060247, 18);
  (573623585316826445, 18); (572462542863106272, 18); (571303603730266896, 18); (570146756986947501, 18);
  (568991991810507525, 18); (567839297485503547, 18); (566688663402193593, 18); (565540079055069089, 18);
  (564393534041412903, 18); (563249018059883699, 18); (562106520909125495, 18); (560966032486402200, 18);
  (559827542786256349, 18); (558691041899191498, 18); (557556520010378143, 18); (556423967398382291, 18);
  (555293374433915909, 18); (554164731578609793, 18); (553038029383807195, 18); (551913258489378777, 18);
  (550790409622557542, 18); (549669473596794078, 18); (548550441310631132, 18); (547433303746597377, 18);
  (546318051970120289, 18); (545204677128456994, 18); (544093170449642893, 18); (542983523241458821, 18);
  (541875726890414411, 18); (540769772860748787, 18); (539665652693448128, 18); (538563358005279103, 18);
  (537462880487837968, 18); (536364211906615873, 18); (535267344100078812, 18); (534172268978763021, 18);
  (533078978524384572, 18); (531987464788963749, 18); (530897719893963171, 18); (529809736029440037, 18);
  (528723505453211451, 18); (527639020490033861, 18); (526556273530794039, 18); (525475257031714604, 18);
  (524395963513570873, 18); (523318385560920030, 18); (522242515821342734, 18); (521168347004696719, 18);
  (520095871882381044, 18); (519025083286612787, 18); (517955974109714057, 18); (516888537303410667, 18);
  (515822765878140577, 18); (514758652902373770, 18); (513696191501942345, 18); (512635374859379933, 18);
  (511576196213272216, 18); (510518648857616109, 18); (509462726141189703, 18); (508408421466930549, 18);
  (507355728291323471, 18); (506304640123798277, 18); (505255150526135011, 18); (504207253111878750, 18);
  (503160941545763629, 18); (502116209543143288, 18); (501073050869431991, 18); (500031459339552176, 18);
  (498991428817390670, 18); (497952953215262784, 18); (496916026493384011, 18); (495880642659349002, 18);
  (494846795767618586, 18); (493814479919013727, 18); (492783689260216540, 18); (491754417983278735, 18);
  (490726660325136788, 18); (489700410567133926, 18); (488675663034548846, 18); (487652412096130972, 18);
  (486630652163642430, 18); (485610377691405970, 18); (484591583175859431, 18); (483574263155116368, 18);
  (482558412208532517, 18); (481544024956278516, 18); (480531096058918139, 18); (479519620216992404, 18);
  (478509592170609566, 18); (477501006699040165, 18); (476493858620318178, 18); (475488142790846835, 18);
  (474483854105010427, 18); (473480987494790728, 18); (472479537929388904, 18); (471479500414852426, 18);
  (470480869993706530, 18); (469483641744591229, 18); (468487810781902547, 18); (467493372255438633, 18);
  (466500321350050706, 18); (465508653285298335, 18); (464518363315109206, 18); (463529446727443561, 18);
  (462541898843962684, 18); (461555715019701773, 18); (460570890642747366, 18); (459587421133918039, 18);
  (458605301946450494, 18); (457624528565688138, 18); (456645096508775161, 18); (455667001324353171, 18);
  (454690238592262597, 18); (453714803923247423, 18); (452740692958663815, 18); (451767901370192237, 18);
  (450796424859553291, 18); (449826259158227160, 18); (448857400027176501, 18); (447889843256572662, 18);
  (446923584665525564, 18); (445958620101816527, 18); (444994945441634815, 18); (444032556589317173, 18);
  (443071449477090429, 18); (442111620064817745, 18); (441153064339747436, 18); (440195778316265107, 18);
  (439239758035648631, 18); (438284999565826339, 18); (437331499001138102, 18); (436379252462098799, 18);
  (435428256095165389, 18); (434478506072506210, 18); (433529998591773269, 18); (432582729875877148, 18);
  (431636696172764678, 18); (430691893755199229, 18); (429748318920543493, 18); (428805967990544989, 18);
  (427864837311123847, 18); (426924923252163580, 18); (425986222207303700, 18); (425048730593734991, 18);
  (424112444851997561, 18); (423177361445780553, 18); (422243476861724587, 18); (421310787609226522, 18);
  (420379290220246393, 18); (419448981249116282, 18); (418519857272352080, 18); (417591914888466476, 18);
  (416665150717785093, 18); (415739561402263869, 18); (414815143605308911, 18); (413891894011598427, 18);
  (412969809326906689, 18); (412048886277929627, 18); (411129121612112847, 18); (410210512097481328, 18);
  (409293054522471167, 18); (408376745695763044, 18); (407461582446117632, 18); (406547561622213005, 18);
  (405634680092483491, 18); (404722934744960683, 18); (403812322487115960, 18); (402902840245705052, 18);
  (401994484966613663, 18); (401087253614705763, 18); (400181143173672649, 18); (399276150645884287, 18);
  (398372273052241765, 18); (397469507432031965, 18); (396567850842783176, 18); (395667300360122653, 18);
  (394767853077635733, 18); (393869506106726330, 18); (392972256576479051, 18); (392076101633522578, 18);
  (391181038441894835, 18); (390287064182909538, 18); (389394176055023800, 18); (388502371273707681, 18);
  (387611647071314847, 18); (386722000696954726, 18); (385833429416365614, 18); (384945930511790047, 18);
  (384059501281850291, 18); (383174139041426220, 18); (382289841121533858, 18); (381406604869205468, 18);
  (380524427647370656, 18); (379643306834738958, 18); (378763239825683773, 18); (377884224030126947, 18);
  (377006256873425205, 18); (376129335796257513, 18); (375253458254513395, 18); (374378621719182791, 18);
  (373504823676246767, 18); (372632061626569588, 18); (371760333085791705, 18); (370889635584223942, 18);
  (370019966666742639, 18); (369151323892686345, 18); (368283704835752845, 18); (367417107083897854, 18);
  (366551528239234425, 18); (365686965917933482, 18); (364823417750125389, 18); (363960881379802481, 18);
  (363099354464722690, 18); (362238834676313903, 18); (361379319699579538, 18); (360520807233005114, 18);
  (359663294988465443, 18); (358806780691133032, 18); (357951262079387433, 18); (357096736904725265, 18);
  (356243202931671443, 18); (355390657937691035, 18); (354539099713102213, 18); (353688526060989883, 18);
  (352838934797120363, 18); (351990323749856726, 18); (351142690760075260, 18); (350296033681082530, 18);
  (349450350378533170, 18); (348605638730348943, 18); (347761896626638090, 18); (346919121969615829, 18);
  (346077312673525539, 18); (345236466664560648, 18); (344396581880787367, 18); (343557656272068135, 18);
  (342719687799986183, 18); (341882674437769984, 18); (341046614170219531, 18); (340211504993632396, 18);
  (339377344915731294, 18); (338544131955591576, 18); (337711864143570240, 18); (336880539521235089, 18);
  (336050156141294687, 18); (335220712067529181, 18); (334392205374721585, 18); (333564634148590000, 18);
  (332737996485720111, 18); (331912290493498796, 18); (331087514290047957, 18); (330263666004159351, 18);
  (329440743775229916, 18); (328618745753197605, 18); (327797670098478044, 18); (326977514981901751, 18);
  (326158278584651795, 18); (325339959098202514, 18); (324522554724258172, 18); (323706063674692845, 18);
  (322890484171490522, 18); (322075814446685926, 18); (321262052742305848, 18); (320449197310310963, 18);
  (319637246412538656, 18); (318826198320645737, 18); (318016051316052317, 18); (317206803689885741, 18);
  (316398453742925523, 18); (315590999785548443, 18); (314784440137674482, 18); (313978773128712918, 18);
  (313173997097509316, 18); (312370110392293010, 18); (311567111370624539, 18); (310764998399344572, 18);
  (309963769854522453, 18); (309163424121405572, 18); (308363959594369463, 18); (307565374676868009, 18);
  (306767667781384312, 18); (305970837329382073, 18); (305174881751257510, 18); (304379799486291347, 18);
  (303585588982601906, 18); (302792248697098143, 18); (301999777095433408, 18); (301208172651959483, 18);
  (300417433849681281, 18); (299627559180211889, 18); (298838547143727984, 18); (298050396248925875, 18);
  (297263105012977646, 18); (296476671961488192, 18); (295691095628452361, 18); (294906374556212547, 18);
  (294122507295416835, 18); (293339492404977475, 18); (292557328452029808, 18); (291776014011891571, 18);
  (290995547668022603, 18); (290215928011984980, 18); (289437153643403722, 18); (288659223169927370, 18);
  (287882135207189693, 18); (287105888378771157, 18); (286330481316161234, 18); (285555912658720656, 18);
  (284782181053644612, 18); (284009285155925661, 18); (283237223628317658, 18); (282465995141299664, 18);
  (281695598373040257, 18); (280926032009362392, 18); (280157294743708485, 18); (279389385277105884, 18);
  (278622302318132842, 18); (277856044582884376, 18); (277090610794939241, 18); (276325999685326562, 18);
  (275562209992493257, 18); (274799240462271555, 18); (274037089847846860, 18); (273275756909726331, 18);
  (272515240415707294, 18); (271755539140846158, 18); (270996651867428051, 18); (270238577384936063, 18);
  (269481314490021606, 18); (268724861986474384, 18); (267969218685193300, 18); (267214383404157207, 18);
  (266460354968396429, 18); (265707132209964114, 18); (264954713967908317, 18); (264203099088244187, 18);
  (263452286423926541, 18); (262702274834822724, 18); (261953063187685908, 18); (261204650356128276, 18);
  (260457035220595323, 18); (259710216668339378, 18); (258964193593394454, 18); (258218964896550884, 18);
  (257474529485330172, 18); (256730886273960457, 18); (255988034183352142, 18); (255245972141073585, 18);
  (254504699081327723, 18); (253764213944928096, 18); (253024515679276085, 18); (252285603238337597, 18);
  (251547475582620750, 18); (250810131679153392, 18); (250073570501461007, 18); (249337791029545092, 18);
  (248602792249861565, 18); (247868573155299615, 18); (247135132745160718, 18); (246402470025138154, 18);
  (245670584007296466, 18); (244939473710051508, 18); (244209138158150596, 18); (243479576382652968, 18);
  (242750787420910635, 18); (242022770316549229, 18); (241295524119449517, 18); (240569047885728748, 18);
  (239843340677722672, 18); (239118401563967603, 18); (238394229619182746, 18); (237670823924252900, 18);
  (236948183566211390, 18); (236226307638223221, 18); (235505195239568560, 18); (234784845475626364, 18);
  (234065257457858583, 18); (233346430303794150, 18); (232628363137013683, 18); (231911055087134138, 18);
  (231194505289793989, 18); (230478712886638376, 18); (229763677025304813, 18); (229049396859408921, 18);
  (228335871548530495, 18); (227623100258199956, 18); (226911082159884953, 18); (226199816430977085, 18);
  (225489302254779228, 18); (224779538820492730, 18); (224070525323205261, 18); (223362260963878567, 18);
  (222654744949336708, 18); (221947976492254423, 18); (221241954811145891, 18); (220536679130353658, 18);
  (219832148680037726, 18); (219128362696165230, 18); (218425320420499919, 18); (217723021100592301, 18);
  (217021463989769819, 18); (216320648347127276, 18); (215620573437517754, 18); (214921238531543435, 18);
  (214222642905547045, 18); (213524785841603226, 18); (212827666627510459, 18); (212131284556783040, 18);
  (211435638928643338, 18); (210740729048014552, 18); (210046554225513299, 18); (209353113777442951, 18);
  (208660407025786782, 18); (207968433298201666, 18); (207277191928012028, 18); (206586682254203902, 18);
  (205896903621419325, 18); (205207855379951065, 18); (204519536885737568, 18); (203831947500358102, 18);
  (203145086591028257, 18); (202458953530595731, 18); (201773547697536221, 18); (201088868475949839, 18);
  (200404915255557592, 18); (199721687431698186, 18); (199039184405325115, 18); (198357405583004104, 18);
  (197676350376910642, 18); (196996018204827983, 18); (196316408490145256, 18); (195637520661856051, 18);
  (194959354154557007, 18); (194281908408447002, 18); (193605182869326375, 18); (192929176988596518, 18);
  (192253890223259810, 18); (191579322035919652, 18); (190905471894781159, 18); (190232339273651602, 18);
  (189559923651941686, 18); (188888224514666747, 18); (188217241352448411, 18); (187546973661516458, 18);
  (186877420943711098, 18); (186208582706485465, 18); (185540458462908397, 18); (184873047731667545, 18);
  (184206350037072863, 18); (183540364909060255, 18); (182875091883195645, 18); (182210530500679341, 18);
  (181546680308350666, 18); (180883540858692904, 18); (180221111709838705, 18); (179559392425575587, 18);
  (178898382575351927, 18); (178238081734283210, 18); (177578489483158686, 18); (176919605408448172, 18);
  (176261429102309380, 18); (175603960162595552, 18); (174947198192863307, 18); (174291142802380977, 18);
  (173635793606137179, 18); (172981150224849806, 18); (172327212284975412, 18); (171673979418718786, 18);
  (171021451264043001, 18); (170369627464679818, 18); (169718507670140545, 18); (169068091535726966, 18);
  (168418378722542977, 18); (167769368897506432, 18); (167121061733361415, 18); (166473456908690753, 18);
  (165826554107929208, 18); (165180353021376791, 18); (164534853345212534, 18); (163890054781508809, 18);
  (163245957038245848, 18); (162602559829326726, 18); (161959862874592936, 18); (161317865899840041, 18);
  (160676568636834161, 18); (160035970823328405, 18); (159396072203080219, 18); (158756872525868814, 18);
  (158118371547513265, 18); (157480569029890799, 18); (156843464740955868, 18); (156207058454759407, 18);
  (155571349951468652, 18); (154936339017387431, 18); (154302025444976926, 18); (153668409032876985, 18);
  (153035489585927692, 18); (152403266915191710, 18); (151771740837976926, 18); (151140911177859744, 18);
  (150510777764708670, 18); (149881340434708771, 18); (149252599030386235, 18); (148624553400633880, 18);
  (147997203400736826, 18); (147370548892398923, 18); (146744589743769832, 18); (146119325829472319, 18);
  (145494757030630556, 18); (144870883234898579, 18); (144247704336489618, 18); (143625220236205942, 18);
  (143003430841469298, 18); (142382336066351950, 18); (141761935831608232, 18); (141142230064707108, 18);
  (140523218699864866, 18); (139904901678078813, 18); (139287278947161447, 18); (138670350461775532, 18);
  (138054116183469494, 18); (137438576080713803, 18); (136823730128937976, 18); (136209578310568125, 18);
  (135596120615065596, 18); (134983357038965857, 18); (134371287585918625, 18); (133759912266728315, 18);
  (133149231099395554, 18); (132539244109159376, 18); (131929951328540213, 18); (131321352797383578, 18);
  (130713448562904816, 18); (130106238679734559, 18); (129499723209964890, 18); (128893902223196605, 18);
  (128288775796587207, 18); (127684344014899864, 18); (127080606970553261, 18); (126477564763672223, 18);
  (125875217502139619, 18); (125273565301648793, 18); (124672608285757394, 18); (124072346585941809, 18);
  (123472780341652863, 18); (122873909700372499, 18); (122275734817671372, 18); (121678255857267645, 18);
  (121081472991086847, 18); (120485386399322714, 18); (119889996270499330, 18); (119295302801534261, 18);
  (118701306197802933, 18); (118108006673204174, 18); (117515404450226971, 18); (116923499760018409, 18);
  (116332292842452945, 18); (115741783946202922, 18); (115151973328810359, 18); (114562861256760073, 18);
  (113974448005554244, 18); (113386733859788230, 18); (112799719113227850, 18); (112213404068888176, 18);
  (111627789039113606, 18); (111042874345659640, 18); (110458660319776011, 18); (109875147302291490, 18);
  (109292335643700181, 18); (108710225704249541, 18); (108128817854029904, 18); (107548112473065866, 18);
  (106968109951409290, 18); (106388810689234004, 18); (105810215096932489, 18); (105232323595214200, 18);
  (104655136615205868, 18); (104078654598553699, 18); (103502877997527526, 18); (102927807275126876, 18);
  (102353442905189260, 18); (101779785372500292, 18); (101206835172906212, 18); (100634592813428375, 18);
  (100063058812380049, 18); (994922336994854689, 19); (989221180160012731, 19); (983527123148402044, 19);
  (977840171606973729, 19); (972160331301788888, 19); (966487608119331737, 19); (960822008067846872, 19);
  (955163537278705260, 19); (949512202007796319, 19); (943868008636947475, 19); (938230963675374119, 19);
  (932601073761156751, 19); (926978345662749087, 19); (921362786280517237, 19); (915754402648309290, 19);
  (910153201935057637, 19); (904559191446414751, 19); (898972378626421292, 19); (893392771059210583, 19);
  (887820376470747213, 19); (882255202730602844, 19); (876697257853768924, 19); (871146550002507153, 19);
  (865603087488240469, 19); (860066878773483035, 19); (854537932473811712, 19); (849016257359880289, 19);
  (843501862359476717, 19); (837994756559624909, 19); (832494949208732599, 19); (827002449718785698, 19);
  (821517267667591089, 19); (816039412801068675, 19); (810568895035594927, 19); (805105724460397493, 19);
  (799649911340004627, 19); (794201466116748883, 19); (788760399413327845, 19); (783326722035422862, 19);
  (777900444974377464, 19); (772481579409938363, 19); (767070136713058071, 19); (761666128448763580, 19);
  (756269566379092206, 19); (750880462466095577, 19); (745498828874915226, 19); (740124677976930212, 19);
  (734758022352981210, 19); (729398874796670510, 19); (724047248317742365, 19); (718703156145545918, 19);
  (713366611732581257, 19); (708037628758133725, 19); (702716221131997887, 19); (697402402998293230, 19);
  (692096188739376172, 19); (686797592979849769, 19); (681506630590675427, 19); (676223316693389392, 19);
  (670947666664426096, 19); (665679696139554883, 19); (660419421018430125, 19); (655166857469261510, 19);
  (649922021933606042, 19); (644684931131287581, 19); (639455602065447243, 19); (634234052027729256, 19);
  (629020298603606420, 19); (623814359677851010, 19); (618616253440154931, 19); (613425998390904822, 19);
  (608243613347117726, 19); (603069117448542108, 19); (597902530163931314, 19); (592743871297494243, 19);
  (587593160995530661, 19); (582450419753257134, 19); (577315668421830783, 19); (572188928215578499, 19);
  (567070220719438148, 19); (561959567896620910, 19); (556856992096501982, 19); (551762516062749356, 19);
  (546676162941698712, 19); (541597956290984436, 19); (536527920088436597, 19); (531466078741254580, 19);
  (526412457095467648, 19); (521367080445694422, 19); (516329974545212816, 19); (511301165616353456, 19);
  (506280680361229501, 19); (501268545972816393, 19); (496264790146396864, 19); (491269441091385720, 19);
  (486282527543550960, 19); (481304078777647845, 19); (476334124620483718, 19); (471372695464432334, 19);
  (466419822281417679, 19); (461475536637387246, 19); (456539870707297624, 19); (451612857290634717, 19);
  (446694529827493317, 19); (441784922415241407, 19); (436884069825797181, 19); (431992007523545954, 19);
  (427108771683928912, 19); (422234399212734479, 19); (417368927766127509, 19); (412512395771450768, 19);
  (407664842448838272, 19); (402826307833680092, 19); (397996832799981382, 19); (393176459084662172, 19);
  (388365229312844576, 19); (383563187024180685, 19); (378770376700274317, 19); (373986843793256071, 19);
  (369212634755572283, 19); (364447797071055443, 19); (359692379287345418, 19); (354946431049737166, 19);
  (350210003136535233, 19); (345483147496001355, 19); (340765917284985773, 19); (336058366909342612, 19);
  (331360552066233063, 19); (326672529788430213, 19); (321994358490746979, 19); (317326098018717584, 19);
  (312667809699672325, 19); (308019556396357391, 19); (303381402563261890, 19); (298753414305827462, 19);
  (294135659442730339, 19); (289528207571440113, 19); (284931130137276376, 19); (280344500506203888, 19);
  (275768394041625113, 19); (271202888185453281, 19); (266648062543771679, 19); (262103998977413627, 19);
  (257570781697826177, 19); (253048497368613956, 19); (248537235213196345, 19); (244037087129051963, 19);
  (239548147809068648, 19); (235070514870568785, 19); (230604288992634701, 19); (226149574062422705, 19);
  (221706477331223457, 19); (217275109581106241, 19); (212855585303072629, 19); (208448022887745103, 19);
  (204052544829729059, 19); (199669277946913880, 19); (195298353616123362, 19); (190939908026690856, 19);
  (186594082453720861, 19); (182261023553013900, 19); (177940883679875810, 19); (173633821234315602, 19);
  (169340001035459473, 19); (165059594728384634, 19); (160792781227011572, 19); (156539747197199063, 19);
  (152300687584777193, 19); (148075806193945971, 19); (143865316322280175, 19); (139669441459542316, 19);
  (135488416058644739, 19); (131322486388457602, 19); (127171911479783233, 19); (123036964177767032, 19);
  (118917932316373563, 19); (114815120033420325, 19); (110728849248162304, 19); (106659461327725247, 19);
  (102607318974012561, 19); (985728083693508499, 20); (945563416274760454, 20); (905583596070130142, 20);
  (865793351580707894, 20); (826197768899249348, 20); (786802335703316348, 20); (747612992967011582, 20);
  (708636196188459216, 20); (669878988462190451, 20); (631349088452298670, 20); (593054997330070676, 20);
  (555006130161110785, 20); (517212979268926679, 20); (479687320096870273, 20); (442442474586257975, 20);
  (405493654017417653, 20); (368858414264003776, 20); (332557274499596569, 20); (296614581353088578, 20);
  (261059756072821439, 20); (225929167854221858, 20); (191269091742383187, 20); (157140688868097670, 20);
  (123629144788141646, 20); (908626104770669514, 21); (590596073134601871, 21); (286963927083327475, 21)]%Z.
(** normal.go:572-829, as float64 *)
Definition normalF_bin : list (Z * Z) := [
  (4503599627370496, -52); (8925417384395501, -53); (8863769872045069, -53); (8811122488116754, -53);
  (8763920828644426, -53); (8720494327777582, -53); (8679897284533552, -53); (8641531208577255, -53);
  (8604987973160782, -53); (8569973927560589, -53); (8536269068046935, -53); (8503703277134910, -53);
  (8472141632330893, -53); (8441474873620500, -53); (8411612969925530, -53); (8382480632521772, -53);
  (8354014098383616, -53); (8326158768649483, -53); (8298867438881281, -53); (8272098948751398, -53);
  (8245817135274283, -53); (8219990009818835, -53); (8194589102840858, -53); (8169588936192288, -53);
  (8144966593775776, -53); (8120701368933941, -53); (8096774472375050, -53); (8073168788340293, -53);
  (8049868669572527, -53); (8026859763761134, -53); (8004128865722847, -53); (7981663790779705, -53);
  (7959453265714971, -53); (7937486834398489, -53); (7915754775727008, -53); (7894248031960400, -53);
  (7872958145879629, -53); (7851877205467409, -53); (7830997795033468, -53); (7810312951884930, -53);
  (7789816127787557, -53); (7769501154582337, -53); (7749362213419557, -53); (7729393807153198, -53);
  (7709590735505451, -53); (7689948072667097, -53); (7670461147046273, -53); (7651125522917585, -53);
  (7631936983756782, -53); (7612891517074446, -53); (7593985300586141, -53); (7575214689577007, -53);
  (7556576205336319, -53); (7538066524552658, -53); (7519682469573355, -53); (7501420999443121, -53);
  (7483279201646563, -53); (7465254284487731, -53); (7447343570047305, -53); (7429544487664431, -53);
  (7411854567895947, -53); (7394271436910657, -53); (7376792811280746, -53); (7359416493136248, -53);
  (7342140365651925, -53); (7324962388838921, -53); (7307880595616252, -53); (7290893088139575, -53);
  (7273998034366806, -53); (7257193664842050, -53); (7240478269681025, -53); (7223850195742639, -53);
  (7207307843972791, -53); (7190849666907659, -53); (7174474166324844, -53); (7158179891031744, -53);
  (7141965434781422, -53); (7125829434307027, -53); (7109770567466593, -53); (7093787551490667, -53);
  (7077879141325852, -53); (7062044128067872, -53); (7046281337478280, -53); (7030589628579391, -53);
  (7014967892322399, -53); (6999415050324069, -53); (6983930053667682, -53); (6968511881764280, -53);
  (6953159541270502, -53); (6937872065059601, -53); (6922648511242454, -53); (6907487962235612, -53);
  (6892389523873630, -53); (6877352324563127, -53); (6862375514476178, -53); (6847458264780813, -53);
  (6832599766906544, -53); (6817799231842975, -53); (6803055889469683, -53); (6788368987915668, -53);
  (6773737792946787, -53); (6759161587379669, -53); (6744639670520734, -53); (6730171357628986, -53);
  (6715755979401373, -53); (6701392881479532, -53); (6687081423976860, -53); (6672820981024873, -53);
  (6658610940337903, -53); (6644450702795220, -53); (6630339682039739, -53); (6616277304092497, -53);
  (6602263006982154, -53); (6588296240388799, -53); (6574376465301382, -53); (6560503153688147, -53);
  (6546675788179458, -53); (6532893861762441, -53); (6519156877486920, -53); (6505464348182131, -53);
  (6491815796183720, -53); (6478210753070588, -53); (6464648759411142, -53); (6451129364518527, -53);
  (6437652126214483, -53); (6424216610601418, -53); (6410822391842378, -53); (6397469051948565, -53);
  (6384156180574086, -53); (6370883374817642, -53); (6357650239030862, -53); (6344456384633009, -53);
  (6331301429931807, -53); (6318184999950135, -53); (6305106726258356, -53); (6292066246812059, -53);
  (6279063205794989, -53); (6266097253466987, -53); (6253168046016710, -53); (6240275245418983, -53);
  (6227418519296578, -53); (6214597540786263, -53); (6201811988408964, -53); (6189061545943875, -53);
  (6176345902306376, -53); (6163664751429619, -53); (6151017792149643, -53); (6138404728093888, -53);
  (6125825267572997, -53); (6113279123475768, -53); (6100766013167165, -53); (6088285658389259, -53);
  (6075837785165012, -53); (6063422123704794, -53); (6051038408315547, -53); (6038686377312491, -53);
  (6026365772933300, -53); (6014076341254654, -53); (6001817832111088, -53); (5989589999016061, -53);
  (5977392599085176, -53); (5965225392961470, -53); (5953088144742709, -53); (5940980621910631, -53);
  (5928902595262056, -53); (5916853838841816, -53); (5904834129877450, -53); (5892843248715582, -53);
  (5880880978759966, -53); (5868947106411110, -53); (5857041421007454, -53); (5845163714768038, -53);
  (5833313782736622, -53); (5821491422727211, -53); (5809696435270939, -53); (5797928623564276, -53);
  (5786187793418510, -53); (5774473753210475, -53); (5762786313834477, -53); (5751125288655393, -53);
  (5739490493462897, -53); (5727881746426790, -53); (5716298868053395, -53); (5704741681142987, -53);
  (5693210010748230, -53); (5681703684133589, -53); (5670222530735693, -53); (5658766382124613, -53);
  (5647335071966047, -53); (5635928435984359, -53); (5624546311926476, -53); (5613188539526599, -53);
  (5601854960471721, -53); (5590545418367905, -53); (5579259758707341, -53); (5567997828836113, -53);
  (5556759477922697, -53); (5545544556927148, -53); (5534352918570960, -53); (5523184417307593, -53);
  (5512038909293628, -53); (5500916252360557, -53); (5489816305987173, -53); (5478738931272549, -53);
  (5467683990909603, -53); (5456651349159208, -53); (5445640871824863, -53); (5434652426227881, -53);
  (5423685881183110, -53); (5412741106975143, -53); (5401817975335037, -53); (5390916359417492, -53);
  (5380036133778516, -53); (5369177174353534, -53); (5358339358435943, -53); (5347522564656103, -53);
  (5336726672960747, -53); (5325951564592810, -53); (5315197122071647, -53); (5304463229173658, -53);
  (5293749770913283, -53); (5283056633524379, -53); (5272383704441956, -53); (5261730872284273, -53);
  (5251098026835275, -53); (5240485059027377, -53); (5229891860924569, -53); (5219318325705856, -53);
  (5208764347649000, -53); (5198229822114581, -53); (5187714645530355, -53); (5177218715375903, -53);
  (5166741930167575, -53); (5156284189443704, -53); (5145845393750103, -53); (5135425444625827, -53);
  (5125024244589196, -53); (5114641697124076, -53); (5104277706666407, -53); (5093932178590980, -53);
  (5083605019198449, -53); (5073296135702580, -53); (5063005436217727, -53); (5052732829746533, -53);
  (5042478226167849, -53); (5032241536224866, -53); (5022022671513459, -53); (5011821544470735, -53);
  (5001638068363778, -53); (4991472157278596, -53); (4981323726109255, -53); (4971192690547205, -53);
  (4961078967070786, -53); (4950982472934917, -53); (4940903126160959, -53); (4930840845526751, -53);
  (4920795550556818, -53); (4910767161512741, -53); (4900755599383687, -53); (4890760785877106, -53);
  (4880782643409574, -53); (4870821095097792, -53); (4860876064749737, -53); (4850947476855956, -53);
  (4841035256581001, -53); (4831139329755010, -53); (4821259622865420, -53); (4811396063048819, -53);
  (4801548578082926, -53); (4791717096378704, -53); (4781901546972597, -53); (4772101859518894, -53);
  (4762317964282211, -53); (4752549792130100, -53); (4742797274525762, -53); (4733060343520891, -53);
  (4723338931748620, -53); (4713632972416578, -53); (4703942399300059, -53); (4694267146735299, -53);
  (4684607149612849, -53); (4674962343371060, -53); (4665332663989661, -53); (4655718047983442, -53);
  (4646118432396025, -53); (4636533754793738, -53); (4626963953259581, -53); (4617408966387276, -53);
  (4607868733275417, -53); (4598343193521698, -53); (4588832287217238, -53); (4579335954940981, -53);
  (4569854137754182, -53); (4560386777194982, -53); (4550933815273051, -53); (4541495194464317, -53);
  (4532070857705778, -53); (4522660748390372, -53); (4513264810361943, -53); (4503882987910265, -53);
  (8989030451532288, -54); (8970322938193182, -54); (8951643327000127, -54); (8932991510003545, -54);
  (8914367380098124, -54); (8895770831013702, -54); (8877201757306278, -54); (8858660054349157, -54);
  (8840145618324216, -54); (8821658346213293, -54); (8803198135789697, -54); (8784764885609836, -54);
  (8766358495004966, -54); (8747978864073047, -54); (8729625893670717, -54); (8711299485405377, -54);
  (8692999541627381, -54); (8674725965422339, -54); (8656478660603519, -54); (8638257531704355, -54);
  (8620062483971061, -54); (8601893423355336, -54); (8583750256507179, -54); (8565632890767788, -54);
  (8547541234162567, -54); (8529475195394216, -54); (8511434683835920, -54); (8493419609524628, -54);
  (8475429883154414, -54); (8457465416069938, -54); (8439526120259983, -54); (8421611908351080, -54);
  (8403722693601220, -54); (8385858389893644, -54); (8368018911730714, -54); (8350204174227868, -54);
  (8332414093107648, -54); (8314648584693807, -54); (8296907565905498, -54); (8279190954251522, -54);
  (8261498667824673, -54); (8243830625296128, -54); (8226186745909936, -54); (8208566949477553, -54);
  (8190971156372463, -54); (8173399287524859, -54); (8155851264416394, -54); (8138327009074995, -54);
  (8120826444069744, -54); (8103349492505824, -54); (8085896078019527, -54); (8068466124773322, -54);
  (8051059557450989, -54); (8033676301252806, -54); (8016316281890803, -54); (7998979425584070, -54);
  (7981665659054120, -54); (7964374909520318, -54); (7947107104695356, -54); (7929862172780788, -54);
  (7912640042462616, -54); (7895440642906934, -54); (7878263903755624, -54); (7861109755122095, -54);
  (7843978127587087, -54); (7826868952194515, -54); (7809782160447367, -54); (7792717684303649, -54);
  (7775675456172380, -54); (7758655408909634, -54); (7741657475814627, -54); (7724681590625853, -54);
  (7707727687517261, -54); (7690795701094486, -54); (7673885566391113, -54); (7656997218864989, -54);
  (7640130594394585, -54); (7623285629275388, -54); (7606462260216342, -54); (7589660424336331, -54);
  (7572880059160701, -54); (7556121102617817, -54); (7539383493035672, -54); (7522667169138518, -54);
  (7505972070043554, -54); (7489298135257636, -54); (7472645304674032, -54); (7456013518569214, -54);
  (7439402717599687, -54); (7422812842798847, -54); (7406243835573883, -54); (7389695637702709, -54);
  (7373168191330933, -54); (7356661438968857, -54); (7340175323488512, -54); (7323709788120729, -54);
  (7307264776452236, -54); (7290840232422794, -54); (7274436100322360, -54); (7258052324788287, -54);
  (7241688850802543, -54); (7225345623688978, -54); (7209022589110605, -54); (7192719693066922, -54);
  (7176436881891254, -54); (7160174102248135, -54); (7143931301130707, -54); (7127708425858154, -54);
  (7111505424073164, -54); (7095322243739416, -54); (7079158833139096, -54); (7063015140870436, -54);
  (7046891115845285, -54); (7030786707286705, -54); (7014701864726586, -54); (6998636538003296, -54);
  (6982590677259351, -54); (6966564232939112, -54); (6950557155786499, -54); (6934569396842746, -54);
  (6918600907444158, -54); (6902651639219911, -54); (6886721544089864, -54); (6870810574262399, -54);
  (6854918682232279, -54); (6839045820778533, -54); (6823191942962365, -54); (6807357002125075, -54);
  (6791540951886013, -54); (6775743746140550, -54); (6759965339058066, -54); (6744205685079966, -54);
  (6728464738917711, -54); (6712742455550874, -54); (6697038790225212, -54); (6681353698450760, -54);
  (6665687135999942, -54); (6650039058905710, -54); (6634409423459689, -54); (6618798186210352, -54);
  (6603205303961208, -54); (6587630733769010, -54); (6572074432941982, -54); (6556536359038063, -54);
  (6541016469863171, -54); (6525514723469480, -54); (6510031078153719, -54); (6494565492455489, -54);
  (6479117925155591, -54); (6463688335274376, -54); (6448276682070112, -54); (6432882925037363, -54);
  (6417507023905390, -54); (6402148938636563, -54); (6386808629424793, -54); (6371486056693976, -54);
  (6356181181096456, -54); (6340893963511500, -54); (6325624365043793, -54); (6310372347021944, -54);
  (6295137870997005, -54); (6279920898741013, -54); (6264721392245537, -54); (6249539313720246, -54);
  (6234374625591489, -54); (6219227290500888, -54); (6204097271303946, -54); (6188984531068668, -54);
  (6173889033074202, -54); (6158810740809478, -54); (6143749617971880, -54); (6128705628465914, -54);
  (6113678736401903, -54); (6098668906094681, -54); (6083676102062314, -54); (6068700289024824, -54);
  (6053741431902927, -54); (6038799495816787, -54); (6023874446084778, -54); (6008966248222263, -54);
  (5994074867940378, -54); (5979200271144836, -54); (5964342423934735, -54); (5949501292601384, -54);
  (5934676843627138, -54); (5919869043684242, -54); (5905077859633690, -54); (5890303258524094, -54);
  (5875545207590561, -54); (5860803674253589, -54); (5846078626117962, -54); (5831370030971667, -54);
  (5816677856784815, -54); (5802002071708575, -54); (5787342644074117, -54); (5772699542391564, -54);
  (5758072735348962, -54); (5743462191811248, -54); (5728867880819239, -54); (5714289771588622, -54);
  (5699727833508962, -54); (5685182036142713, -54); (5670652349224244, -54); (5656138742658868, -54);
  (5641641186521887, -54); (5627159651057646, -54); (5612694106678586, -54); (5598244523964324, -54);
  (5583810873660726, -54); (5569393126678995, -54); (5554991254094772, -54); (5540605227147239, -54);
  (5526235017238234, -54); (5511880595931375, -54); (5497541934951194, -54); (5483219006182272, -54);
  (5468911781668394, -54); (5454620233611703, -54); (5440344334371867, -54); (5426084056465251, -54);
  (5411839372564101, -54); (5397610255495734, -54); (5383396678241735, -54); (5369198613937165, -54);
  (5355016035869771, -54); (5340848917479212, -54); (5326697232356287, -54); (5312560954242171, -54);
  (5298440057027661, -54); (5284334514752428, -54); (5270244301604277, -54); (5256169391918414, -54);
  (5242109760176720, -54); (5228065381007033, -54); (5214036229182440, -54); (5200022279620567, -54);
  (5186023507382889, -54); (5172039887674036, -54); (5158071395841114, -54); (5144118007373025, -54);
  (5130179697899804, -54); (5116256443191951, -54); (5102348219159781, -54); (5088455001852774, -54);
  (5074576767458932, -54); (5060713492304146, -54); (5046865152851567, -54); (5033031725700984, -54);
  (5019213187588211, -54); (5005409515384472, -54); (4991620686095806, -54); (4977846676862466, -54);
  (4964087464958332, -54); (4950343027790326, -54); (4936613342897833, -54); (4922898387952135, -54);
  (4909198140755842, -54); (4895512579242332, -54); (4881841681475204, -54); (4868185425647724, -54);
  (4854543790082291, -54); (4840916753229896, -54); (4827304293669598, -54); (4813706390107997, -54);
  (4800123021378721, -54); (4786554166441910, -54); (4772999804383713, -54); (4759459914415787, -54);
  (4745934475874803, -54); (4732423468221957, -54); (4718926871042489, -54); (4705444664045200, -54);
  (4691976827061989, -54); (4678523340047376, -54); (4665084183078049, -54); (4651659336352407, -54);
  (4638248780190107, -54); (4624852495031622, -54); (4611470461437802, -54); (4598102660089436, -54);
  (4584749071786831, -54); (4571409677449380, -54); (4558084458115152, -54); (4544773394940472, -54);
  (4531476469199519, -54); (4518193662283921, -54); (4504924955702357, -54); (8983340662160335, -55);
  (8956859540317931, -55); (8930406509592511, -55); (8903981533930111, -55); (8877584577507056, -55);
  (8851215604729220, -55); (8824874580231307, -55); (8798561468876136, -55); (8772276235753937, -55);
  (8746018846181661, -55); (8719789265702290, -55); (8693587460084171, -55); (8667413395320344, -55);
  (8641267037627894, -55); (8615148353447305, -55); (8589057309441823, -55); (8562993872496833, -55);
  (8536958009719244, -55); (8510949688436882, -55); (8484968876197895, -55); (8459015540770163, -55);
  (8433089650140729, -55); (8407191172515222, -55); (8381320076317306, -55); (8355476330188127, -55);
  (8329659902985779, -55); (8303870763784769, -55); (8278108881875502, -55); (8252374226763767, -55);
  (8226666768170235, -55); (8200986476029971, -55); (8175333320491951, -55); (8149707271918584, -55);
  (8124108300885255, -55); (8098536378179864, -55); (8072991474802388, -55); (8047473561964440, -55);
  (8021982611088845, -55); (7996518593809221, -55); (7971081481969574, -55); (7945671247623899, -55);
  (7920287863035787, -55); (7894931300678053, -55); (7869601533232357, -55); (7844298533588849, -55);
  (7819022274845815, -55); (7793772730309332, -55); (7768549873492941, -55); (7743353678117316, -55);
  (7718184118109956, -55); (7693041167604874, -55); (7667924800942306, -55); (7642834992668422, -55);
  (7617771717535047, -55); (7592734950499400, -55); (7567724666723827, -55); (7542740841575561, -55);
  (7517783450626475, -55); (7492852469652855, -55); (7467947874635182, -55); (7443069641757918, -55);
  (7418217747409304, -55); (7393392168181170, -55); (7368592880868753, -55); (7343819862470522, -55);
  (7319073090188016, -55); (7294352541425692, -55); (7269658193790777, -55); (7244990025093139, -55);
  (7220348013345160, -55); (7195732136761621, -55); (7171142373759597, -55); (7146578702958365, -55);
  (7122041103179315, -55); (7097529553445878, -55); (7073044032983458, -55); (7048584521219381, -55);
  (7024150997782844, -55); (6999743442504886, -55); (6975361835418360, -55); (6951006156757918, -55);
  (6926676386960009, -55); (6902372506662880, -55); (6878094496706601, -55); (6853842338133081, -55);
  (6829616012186114, -55); (6805415500311422, -55); (6781240784156715, -55); (6757091845571758, -55);
  (6732968666608453, -55); (6708871229520929, -55); (6684799516765642, -55); (6660753511001487, -55);
  (6636733195089924, -55); (6612738552095109, -55); (6588769565284041, -55); (6564826218126719, -55);
  (6540908494296309, -55); (6517016377669322, -55); (6493149852325809, -55); (6469308902549559, -55);
  (6445493512828315, -55); (6421703667853999, -55); (6397939352522952, -55); (6374200551936179, -55);
  (6350487251399613, -55); (6326799436424390, -55); (6303137092727132, -55); (6279500206230247, -55);
  (6255888763062238, -55); (6232302749558027, -55); (6208742152259293, -55); (6185206957914817, -55);
  (6161697153480844, -55); (6138212726121458, -55); (6114753663208973, -55); (6091319952324327, -55);
  (6067911581257501, -55); (6044528538007946, -55); (6021170810785025, -55); (5997838388008464, -55);
  (5974531258308827, -55); (5951249410527996, -55); (5927992833719667, -55); (5904761517149866, -55);
  (5881555450297472, -55); (5858374622854757, -55); (5835219024727947, -55); (5812088646037786, -55);
  (5788983477120130, -55); (5765903508526539, -55); (5742848731024902, -55); (5719819135600065, -55);
  (5696814713454483, -55); (5673835456008879, -55); (5650881354902931, -55); (5627952401995966, -55);
  (5605048589367674, -55); (5582169909318839, -55); (5559316354372087, -55); (5536487917272654, -55);
  (5513684590989163, -55); (5490906368714429, -55); (5468153243866275, -55); (5445425210088371, -55);
  (5422722261251084, -55); (5400044391452359, -55); (5377391595018604, -55); (5354763866505609, -55);
  (5332161200699471, -55); (5309583592617546, -55); (5287031037509425, -55); (5264503530857917, -55);
  (5242001068380069, -55); (5219523646028191, -55); (5197071259990913, -55); (5174643906694260, -55);
  (5152241582802749, -55); (5129864285220507, -55); (5107512011092408, -55); (5085184757805246, -55);
  (5062882522988913, -55); (5040605304517613, -55); (5018353100511093, -55); (4996125909335907, -55);
  (4973923729606691, -55); (4951746560187474, -55); (4929594400193011, -55); (4907467248990136, -55);
  (4885365106199154, -55); (4863287971695242, -55); (4841235845609895, -55); (4819208728332383, -55);
  (4797206620511247, -55); (4775229523055819, -55); (4753277437137771, -55); (4731350364192689, -55);
  (4709448305921685, -55); (4687571264293035, -55); (4665719241543842, -55); (4643892240181739, -55);
  (4622090262986618, -55); (4600313313012394, -55); (4578561393588801, -55); (4556834508323216, -55);
  (4535132661102529, -55); (4513455856095032, -55); (8983608195504717, -56); (8940354781622889, -56);
  (8897151480593071, -56); (8853998303042457, -56); (8810895260181094, -56); (8767842363806119, -56);
  (8724839626306072, -56); (8681887060665280, -56); (8638984680468335, -56); (8596132499904643, -56);
  (8553330533773063, -56); (8510578797486630, -56); (8467877307077365, -56); (8425226079201171, -56);
  (8382625131142824, -56); (8340074480821055, -56); (8297574146793722, -56); (8255124148263080, -56);
  (8212724505081153, -56); (8170375237755198, -56); (8128076367453273, -56); (8085827916009915, -56);
  (8043629905931910, -56); (8001482360404185, -56); (7959385303295799, -56); (7917338759166053, -56);
  (7875342753270709, -56); (7833397311568332, -56); (7791502460726741, -56); (7749658228129594, -56);
  (7707864641883090, -56); (7666121730822792, -56); (7624429524520595, -56); (7582788053291810, -56);
  (7541197348202392, -56); (7499657441076304, -56); (7458168364503022, -56); (7416730151845178, -56);
  (7375342837246363, -56); (7334006455639062, -56); (7292721042752762, -56); (7251486635122202, -56);
  (7210303270095789, -56); (7169170985844177, -56); (7128089821369017, -56); (7087059816511871, -56);
  (7046081011963310, -56); (7005153449272183, -56); (6964277170855079, -56); (6923452220005963, -56);
  (6882678640906019, -56); (6841956478633681, -56); (6801285779174862, -56); (6760666589433402, -56);
  (6720098957241712, -56); (6679582931371641, -56); (6639118561545567, -56); (6598705898447707, -56);
  (6558344993735663, -56); (6518035900052209, -56); (6477778671037311, -56); (6437573361340409, -56);
  (6397420026632945, -56); (6357318723621159, -56); (6317269510059151, -56); (6277272444762215, -56);
  (6237327587620465, -56); (6197434999612742, -56); (6157594742820820, -56); (6117806880443920, -56);
  (6078071476813534, -56); (6038388597408570, -56); (5998758308870829, -56); (5959180679020817, -56);
  (5919655776873906, -56); (5880183672656850, -56); (5840764437824672, -56); (5801398145077919, -56);
  (5762084868380312, -56); (5722824682976787, -56); (5683617665411947, -56); (5644463893548932, -56);
  (5605363446588719, -56); (5566316405089873, -56); (5527322850988742, -56); (5488382867620128, -56);
  (5449496539738442, -56); (5410663953539350, -56); (5371885196681935, -56); (5333160358311378, -56);
  (5294489529082190, -56); (5255872801181991, -56); (5217310268355868, -56); (5178802025931328, -56);
  (5140348170843850, -56); (5101948801663073, -56); (5063604018619630, -56); (5025313923632643, -56);
  (4987078620337912, -56); (4948898214116808, -56); (4910772812125901, -56); (4872702523327343, -56);
  (4834687458520021, -56); (4796727730371527, -56); (4758823453450945, -56); (4720974744262504, -56);
  (4683181721280108, -56); (4645444504982785, -56); (4607763217891079, -56); (4570137984604418, -56);
  (4532568931839488, -56); (8990112376939310, -57); (8915199771130925, -57); (8840400312872491, -57);
  (8765714273345803, -57); (8691141928383706, -57); (8616683558560505, -57); (8542339449284929, -57);
  (8468109890895756, -57); (8393995178760185, -57); (8319995613375059, -57); (8246111500471049, -57);
  (8172343151119893, -57); (8098690881844822, -57); (8025155014734277, -57); (7951735877559057, -57);
  (7878433803893014, -57); (7805249133237439, -57); (7732182211149281, -57); (7659233389373353, -57);
  (7586403025978673, -57); (7513691485499113, -57); (7441099139078522, -57); (7368626364620511, -57);
  (7296273546943086, -57); (7224041077938324, -57); (7151929356737313, -57); (7079938789880565, -57);
  (7008069791494141, -57); (6936322783471727, -57); (6864698195662918, -57); (6793196466067980, -57);
  (6721818041039378, -57); (6650563375490358, -57); (6579432933110912, -57); (6508427186591448, -57);
  (6437546617854521, -57); (6366791718294991, -57); (6296162989029011, -57); (6225660941152237, -57);
  (6155286096007720, -57); (6085038985463924, -57); (6014920152203377, -57); (5944930150022452, -57);
  (5875069544142848, -57); (5805338911535342, -57); (5735738841256428, -57); (5666269934798514, -57);
  (5596932806454349, -57); (5527728083696448, -57); (5458656407572281, -57); (5389718433116083, -57);
  (5320914829778158, -57); (5252246281872651, -57); (5183713489044787, -57); (5115317166758668, -57);
  (5047058046806785, -57); (4978936877842489, -57); (4910954425936727, -57); (4843111475160489, -57);
  (4775408828194461, -57); (4707847306967525, -57); (4640427753325856, -57); (4573151029734496, -57);
  (4506018020013419, -57); (8878059260220548, -58); (8744373577824286, -58); (8610980898197683, -58);
  (8477883176080995, -58); (8345082417484706, -58); (8212580681679950, -58); (8080380083296689, -58);
  (7948482794537107, -58); (7816891047512382, -58); (7685607136711647, -58); (7554633421612780, -58);
  (7423972329445487, -58); (7293626358118104, -58); (7163598079320604, -58); (7033890141817470, -58);
  (6904505274945370, -58); (6775446292332059, -58); (6646716095854514, -58); (6518317679856149, -58);
  (6390254135644949, -58); (6262528656296664, -58); (6135144541789739, -58); (6008105204501539, -58);
  (5881414175098683, -58); (5755075108857967, -58); (5629091792458525, -58); (5503468151290635, -58);
  (5378208257331948, -58); (5253316337648119, -58); (5128796783581859, -58); (5004654160702586, -58);
  (4880893219598174, -58); (4757518907601140, -58); (4634536381554144, -58); (4511951021734255, -58);
  (8779536894144933, -59); (8535989063649803, -59); (8293270847751162, -59); (8051395129756673, -59);
  (7810375424956559, -59); (7570225929784636, -59); (7330961576350022, -59); (7092598093104495, -59);
  (6855152072546430, -59); (6618641047027335, -59); (6383083573928801, -59); (6148499331725840, -59);
  (5914909228759662, -59); (5682335526925719, -59); (5450801982963436, -59); (5220334010642268, -59);
  (4990958867915173, -59); (4762705874110713, -59); (4535606663536245, -59); (8619390967151551, -60);
  (8170019095284712, -60); (7723178912823413, -60); (7278959409905855, -60); (6837458598363947, -60);
  (6398785026513714, -60); (5963059662609209, -60); (5530418268269099, -60); (5101014435019652, -60);
  (4675023536982894, -60); (8505295959203018, -61); (7668248665680542, -61); (6839466588438658, -61);
  (6019628135275475, -61); (5209571922741247, -61); (8820729961456539, -62); (7246835177790543, -62);
  (5701387984896080, -62); (8380596606698071, -63); (5447287306025925, -63); (5293550121292791, -64)]%Z.
