(** Tables of expo.go, generated by tools/mkzig.py.
    A pair (m, e) of a _bin table is the float64 m * 2^e; a pair (D, k) of a _dec table is the literal D * 10^-k as
    written in the source. Proofs/ZigTables.v checks that each _bin entry is the double nearest to its literal. *)
From Coq Require Import NArith ZArith List.
Import ListNotations.

(** expo.go:46-303 *)
Definition expoK : list N := [
  0x1ce142c806bbca; 0x00000000000000; 0x13a2e8754d11d3; 0x1893ad94056903; 0x1abdc2caab364d; 0x1bf0d5a059f05f; 0x1cb2dcb2afeca3; 0x1d382b88438efd;
  0x1d993d4a843892; 0x1de3005cdb9685; 0x1e1ce953a7aada; 0x1e4b8ff9b72624; 0x1e71ef51692778; 0x1e920badc7caed; 0x1ead4eb647f2a7; 0x1ec4bd2917746d;
  0x1ed917afecf097; 0x1eeaefb117c710; 0x1efab4f0d45b99; 0x1f08bebea80034; 0x1f15524a538575; 0x1f20a71a9a4950; 0x1f2aea428b997d; 0x1f3440b9fd4d2f;
  0x1f3cc91b7046c6; 0x1f449cf3d895f2; 0x1f4bd1c2ba0869; 0x1f5279bfcb493d; 0x1f58a4751d7f8b; 0x1f5e5f388a575e; 0x1f63b58c3ad7e9; 0x1f68b16c08dc31;
  0x1f6d5b8c044fd9; 0x1f71bb8b55855b; 0x1f75d81def9dca; 0x1f79b72ef3a811; 0x1f7d5dfd381a11; 0x1f80d133164bc9; 0x1f8414fa616be2; 0x1f872d0d3ad391;
  0x1f8a1cc452f503; 0x1f8ce72309a699; 0x1f8f8ee1ca4a4b; 0x1f921676eecb4a; 0x1f94801e668bf9; 0x1f96cde05350f7; 0x1f990196c55b3a; 0x1f9b1cf2b8c1d3;
  0x1f9d2180705665; 0x1f9f10ab45ad4f; 0x1fa0ebc1020c8b; 0x1fa2b3f4d0ddf9; 0x1fa46a61d9a972; 0x1fa6100d8d74de; 0x1fa7a5e9b19fcc; 0x1fa92cd630d2bd;
  0x1faaa5a2b95b8c; 0x1fac11102f446a; 0x1fad6fd1f79125; 0x1faec28f214fb0; 0x1fb009e37086ff; 0x1fb146604e85bf; 0x1fb2788da29d0f; 0x1fb3a0ea95eeeb;
  0x1fb4bfee44a205; 0x1fb5d6085e829f; 0x1fb6e3a1b8d84e; 0x1fb7e91cd3015a; 0x1fb8e6d64f34c0; 0x1fb9dd2560a263; 0x1fbacc5c3004f5; 0x1fbbb4c83799b7;
  0x1fbc96b29756b3; 0x1fbd726062201c; 0x1fbe4812e4a863; 0x1fbf1807e6940d; 0x1fbfe279e66a1e; 0x1fc0a7a050cb6a; 0x1fc167afb35e94; 0x1fc222d9ebd331;
  0x1fc2d94e535488; 0x1fc38b39e6bbb7; 0x1fc438c76bc8fa; 0x1fc4e21f93a4fb; 0x1fc587691ae4b6; 0x1fc628c8e7450b; 0x1fc6c662234def; 0x1fc760565808ea;
  0x1fc7f6c584f268; 0x1fc889ce3649dc; 0x1fc9198d99e17d; 0x1fc9a61f928b72; 0x1fca2f9eca3fa7; 0x1fcab624c3132d; 0x1fcb39c9e717df; 0x1fcbbaa5973916;
  0x1fcc38ce39287b; 0x1fccb459446c6f; 0x1fcd2d5b4ea00f; 0x1fcda3e816f387; 0x1fce181290fa48; 0x1fce89eceed388; 0x1fcef988aab890; 0x1fcf66f68ffb57;
  0x1fcfd246c37f46; 0x1fd03b88cbb500; 0x1fd0a2cb9821aa; 0x1fd1081d887932; 0x1fd16b8c7352e7; 0x1fd1cd25ac7ec6; 0x1fd22cf60b01bf; 0x1fd28b09eebe86;
  0x1fd2e76d45d02f; 0x1fd3422b919b8a; 0x1fd39b4feb9bb3; 0x1fd3f2e509ee11; 0x1fd448f543a1c2; 0x1fd49d8a94ce02; 0x1fd4f0aea27303; 0x1fd5426abe2867;
  0x1fd592c7e99c3d; 0x1fd5e1ced9e561; 0x1fd62f87faabb8; 0x1fd67bfb7128c6; 0x1fd6c7311f02d3; 0x1fd71130a504bf; 0x1fd75a0165b486; 0x1fd7a1aa87ca39;
  0x1fd7e832f88942; 0x1fd82da16dfd80; 0x1fd871fc691dc8; 0x1fd8b54a37d537; 0x1fd8f790f6f4b2; 0x1fd938d6940dd2; 0x1fd97920cf386c; 0x1fd9b8753cc3d3;
  0x1fd9f6d946d4e9; 0x1fda34522ef1e9; 0x1fda70e50f7cee; 0x1fdaac96dd1e02; 0x1fdae76c681da3; 0x1fdb216a5db062; 0x1fdb5a9549347e; 0x1fdb92f1956210;
  0x1fdbca838d6e7c; 0x1fdc014f5e23c4; 0x1fdc375916ec52; 0x1fdc6ca4aad3c6; 0x1fdca135f17d4d; 0x1fdcd510a80fff; 0x1fdd08387219c6; 0x1fdd3ab0da6926;
  0x1fdd6c7d53de73; 0x1fdd9da13a34ba; 0x1fddce1fd2c2dd; 0x1fddfdfc4d351d; 0x1fde2d39c43f82; 0x1fde5bdb3e496a; 0x1fde89e3ae128a; 0x1fdeb755f351ad;
  0x1fdee434db4d7f; 0x1fdf1083216f9a; 0x1fdf3c436fd21a; 0x1fdf67785fc7fd; 0x1fdf92247a607a; 0x1fdfbc4a38e58e; 0x1fdfe5ec0555f2; 0x1fe00f0c3adaaa;
  0x1fe037ad263860; 0x1fe05fd1063cae; 0x1fe0877a0c2794; 0x1fe0aeaa5c1128; 0x1fe0d5640d4bc6; 0x1fe0fba92ac2c9; 0x1fe1217bb35607; 0x1fe146dd9a321c;
  0x1fe16bd0c725b9; 0x1fe1905716f40a; 0x1fe1b4725ba44e; 0x1fe1d8245ccec7; 0x1fe1fb6ed7e715; 0x1fe21e53808417; 0x1fe240d400a56d; 0x1fe262f1f8f6b3;
  0x1fe284af011080; 0x1fe2a60ca7b754; 0x1fe2c70c731872; 0x1fe2e7afe104cc; 0x1fe307f8672a07; 0x1fe327e77349b3; 0x1fe3477e6b6ebc; 0x1fe366beae2137;
  0x1fe385a9929884; 0x1fe3a44068ebe6; 0x1fe3c2847a4199; 0x1fe3e07708fc73; 0x1fe3fe1950e81d; 0x1fe41b6c8763f6; 0x1fe43871db8ca3; 0x1fe4552a766464;
  0x1fe471977afa2c; 0x1fe48dba068f92; 0x1fe4a99330bd9d; 0x1fe4c5240b987e; 0x1fe4e06da3d237; 0x1fe4fb7100dc40; 0x1fe5162f250832; 0x1fe530a90da77a;
  0x1fe54adfb32a2b; 0x1fe564d4093cdf; 0x1fe57e86fee5cb; 0x1fe597f97ea0f4; 0x1fe5b12c6e7ba0; 0x1fe5ca20b02ef6; 0x1fe5e2d72139ee; 0x1fe5fb509afa74;
  0x1fe6138df2c5e8; 0x1fe62b8ffa00ea; 0x1fe643577e367b; 0x1fe65ae5492e80; 0x1fe6723a2103a8; 0x1fe68956c838b2; 0x1fe6a03bfdcd2d; 0x1fe6b6ea7d5199;
  0x1fe6cd62fefb09; 0x1fe6e3a637b63c; 0x1fe6f9b4d93a30; 0x1fe70f8f921a3e; 0x1fe725370dd7b3; 0x1fe73aabf4f2fd; 0x1fe74feeecfc5c; 0x1fe7650098a429;
  0x1fe779e197caaf; 0x1fe78e92878f9a; 0x1fe7a314026109; 0x1fe7b766a00a2d; 0x1fe7cb8af5c19a; 0x1fe7df81963731; 0x1fe7f34b11a1b1; 0x1fe806e7f5cbf3;
  0x1fe81a58ce21d2; 0x1fe82d9e23bcbb; 0x1fe840b87d6ff7; 0x1fe853a85fd499; 0x1fe8666e4d5531; 0x1fe8790ac63927; 0x1fe88b7e48afd9; 0x1fe89dc950db71;
  0x1fe8afec58db72; 0x1fe8c1e7d8d710; 0x1fe8d3bc470739; 0x1fe8e56a17c070; 0x1fe8f6f1bd7c5e; 0x1fe90853a8e335; 0x1fe9199048d4d1; 0x1fe92aa80a71a4;
  0x1fe93b9b592372; 0x1fe94c6a9ea5d1; 0x1fe95d16430e79; 0x1fe96d9eacd569; 0x1fe97e0440dcce; 0x1fe98e476278c9; 0x1fe99e68737701; 0x1fe9ae67d4260a;
  0x1fe9be45e35c9c; 0x1fe9ce02fe80ac; 0x1fe9dd9f818e4e; 0x1fe9ed1bc71e7a; 0x1fe9fc78286da4; 0x1fea0bb4fd622f; 0x1fea1ad29c92c2; 0x1fea29d15b4c6b;
  0x1fea38b18d98b2; 0x1fea4773864375; 0x1fea561796e0b6; 0x1fea649e0fd23d; 0x1fea7307404d1e; 0x1fea8153765f1f; 0x1fea8f82fef403; 0x1fea9d9625dab6;
  0x1feaab8d35ca5b; 0x1feab968786744; 0x1feac7283647c3; 0x1fead4ccb6f8f2; 0x1feae256410352; 0x1feaefc519ef56; 0x1feafd198649db; 0x1feb0a53c9a87f;
  0x1feb177426ade9; 0x1feb247adf0df3; 0x1feb31683391c2; 0x1feb3e3c641bc8; 0x1feb4af7afabb3; 0x1feb579a54623f; 0x1feb64248f8501; 0x1feb70969d820f;
  0x1feb7cf0b9f3a6; 0x1feb89331fa3aa; 0x1feb955e088f28; 0x1feba171ade9b4; 0x1febad6e4820c2; 0x1febb9540edee8; 0x1febc523390f11; 0x1febd0dbfcdfa0;
  0x1febdc7e8fc583; 0x1febe80b267f33; 0x1febf381f517ae; 0x1febfee32ee957; 0x1fec0a2f06a0cf; 0x1fec1565ae3fbd; 0x1fec2087571f89; 0x1fec2b9431f408;
  0x1fec368c6ece1f; 0x1fec41703d1e52; 0x1fec4c3fcbb74e; 0x1fec56fb48d060; 0x1fec61a2e207e6; 0x1fec6c36c465ae; 0x1fec76b71c5d4f; 0x1fec812415d072;
  0x1fec8b7ddc1116; 0x1fec95c499e3c1; 0x1fec9ff87981ad; 0x1fecaa19a49ae9; 0x1fecb42844586c; 0x1fecbe24815e28; 0x1fecc80e83cd04; 0x1fecd1e67344dd;
  0x1fecdbac76e672; 0x1fece560b5554a; 0x1fecef0354b994; 0x1fecf8947ac1fc; 0x1fed02144ca577; 0x1fed0b82ef2507; 0x1fed14e0868d78; 0x1fed1e2d36b915;
  0x1fed276923114f; 0x1fed30946e906a; 0x1fed39af3bc313; 0x1fed42b9acc9fa; 0x1fed4bb3e35b5d; 0x1fed549e00c492; 0x1fed5d7825eb87; 0x1fed664273503c;
  0x1fed6efd090e34; 0x1fed77a806dde4; 0x1fed80438c1618; 0x1fed88cfb7ad55; 0x1fed914ca83b2d; 0x1fed99ba7bf99b; 0x1feda21950c64a; 0x1fedaa694423e0;
  0x1fedb2aa733b41; 0x1fedbadcfadccc; 0x1fedc300f78190; 0x1fedcb16854c82; 0x1fedd31dc00ba5; 0x1feddb16c33938; 0x1fede301a9fcd3; 0x1fedeade8f2c88;
  0x1fedf2ad8d4dfd; 0x1fedfa6ebe977d; 0x1fee02223cf109; 0x1fee09c821f567; 0x1fee116086f321; 0x1fee18eb84ed8f; 0x1fee2069349dce; 0x1fee27d9ae73c1;
  0x1fee2f3d0a96ff; 0x1fee369360e7cb; 0x1fee3ddcc8ffff; 0x1fee45195a33f2; 0x1fee4c492b9366; 0x1fee536c53ea62; 0x1fee5a82e9c215; 0x1fee618d0361ae;
  0x1fee688ab6cf37; 0x1fee6f7c19d064; 0x1fee766141eb64; 0x1fee7d3a4467b3; 0x1fee8407364edc; 0x1fee8ac82c6d44; 0x1fee917d3b52ed; 0x1fee9826775433;
  0x1fee9ec3f48a8c; 0x1feea555c6d540; 0x1feeabdc01da1f; 0x1feeb256b9063a; 0x1feeb8c5ff8e8b; 0x1feebf29e870ae; 0x1feec582867384; 0x1feecbcfec27df;
  0x1feed2122be928; 0x1feed84957de04; 0x1feede7581f8f2; 0x1feee496bbf8eb; 0x1feeeaad1769fe; 0x1feef0b8a5a5e7; 0x1feef6b977d4ac; 0x1feefcaf9eed2a;
  0x1fef029b2bb5ae; 0x1fef087c2ec47f; 0x1fef0e52b88072; 0x1fef141ed92172; 0x1fef19e0a0b108; 0x1fef1f981f0ae6; 0x1fef254563dd6c; 0x1fef2ae87eaa27;
  0x1fef30817ec656; 0x1fef3610735b68; 0x1fef3b956b677a; 0x1fef411075bdd0; 0x1fef4681a10750; 0x1fef4be8fbc2fa; 0x1fef514694465d; 0x1fef569a78be09;
  0x1fef5be4b72e05; 0x1fef61255d723b; 0x1fef665c793eea; 0x1fef6b8a182112; 0x1fef70ae477edc; 0x1fef75c914980a; 0x1fef7ada8c8659; 0x1fef7fe2bc3dea;
  0x1fef84e1b08da7; 0x1fef89d7761fa5; 0x1fef8ec4197987; 0x1fef93a7a6fce0; 0x1fef98822ae78b; 0x1fef9d53b15411; 0x1fefa21c4639ff; 0x1fefa6dbf56e44;
  0x1fefab92caa386; 0x1fefb040d16a7e; 0x1fefb4e615324e; 0x1fefb982a148d3; 0x1fefbe1680dafc; 0x1fefc2a1bef519; 0x1fefc724668333; 0x1fefcb9e825154;
  0x1fefd0101d0bda; 0x1fefd479413fc5; 0x1fefd8d9f95b02; 0x1fefdd324facb7; 0x1fefe1824e658c; 0x1fefe5c9ff97f7; 0x1fefea096d387f; 0x1fefee40a11e06;
  0x1feff26fa5020e; 0x1feff6968280ff; 0x1feffab5431a67; 0x1feffecbf0313f; 0x1ff002da930c2c; 0x1ff006e134d5bf; 0x1ff00adfde9cb5; 0x1ff00ed6995434;
  0x1ff012c56dd40c; 0x1ff016ac64d8ed; 0x1ff01a8b8704a9; 0x1ff01e62dcde6b; 0x1ff022326ed2f3; 0x1ff025fa4534ca; 0x1ff029ba683c81; 0x1ff02d72e008e1;
  0x1ff03123b49f26; 0x1ff034ccedeb31; 0x1ff0386e93bfbf; 0x1ff03c08add698; 0x1ff03f9b43d0c9; 0x1ff043265d36ce; 0x1ff046aa0178c7; 0x1ff04a2637eeaa;
  0x1ff04d9b07d86c; 0x1ff05108785e39; 0x1ff0546e909096; 0x1ff057cd57689b; 0x1ff05b24d3c814; 0x1ff05e750c79b4; 0x1ff061be08313c; 0x1ff064ffcd8ba6;
  0x1ff0683a630f4f; 0x1ff06b6dcf2c20; 0x1ff06e9a183bb5; 0x1ff071bf448182; 0x1ff074dd5a2aff; 0x1ff077f45f4fc9; 0x1ff07b0459f1c8; 0x1ff07e0d4ffd57;
  0x1ff0810f474962; 0x1ff0840a45978e; 0x1ff086fe50945b; 0x1ff089eb6dd741; 0x1ff08cd1a2e2d8; 0x1ff08fb0f524f4; 0x1ff0928969f6c7; 0x1ff0955b069cff;
  0x1ff09825d047e6; 0x1ff09ae9cc137f; 0x1ff09da6ff07a4; 0x1ff0a05d6e1824; 0x1ff0a30d1e24dc; 0x1ff0a5b613f9d6; 0x1ff0a858544f64; 0x1ff0aaf3e3ca39;
  0x1ff0ad88c6fb83; 0x1ff0b017026104; 0x1ff0b29e9a652f; 0x1ff0b51f935f39; 0x1ff0b799f19338; 0x1ff0ba0db93235; 0x1ff0bc7aee5a46; 0x1ff0bee19516a2;
  0x1ff0c141b15fb5; 0x1ff0c39b471b3b; 0x1ff0c5ee5a1c4e; 0x1ff0c83aee237d; 0x1ff0ca8106dee0; 0x1ff0ccc0a7ea27; 0x1ff0cef9d4ceb1; 0x1ff0d12c91039d;
  0x1ff0d358dfedd9; 0x1ff0d57ec4e032; 0x1ff0d79e431b6b; 0x1ff0d9b75dce43; 0x1ff0dbca18158d; 0x1ff0ddd674fc39; 0x1ff0dfdc777b66; 0x1ff0e1dc227a6c;
  0x1ff0e3d578ceef; 0x1ff0e5c87d3ce5; 0x1ff0e7b53276a5; 0x1ff0e99b9b1cf7; 0x1ff0eb7bb9bf19; 0x1ff0ed5590dacb; 0x1ff0ef2922dc5d; 0x1ff0f0f6721eb8;
  0x1ff0f2bd80eb61; 0x1ff0f47e517a8b; 0x1ff0f638e5f319; 0x1ff0f7ed406aa9; 0x1ff0f99b62e59b; 0x1ff0fb434f5716; 0x1ff0fce507a110; 0x1ff0fe808d9456;
  0x1ff10015e2f08b; 0x1ff101a5096437; 0x1ff1032e028cc1; 0x1ff104b0cff67a; 0x1ff1062d731ca0; 0x1ff107a3ed695d; 0x1ff109144035cf; 0x1ff10a7e6cca04;
  0x1ff10be2745d03; 0x1ff10d405814c6; 0x1ff10e98190641; 0x1ff10fe9b8355e; 0x1ff111353694fd; 0x1ff1127a9506f5; 0x1ff113b9d45c14; 0x1ff114f2f55418;
  0x1ff11625f89db3; 0x1ff11752ded684; 0x1ff11879a88b16; 0x1ff1199a5636db; 0x1ff11ab4e8442a; 0x1ff11bc95f0c38; 0x1ff11cd7bad713; 0x1ff11ddffbdb9f;
  0x1ff11ee2223f8b; 0x1ff11fde2e1752; 0x1ff120d41f662a; 0x1ff121c3f61e06; 0x1ff122adb21f86; 0x1ff123915339f5; 0x1ff1246ed92b39; 0x1ff12546439fd0;
  0x1ff126179232c1; 0x1ff126e2c46d93; 0x1ff127a7d9c842; 0x1ff12866d1a933; 0x1ff1291fab6527; 0x1ff129d2663f2f; 0x1ff12a7f01689d; 0x1ff12b257c00f9;
  0x1ff12bc5d515f1; 0x1ff12c600ba346; 0x1ff12cf41e92c4; 0x1ff12d820cbc2d; 0x1ff12e09d4e527; 0x1ff12e8b75c130; 0x1ff12f06edf185; 0x1ff12f7c3c0518;
  0x1ff12feb5e7874; 0x1ff1305453b5b0; 0x1ff130b71a1459; 0x1ff13113afd95b; 0x1ff1316a1336ed; 0x1ff131ba424c7c; 0x1ff132043b2694; 0x1ff13247fbbec6;
  0x1ff1328581fb93; 0x1ff132bccbb054; 0x1ff132edd69d1d; 0x1ff13318a06ea6; 0x1ff1333d26be31; 0x1ff1335b67116b; 0x1ff133735eda56; 0x1ff133850b7726;
  0x1ff133906a3229; 0x1ff133957841a6; 0x1ff1339432c7c0; 0x1ff1338c96d255; 0x1ff1337ea15adf; 0x1ff1336a4f4653; 0x1ff1334f9d64ff; 0x1ff1332e887269;
  0x1ff133070d152b; 0x1ff132d927decd; 0x1ff132a4d54ba5; 0x1ff1326a11c2ae; 0x1ff13228d99562; 0x1ff131e128ff97; 0x1ff13192fc2751; 0x1ff1313e4f1c9c;
  0x1ff130e31dd966; 0x1ff1308164414f; 0x1ff130191e2180; 0x1ff12faa473082; 0x1ff12f34db0e0a; 0x1ff12eb8d542d2; 0x1ff12e36314068; 0x1ff12dacea60fc;
  0x1ff12d1cfbe731; 0x1ff12c8660fded; 0x1ff12be914b824; 0x1ff12b451210a4; 0x1ff12a9a53e9e3; 0x1ff129e8d50dc7; 0x1ff12930902d73; 0x1ff128717fe108;
  0x1ff127ab9ea776; 0x1ff126dee6e63a; 0x1ff1260b52e926; 0x1ff12530dce227; 0x1ff1244f7ee906; 0x1ff1236732fb28; 0x1ff12277f2fb51; 0x1ff12181b8b164;
  0x1ff120847dca1f; 0x1ff11f803bd6d8; 0x1ff11e74ec4d3a; 0x1ff11d628886ff; 0x1ff11c4909c1a8; 0x1ff11b28691e38; 0x1ff11a009fa0e6; 0x1ff118d1a630d6;
  0x1ff1179b7597ca; 0x1ff1165e0681d7; 0x1ff11519517d14; 0x1ff113cd4ef94a; 0x1ff11279f747a3; 0x1ff1111f429a53; 0x1ff10fbd29044a; 0x1ff10e53a278d6;
  0x1ff10ce2a6cb50; 0x1ff10b6a2daec0; 0x1ff109ea2eb581; 0x1ff10862a150e7; 0x1ff106d37cd0de; 0x1ff1053cb86389; 0x1ff1039e4b14e3; 0x1ff101f82bce57;
  0x1ff1004a51565d; 0x1ff0fe94b25013; 0x1ff0fcd7453ad1; 0x1ff0fb120071be; 0x1ff0f944da2b66; 0x1ff0f76fc87945; 0x1ff0f592c1475c; 0x1ff0f3adba5bb6;
  0x1ff0f1c0a955fc; 0x1ff0efcb83aef3; 0x1ff0edce3eb80b; 0x1ff0ebc8cf9adc; 0x1ff0e9bb2b58ad; 0x1ff0e7a546c9f0; 0x1ff0e587169dbe; 0x1ff0e3608f5956;
  0x1ff0e131a55790; 0x1ff0defa4cc858; 0x1ff0dcba79b01a; 0x1ff0da721fe739; 0x1ff0d82133197a; 0x1ff0d5c7a6c56c; 0x1ff0d3656e3bd8; 0x1ff0d0fa7c9f1e;
  0x1ff0ce86c4e29c; 0x1ff0cc0a39ca0f; 0x1ff0c984cde8ea; 0x1ff0c6f673a1b7; 0x1ff0c45f1d2566; 0x1ff0c1bebc72a5; 0x1ff0bf15435531; 0x1ff0bc62a3651e;
  0x1ff0b9a6ce0624; 0x1ff0b6e1b466e2; 0x1ff0b413478025; 0x1ff0b13b781421; 0x1ff0ae5a36adb1; 0x1ff0ab6f739f8b; 0x1ff0a87b1f0373; 0x1ff0a57d28b970;
  0x1ff0a2758066ef; 0x1ff09f641575f3; 0x1ff09c48d71432; 0x1ff09923b43237; 0x1ff095f49b827a; 0x1ff092bb7b787c; 0x1ff08f784247d0; 0x1ff08c2adde32f;
  0x1ff088d33bfb7e; 0x1ff0857149fed0; 0x1ff08204f51766; 0x1ff07e8e2a2aa6; 0x1ff07b0cd5d812; 0x1ff07780e47835; 0x1ff073ea421b8e; 0x1ff07048da896e;
  0x1ff06c9c993ee0; 0x1ff068e5696d77; 0x1ff0652335fa27; 0x1ff06155e97c0f; 0x1ff05d7d6e3b3d; 0x1ff05999ae2f72; 0x1ff055aa92fed7; 0x1ff051b005fcb1;
  0x1ff04da9f0280d; 0x1ff049983a2a63; 0x1ff0457acc5635; 0x1ff041518ea5a4; 0x1ff03d1c68b8ff; 0x1ff038db41d549; 0x1ff0348e00e2ba; 0x1ff030348c6b33;
  0x1ff02bceca98b1; 0x1ff0275ca133ad; 0x1ff022ddf5a180; 0x1ff01e52ace2b3; 0x1ff019baab914d; 0x1ff01515d5df14; 0x1ff010640f93c9; 0x1ff00ba53c0b50;
  0x1ff006d93e33de; 0x1ff001fff88c0b; 0x1feffd194d20e8; 0x1feff8251d8c04; 0x1feff3234af162; 0x1fefee13b5fd6b; 0x1fefe8f63ee2d3; 0x1fefe3cac5586c;
  0x1fefde912896f6; 0x1fefd9494756d7; 0x1fefd3f2ffcdd5; 0x1fefce8e2facb1; 0x1fefc91ab41cc8; 0x1fefc39869bd94; 0x1fefbe072ca228; 0x1fefb866d84e9f;
  0x1fefb2b747b579; 0x1fefacf85534e2; 0x1fefa729da93f9; 0x1fefa14bb0fff5; 0x1fef9b5db10947; 0x1fef955fb2a0a3; 0x1fef8f518d13f9; 0x1fef8933170b5f;
  0x1fef83042685e3; 0x1fef7cc490d651; 0x1fef76742a9fda; 0x1fef7012c7d2b7; 0x1fef69a03ba8a6; 0x1fef631c58a15f; 0x1fef5c86f07ee9; 0x1fef55dfd441e3;
  0x1fef4f26d425ab; 0x1fef485bbf9c74; 0x1fef417e654b41; 0x1fef3a8e9305c9; 0x1fef338c15ca3d; 0x1fef2c76b9bcf3; 0x1fef254e4a2400; 0x1fef1e129162a5;
  0x1fef16c358f4ac; 0x1fef0f606969a0; 0x1fef07e98a5feb; 0x1fef005e827fd0; 0x1feef8bf177645; 0x1feef10b0defaf; 0x1feee942299274; 0x1feee1642cf971;
  0x1feed970d9ae46; 0x1feed167f0237e; 0x1feec9492fae8f; 0x1feec1145681b2; 0x1feeb8c921a58f; 0x1feeb0674cf2c6; 0x1feea7ee930b3e; 0x1fee9f5ead5355;
  0x1fee96b753ead6; 0x1fee8df83da5c4; 0x1fee85212004f2; 0x1fee7c31af2e64; 0x1fee73299de581; 0x1fee6a089d8304; 0x1fee60ce5decc0; 0x1fee577a8d8d21;
  0x1fee4e0cd94a70; 0x1fee4484ec7dde; 0x1fee3ae270ea4b; 0x1fee31250eb2c6; 0x1fee274c6c50d2; 0x1fee1d582e8a57; 0x1fee1347f86753; 0x1fee091b6b273b;
  0x1fedfed226360e; 0x1fedf46bc72111; 0x1fede9e7e98b3f; 0x1feddf4627215c; 0x1fedd486178db0; 0x1fedc9a7506b60; 0x1fedbea965396e; 0x1fedb38be74d4d;
  0x1feda84e65c511; 0x1fed9cf06d7933; 0x1fed917188ede5; 0x1fed85d14043f3; 0x1fed7a0f19292b; 0x1fed6e2a96c84e; 0x1fed622339b875; 0x1fed55f87fec02;
  0x1fed49a9e49ef6; 0x1fed3d36e044c3; 0x1fed309ee87582; 0x1fed23e16fda96; 0x1fed16fde61aa9; 0x1fed09f3b7c502; 0x1fecfcc24e3c38; 0x1fecef690fa025;
  0x1fece1e75eb728; 0x1fecd43c9ad6a2; 0x1fecc6681fcaac; 0x1fecb86945bcf9; 0x1fecaa3f611ae4; 0x1fec9be9c27a96; 0x1fec8d67b67f48; 0x1fec7eb885bc8a;
  0x1fec6fdb749894; 0x1fec60cfc32d86; 0x1fec5194ad299c; 0x1fec422969ae3c; 0x1fec328d2b2de4; 0x1fec22bf1f48d6; 0x1fec12be6ea886; 0x1fec028a3cd9b4;
  0x1febf221a8252d; 0x1febe183c9670d; 0x1febd0afb3e495; 0x1febbfa4752065; 0x1febae6114ad16; 0x1feb9ce493fe28; 0x1feb8b2dee3720; 0x1feb793c17f8d6;
  0x1feb670dff2cc5; 0x1feb54a28ace64; 0x1feb41f89ab255; 0x1feb2f0f074b67; 0x1feb1be4a16d3d; 0x1feb0878320c91; 0x1feaf4c879fcef; 0x1feae0d431abbf;
  0x1feacc9a08d893; 0x1feab818a64a83; 0x1feaa34ea78281; 0x1fea8e3aa06a76; 0x1fea78db1b010a; 0x1fea632e9701e4; 0x1fea4d33898a36; 0x1fea36e85cb96e;
  0x1fea204b6f4dd7; 0x1fea095b143cec; 0x1fe9f215924732; 0x1fe9da79238760; 0x1fe9c283f4fc82; 0x1fe9aa34260ef2; 0x1fe99187c80fc6; 0x1fe9787cddb27f;
  0x1fe95f115a809d; 0x1fe945432246c2; 0x1fe92b10087b1e; 0x1fe91075cf9cab; 0x1fe8f572288aef; 0x1fe8da02b1d5c3; 0x1fe8be24f704c2; 0x1fe8a1d66fd5d4;
  0x1fe885147f7262; 0x1fe867dc739aab; 0x1fe84a2b83c699; 0x1fe82bfed03b8b; 0x1fe80d53611666; 0x1fe7ee2625493f; 0x1fe7ce73f18bd6; 0x1fe7ae397f3e29;
  0x1fe78d736b3c3c; 0x1fe76c1e34a225; 0x1fe74a363b7f7d; 0x1fe727b7bf790d; 0x1fe7049ede57b6; 0x1fe6e0e792834b; 0x1fe6bc8db16825; 0x1fe6978ce9c603;
  0x1fe671e0c1e6c8; 0x1fe64b8495bb6e; 0x1fe6247394dd8a; 0x1fe5fca8c07372; 0x1fe5d41ee8f51c; 0x1fe5aad0abcf7f; 0x1fe580b870e42c; 0x1fe555d067e2a0;
  0x1fe52a12857886; 0x1fe4fd7880561c; 0x1fe4cffbce0368; 0x1fe4a1959f82e4; 0x1fe4723eddbde3; 0x1fe441f025b691; 0x1fe410a1c47b3a; 0x1fe3de4bb2d5ff;
  0x1fe3aae590b3cd; 0x1fe37666a03cda; 0x1fe340c5c09883; 0x1fe309f96855be; 0x1fe2d1f79f70c1; 0x1fe298b5f8edc5; 0x1fe25e298c000b; 0x1fe22246ecb36a;
  0x1fe1e502240dd1; 0x1fe1a64ea79cf0; 0x1fe1661f506340; 0x1fe12466511634; 0x1fe0e1152b9dfa; 0x1fe09c1ca5c586; 0x1fe0556cbd07ed; 0x1fe00cf49965e1;
  0x1fdfc2a27f2c03; 0x1fdf7663bf9023; 0x1fdf2824a8088b; 0x1fded7d0703d61; 0x1fde855126705d; 0x1fde308f9a32f1; 0x1fddd973453e66; 0x1fdd7fe2323bfe;
  0x1fdd23c0e1452b; 0x1fdcc4f229dd06; 0x1fdc63571a1c4b; 0x1fdbfeced2c01b; 0x1fdb97365fc177; 0x1fdb2c688d0f8b; 0x1fdabe3db6f92c; 0x1fda4c8b95c24b;
  0x1fd9d72503cfc4; 0x1fd95dd9bdbef4; 0x1fd8e0761ba5e9; 0x1fd85ec2c29c6d; 0x1fd7d8844d8cda; 0x1fd74d7aec2468; 0x1fd6bd61f68cd8; 0x1fd627ef746325;
  0x1fd58cd3951ed5; 0x1fd4ebb817d1c2; 0x1fd4443f9fcda6; 0x1fd39604f3511c; 0x1fd2e09a20dc3f; 0x1fd223878731c8; 0x1fd15e4abb4d94; 0x1fd0905546b5d4;
  0x1fcfb90b37769e; 0x1fced7c179c444; 0x1fcdebbbf19f89; 0x1fccf42b48d34f; 0x1fcbf02a63233d; 0x1fcadebb6763a3; 0x1fc9bec4484712; 0x1fc88f0ab2ba29;
  0x1fc74e2f41599a; 0x1fc5faa7cc7e95; 0x1fc492b8a3f8da; 0x1fc3146c720d64; 0x1fc17d8a75a29c; 0x1fbfcb8aaa2a0f; 0x1fbdfb8754ba16; 0x1fbc0a2b43eb4b;
  0x1fb9f39bd71f30; 0x1fb7b35d938f7c; 0x1fb54431a09a74; 0x1fb29fe9eb39c4; 0x1fafbf30d51c86; 0x1fac9940155db5; 0x1fa923809add97; 0x1fa5510a7e2e33;
  0x1fa111f7d6ccf2; 0x1f9c5276a7d6ff; 0x1f96f97b763f40; 0x1f90e6e48f5fd7; 0x1f89f0c02df865; 0x1f81df33180649; 0x1f78661cee4357; 0x1f6d1ade61b01f;
  0x1f5f632ea2dce6; 0x1f4e56c35fc3f7; 0x1f38862a92f170; 0x1f1b862fe29563; 0x1ef2e7b5562b19; 0x1eb584cfe7bbe6; 0x1e4cc4bf01d278; 0x1d6bfb46d88c28]%N.
(** expo.go:305-562, as written *)
Definition expoW_dec : list (Z * Z) := [
  (113866300213877813, 32); (350242056868416685, 35); (570764952751972552, 35); (743157304507964198, 35);
  (889301382714102794, 35); (101849930256090362, 34); (113566120763560199, 34); (124373330462895014, 34);
  (134464053055239106, 34); (143971940744360142, 34); (152994122305171874, 34); (161603734793054288, 34);
  (169857437005156817, 34); (177800154948490313, 34); (185468208790794572, 34); (192891447096363812, 34);
  (200094747399575766, 34); (207099098388363480, 34); (213922397691885634, 34); (220580051413288253, 34);
  (227085432365339685, 34); (233450235613893963, 34); (239684758075173161, 34); (245798121063206663, 34);
  (251798449374771436, 34); (257693016838210481, 34); (263488365683286212, 34); (269190405257174441, 34);
  (274804494286134748, 34); (280335509910373130, 34); (285787905998030641, 34); (291165762702436677, 34);
  (296472828815662770, 34); (301712558156409405, 34); (306888140986687519, 34); (312002531261801955, 34);
  (317058470368832284, 34); (322058507890550994, 34); (327005019837409651, 34); (331900224714507652, 34);
  (336746197729291870, 34); (341544883396033694, 34); (346298106752513256, 34); (351007583370977331, 34);
  (355674928317893002, 34); (360301664194168814, 34); (364889228368475191, 34); (369438979500361947, 34);
  (373952203436478575, 34); (378430118551906078, 34); (382873880599043852, 34); (387284587118362003, 34);
  (391663281458397442, 34); (396010956446438125, 34); (400328557746248912, 34); (404616986934806411, 34);
  (408877104326225461, 34); (413109731567783096, 34); (417315654030096701, 34); (421495623011038930, 34);
  (425650357770807539, 34); (429780547413678012, 34); (433886852630308135, 34); (437969907313005329, 34);
  (442030320055085859, 34); (446068675544319532, 34); (450085535859453662, 34); (454081441677920346, 34);
  (458056913402044554, 34); (462012452210367440, 34); (465948541040075780, 34); (469865645505969950, 34);
  (473764214760904961, 34); (477644682302191072, 34); (481507466728040892, 34); (485352972447789544, 34);
  (489181590349291082, 34); (492993698426600875, 34); (496789662370792738, 34); (500569836126519279, 34);
  (504334562416710039, 34); (508084173237606483, 34); (511818990326155613, 34); (515539325601623859, 34);
  (519245481583145717, 34); (522937751784789536, 34); (526616421089601042, 34); (530281766103974008, 34);
  (533934055493597026, 34); (537573550302132608, 34); (541200504253700168, 34); (544815164040155802, 34);
  (548417769594092893, 34); (552008554348419563, 34); (555587745483310531, 34); (559155564161275402, 34);
  (562712225751033443, 34); (566257940040840001, 34); (569792911441864214, 34); (573317339182178903, 34);
  (576831417491886752, 34); (580335335779871866, 34); (583829278802635728, 34); (587313426825644027, 34);
  (590787955777588901, 34); (594253037397940196, 34); (597708839378140594, 34); (601155525496774833, 34);
  (604593255749024622, 34); (608022186470701729, 34); (611442470457132772, 34); (614854257077155906, 34);
  (618257692382471985, 34); (621652919212578466, 34); (625040077295503742, 34); (628419303344544295, 34);
  (631790731151195959, 34); (635154491674463330, 34); (638510713126714457, 34); (641859521056246471, 34);
  (645201038426711684, 34); (648535385693550682, 34); (651862680877568281, 34); (655183039635782105, 34);
  (658496575329665713, 34); (661803399090902991, 34); (665103619884764002, 34); (668397344571204976, 34);
  (671684677963794495, 34); (674965722886556345, 34); (678240580228820122, 34); (681509348998165384, 34);
  (684772126371536022, 34); (688029007744605938, 34); (691280086779465688, 34); (694525455450699849, 34);
  (697765204089922405, 34); (700999421428830436, 34); (704228194640838963, 34); (707451609381350078, 34);
  (710669749826714292, 34); (713882698711932909, 34); (717090537367152949, 34); (720293345752999490, 34);
  (723491202494792634, 34); (726684184915689645, 34); (729872369068795414, 34); (733055829768278701, 34);
  (736234640619532022, 34); (739408874048411141, 34); (742578601329588457, 34); (745743892614052207, 34);
  (748904816955783273, 34); (752061442337639926, 34); (755213835696477749, 34); (758362062947534310, 34);
  (761506189008102266, 34); (764646277820518860, 34); (767782392374492908, 34); (770914594728795881, 34);
  (774042946032335713, 34); (777167506544637473, 34); (780288335655749535, 34); (783405491905595321, 34);
  (786519033002790468, 34); (789629015842941934, 34); (792735496526446554, 34); (795838530375807270, 34);
  (798938171952481110, 34); (802034475073275782, 34); (805127492826308455, 34); (808217277586542374, 34);
  (811303881030913265, 34); (814387354153060087, 34); (817467747277673049, 34); (820545110074468898, 34);
  (823619491571807650, 34); (826690940169961470, 34); (829759503654045216, 34); (832825229206620955, 34);
  (835888163419985706, 34); (838948352308151647, 34); (842005841318529637, 34); (845060675343323331, 34);
  (848112898730644100, 34); (851162555295354792, 34); (854209688329649217, 34); (857254340613377475, 34);
  (860296554424122665, 34); (863336371547037247, 34); (866373833284446306, 34); (869408980465223419, 34);
  (872441853453947103, 34); (875472492159843547, 34); (878500936045520899, 34); (881527224135503018, 34);
  (884551395024566624, 34); (887573486885888013, 34); (890593537479005498, 34); (893611584157600782, 34);
  (896627663877107150, 34); (899641813202145720, 34); (902654068313798122, 34); (905664465016717829, 34);
  (908673038746084713, 34); (911679824574408223, 34); (914684857218181801, 34); (917688171044394437, 34);
  (920689800076901207, 34); (923689778002657626, 34); (926688138177820984, 34); (929684913633723879, 34);
  (932680137082719675, 34); (935673840923907163, 34); (938666057248735546, 34); (941656817846492320, 34);
  (944646154209679607, 34); (947634097539278079, 34); (950620678749905365, 34); (953605928474868584, 34);
  (956589877071115063, 34); (959572554624083708, 34); (962553990952459616, 34); (965534215612833288, 34);
  (968513257904268869, 34); (971491146872781551, 34); (974467911315727711, 34); (977443579786109619, 34);
  (980418180596796592, 34); (983391741824665274, 34); (986364291314659314, 34); (989335856683773363, 34);
  (992306465324960395, 34); (995276144410965083, 34); (998244920898086293, 34); (100121282152986834, 33);
  (100417987284072419, 33); (100714610115949139, 33); (101011153261292315, 33); (101307619312911505, 33);
  (101604010844086932, 33); (101900330408899940, 33); (102196580542557368, 33); (102492763761710182, 33);
  (102788882564766411, 33); (103084939432198605, 33); (103380936826845768, 33); (103676877194210111, 33);
  (103972762962748555, 33); (104268596544159228, 33); (104564380333663023, 33); (104860116710280255, 33);
  (105155808037102722, 33); (105451456661561074, 33); (105747064915687647, 33); (106042635116375016, 33);
  (106338169565630065, 33); (106633670550823963, 33); (106929140344937998, 33); (107224581206805350, 33);
  (107519995381348891, 33); (107815385099815248, 33); (108110752580004962, 33); (108406100026499016, 33);
  (108701429630881762, 33); (108996743571960260, 33); (109292044015980230, 33); (109587333116838589, 33);
  (109882613016292633, 33); (110177885844166078, 33); (110473153718551823, 33); (110768418746011716, 33);
  (111063683021773164, 33); (111358948629922863, 33); (111654217643597637, 33); (111949492125172265, 33);
  (112244774126444748, 33); (112540065688818639, 33); (112835368843482824, 33); (113130685611588700, 33);
  (113426018004424635, 33); (113721368023588112, 33); (114016737661155233, 33); (114312128899848038, 33);
  (114607543713199171, 33); (114902984065714518, 33); (115198451913033436, 33); (115493949202086751, 33);
  (115789477871252708, 33); (116085039850510597, 33); (116380637061592587, 33); (116676271418133165, 33);
  (116971944825816850, 33); (117267659182523937, 33); (117563416378474067, 33); (117859218296368247, 33);
  (118155066811528801, 33); (118450963792037639, 33); (118746911098872637, 33); (119042910586042500, 33);
  (119338964100719642, 33); (119635073483371603, 33); (119931240567890890, 33); (120227467181722921, 33);
  (120523755145992785, 33); (120820106275630154, 33); (121116522379492887, 33); (121413005260489129, 33);
  (121709556715697839, 33); (122006178536488073, 33); (122302872508636879, 33); (122599640412445572, 33);
  (122896484022855082, 33); (123193405109559679, 33); (123490405437119549, 33); (123787486765072178, 33);
  (124084650848042274, 33); (124381899435850871, 33); (124679234273622845, 33); (124976657101893526, 33);
  (125274169656714186, 33); (125571773669756293, 33); (125869470868414701, 33); (126167262975909935, 33);
  (126465151711389210, 33); (126763138790026570, 33); (127061225923122038, 33); (127359414818199677, 33);
  (127657707179104776, 33); (127956104706100156, 33); (128254609095961356, 33); (128553222042071101, 33);
  (128851945234512898, 33); (129150780360163588, 33); (129449729102785191, 33); (129748793143115928, 33);
  (130047974158960416, 33); (130347273825278961, 33); (130646693814276255, 33); (130946235795489186, 33);
  (131245901435873957, 33); (131545692399892392, 33); (131845610349597702, 33); (132145656944719360, 33);
  (132445833842747460, 33); (132746142699016212, 33); (133046585166787048, 33); (133347162897330828, 33);
  (133647877540009571, 33); (133948730742357598, 33); (134249724150161959, 33); (134550859407542293, 33);
  (134852138157030313, 33); (135153562039648496, 33); (135455132694988272, 33); (135756851761287856, 33);
  (136058720875509308, 33); (136360741673415348, 33); (136662915789645431, 33); (136965244857791481, 33);
  (137267730510473198, 33); (137570374379412732, 33); (137873178095509130, 33); (138176143288912096, 33);
  (138479271589095575, 33); (138782564624930773, 33); (139086024024758832, 33); (139389651416463058, 33);
  (139693448427540782, 33); (139997416685174999, 33); (140301557816305364, 33); (140605873447699093, 33);
  (140910365206021393, 33); (141215034717905595, 33); (141519883610022969, 33); (141824913509152195, 33);
  (142130126042248606, 33); (142435522836513119, 33); (142741105519460741, 33); (143046875718989028, 33);
  (143352835063446169, 33); (143658985181698763, 33); (143965327703199430, 33); (144271864258054142, 33);
  (144578596477089444, 33); (144885525991919190, 33); (145192654435011325, 33); (145499983439754442, 33);
  (145807514640523901, 33); (146115249672748092, 33); (146423190172974259, 33); (146731337778934339, 33);
  (147039694129610493, 33); (147348260865300626, 33); (147657039627683545, 33); (147966032059884311, 33);
  (148275239806539145, 33); (148584664513860290, 33); (148894307829700942, 33); (149204171403619915, 33);
  (149514256886946076, 33); (149824565932843012, 33); (150135100196373369, 33); (150445861334563241, 33);
  (150756851006466296, 33); (151068070873228159, 33); (151379522598150462, 33); (151691207846754890, 33);
  (152003128286847420, 33); (152315285588582176, 33); (152627681424525467, 33); (152940317469719863, 33);
  (153253195401748017, 33); (153566316900796759, 33); (153879683649720993, 33); (154193297334107699, 33);
  (154507159642339896, 33); (154821272265660695, 33); (155135636898237243, 33); (155450255237224965, 33);
  (155765128982831561, 33); (156080259838381226, 33); (156395649510378793, 33); (156711299708574196, 33);
  (157027212146026667, 33); (157343388539169247, 33); (157659830607873276, 33); (157976540075513081, 33);
  (158293518669030589, 33); (158610768119000158, 33); (158928290159693563, 33); (159246086529144928, 33);
  (159564158969216028, 33); (159882509225661421, 33); (160201139048193995, 33); (160520050190550519, 33);
  (160839244410557318, 33); (161158723470196162, 33); (161478489135670363, 33); (161798543177470937, 33);
  (162118887370442995, 33); (162439523493852323, 33); (162760453331452145, 33); (163081678671550073, 33);
  (163403201307075263, 33); (163725023035645833, 33); (164047145659636362, 33); (164369570986245761, 33);
  (164692300827565281, 33); (165015337000646875, 33); (165338681327571583, 33); (165662335635518412, 33);
  (165986301756833258, 33); (166310581529098375, 33); (166635176795201728, 33); (166960089403406969, 33);
  (167285321207423532, 33); (167610874066477009, 33); (167936749845379951, 33); (168262950414602768, 33);
  (168589477650345218, 33); (168916333434607899, 33); (169243519655264330, 33); (169571038206133233, 33);
  (169898890987051176, 33); (170227079903945674, 33); (170555606868908324, 33); (170884473800268816, 33);
  (171213682622668786, 33); (171543235267136388, 33); (171873133671161165, 33); (172203379778769235, 33);
  (172533975540599046, 33); (172864922913977231, 33); (173196223862995301, 33); (173527880358586382, 33);
  (173859894378602652, 33); (174192267907892993, 33); (174525002938381232, 33); (174858101469144861, 33);
  (175191565506494142, 33); (175525397064051581, 33); (175859598162832201, 33); (176194170831323905, 33);
  (176529117105568701, 33); (176864439029244107, 33); (177200138653745312, 33); (177536218038267738, 33);
  (177872679249890141, 33); (178209524363658278, 33); (178546755462669095, 33); (178884374638155479, 33);
  (179222383989571556, 33); (179560785624678622, 33); (179899581659631581, 33); (180238774219065934, 33);
  (180578365436185542, 33); (180918357452850858, 33); (181258752419667768, 33); (181599552496077107, 33);
  (181940759850444856, 33); (182282376660152812, 33); (182624405111690199, 33); (182966847400745663, 33);
  (183309705732300040, 33); (183652982320719913, 33); (183996679389851725, 33); (184340799173116672, 33);
  (184685343913606275, 33); (185030315864178671, 33); (185375717287555763, 33); (185721550456420849, 33);
  (186067817653517369, 33); (186414521171748110, 33); (186761663314275339, 33); (187109246394621707, 33);
  (187457272736772007, 33); (187805744675275556, 33); (188154664555349660, 33); (188504034732983767, 33);
  (188853857575044459, 33); (189204135459381333, 33); (189554870774933866, 33); (189906065921838924, 33);
  (190257723311539424, 33); (190609845366893743, 33); (190962434522286032, 33); (191315493223737720, 33);
  (191669023929019577, 33); (192023029107765020, 33); (192377511241584419, 33); (192732472824180073, 33);
  (193087916361462647, 33); (193443844371668189, 33); (193800259385476483, 33); (194157163946130322, 33);
  (194514560609555776, 33); (194872451944483782, 33); (195230840532572437, 33); (195589728968530828, 33);
  (195949119860243622, 33); (196309015828896961, 33); (196669419509105496, 33); (197030333549040576, 33);
  (197391760610559598, 33); (197753703369336583, 33); (198116164514993922, 33); (198479146751235394, 33);
  (198842652795980423, 33); (199206685381499634, 33); (199571247254551578, 33); (199936341176520879, 33);
  (200301969923557614, 33); (200668136286718152, 33); (201034843072107173, 33); (201402093101021140, 33);
  (201769889210093206, 33); (202138234251439572, 33); (202507131092806976, 33); (202876582617722087, 33);
  (203246591725642028, 33); (203617161332106405, 33); (203988294368891085, 33); (204359993784163330, 33);
  (204732262542638388, 33); (205105103625737854, 33); (205478520031749589, 33); (205852514775989139, 33);
  (206227090890962883, 33); (206602251426532805, 33); (206977999450083069, 33); (207354338046688067, 33);
  (207731270319282422, 33); (208108799388832639, 33); (208486928394510603, 33); (208865660493868734, 33);
  (209244998863017130, 33); (209624946696802572, 33); (210005507208989242, 33); (210386683632441540, 33);
  (210768479219308660, 33); (211150897241211321, 33); (211533940989430357, 33); (211917613775097275, 33);
  (212301918929386988, 33); (212686859803712680, 33); (213072439769922390, 33); (213458662220498338, 33);
  (213845530568757797, 33); (214233048249056612, 33); (214621218716994703, 33); (215010045449623903, 33);
  (215399531945658094, 33); (215789681725685650, 33); (216180498332384214, 33); (216571985330737896, 33);
  (216964146308256882, 33); (217356984875199440, 33); (217750504664796629, 33); (218144709333479190, 33);
  (218539602561107330, 33); (218935188051202992, 33); (219331469531184587, 33); (219728450752604765, 33);
  (220126135491390574, 33); (220524527548086525, 33); (220923630748100497, 33); (221323448941952326, 33);
  (221723986005525452, 33); (222125245840321300, 33); (222527232373716823, 33); (222929949559224970, 33);
  (223333401376757968, 33); (223737591832894256, 33); (224142524961148027, 33); (224548204822242125, 33);
  (224954635504384391, 33); (225361821123546973, 33); (225769765823749227, 33); (226178473777343781, 33);
  (226587949185306291, 33); (226998196277528356, 33); (227409219313114428, 33); (227821022580681770, 33);
  (228233610398664470, 33); (228646987115621043, 33); (229061157110545689, 33); (229476124793183588, 33);
  (229891894604349848, 33); (230308471016252347, 33); (230725858532818961, 33); (231144061690028342, 33);
  (231563085056245286, 33); (231982933232559793, 33); (232403610853130764, 33); (232825122585533890, 33);
  (233247473131113825, 33); (233670667225341053, 33); (234094709638172788, 33); (234519605174419153, 33);
  (234945358674113256, 33); (235371975012886739, 33); (235799459102349560, 33); (236227815890474861, 33);
  (236657050361988964, 33); (237087167538766144, 33); (237518172480228528, 33); (237950070283751580, 33);
  (238382866085074297, 33); (238816565058715145, 33); (239251172418393403, 33); (239686693417456089, 33);
  (240123133349310156, 33); (240560497547861096, 33); (240998791387956480, 33); (241438020285836399, 33);
  (241878189699588878, 33); (242319305129612399, 33); (242761372119083744, 33); (243204396254432841, 33);
  (243648383165823523, 33); (244093338527641192, 33); (244539268058986699, 33); (244986177524177365, 33);
  (245434072733254616, 33); (245882959542498662, 33); (246332843854950086, 33); (246783731620939020, 33);
  (247235628838621027, 33); (247688541554521267, 33); (248142475864085225, 33); (248597437912238105, 33);
  (249053433893951384, 33); (249510470054817500, 33); (249968552691632863, 33); (250427688152988815, 33);
  (250887882839871114, 33); (251349143206267946, 33); (251811475759786376, 33); (252274887062278155, 33);
  (252739383730473822, 33); (253204972436626459, 33); (253671659909164476, 33); (254139452933354007, 33);
  (254608358351970773, 33); (255078383065981757, 33); (255549534035237082, 33); (256021818279171509, 33);
  (256495242877517024, 33); (256969814971025037, 33); (257445541762200125, 33); (257922430516043926, 33);
  (258400488560810722, 33); (258879723288773863, 33); (259360142157003882, 33); (259841752688158292, 33);
  (260324562471283367, 33); (260808579162627749, 33); (261293810486468685, 33); (261780264235950829, 33);
  (262267948273937821, 33); (262756870533876631, 33); (263247039020675708, 33); (263738461811596195, 33);
  (264231147057157200, 33); (264725102982055158, 33); (265220337886097110, 33); (265716860145149056, 33);
  (266214678212098810, 33); (266713800617834190, 33); (267214235972236587, 33); (267715992965190163, 33);
  (268219080367607127, 33); (268723507032469422, 33); (269229281895886985, 33); (269736413978172915, 33);
  (270244912384935942, 33); (270754786308190756, 33); (271266045027485926, 33); (271778697911050459, 33);
  (272292754416958999, 33); (272808224094315908, 33); (273325116584458868, 33); (273843441622182455, 33);
  (274363209036981680, 33); (274884428754316433, 33); (275407110796896489, 33); (275931265285988602, 33);
  (276456902442744944, 33); (276984032589554083, 33); (277512666151414781, 33); (278042813657333164, 33);
  (278574485741743071, 33); (279107693145951342, 33); (279642446719607267, 33); (280178757422197485, 33);
  (280716636324566602, 33); (281256094610464204, 33); (281797143578118288, 33); (282339794641836546, 33);
  (282884059333635371, 33); (283429949304897444, 33); (283977476328058667, 33); (284526652298324477, 33);
  (285077489235416830, 33); (285629999285352485, 33); (286184194722252411, 33); (286740087950184267, 33);
  (287297691505037474, 33); (287857018056432360, 33); (288418080409664058, 33); (288980891507681219, 33);
  (289545464433101301, 33); (290111812410262747, 33); (290679948807314326, 33); (291249887138343927, 33);
  (291821641065545760, 33); (292395224401428764, 33); (292970651111065558, 33); (293547935314383834, 33);
  (294127091288500741, 33); (294708133470101354, 33); (295291076457862152, 33); (295875935014920594, 33);
  (296462724071391983, 33); (297051458726934297, 33); (297642154253362576, 33); (298234826097313640, 33);
  (298829489882962880, 33); (299426161414793356, 33); (300024856680419229, 33); (300625591853465104, 33);
  (301228383296501083, 33); (301833247564036990, 33); (302440201405575009, 33); (303049261768724115, 33);
  (303660445802376121, 33); (304273770859946023, 33); (304889254502677578, 33); (305506914503015827, 33);
  (306126768848048258, 33); (306748835743016518, 33); (307373133614899761, 33); (307999681116072110, 33);
  (308628497128035786, 33); (309259600765231606, 33); (309893011378929151, 33); (310528748561198436, 33);
  (311166832148964997, 33); (311807282228150819, 33); (312450119137903079, 33); (313095363474912859, 33);
  (313743036097826702, 33); (314393158131752492, 33); (315045750972863044, 33); (315700836293099297, 33);
  (316358436044975803, 33); (317018572466491834, 33); (317681268086149917, 33); (318346545728085253, 33);
  (319014428517309080, 33); (319684939885068437, 33); (320358103574326237, 33); (321033943645364003, 33);
  (321712484481511557, 33); (322393750795006195, 33); (323077767632985751, 33); (323764560383618450, 33);
  (324454154782374051, 33); (325146576918439408, 33); (325841853241283321, 33); (326540010567374278, 33);
  (327241076087055526, 33); (327945077371581957, 33); (328652042380323591, 33); (329361999468139896, 33);
  (330074977392930619, 33); (330791005323367361, 33); (331510112846811718, 33); (332232329977425218, 33);
  (332957687164476910, 33); (333686215300853697, 33); (334417945731780403, 33); (335152910263755103, 33);
  (335891141173706168, 33); (336632671218378088, 33); (337377533643952612, 33); (338125762195912371, 33);
  (338877391129154568, 33); (339632455218362083, 33); (340390989768640078, 33); (341153030626426683, 33);
  (341918614190685159, 33); (342687777424387839, 33); (343460557866299685, 33); (344236993643071775, 33);
  (345017123481654131, 33); (345800986722038182, 33); (346588623330339684, 33); (347380073912232226, 33);
  (348175379726744167, 33); (348974582700429235, 33); (349777725441924170, 33); (350584851256905820, 33);
  (351396004163460519, 33); (352211228907880337, 33); (353030570980899513, 33); (353854076634387146, 33);
  (354681792898509997, 33); (355513767599382910, 33); (356350049377222915, 33); (357190687705024226, 33);
  (358035732907772433, 33); (358885236182216900, 33); (359739249617220422, 33); (360597826214707033, 33);
  (361461019911228816, 33); (362328885600174218, 33); (363201479154640379, 33); (364078857450993939, 33);
  (364961078393145380, 33); (365848200937562515, 33); (366740285119050961, 33); (367637392077329333, 33);
  (368539584084429687, 33); (369446924572953038, 33); (370359478165213282, 33); (371277310703302660, 33);
  (372200489280113960, 33); (373129082271356780, 33); (374063159368605721, 33); (375002791613421188, 33);
  (375948051432584648, 33); (376899012674492385, 33); (377855750646753940, 33); (378818342155043416, 33);
  (379786865543253576, 33); (380761400735006893, 33); (381742029276577174, 33); (382728834381281573, 33);
  (383721900975402503, 33); (384721315745703930, 33); (385727167188608917, 33); (386739545661108118, 33);
  (387758543433474275, 33); (388784254743858197, 33); (389816775854849397, 33); (390856205112085891, 33);
  (391902643005002902, 33); (392956192229815509, 33); (394016957754834067, 33); (395085046888217494, 33);
  (396160569348273844, 33); (397243637336424719, 33); (398334365612955237, 33); (399432871575678552, 33);
  (400539275341650411, 33); (401653699832077006, 33); (402776270860567218, 33); (403907117224888621, 33);
  (405046370802395843, 33); (406194166649308659, 33); (407350643104028759, 33); (408515941894693588, 33);
  (409690208251177187, 33); (410873591021761983, 33); (412066242794716309, 33); (413268320025027761, 33);
  (414479983166557671, 33); (415701396809897257, 33); (416932729826223068, 33); (418174155517468832, 33);
  (419425851773149282, 33); (420688001234192956, 33); (421960791464163570, 33); (423244415128274004, 33);
  (424539070180622584, 33); (425844960060109453, 33); (427162293895520534, 33); (428491286720299892, 33);
  (429832159697564367, 33); (431185140355953613, 33); (432550462836947651, 33); (433928368154328449, 33);
  (435319104466508757, 33); (436722927362501830, 33); (438140100162361367, 33); (439570894232979693, 33);
  (441015589320196769, 33); (442474473898242448, 33); (443947845537609534, 33); (445436011292537968, 33);
  (446939288109378534, 33); (448458003257202595, 33); (449992494782128535, 33); (451543111986951658, 33);
  (453110215937788517, 33); (454694179999583812, 33); (456295390402477505, 33); (457914246841191694, 33);
  (459551163109777973, 33); (461206567774257927, 33); (462880904885908994, 33); (464574634738177881, 33);
  (466288234670469284, 33); (468022199922335617, 33); (469777044541914934, 33); (471553302352804213, 33);
  (473351527983943201, 33); (475172297967502213, 33); (477016211910241770, 33); (478883893744324138, 33);
  (480775993064140985, 33); (482693186556356576, 33); (484636179531083447, 33); (486605707562900925, 33);
  (488602538251317563, 33); (490627473111269884, 33); (492681349605364941, 33); (494765043330822740, 33);
  (496879470375476390, 33); (499025589858770085, 33); (501204406675475713, 33); (503416974461862417, 33);
  (505664398806332965, 33); (507947840729125887, 33); (510268520458620140, 33); (512627721535126601, 33);
  (515026795276867394, 33); (517467165647217501, 33); (519950334567288038, 33); (522477887723691122, 33);
  (525051500927957739, 33); (527672947091743395, 33); (530344103890830216, 33); (533066962201238118, 33);
  (535843635402765046, 33); (538676369659293412, 33); (541567555301633775, 33); (544519739457988136, 33);
  (547535640099899782, 33); (550618161698517219, 33); (553770412718034299, 33); (556995725211362223, 33);
  (560297676828819863, 33); (563680115605603882, 33); (567147187960177049, 33); (570703370416234636, 33);
  (574353505659037883, 33); (578102843657118577, 33); (581957088728395689, 33); (585922453613072497, 33);
  (590005721844059276, 33); (594214319991934545, 33); (598556401722680686, 33); (603040946065420216, 33);
  (607677872874969880, 33); (612478179232220788, 33); (617454101511974155, 33); (622619309143385482, 33);
  (627989137805828684, 33); (633580872104132808, 33); (639414090884648266, 33); (645511092628449050, 33);
  (651897424297094042, 33); (658602545376047753, 33); (665660670840558245, 33); (673111854210230591, 33);
  (681003397732669891, 33); (689391715925600510, 33); (698344839449975845, 33); (707945842906517828, 33);
  (718297638387021814, 33); (729529844515185979, 33); (741808911905442455, 33); (755353552220360039, 33);
  (770459195679784070, 33); (787538659776905717, 33); (807193901521411435, 33); (830352530063857217, 33);
  (858554763842056565, 33); (894646544346688949, 33); (944845067108994447, 33); (102764069967626247, 32)]%Z.
(** expo.go:305-562, as float64 *)
Definition expoW_bin : list (Z * Z) := [
  (5773707352475599, -102); (4546401829011641, -110); (7408952677839616, -110); (4823366671992391, -109);
  (5771895969696393, -109); (6610438411383616, -109); (7370862650957756, -109); (8072290663100047, -109);
  (8727216003307230, -109); (4672156597775647, -108); (4964943128871482, -108); (5244341028084195, -108);
  (5512188978504082, -108); (5769944912412824, -108); (6018787486640776, -108); (6259685342479292, -108);
  (6493445802075857, -108); (6720749987295593, -108); (6942178709411349, -108); (7158231925054171, -108);
  (7369343606809852, -108); (7575893281263981, -108); (7778215102452511, -108); (7976605073939070, -108);
  (8171326860453541, -108); (8362616511221267, -108); (8550686333736268, -108); (8735728097278400, -108);
  (8917915702457184, -108); (4548703710760592, -107); (4637173895377566, -107); (4724434609352372, -107);
  (4810546680314061, -107); (4895566149675097, -107); (4979544782396159, -107); (5062530509142402, -107);
  (5144567811462330, -107); (5225698058701631, -107); (5305959803834066, -107); (5385389044162942, -107);
  (5464019451854219, -107); (5541882578455843, -107); (5619008036898853, -107); (5695423663934460, -107);
  (5771155665514362, -107); (5846228747250791, -107); (5920666231783847, -107); (5994490164625131, -107);
  (6067721409829389, -107); (6140379736662576, -107); (6212483898279544, -107); (6284051703292590, -107);
  (6355100080999622, -107); (6425645140944416, -107); (6495702227398833, -107); (6565285969285696, -107);
  (6634410325999617, -107); (6703088629529894, -107); (6771333623243369, -107); (6839157497644992, -107);
  (6906571923398717, -107); (6973588081860684, -107); (7040216693349727, -107); (7106468043356585, -107);
  (7172352006872396, -107); (7237878070998630, -107); (7303055355984393, -107); (7367892634822598, -107);
  (7432398351523736, -107); (7496580638174572, -107); (7560447330878974, -107); (7624005984669021, -107);
  (7687263887466457, -107); (7750228073167289, -107); (7812905333915843, -107); (7875302231628745, -107);
  (7937425108824047, -107); (7999280098805956, -107); (8060873135251390, -107); (8122209961240686, -107);
  (8183296137771314, -107); (8244137051790279, -107); (8304737923778016, -107); (8365103814913985, -107);
  (8425239633851785, -107); (8485150143129463, -107); (8544839965238717, -107); (8604313588374889, -107);
  (8663575371888013, -107); (8722629551453679, -107); (8781480243981100, -107); (8840131452274493, -107);
  (8898587069462767, -107); (8956850883211408, -107); (4507463289864751, -106); (4536408873791968, -106);
  (4565263940665987, -106); (4594030192491338, -106); (4622709287648445, -106); (4651302842467459, -106);
  (4679812432730180, -106); (4708239595104036, -106); (4736585828511843, -106); (4764852595440806, -106);
  (4793041323194043, -106); (4821153405087663, -106); (4849190201596277, -106); (4877153041449621, -106);
  (4905043222682819, -106); (4932862013642659, -106); (4960610653952101, -106); (4988290355435128, -106);
  (5015902303003908, -106); (5043447655510119, -106); (5070927546562203, -106); (5098343085310191, -106);
  (5125695357199651, -106); (5152985424696252, -106); (5180214327982300, -106); (5207383085626590, -106);
  (5234492695228787, -106); (5261544134039525, -106); (5288538359557326, -106); (5315476310103392, -106);
  (5342358905375259, -106); (5369187046980260, -106); (5395961618949691, -106); (5422683488234513, -106);
  (5449353505183418, -106); (5475972504003993, -106); (5502541303207721, -106); (5529060706039515, -106);
  (5555531500892407, -106); (5581954461708050, -106); (5608330348363598, -106); (5634659907045530, -106);
  (5660943870610964, -106); (5687182958936950, -106); (5713377879258252, -106); (5739529326494050, -106);
  (5765637983564032, -106); (5791704521694272, -106); (5817729600713312, -106); (5843713869338812, -106);
  (5869657965455151, -106); (5895562516382308, -106); (5921428139136373, -106); (5947255440681992, -106);
  (5973045018177053, -106); (5998797459209905, -106); (6024513342029388, -106); (6050193235767933, -106);
  (6075837700657990, -106); (6101447288242030, -106); (6127022541576342, -106); (6152563995428865, -106);
  (6178072176471247, -106); (6203547603465358, -106); (6228990787444428, -106); (6254402231889026, -106);
  (6279782432898031, -106); (6305131879354791, -106); (6330451053088621, -106); (6355740429031803, -106);
  (6381000475372249, -106); (6406231653701961, -106); (6431434419161430, -106); (6456609220580122, -106);
  (6481756500613165, -106); (6506876695874374, -106); (6531970237065724, -106); (6557037549103398, -106);
  (6582079051240507, -106); (6607095157186600, -106); (6632086275224069, -106); (6657052808321530, -106);
  (6681995154244295, -106); (6706913705662022, -106); (6731808850253620, -106); (6756680970809509, -106);
  (6781530445331310, -106); (6806357647129040, -106); (6831162944915900, -106); (6855946702900715, -106);
  (6880709280878109, -106); (6905451034316480, -106); (6930172314443831, -106); (6954873468331539, -106);
  (6979554838976107, -106); (7004216765378966, -106); (7028859582624386, -106); (7053483621955542, -106);
  (7078089210848800, -106); (7102676673086269, -106); (7127246328826662, -106); (7151798494674530, -106);
  (7176333483747901, -106); (7200851605744374, -106); (7225353167005718, -106); (7249838470581002, -106);
  (7274307816288320, -106); (7298761500775121, -106); (7323199817577212, -106); (7347623057176452, -106);
  (7372031507057174, -106); (7396425451761379, -106); (7420805172942723, -106); (7445170949419345, -106);
  (7469523057225551, -106); (7493861769662393, -106); (7518187357347169, -106); (7542500088261886, -106);
  (7566800227800684, -106); (7591088038816280, -106); (7615363781665441, -106); (7639627714253507, -106);
  (7663880092078009, -106); (7688121168271375, -106); (7712351193642780, -106); (7736570416719137, -106);
  (7760779083785262, -106); (7784977438923233, -106); (7809165724050964, -106); (7833344178960005, -106);
  (7857513041352604, -106); (7881672546878032, -106); (7905822929168200, -106); (7929964419872583, -106);
  (7954097248692466, -106); (7978221643414534, -106); (8002337829943808, -106); (8026446032335967, -106);
  (8050546472829048, -106); (8074639371874546, -106); (8098724948167939, -106); (8122803418678635, -106);
  (8146874998679367, -106); (8170939901775042, -106); (8194998339931064, -106); (8219050523501135, -106);
  (8243096661254549, -106); (8267136960403002, -106); (8291171626626908, -106); (8315200864101250, -106);
  (8339224875520968, -106); (8363243862125903, -106); (8387258023725293, -106); (8411267558721848, -106);
  (8435272664135400, -106); (8459273535626146, -106); (8483270367517491, -106); (8507263352818493, -106);
  (8531252683245935, -106); (8555238549246017, -106); (8579221140015679, -106); (8603200643523578, -106);
  (8627177246530700, -106); (8651151134610641, -106); (8675122492169551, -106); (8699091502465749, -106);
  (8723058347629016, -106); (8747023208679584, -106); (8770986265546809, -106); (8794947697087549, -106);
  (8818907681104250, -106); (8842866394362741, -106); (8866824012609754, -106); (8890780710590167, -106);
  (8914736662063975, -106); (8938692039823006, -106); (8962647015707371, -106); (8986601760621671, -106);
  (4505278222275474, -105); (4517255618288201, -105); (4529233152445437, -105); (4541210908407042, -105);
  (4553188969403831, -105); (4565167418244970, -105); (4577146337325269, -105); (4589125808632369, -105);
  (4601105913753819, -105); (4613086733884059, -105); (4625068349831296, -105); (4637050842024291, -105);
  (4649034290519039, -105); (4661018775005366, -105); (4673004374813429, -105); (4684991168920125, -105);
  (4696979235955417, -105); (4708968654208566, -105); (4720959501634290, -105); (4732951855858826, -105);
  (4744945794185922, -105); (4756941393602749, -105); (4768938730785725, -105); (4780937882106276, -105);
  (4792938923636513, -105); (4804941931154841, -105); (4816946980151491, -105); (4828954145833991, -105);
  (4840963503132556, -105); (4852975126705419, -105); (4864989090944098, -105); (4877005469978586, -105);
  (4889024337682493, -105); (4901045767678113, -105); (4913069833341438, -105); (4925096607807111, -105);
  (4937126163973315, -105); (4949158574506612, -105); (4961193911846725, -105); (4973232248211255, -105);
  (4985273655600360, -105); (4997318205801368, -105); (5009365970393344, -105); (5021417020751608, -105);
  (5033471428052194, -105); (5045529263276276, -105); (5057590597214529, -105); (5069655500471454, -105);
  (5081724043469657, -105); (5093796296454078, -105); (5105872329496177, -105); (5117952212498083, -105);
  (5130036015196692, -105); (5142123807167729, -105); (5154215657829770, -105); (5166311636448220, -105);
  (5178411812139255, -105); (5190516253873729, -105); (5202625030481035, -105); (5214738210652937, -105);
  (5226855862947367, -105); (5238978055792179, -105); (5251104857488875, -105); (5263236336216297, -105);
  (5275372560034286, -105); (5287513596887304, -105); (5299659514608032, -105); (5311810380920932, -105);
  (5323966263445781, -105); (5336127229701172, -105); (5348293347107993, -105); (5360464682992870, -105);
  (5372641304591589, -105); (5384823279052483, -105); (5397010673439803, -105); (5409203554737053, -105);
  (5421401989850305, -105); (5433606045611491, -105); (5445815788781665, -105); (5458031286054243, -105);
  (5470252604058227, -105); (5482479809361397, -105); (5494712968473483, -105); (5506952147849322, -105);
  (5519197413891984, -105); (5531448832955888, -105); (5543706471349888, -105); (5555970395340345, -105);
  (5568240671154182, -105); (5580517364981913, -105); (5592800542980663, -105); (5605090271277160, -105);
  (5617386615970720, -105); (5629689643136209, -105); (5641999418826991, -105); (5654316009077858, -105);
  (5666639479907945, -105); (5678969897323636, -105); (5691307327321444, -105); (5703651835890887, -105);
  (5716003489017345, -105); (5728362352684905, -105); (5740728492879193, -105); (5753101975590192, -105);
  (5765482866815051, -105); (5777871232560881, -105); (5790267138847534, -105); (5802670651710380, -105);
  (5815081837203069, -105); (5827500761400280, -105); (5839927490400464, -105); (5852362090328575, -105);
  (5864804627338797, -105); (5877255167617251, -105); (5889713777384704, -105); (5902180522899269, -105);
  (5914655470459087, -105); (5927138686405015, -105); (5939630237123296, -105); (5952130189048230, -105);
  (5964638608664832, -105); (5977155562511490, -105); (5989681117182608, -105); (6002215339331257, -105);
  (6014758295671808, -105); (6027310052982563, -105); (6039870678108389, -105); (6052440237963341, -105);
  (6065018799533276, -105); (6077606429878476, -105); (6090203196136258, -105); (6102809165523586, -105);
  (6115424405339672, -105); (6128048982968588, -105); (6140682965881864, -105); (6153326421641086, -105);
  (6165979417900502, -105); (6178642022409612, -105); (6191314303015766, -105); (6203996327666763, -105);
  (6216688164413440, -105); (6229389881412272, -105); (6242101546927964, -105); (6254823229336047, -105);
  (6267554997125473, -105); (6280296918901213, -105); (6293049063386851, -105); (6305811499427190, -105);
  (6318584295990848, -105); (6331367522172863, -105); (6344161247197295, -105); (6356965540419841, -105);
  (6369780471330439, -105); (6382606109555885, -105); (6395442524862449, -105); (6408289787158499, -105);
  (6421147966497122, -105); (6434017133078754, -105); (6446897357253816, -105); (6459788709525348, -105);
  (6472691260551658, -105); (6485605081148964, -105); (6498530242294053, -105); (6511466815126940, -105);
  (6524414870953532, -105); (6537374481248301, -105); (6550345717656965, -105); (6563328651999172, -105);
  (6576323356271193, -105); (6589329902648623, -105); (6602348363489089, -105); (6615378811334966, -105);
  (6628421318916101, -105); (6641475959152548, -105); (6654542805157306, -105); (6667621930239072, -105);
  (6680713407905000, -105); (6693817311863474, -105); (6706933716026882, -105); (6720062694514410, -105);
  (6733204321654838, -105); (6746358671989358, -105); (6759525820274387, -105); (6772705841484406, -105);
  (6785898810814803, -105); (6799104803684728, -105); (6812323895739965, -105); (6825556162855808, -105);
  (6838801681139961, -105); (6852060526935438, -105); (6865332776823487, -105); (6878618507626522, -105);
  (6891917796411070, -105); (6905230720490736, -105); (6918557357429170, -105); (6931897785043069, -105);
  (6945252081405173, -105); (6958620324847290, -105); (6972002593963333, -105); (6985398967612370, -105);
  (6998809524921697, -105); (7012234345289915, -105); (7025673508390041, -105); (7039127094172621, -105);
  (7052595182868871, -105); (7066077854993827, -105); (7079575191349519, -105); (7093087273028164, -105);
  (7106614181415375, -105); (7120155998193385, -105); (7133712805344303, -105); (7147284685153374, -105);
  (7160871720212274, -105); (7174473993422412, -105); (7188091587998263, -105); (7201724587470717, -105);
  (7215373075690450, -105); (7229037136831318, -105); (7242716855393772, -105); (7256412316208296, -105);
  (7270123604438867, -105); (7283850805586441, -105); (7297594005492459, -105); (7311353290342376, -105);
  (7325128746669221, -105); (7338920461357176, -105); (7352728521645180, -105); (7366553015130560, -105);
  (7380394029772690, -105); (7394251653896669, -105); (7408125976197037, -105); (7422017085741507, -105);
  (7435925071974728, -105); (7449850024722080, -105); (7463792034193492, -105); (7477751190987291, -105);
  (7491727586094079, -105); (7505721310900639, -105); (7519732457193876, -105); (7533761117164777, -105);
  (7547807383412417, -105); (7561871348947983, -105); (7575953107198836, -105); (7590052752012604, -105);
  (7604170377661310, -105); (7618306078845525, -105); (7632459950698565, -105); (7646632088790716, -105);
  (7660822589133493, -105); (7675031548183935, -105); (7689259062848940, -105); (7703505230489626, -105);
  (7717770148925739, -105); (7732053916440091, -105); (7746356631783035, -105); (7760678394176988, -105);
  (7775019303320977, -105); (7789379459395235, -105); (7803758963065838, -105); (7818157915489369, -105);
  (7832576418317641, -105); (7847014573702444, -105); (7861472484300346, -105); (7875950253277531, -105);
  (7890447984314678, -105); (7904965781611893, -105); (7919503749893670, -105); (7934061994413914, -105);
  (7948640620960995, -105); (7963239735862855, -105); (7977859445992161, -105); (7992499858771505, -105);
  (8007161082178651, -105); (8021843224751832, -105); (8036546395595094, -105); (8051270704383692, -105);
  (8066016261369536, -105); (8080783177386690, -105); (8095571563856918, -105); (8110381532795288, -105);
  (8125213196815826, -105); (8140066669137229, -105); (8154942063588626, -105); (8169839494615398, -105);
  (8184759077285056, -105); (8199700927293178, -105); (8214665160969392, -105); (8229651895283436, -105);
  (8244661247851264, -105); (8259693336941213, -105); (8274748281480241, -105); (8289826201060220, -105);
  (8304927215944288, -105); (8320051447073273, -105); (8335199016072180, -105); (8350370045256739, -105);
  (8365564657640023, -105); (8380782976939132, -105); (8396025127581950, -105); (8411291234713962, -105);
  (8426581424205150, -105); (8441895822656956, -105); (8457234557409320, -105); (8472597756547785, -105);
  (8487985548910683, -105); (8503398064096396, -105); (8518835432470687, -105); (8534297785174116, -105);
  (8549785254129527, -105); (8565297972049623, -105); (8580836072444616, -105); (8596399689629957, -105);
  (8611988958734154, -105); (8627604015706677, -105); (8643244997325932, -105); (8658912041207347, -105);
  (8674605285811520, -105); (8690324870452475, -105); (8706070935305998, -105); (8721843621418068, -105);
  (8737643070713381, -105); (8753469426003968, -105); (8769322830997907, -105); (8785203430308134, -105);
  (8801111369461351, -105); (8817046794907032, -105); (8833009854026538, -105); (8849000695142321, -105);
  (8865019467527245, -105); (8881066321414008, -105); (8897141408004664, -105); (8913244879480268, -105);
  (8929376889010618, -105); (8945537590764115, -105); (8961727139917738, -105); (8977945692667128, -105);
  (8994193406236796, -105); (4505235219445221, -104); (4513388474970701, -104); (4521556549881607, -104);
  (4529739524900149, -104); (4537937481289392, -104); (4546150500858723, -104); (4554378665969386, -104);
  (4562622059540087, -104); (4570880765052659, -104); (4579154866557800, -104); (4587444448680875, -104);
  (4595749596627793, -104); (4604070396190948, -104); (4612406933755241, -104); (4620759296304164, -104);
  (4629127571425966, -104); (4637511847319892, -104); (4645912212802496, -104); (4654328757314036, -104);
  (4662761570924943, -104); (4671210744342369, -104); (4679676368916824, -104); (4688158536648885, -104);
  (4696657340195998, -104); (4705172872879355, -104); (4713705228690865, -104); (4722254502300210, -104);
  (4730820789061988, -104); (4739404185022951, -104); (4748004786929325, -104); (4756622692234237, -104);
  (4765257999105221, -104); (4773910806431835, -104); (4782581213833364, -104); (4791269321666626, -104);
  (4799975231033882, -104); (4808699043790843, -104); (4817440862554781, -104); (4826200790712753, -104);
  (4834978932429921, -104); (4843775392657988, -104); (4852590277143744, -104); (4861423692437725, -104);
  (4870275745902979, -104); (4879146545723962, -104); (4888036200915534, -104); (4896944821332095, -104);
  (4905872517676822, -104); (4914819401511050, -104); (4923785585263761, -104); (4932771182241215, -104);
  (4941776306636701, -104); (4950801073540428, -104); (4959845598949542, -104); (4968909999778288, -104);
  (4977994393868306, -104); (4987098899999070, -104); (4996223637898467, -104); (5005368728253530, -104);
  (5014534292721307, -104); (5023720453939898, -104); (5032927335539625, -104); (5042155062154378, -104);
  (5051403759433106, -104); (5060673554051473, -104); (5069964573723683, -104); (5079276947214466, -104);
  (5088610804351237, -104); (5097966276036428, -104); (5107343494259991, -104); (5116742592112091, -104);
  (5126163703795967, -104); (5135606964640989, -104); (5145072511115898, -104); (5154560480842241, -104);
  (5164071012607998, -104); (5173604246381408, -104); (5183160323325002, -104); (5192739385809831, -104);
  (5202341577429919, -104); (5211967043016911, -104); (5221615928654955, -104); (5231288381695790, -104);
  (5240984550774071, -104); (5250704585822914, -104); (5260448638089678, -104); (5270216860151984, -104);
  (5280009405933977, -104); (5289826430722828, -104); (5299668091185492, -104); (5309534545385721, -104);
  (5319425952801336, -104); (5329342474341758, -104); (5339284272365819, -104); (5349251510699838, -104);
  (5359244354655982, -104); (5369262971050913, -104); (5379307528224717, -104); (5389378196060139, -104);
  (5399475146002112, -104); (5409598551077597, -104); (5419748585915735, -104); (5429925426768316, -104);
  (5440129251530574, -104); (5450360239762315, -104); (5460618572709381, -104); (5470904433325457, -104);
  (5481218006294229, -104); (5491559478051904, -104); (5501929036810087, -104); (5512326872579036, -104);
  (5522753177191295, -104); (5533208144325710, -104); (5543691969531841, -104); (5554204850254779, -104);
  (5564746985860368, -104); (5575318577660851, -104); (5585919828940933, -104); (5596550944984292, -104);
  (5607212133100523, -104); (5617903602652539, -104); (5628625565084435, -104); (5639378233949826, -104);
  (5650161824940655, -104); (5660976555916507, -104); (5671822646934413, -104); (5682700320279170, -104);
  (5693609800494183, -104); (5704551314412842, -104); (5715525091190435, -104); (5726531362336626, -104);
  (5737570361748495, -104); (5748642325744158, -104); (5759747493096982, -104); (5770886105070396, -104);
  (5782058405453324, -104); (5793264640596253, -104); (5804505059447932, -104); (5815779913592742, -104);
  (5827089457288727, -104); (5838433947506316, -104); (5849813643967750, -104); (5861228809187215, -104);
  (5872679708511717, -104); (5884166610162705, -104); (5895689785278448, -104); (5907249507957212, -104);
  (5918846055301216, -104); (5930479707461424, -104); (5942150747683159, -104); (5953859462352578, -104);
  (5965606141044019, -104); (5977391076568242, -104); (5989214565021583, -104); (6001076905836043, -104);
  (6012978401830336, -104); (6024919359261910, -104); (6036900087879973, -104); (6048920900979540, -104);
  (6060982115456536, -104); (6073084051863960, -104); (6085227034469151, -104); (6097411391312188, -104);
  (6109637454265420, -104); (6121905559094196, -104); (6134216045518780, -104); (6146569257277519, -104);
  (6158965542191261, -104); (6171405252229077, -104); (6183888743575306, -104); (6196416376697958, -104);
  (6208988516418509, -104); (6221605531983127, -104); (6234267797135351, -104); (6246975690190273, -104);
  (6259729594110255, -104); (6272529896582215, -104); (6285376990096529, -104); (6298271272027586, -104);
  (6311213144716035, -104); (6324203015552773, -104); (6337241297064714, -104); (6350328407002383, -104);
  (6363464768429393, -104); (6376650809813835, -104); (6389886965121650, -104); (6403173673912021, -104);
  (6416511381434840, -104); (6429900538730317, -104); (6443341602730768, -104); (6456835036364652, -104);
  (6470381308662919, -104); (6483980894867719, -104); (6497634276543551, -104); (6511341941690900, -104);
  (6525104384862449, -104); (6538922107281917, -104); (6552795616965613, -104); (6566725428846764, -104);
  (6580712064902709, -104); (6594756054285022, -104); (6608857933452663, -104); (6623018246308230, -104);
  (6637237544337402, -104); (6651516386751664, -104); (6665855340634411, -104); (6680254981090517, -104);
  (6694715891399484, -104); (6709238663172257, -104); (6723823896511823, -104); (6738472200177700, -104);
  (6753184191754435, -104); (6767960497824214, -104); (6782801754143726, -104); (6797708605825393, -104);
  (6812681707523097, -104); (6827721723622547, -104); (6842829328436419, -104); (6858005206404414, -104);
  (6873250052298388, -104); (6888564571432703, -104); (6903949479879963, -104); (6919405504692309, -104);
  (6934933384128423, -104); (6950533867886450, -104); (6966207717342997, -104); (6981955705798418, -104);
  (6997778618728576, -104); (7013677254043291, -104); (7029652422351693, -104); (7045704947234686, -104);
  (7061835665524783, -104); (7078045427593520, -104); (7094335097646720, -104); (7110705554027859, -104);
  (7127157689529794, -104); (7143692411715149, -104); (7160310643245629, -104); (7177013322220588, -104);
  (7193801402525132, -104); (7210675854188112, -104); (7227637663750333, -104); (7244687834643328, -104);
  (7261827387579068, -104); (7279057360950994, -104); (7296378811246757, -104); (7313792813473090, -104);
  (7331300461593235, -104); (7348902868977381, -104); (7366601168866570, -104); (7384396514850567, -104);
  (7402290081360202, -104); (7420283064174704, -104); (7438376680944591, -104); (7456572171730679, -104);
  (7474870799559829, -104); (7493273850998037, -104); (7511782636741543, -104); (7530398492226631, -104);
  (7549122778258834, -104); (7567956881662301, -104); (7586902215950094, -104); (7605960222016240, -104);
  (7625132368850387, -104); (7644420154275957, -104); (7663825105712733, -104); (7683348780964857, -104);
  (7702992769035252, -104); (7722758690967566, -104); (7742648200716726, -104); (7762662986049315, -104);
  (7782804769474979, -104); (7803075309210172, -104); (7823476400175595, -104); (7844009875028743, -104);
  (7864677605233082, -104); (7885481502165387, -104); (7906423518262928, -104); (7927505648212218, -104);
  (7948729930181143, -104); (7970098447096402, -104); (7991613327968261, -104); (8013276749264753, -104);
  (8035090936337543, -104); (8057058164901822, -104); (8079180762572699, -104); (8101461110460707, -104);
  (8123901644829171, -104); (8146504858816344, -104); (8169273304225375, -104); (8192209593385342, -104);
  (8215316401086769, -104); (8238596466595225, -104); (8262052595746837, -104); (8285687663129741, -104);
  (8309504614355729, -104); (8333506468426634, -104); (8357696320200215, -104); (8382077342960615, -104);
  (8406652791098772, -104); (8431426002908474, -104); (8456400403504094, -104); (8481579507866437, -104);
  (8506966924023505, -104); (8532566356373421, -104); (8558381609157211, -104); (8584416590089639, -104);
  (8610675314156810, -104); (8637161907589826, -104); (8663880612024383, -104); (8690835788856872, -104);
  (8718031923808218, -104); (8745473631707487, -104); (8773165661508082, -104); (8801112901550249, -104);
  (8829320385084562, -104); (8857793296072078, -104); (8886536975277983, -104); (8915556926676740, -104);
  (8944858824188060, -104); (8974448518764433, -104); (9004332045852480, -104); (4517257816626033, -103);
  (4532502854699450, -103); (4547904456049169, -103); (4563466048870109, -103); (4579191175513455, -103);
  (4595083497624642, -103); (4611146801574040, -103); (4627385004200599, -103); (4643802158890354, -103);
  (4660402462013528, -103); (4677190259745917, -103); (4694170055302468, -103); (4711346516613293, -103);
  (4728724484475055, -103); (4746308981213481, -103); (4764105219896017, -103); (4782118614137088, -103);
  (4800354788542361, -103); (4818819589842650, -103); (4837519098772914, -103); (4856459642756993, -103);
  (4875647809464651, -103); (4895090461313937, -103); (4914794750999151, -103); (4934768138132749, -103);
  (4955018407098553, -103); (4975553686223686, -103); (4996382468387960, -103); (5017513633202107, -103);
  (5038956470900459, -103); (5060720708109729, -103); (5082816535673603, -103); (5105254638733273, -103);
  (5128046229287158, -103); (5151203081479276, -103); (5174737569895523, -103); (5198662711181063, -103);
  (5222992209330739, -103); (5247740505048767, -103); (5272922829624731, -103); (5298555263831316, -103);
  (5324654802416467, -103); (5351239424840378, -103); (5378328172997707, -103); (5405941236769907, -103);
  (5434100048374333, -103); (5462827386618935, -103); (5492147492338007, -103); (5522086196480302, -103);
  (5552671062551886, -103); (5583931545389517, -103); (5615899168565204, -103); (5648607723109930, -103);
  (5682093490708288, -103); (5716395495073292, -103); (5751555785883767, -103); (5787619760483307, -103);
  (5824636529534937, -103); (5862659334044741, -103); (5901746022668990, -103); (5941959600078466, -103);
  (5983368859469692, -103); (6026049115215880, -103); (6070083055313643, -103); (6115561737936234, -103);
  (6162585762362954, -103); (6211266652243342, -103); (6261728499160289, -103); (6314109927594385, -103);
  (6368566459810936, -103); (6425273382527432, -103); (6484429248834496, -103); (6546260192195469, -103);
  (6611025289579584, -103); (6679023295662293, -103); (6750601191514876, -103); (6826165168082682, -103);
  (6906194927146261, -103); (6991262579883652, -103); (7082058039160387, -103); (7179423781516217, -103);
  (7284403459550623, -103); (7398311562272659, -103); (7522836099452671, -103); (7660195070853317, -103);
  (7813384494838697, -103); (7986590838153039, -103); (8185918670113468, -103); (8420775065091820, -103);
  (8706779693705510, -103); (4536396915732766, -102); (4790933665773594, -102); (5210757399054287, -102)]%Z.
(** expo.go:564-821, as written *)
Definition expoF_dec : list (Z * Z) := [
  (100000000000000000, 17); (968945415010992406, 18); (949889196388417734, 18); (935253503977446332, 18);
  (923022980182970576, 18); (912343913742377999, 18); (902766566511869151, 18); (894021426632391591, 18);
  (885932557172777080, 18); (878377875569187450, 18); (871268699374791011, 18); (864538272175399025, 18);
  (858134889483703867, 18); (852017559763211696, 18); (846153146776933429, 18); (840514419977236971, 18);
  (835078684225500689, 18); (829826791867500857, 18); (824742414617106068, 18); (819811496498238590, 18);
  (815021835792814509, 18); (810362760725640840, 18); (805824874458240470, 18); (801399852137199997, 18);
  (797080277593054665, 18); (792859510629635666, 18); (788731578189985183, 18); (784691084357616253, 18);
  (780733135361913133, 18); (776853276643614366, 18); (773047439694789729, 18); (769311896882065360, 18);
  (765643222836894122, 18); (762038261284015528, 18); (758494096401405415, 18); (755008027978255836, 18);
  (751577549773686071, 18); (748200330586717310, 18); (744874197634032620, 18); (741597121901076739, 18);
  (738367205187811071, 18); (735182668615751433, 18); (732041842399939080, 18); (728943156719906393, 18);
  (725885133548809014, 18); (722866379320717622, 18); (719885578333421372, 18); (716941486798615135, 18);
  (714032927463546851, 18); (711158784738500138, 18); (708318000273201132, 18); (705509568932652931, 18);
  (702732535129217184, 18); (699985989473171366, 18); (697269065708607139, 18); (694580937905535545, 18);
  (691920817882511030, 18); (689287952837074336, 18); (686681623163910348, 18); (684101140442869071, 18);
  (681545845580976417, 18); (679015107094277037, 18); (676508319516868628, 18); (674024901925812103, 18);
  (671564296571774522, 18); (669125967606291172, 18); (666709399897449817, 18); (664314097926606451, 18);
  (661939584759462352, 18); (659585401085470702, 18); (657251104320109802, 18); (654936267765070079, 18);
  (652640479821855801, 18); (650363343254706905, 18); (648104474499118455, 18); (645863503012554574, 18);
  (643640070664256547, 18); (641433831161305923, 18); (639244449508346468, 18); (637071601498584217, 18);
  (634914973233881241, 18); (632774260671937538, 18); (630649169198716941, 18); (628539413224417198, 18);
  (626444715801421137, 18); (624364808262785287, 18); (622299429879931032, 18); (620248327538310606, 18);
  (618211255429903850, 18); (616187974761494450, 18); (614178253477745129, 18); (612181865998166153, 18);
  (610198592967134523, 18); (608228221016181014, 18); (606270542537818757, 18); (604325355470234138, 18);
  (602392463092211172, 18); (600471673827700170, 18); (598562801059483118, 18); (596665662951422315, 18);
  (594780082278816513, 18); (592905886266414717, 18); (591042906433671189, 18); (589190978446849645, 18);
  (587349941977609258, 18); (585519640567729871, 18); (583699921499652996, 18); (581890635672535850, 18);
  (580091637483535205, 18); (578302784714053386, 18); (576523938420695048, 18); (574754962830699268, 18);
  (572995725241623455, 18); (571246095925071362, 18); (569505948034266130, 18); (567775157515283291, 18);
  (566053603021768215, 18); (564341165832971670, 18); (562637729774947970, 18); (560943181144766934, 18);
  (559257408637601205, 18); (557580303276555500, 18); (555911758345113416, 18); (554251669322083917, 18);
  (552599933818934130, 18); (550956451519404422, 18); (549321124121302184, 18); (547693855280382058, 18);
  (546074550556219340, 18); (544463117359992643, 18); (542859464904093314, 18); (541263504153483788, 18);
  (539675147778732156, 18); (538094310110651897, 18); (536520907096481925, 18); (534954856257540912, 18);
  (533396076648298023, 18); (531844488816802352, 18); (530300014766414196, 18); (528762577918789112, 18);
  (527232103078063563, 18); (525708516396194092, 18); (524191745339406934, 18); (522681718655712557, 18);
  (521178366343446720, 18); (519681619620796287, 18); (518191410896273408, 18); (516707673740102957, 18);
  (515230342856487833, 18); (513759354056719575, 18); (512294644233103558, 18); (510836151333668664, 18);
  (509383814337632579, 18); (507937573231595163, 18); (506497368986433938, 18); (505063143534877135, 18);
  (503634839749728336, 18); (502212401422722166, 18); (500795773243986830, 18); (499384900782093522, 18);
  (497979730464671533, 18); (496580209559570440, 18); (495186286156549860, 18); (493797909149479353, 18);
  (492415028219030659, 18); (491037593815846496, 18); (489665557144169317, 18); (488298870145914887, 18);
  (486937485485176458, 18); (485581356533144659, 18); (484230437353430188, 18); (482884682687775846, 18);
  (481544047942145836, 18); (480208489173179431, 18); (478877963074997970, 18); (477552426966354582, 18);
  (476231838778113925, 18); (474916157041053999, 18); (473605340873978209, 18); (472299349972128746, 18);
  (470998144595892287, 18); (469701685559788251, 18); (468409934221731883, 18); (467122852472563244, 18);
  (465840402725834490, 18); (464562547907847234, 18); (463289251447933093, 18); (462020477268969720, 18);
  (460756189778125824, 18); (459496353857828055, 18); (458240934856943449, 18); (456989898582171483, 18);
  (455743211289639016, 18); (454500839676692969, 18); (453262750873884734, 18); (452028912437140884, 18);
  (450799292340115010, 18); (449573858966715534, 18); (448352581103804715, 18); (447135427934063967, 18);
  (445922369029020382, 18); (444713374342231516, 18); (443508414202621992, 18); (442307459307969664, 18);
  (441110480718536202, 18); (439917449850838471, 18); (438728338471557067, 18); (437543118691578137, 18);
  (436361762960164989, 18); (435184244059256042, 18); (434010535097886119, 18); (432840609506727148, 18);
  (431674441032745770, 18); (430512003733974524, 18); (429353271974393824, 18); (428198220418921693, 18);
  (427046824028508742, 18); (425899058055335289, 18); (424754898038108619, 18); (423614319797457339, 18);
  (422477299431420539, 18); (421343813311029547, 18); (420213838075979895, 18); (419087350630390820, 18);
  (417964328138651198, 18); (416844748021348355, 18); (415728587951278983, 18); (414615825849539543, 18);
  (413506439881694277, 18); (412400408454018874, 18); (411297710209818645, 18); (410198324025818073, 18);
  (409102229008621587, 18); (408009404491242844, 18); (406919830029700891, 18); (405833485399682559, 18);
  (404750350593268193, 18); (403670405815720723, 18); (402593631482335013, 18); (401520008215347501, 18);
  (400449516840904074, 18); (399382138386084551, 18); (398317854075983246, 18); (397256645330843650, 18);
  (396198493763246673, 18); (395143381175350250, 18); (394091289556180446, 18); (393042201078971531, 18);
  (391996098098555179, 18); (390952963148796961, 18); (389912778940079030, 18); (388875528356828593, 18);
  (387841194455090355, 18); (386809760460143037, 18); (385781209764157529, 18); (384755525923897557, 18);
  (383732692658460162, 18); (382712693847056473, 18); (381695513526831454, 18); (380681135890721389, 18);
  (379669545285349075, 18); (378660726208955134, 18); (377654663309365535, 18); (376651341381993687, 18);
  (375650745367876959, 18); (374652860351746719, 18); (373657671560131244, 18); (372665164359490708, 18);
  (371675324254383987, 18); (370688136885665653, 18); (369703588028713948, 18); (368721663591687843, 18);
  (367742349613813302, 18); (366765632263697905, 18); (365791497837673507, 18); (364819932758165710, 18);
  (363850923572090590, 18); (362884456949277345, 18); (361920519680916708, 18); (360959098678034496, 18);
  (360000180969989703, 18); (359043753702997182, 18); (358089804138673640, 18); (357138319652607006, 18);
  (356189287732948778, 18); (355242695979028411, 18); (354298532099989794, 18); (353356783913449435, 18);
  (352417439344175298, 18); (351480486422786675, 18); (350545913284474264, 18); (349613708167740067, 18);
  (348683859413156938, 18); (347756355462147226, 18); (346831184855780184, 18); (345908336233588021, 18);
  (344987798332399676, 18); (344069559985192897, 18); (343153610119963259, 18); (342239937758610557, 18);
  (341328532015841957, 18); (340419382098091694, 18); (339512477302456928, 18); (338607807015649243, 18);
  (337705360712962255, 18); (336805127957254202, 18); (335907098397945525, 18); (335011261770031654, 18);
  (334117607893109569, 18); (333226126670419509, 18); (332336808087899949, 18); (331449642213256734, 18);
  (330564619195045539, 18); (329681729261767698, 18); (328800962720978918, 18); (327922309958411151, 18);
  (327045761437106564, 18); (326171307696564106, 18); (325298939351898575, 18); (324428647093010780, 18);
  (323560421683770361, 18); (322694253961209598, 18); (321830134834728498, 18); (320968055285311527, 18);
  (320108006364754560, 18); (319249979194903444, 18); (318393964966902365, 18); (317539954940453117, 18);
  (316687940443084404, 18); (315837912869431081, 18); (314989863680523841, 18); (314143784403087600, 18);
  (313299666628850726, 18); (312457502013862465, 18); (311617282277820484, 18); (310778999203406958, 18);
  (309942644635634146, 18); (309108210481198020, 18); (308275688707841278, 18); (307445071343724619, 18);
  (306616350476806021, 18); (305789518254228898, 18); (304964566881717913, 18); (304141488622982903, 18);
  (303320275799130790, 18); (302500920788084882, 18); (301683416024012219, 18); (300867753996757858, 18);
  (300053927251287211, 18); (299241928387134759, 18); (298431750057860934, 18); (297623384970514993, 18);
  (296816825885105495, 18); (296012065614077335, 18); (295209097021795430, 18); (294407913024035184, 18);
  (293608506587479279, 18); (292810870729220685, 18); (292014998516272550, 18); (291220883065083591, 18);
  (290428517541060027, 18); (289637895158093517, 18); (288849009178094529, 18); (288061852910532212, 18);
  (287276419711979702, 18); (286492702985664704, 18); (285710696181026347, 18); (284930392793277143, 18);
  (284151786362970060, 18); (283374870475571639, 18); (282599638761039607, 18); (281826084893406104, 18);
  (281054202590365954, 18); (280283985612869713, 18); (279515427764721880, 18); (278748522892183881, 18);
  (277983264883581827, 18); (277219647668919100, 18); (276457665219493387, 18); (275697311547518642, 18);
  (274938580705751112, 18); (274181466787120187, 18); (273425963924363691, 18); (272672066289666837, 18);
  (271919768094306458, 18); (271169063588298620, 18); (270419947060050680, 18); (269672412836017727, 18);
  (268926455280362187, 18); (268182068794618533, 18); (267439247817361059, 18); (266697986823875688, 18);
  (265958280325835905, 18); (265220122870982233, 18); (264483509042805098, 18); (263748433460231968, 18);
  (263014890777317656, 18); (262282875682938232, 18); (261552382900488434, 18); (260823407187582790, 18);
  (260095943335759638, 18); (259369986170189082, 18); (258645530549383607, 18); (257922571364912756, 18);
  (257201103541120246, 18); (256481122034844689, 18); (255762621835143422, 18); (255045597963019399, 18);
  (254330045471150956, 18); (253615959443624861, 18); (252903334995672191, 18); (252192167273407042, 18);
  (251482451453568345, 18); (250774182743264407, 18); (250067356379720329, 18); (249361967630027936, 18);
  (248658011790898997, 18); (247955484188420588, 18); (247254380177813426, 18); (246554695143192754, 18);
  (245856424497331832, 18); (245159563681428050, 18); (244464108164871408, 18); (243770053445015733, 18);
  (243077395046952194, 18); (242386128523285255, 18); (241696249453911050, 18); (241007753445798334, 18);
  (240320636132771354, 18); (239634893175295433, 18); (238950520260264615, 18); (238267513100791695, 18);
  (237585867436000298, 18); (236905579030819380, 18); (236226643675779668, 18); (235549057186812488, 18);
  (234872815405050478, 18); (234197914196630524, 18); (233524349452498781, 18); (232852117088217542, 18);
  (232181213043774398, 18); (231511633283393192, 18); (230843373795346946, 18); (230176430591772813, 18);
  (229510799708488894, 18); (228846477204812881, 18); (228183459163382785, 18); (227521741689979184, 18);
  (226861320913349623, 18); (226202192985034550, 18); (225544354079195181, 18); (224887800392443160, 18);
  (224232528143671755, 18); (223578533573888932, 18); (222925812946052210, 18); (222274362544904819, 18);
  (221624178676814054, 18); (220975257669610708, 18); (220327595872430559, 18); (219681189655557219, 18);
  (219036035410266589, 18); (218392129548672931, 18); (217749468503576488, 18); (217108048728312547, 18);
  (216467866696602063, 18); (215828918902403716, 18); (215191201859767589, 18); (214554712102690087, 18);
  (213919446184970413, 18); (213285400680068571, 18); (212652572180964394, 18); (212020957300018492, 18);
  (211390552668834081, 18); (210761354938120510, 18); (210133360777557926, 18); (209506566875663353, 18);
  (208880969939658101, 18); (208256566695336348, 18); (207633353886935185, 18); (207011328277005746, 18);
  (206390486646285676, 18); (205770825793572948, 18); (205152342535600635, 18); (204535033706913116, 18);
  (203918896159743457, 18); (203303926763891835, 18); (202690122406605278, 18); (202077479992458509, 18);
  (201465996443235956, 18); (200855668697814765, 18); (200246493712049251, 18); (199638468458656043, 18);
  (199031589927100627, 18); (198425855123484901, 18); (197821261070435711, 18); (197217804806994551, 18);
  (196615483388508316, 18); (196014293886520946, 18); (195414233388666342, 18); (194815298998562036, 18);
  (194217487835704111, 18); (193620797035362863, 18); (193025223748479718, 18); (192430765141564847, 18);
  (191837418396596043, 18); (191245180710918228, 18); (190654049297144190, 18); (190064021383056059, 18);
  (189475094211507850, 18); (188887265040328739, 18); (188300531142227445, 18); (187714889804697388, 18);
  (187130338329922818, 18); (186546874034685645, 18); (185964494250273338, 18); (185383196322387617, 18);
  (184802977611053965, 18); (184223835490531979, 18); (183645767349226580, 18); (183068770589600083, 18);
  (182492842628085017, 18); (181917980894997805, 18); (181344182834453138, 18); (180771445904279376, 18);
  (180199767575934450, 18); (179629145334422785, 18); (179059576678212762, 18); (178491059119155221, 18);
  (177923590182402391, 18); (177357167406327926, 18); (176791788342447298, 18); (176227450555339282, 18);
  (175664151622567960, 18); (175101889134605421, 18); (174540660694755351, 18); (173980463919077122, 18);
  (173421296436310768, 18); (172863155887802461, 18); (172306039927430904, 18); (171749946221534167, 18);
  (171194872448837326, 18); (170640816300380777, 18); (170087775479449227, 18); (169535747701501122, 18);
  (168984730694099083, 18); (168434722196840664, 18); (167885719961290036, 18); (167337721750909912, 18);
  (166790725340994539, 18); (166244728518602974, 18); (165699729082493225, 18); (165155724843056739, 18);
  (164612713622253659, 18); (164070693253548755, 18); (163529661581847757, 18); (162989616463434350, 18);
  (162450555765907778, 18); (161912477368121061, 18); (161375379160119653, 18); (160839259043080829, 18);
  (160304114929253477, 18); (159769944741898540, 18); (159236746415230057, 18); (158704517894356606, 18);
  (158173257135223455, 18); (157642962104555084, 18); (157113630779798369, 18); (156585261149066346, 18);
  (156057851211082205, 18); (155531398975124219, 18); (155005902460970874, 18); (154481359698846660, 18);
  (153957768729368255, 18); (153435127603491456, 18); (152913434382458246, 18); (152392687137744731, 18);
  (151872883951009285, 18); (151354022914041347, 18); (150836102128710653, 18); (150319119706916915, 18);
  (149803073770540085, 18); (149287962451390921, 18); (148773783891162192, 18); (148260536241380331, 18);
  (147748217663357356, 18); (147236826328143555, 18); (146726360416480378, 18); (146216818118753922, 18);
  (145708197634948772, 18); (145200497174602400, 18); (144693714956759950, 18); (144187849209929358, 18);
  (143682898172037166, 18); (143178860090384524, 18); (142675733221603707, 18); (142173515831615110, 18);
  (141672206195584655, 18); (141171802597881535, 18); (140672303332036508, 18); (140173706700700479, 18);
  (139676011015603591, 18); (139179214597514728, 18); (138683315776201327, 18); (138188312890389714, 18);
  (137694204287725830, 18); (137200988324736262, 18); (136708663366789746, 18); (136217227788059086, 18);
  (135726679971483494, 18); (135237018308731111, 18); (134748241200162266, 18); (134260347054792839, 18);
  (133773334290258061, 18); (133287201332776828, 18); (132801946617116334, 18); (132317568586556911, 18);
  (131834065692857549, 18); (131351436396221627, 18); (130869679165262903, 18); (130388792476972104, 18);
  (129908774816683836, 18); (129429624678043642, 18); (128951340562975747, 18); (128473920981650974, 18);
  (127997364452455020, 18); (127521669501957147, 18); (127046834664879288, 18); (126572858484065381, 18);
  (126099739510451114, 18); (125627476303034058, 18); (125156067428844164, 18); (124685511462914539, 18);
  (124215806988252561, 18); (123746952595811477, 18); (123278946884462240, 18); (122811788460965687, 18);
  (122345475939945103, 18); (121880007943859128, 18); (121415383102975005, 18); (120951600055342126, 18);
  (120488657446765998, 18); (120026553930782431, 18); (119565288168632225, 18); (119104858829236049, 18);
  (118645264589169755, 18); (118186504132639911, 18); (117728576151459846, 18); (117271479345025839, 18);
  (116815212420293774, 18); (116359774091756102, 18); (115905163081419044, 18); (115451378118780271, 18);
  (114998417940806799, 18); (114546281291913271, 18); (114094966923940527, 18); (113644473596134554, 18);
  (113194800075125751, 18); (112745945134908446, 18); (112297907556820870, 18); (111850686129525353, 18);
  (111404279648988899, 18); (110958686918464083, 18); (110513906748470225, 18); (110069937956774958, 18);
  (109626779368376101, 18); (109184429815483833, 18); (108742888137503227, 18); (108302153181017047, 18);
  (107862223799768980, 18); (107423098854647084, 18); (106984777213667628, 18); (106547257751959223, 18);
  (106110539351747316, 18); (105674620902338937, 18); (105239501300107896, 18); (104805179448480196, 18);
  (104371654257919791, 18); (103938924645914740, 18); (103506989536963606, 18); (103075847862562214, 18);
  (102645498561190804, 18); (102215940578301370, 18); (101787172866305481, 18); (101359194384562340, 18);
  (100932004099367173, 18); (100505600983940041, 18); (100079984018414864, 18); (996551521898288717, 19);
  (992311044921123514, 19); (988078399260787221, 19); (983853574994150021, 19); (979636562266725242, 19);
  (975427351292580541, 19); (971225932354252697, 19); (967032295802665309, 19); (962846432057049978, 19);
  (958668331604871221, 19); (954497985001754728, 19); (950335382871419082, 19); (946180515905610808, 19);
  (942033374864043455, 19); (937893950574339580, 19); (933762233931976493, 19); (929638215900236153, 19);
  (925521887510157154, 19); (921413239860492256, 19); (917312264117668141, 19); (913218951515749056, 19);
  (909133293356404609, 19); (905055281008880913, 19); (900984905909975181, 19); (896922159564014637, 19);
  (892867033542838889, 19); (888819519485785914, 19); (884779609099681924, 19); (880747294158835542, 19);
  (876722566505035161, 19); (872705418047550613, 19); (868695840763138577, 19); (864693826696051882, 19);
  (860699367958053380, 19); (856712456728432742, 19); (852733085254028106, 19); (848761245849251889, 19);
  (844796930896120207, 19); (840840132844286464, 19); (836890844211079649, 19); (832949057581546387, 19);
  (829014765608497295, 19); (825087961012557769, 19); (821168636582223360, 19); (817256785173918338, 19);
  (813352399712060775, 19); (809455473189129859, 19); (805565998665739302, 19); (801683969270714503, 19);
  (797809378201174424, 19); (793942218722618331, 19); (790082484169017385, 19); (786230167942910257, 19);
  (782385263515504165, 19); (778547764426780614, 19); (774717664285606011, 19); (770894956769847123, 19);
  (767079635626491813, 19); (763271694671774775, 19); (759471127791307710, 19); (755677928940216292, 19);
  (751892092143280344, 19); (748113611495081349, 19); (744342481160153585, 19); (740578695373142193, 19);
  (736822248438965405, 19); (733073134732983717, 19); (729331348701173499, 19); (725596884860307267, 19);
  (721869737798139233, 19); (718149902173596810, 19); (714437372716978381, 19); (710732144230156876, 19);
  (707034211586789196, 19); (703343569732532981, 19); (699660213685267818, 19); (695984138535324787, 19);
  (692315339445721267, 19); (688653811652402553, 19); (684999550464490820, 19); (681352551264539502, 19);
  (677712809508796143, 19); (674080320727470927, 19); (670455080525013125, 19); (666837084580394202, 19);
  (663226328647398555, 19); (659622808554921891, 19); (656026520207276115, 19); (652437459584503249, 19);
  (648855622742696148, 19); (645281005814327541, 19); (641713605008586985, 19); (638153416611725727, 19);
  (634600436987410726, 19); (631054662577085895, 19); (627516089900343049, 19); (623984715555300773, 19);
  (620460536218992512, 19); (616943548647763684, 19); (613433749677678025, 19); (609931136224933015, 19);
  (606435705286285237, 19); (602947453939484887, 19); (599466379343720490, 19); (595992478740073744, 19);
  (592525749451984080, 19); (589066188885724179, 19); (585613794530885912, 19); (582168563960876531, 19);
  (578730494833426812, 19); (575299584891109522, 19); (571875831961869974, 19); (568459233959567323, 19);
  (565049788884528989, 19); (561647494824115828, 19); (558252349953300489, 19); (554864352535257913, 19);
  (551483500921969017, 19); (548109793554836730, 19); (544743228965316323, 19); (541383805775558433, 19);
  (538031522699066317, 19); (534686378541367399, 19); (531348372200699109, 19); (528017502668709296, 19);
  (524693769031171764, 19); (521377170468717635, 19); (518067706257581417, 19); (514765375770364006, 19);
  (511470178476811782, 19); (508182113944611880, 19); (504901181840205424, 19); (501627381929617491, 19);
  (498360714079305323, 19); (495101178257024294, 19); (491848774532713182, 19); (488603503079397886, 19);
  (485365364174114786, 19); (482134358198854224, 19); (478910485641523970, 19); (475693747096933781, 19);
  (472484143267801471, 19); (469281674965780077, 19); (466086343112508128, 19); (462898148740682261, 19);
  (459717092995153495, 19); (456543177134047240, 19); (453376402529907935, 19); (450216770670868807, 19);
  (447064283161847098, 19); (443918941725766139, 19); (440780748204803868, 19); (437649704561669309, 19);
  (434525812880907358, 19); (431409075370232584, 19); (428299494361892713, 19); (425197072314063076, 19);
  (422101811812271577, 19); (419013715570856829, 19); (415932786434458149, 19); (412859027379540375, 19);
  (409792441515952691, 19); (406733032088523253, 19); (403680802478690523, 19); (400635756206172006, 19);
  (397597896930671491, 19); (394567228453625921, 19); (391543754719992920, 19); (388527479820080165, 19);
  (385518407991417636, 19); (382516543620673721, 19); (379521891245617124, 19); (376534455557125114, 19);
  (373554241401239523, 19); (370581253781272699, 19); (367615497859963350, 19); (364656978961685058, 19);
  (361705702574708632, 19); (358761674353518939, 19); (355824900121189669, 19); (352895385871815903, 19);
  (349973137773007120, 19); (347058162168442721, 19); (344150465580491047, 19); (341250054712894726, 19);
  (338356936453523896, 19); (335471117877199146, 19); (332592606248587400, 19); (329721409025171622, 19);
  (326857533860298033, 19); (324000988606301873, 19); (321151781317715740, 19); (318309920254561604, 19);
  (315475413885731165, 19); (312648270892454880, 19); (309828500171865015, 19); (307016110840654458, 19);
  (304211112238834853, 19); (301413513933597166, 19); (298623325723278814, 19); (295840557641440134, 19);
  (293065219961054502, 19); (290297323198815890, 19); (287536878119568143, 19); (284783895740859556, 19);
  (282038387337628441, 19); (279300364447022977, 19); (276569838873361208, 19); (273846822693235847, 19);
  (271131328260769133, 19); (268423368213023435, 19); (265722955475573355, 19); (263030103268245413, 19);
  (260344825111031332, 19); (257667134830182089, 19); (254997046564489245, 19); (252334574771760807, 19);
  (249679734235499634, 19); (247032540071791748, 19); (244393007736413391, 19); (241761153032165471, 19);
  (239136992116444173, 19); (236520541509058040, 19); (233911818100301337, 19); (231310839159293881, 19);
  (228717622342599486, 19); (226132185703133703, 19); (223554547699374093, 19); (220984727204885413, 19);
  (218422743518173722, 19); (215868616372883598, 19); (213322365948354006, 19); (210784012880548231, 19);
  (208253578273375518, 19); (205731083710421377, 19); (203216551267106187, 19); (200710003523291297, 19);
  (198211463576354052, 19); (195720955054753849, 19); (193238502132112300, 19); (190764129541833305, 19);
  (188297862592288305, 19); (185839727182595428, 19); (183389749819021577, 19); (180947957632039656, 19);
  (178514378394073192, 19); (176089040537964724, 19); (173671973176205453, 19); (171263206120965891, 19);
  (168862769904970615, 19); (166470695803262285, 19); (164087015855903760, 19); (161711762891669809, 19);
  (159344970552783502, 19); (156986673320756928, 19); (154636906543398518, 19); (152295706463055156, 19);
  (149963110246161165, 19); (147639156014171755, 19); (145323882875964035, 19); (143017330961795162, 19);
  (140719541458913487, 19); (138430556648925888, 19); (136150419947032898, 19); (133879175943251039, 19);
  (131616870445752116, 19); (129363550526458981, 19); (127119264569048856, 19); (124884062319527527, 19);
  (122657994939551988, 19); (120441115062693074, 19); (118233476853847295, 19); (116035136072024422, 19);
  (113846150136758077, 19); (111666578198408532, 19); (109496481212651656, 19); (107335922019475491, 19);
  (105184965427035856, 19); (103043678300756818, 19); (100912129658099151, 19); (987903907694620380, 20);
  (966785352657308084, 20); (945766392530357318, 20); (924847814353469029, 20); (904030432455965420, 20);
  (883315089860958746, 20); (862702659790985822, 20); (842194047284596826, 20); (821790190934484042, 20);
  (801492064758981861, 20); (781300680220201396, 20); (761217088403687899, 20); (741242382376369920, 20);
  (721377699741718691, 20); (701624225413531848, 20); (681983194632634643, 20); (662455896254145714, 20);
  (643043676336860388, 20); (623747942070876013, 20); (604570166084955358, 20); (585511891181457987, 20);
  (566574735554167472, 20); (547760398553264957, 20); (529070667072356181, 20); (510507422645257135, 20);
  (492072649355685798, 20); (473768442681749176, 20); (455597019419978853, 20); (437560728861750067, 20);
  (419662065429614577, 20); (401903683024253458, 20); (384288411386877853, 20); (366819274850284718, 20);
  (349499513938897593, 20); (332332610390146744, 20); (315322316314992773, 20); (298472688406265906, 20);
  (281788128356848981, 20); (265273430990268372, 20); (248933842070269947, 20); (232775128397775307, 20);
  (216803663706178042, 20); (201026535158670356, 20); (185451677141087470, 20); (170088041870498962, 20);
  (154945820679059211, 20); (140036736693642224, 20); (125374440855476944, 20); (110975062326345393, 20);
  (968579983952068489, 21); (830470932584022304, 21); (695724848635113999, 21); (564736848623737615, 21);
  (438051607567338302, 21); (316477095370594789, 21); (201361696027663157, 21); (955209899796100552, 22)]%Z.
(** expo.go:564-821, as float64 *)
Definition expoF_bin : list (Z * Z) := [
  (4503599627370496, -52); (8727484419971712, -53); (8555841261796276, -53); (8424014664019556, -53);
  (8313851899212862, -53); (8217663419927827, -53); (8131398345090792, -53); (8052629127685756, -53);
  (7979771068717419, -53); (7911724546207761, -53); (7847690779687771, -53); (7787068480833319, -53);
  (7729391937024861, -53); (7674291929325439, -53); (7621469993045940, -53); (7570680857218026, -53);
  (7521720102206018, -53); (7474415261273062, -53); (7428619262292484, -53); (7384205500287032, -53);
  (7341064071950674, -53); (7299098854477845, -53); (7258225208672017, -53); (7218368150919729, -53);
  (7179460882304905, -53); (7141443593257562, -53); (7104262483263521, -53); (7067868950227822, -53);
  (7032218914983422, -53); (6997272254427461, -53); (6962992322698342, -53); (6929345544259518, -53);
  (6896301066133964, -53); (6863830459121506, -53); (6831907459832181, -53); (6800507746929212, -53);
  (6769608746201606, -53); (6739189460057644, -53); (6709230317805053, -53); (6679713043705443, -53);
  (6650620540292841, -53); (6621936784854290, -53); (6593646737303954, -53); (6565736257956087, -53);
  (6538192033928398, -53); (6511001513094887, -53); (6484152844663581, -53); (6457634825585385, -53);
  (6431436852110188, -53); (6405548875899128, -53); (6379961364180407, -53); (6354665263502830, -53);
  (6329651966698133, -53); (6304913282711885, -53); (6280441409004514, -53); (6256228906260039, -53);
  (6232268675171131, -53); (6208553935096040, -53); (6185078204406308, -53); (6161835282364473, -53);
  (6138819232388790, -53); (6116024366577447, -53); (6093445231378420, -53); (6071076594303045, -53);
  (6048913431591946, -53); (6026950916751231, -53); (6005184409885124, -53); (5983609447758464, -53);
  (5962221734528991, -53); (5941017133095090, -53); (5919991657009787, -53); (5899141462916386, -53);
  (5878462843465223, -53); (5857952220674656, -53); (5837606139702762, -53); (5817421262999088, -53);
  (5797394364808531, -53); (5777522326001774, -53); (5757802129208894, -53); (5738230854234698, -53);
  (5718805673736112, -53); (5699523849143558, -53); (5680382726809709, -53); (5661379734370311, -53);
  (5642512377302993, -53); (5623778235671062, -53); (5605174961040259, -53); (5586700273557418, -53);
  (5568351959180723, -53); (5550127867052094, -53); (5532025907002870, -53); (5514044047184632, -53);
  (5496180311817576, -53); (5478432779049385, -53); (5460799578918058, -53); (5443278891412578, -53);
  (5425868944625755, -53); (5408568012993937, -53); (5391374415618657, -53); (5374286514665591, -53);
  (5357302713836542, -53); (5340421456910398, -53); (5323641226349313, -53); (5306960541966580, -53);
  (5290377959652887, -53); (5273892070157870, -53); (5257501497924050, -53); (5241204899970427, -53);
  (5225000964823180, -53); (5208888411491062, -53); (5192865988483226, -53); (5176932472867361, -53);
  (5161086669366125, -53); (5145327409490004, -53); (5129653550704804, -53); (5114063975632109, -53);
  (5098557591281124, -53); (5083133328310405, -53); (5067790140318075, -53); (5052527003159186, -53);
  (5037342914288980, -53); (5022236892130847, -53); (5007207975467860, -53); (4992255222856825, -53);
  (4977377712063825, -53); (4962574539520321, -53); (4947844819798877, -53); (4933187685107678, -53);
  (4918602284803001, -53); (4904087784918883, -53); (4889643367713243, -53); (4875268231229757, -53);
  (4860961588874831, -53); (4846722669009032, -53); (4832550714552393, -53); (4818444982602997, -53);
  (4804404744068319, -53); (4790429283308806, -53); (4776517897793183, -53); (4762669897765043, -53);
  (4748884605920260, -53); (4735161357094792, -53); (4721499497962486, -53); (4707898386742475, -53);
  (4694357392915821, -53); (4680875896951028, -53); (4667453290038097, -53); (4654088973830807, -53);
  (4640782360196903, -53); (4627532870975898, -53); (4614339937744212, -53); (4601203001587377, -53);
  (4588121512879048, -53); (4575094931066572, -53); (4562122724462881, -53); (4549204370044488, -53);
  (4536339353255352, -53); (4523527167816427, -53); (4510767315540677, -53); (8996118612306754, -54);
  (8970805314235019, -54); (8945593786928177, -54); (8920483095254471, -54); (8895472318567701, -54);
  (8870560550395435, -54); (8845746898135805, -54); (8821030482762589, -54); (8796410438538306, -54);
  (8771885912735068, -54); (8747456065362921, -54); (8723120068905442, -54); (8698877108062350, -54);
  (8674726379498913, -54); (8650667091601919, -54); (8626698464242012, -54); (8602819728542202, -54);
  (8579030126652320, -54); (8555328911529275, -54); (8531715346722900, -54); (8508188706167226, -54);
  (8484748273977022, -54); (8461393344249425, -54); (8438123220870521, -54); (8414937217326716, -54);
  (8391834656520760, -54); (8368814870592276, -54); (8345877200742670, -54); (8323020997064283, -54);
  (8300245618373668, -54); (8277550432048864, -54); (8254934813870553, -54); (8232398147866993, -54);
  (8209939826162606, -54); (8187559248830128, -54); (8165255823746213, -54); (8143028966450393, -54);
  (8120878100007301, -54); (8098802654872064, -54); (8076802068758780, -54); (8054875786511991, -54);
  (8033023259981060, -54); (8011243947897399, -54); (7989537315754432, -54); (7967902835690252, -54);
  (7946339986372880, -54); (7924848252888060, -54); (7903427126629525, -54); (7882076105191664, -54);
  (7860794692264527, -54); (7839582397531106, -54); (7818438736566838, -54); (7797363230741259, -54);
  (7776355407121764, -54); (7755414798379413, -54); (7734540942696733, -54); (7713733383677461, -54);
  (7692991670258183, -54); (7672315356621813, -54); (7651704002112876, -54); (7631157171154540, -54);
  (7610674433167356, -54); (7590255362489666, -54); (7569899538299636, -54); (7549606544538866, -54);
  (7529375969837557, -54); (7509207407441171, -54); (7489100455138570, -54); (7469054715191587, -54);
  (7449069794265995, -54); (7429145303363839, -54); (7409280857757110, -54); (7389476076922705, -54);
  (7369730584478670, -54); (7350044008121677, -54); (7330415979565706, -54); (7310846134481920, -54);
  (7291334112439681, -54); (7271879556848707, -54); (7252482114902315, -54); (7233141437521750, -54);
  (7213857179301563, -54); (7194628998456009, -54); (7175456556766455, -54); (7156339519529763, -54);
  (7137277555507638, -54); (7118270336876901, -54); (7099317539180690, -54); (7080418841280543, -54);
  (7061573925309366, -54); (7042782476625253, -54); (7024044183766138, -54); (7005358738405272, -54);
  (6986725835307492, -54); (6968145172286284, -54); (6949616450161596, -54); (6931139372718417, -54);
  (6912713646666073, -54); (6894338981598249, -54); (6876015089953713, -54); (6857741686977720, -54);
  (6839518490684095, -54); (6821345221817967, -54); (6803221603819155, -54); (6785147362786177, -54);
  (6767122227440879, -54); (6749145929093668, -54); (6731218201609337, -54); (6713338781373468, -54);
  (6695507407259408, -54); (6677723820595789, -54); (6659987765134606, -54); (6642298987019819, -54);
  (6624657234756481, -54); (6607062259180377, -54); (6589513813428168, -54); (6572011652908018, -54);
  (6554555535270712, -54); (6537145220381241, -54); (6519780470290851, -54); (6502461049209545, -54);
  (6485186723479027, -54); (6467957261546089, -54); (6450772433936418, -54); (6433632013228824, -54);
  (6416535774029882, -54); (6399483492948971, -54); (6382474948573711, -54); (6365509921445791, -54);
  (6348588194037169, -54); (6331709550726651, -54); (6314873777776834, -54); (6298080663311406, -54);
  (6281329997292800, -54); (6264621571500192, -54); (6247955179507837, -54); (6231330616663741, -54);
  (6214747680068652, -54); (6198206168555381, -54); (6181705882668428, -54); (6165246624643921, -54);
  (6148828198389857, -54); (6132450409466641, -54); (6116113065067916, -54); (6099815974001675, -54);
  (6083558946671663, -54); (6067341795059049, -54); (6051164332704368, -54); (6035026374689737, -54);
  (6018927737621319, -54); (6002868239612060, -54); (5986847700264665, -54); (5970865940654829, -54);
  (5954922783314708, -54); (5939018052216631, -54); (5923151572757044, -54); (5907323171740691, -54);
  (5891532677365013, -54); (5875779919204774, -54); (5860064728196912, -54); (5844386936625590, -54);
  (5828746378107475, -54); (5813142887577215, -54); (5797576301273119, -54); (5782046456723047, -54);
  (5766553192730484, -54); (5751096349360823, -54); (5735675767927825, -54); (5720291290980275, -54);
  (5704942762288819, -54); (5689630026832980, -54); (5674352930788362, -54); (5659111321514011, -54);
  (5643905047539971, -54); (5628733958554988, -54); (5613597905394396, -54); (5598496740028157, -54);
  (5583430315549072, -54); (5568398486161137, -54); (5553401107168068, -54); (5538438034961975, -54);
  (5523509127012180, -54); (5508614241854195, -54); (5493753239078838, -54); (5478925979321495, -54);
  (5464132324251526, -54); (5449372136561804, -54); (5434645279958399, -54); (5419951619150387, -54);
  (5405291019839804, -54); (5390663348711715, -54); (5376068473424430, -54); (5361506262599828, -54);
  (5346976585813818, -54); (5332479313586918, -54); (5318014317374954, -54); (5303581469559881, -54);
  (5289180643440718, -54); (5274811713224595, -54); (5260474554017924, -54); (5246169041817669, -54);
  (5231895053502734, -54); (5217652466825459, -54); (5203441160403214, -54); (5189261013710110, -54);
  (5175111907068808, -54); (5160993721642423, -54); (5146906339426541, -54); (5132849643241328, -54);
  (5118823516723731, -54); (5104827844319788, -54); (5090862511277019, -54); (5076927403636918, -54);
  (5063022408227536, -54); (5049147412656150, -54); (5035302305302025, -54); (5021486975309262, -54);
  (5007701312579732, -54); (4993945207766097, -54); (4980218552264911, -54); (4966521238209810, -54);
  (4952853158464775, -54); (4939214206617482, -54); (4925604276972732, -54); (4912023264545947, -54);
  (4898471065056761, -54); (4884947574922672, -54); (4871452691252774, -54); (4857986311841568, -54);
  (4844548335162830, -54); (4831138660363571, -54); (4817757187258052, -54); (4804403816321872, -54);
  (4791078448686130, -54); (4777780986131651, -54); (4764511331083273, -54); (4751269386604211, -54);
  (4738055056390478, -54); (4724868244765371, -54); (4711708856674020, -54); (4698576797678004, -54);
  (4685471973950019, -54); (4672394292268617, -54); (4659343660012993, -54); (4646319985157845, -54);
  (4633323176268278, -54); (4620353142494773, -54); (4607409793568212, -54); (4594493039794958, -54);
  (4581602792051987, -54); (4568738961782079, -54); (4555901460989060, -54); (4543090202233095, -54);
  (4530305098626037, -54); (4517546063826825, -54); (4504813012036934, -54); (8984211715991740, -55);
  (8958849033953449, -55); (8933537809563535, -55); (8908277875476188, -55); (8883069065386633, -55);
  (8857911214022609, -55); (8832804157135942, -55); (8807747731494204, -55); (8782741774872470, -55);
  (8757786126045158, -55); (8732880624777957, -55); (8708025111819842, -55); (8683219428895182, -55);
  (8658463418695917, -55); (8633756924873833, -55); (8609099792032911, -55); (8584491865721762, -55);
  (8559932992426136, -55); (8535423019561518, -55); (8510961795465794, -55); (8486549169392003, -55);
  (8462184991501157, -55); (8437869112855141, -55); (8413601385409688, -55); (8389381662007421, -55);
  (8365209796370977, -55); (8341085643096196, -55); (8317009057645381, -55); (8292979896340631, -55);
  (8268998016357241, -55); (8245063275717168, -55); (8221175533282572, -55); (8197334648749412, -55);
  (8173540482641119, -55); (8149792896302325, -55); (8126091751892661, -55); (8102436912380620, -55);
  (8078828241537475, -55); (8055265603931265, -55); (8031748864920845, -55); (8008277890649983, -55);
  (7984852548041536, -55); (7961472704791665, -55); (7938138229364124, -55); (7914848990984598, -55);
  (7891604859635099, -55); (7868405706048420, -55); (7845251401702645, -55); (7822141818815711, -55);
  (7799076830340026, -55); (7776056309957139, -55); (7753080132072468, -55); (7730148171810073, -55);
  (7707260305007485, -55); (7684416408210590, -55); (7661616358668550, -55); (7638860034328793, -55);
  (7616147313832035, -55); (7593478076507363, -55); (7570852202367359, -55); (7548269572103275, -55);
  (7525730067080256, -55); (7503233569332605, -55); (7480779961559101, -55); (7458369127118356, -55);
  (7436000950024220, -55); (7413675314941235, -55); (7391392107180123, -55); (7369151212693326, -55);
  (7346952518070588, -55); (7324795910534575, -55); (7302681277936542, -55); (7280608508752040, -55);
  (7258577492076665, -55); (7236588117621843, -55); (7214640275710667, -55); (7192733857273759, -55);
  (7170868753845182, -55); (7149044857558389, -55); (7127262061142207, -55); (7105520257916863, -55);
  (7083819341790048, -55); (7062159207253013, -55); (7040539749376711, -55); (7018960863807966, -55);
  (6997422446765687, -55); (6975924395037109, -55); (6954466605974079, -55); (6933048977489367, -55);
  (6911671408053023, -55); (6890333796688756, -55); (6869036042970358, -55); (6847778047018154, -55);
  (6826559709495491, -55); (6805380931605253, -55); (6784241615086416, -55); (6763141662210631, -55);
  (6742080975778842, -55); (6721059459117929, -55); (6700077016077390, -55); (6679133551026051, -55);
  (6658228968848806, -55); (6637363174943387, -55); (6616536075217165, -55); (6595747576083982, -55);
  (6574997584461010, -55); (6554286007765641, -55); (6533612753912402, -55); (6512977731309907, -55);
  (6492380848857827, -55); (6471822015943897, -55); (6451301142440942, -55); (6430818138703941, -55);
  (6410372915567106, -55); (6389965384341001, -55); (6369595456809674, -55); (6349263045227828, -55);
  (6328968062318011, -55); (6308710421267831, -55); (6288490035727203, -55); (6268306819805614, -55);
  (6248160688069420, -55); (6228051555539161, -55); (6207979337686909, -55); (6187943950433632, -55);
  (6167945310146587, -55); (6147983333636737, -55); (6128057938156193, -55); (6108169041395671, -55);
  (6088316561481986, -55); (6068500416975557, -55); (6048720526867946, -55); (6028976810579405, -55);
  (6009269187956462, -55); (5989597579269517, -55); (5969961905210469, -55); (5950362086890356, -55);
  (5930798045837022, -55); (5911269703992809, -55); (5891776983712263, -55); (5872319807759864, -55);
  (5852898099307778, -55); (5833511781933631, -55); (5814160779618299, -55); (5794845016743724, -55);
  (5775564418090745, -55); (5756318908836952, -55); (5737108414554562, -55); (5717932861208309, -55);
  (5698792175153360, -55); (5679686283133244, -55); (5660615112277805, -55); (5641578590101176, -55);
  (5622576644499761, -55); (5603609203750251, -55); (5584676196507647, -55); (5565777551803307, -55);
  (5546913199043007, -55); (5528083068005029, -55); (5509287088838254, -55); (5490525192060286, -55);
  (5471797308555584, -55); (5453103369573617, -55); (5434443306727035, -55); (5415817051989856, -55);
  (5397224537695674, -55); (5378665696535878, -55); (5360140461557894, -55); (5341648766163443, -55);
  (5323190544106809, -55); (5304765729493134, -55); (5286374256776721, -55); (5268016060759358, -55);
  (5249691076588655, -55); (5231399239756401, -55); (5213140486096935, -55); (5194914751785529, -55);
  (5176721973336796, -55); (5158562087603105, -55); (5140435031773014, -55); (5122340743369721, -55);
  (5104279160249529, -55); (5086250220600324, -55); (5068253862940072, -55); (5050290026115327, -55);
  (5032358649299757, -55); (5014459671992685, -55); (4996593034017641, -55); (4978758675520933, -55);
  (4960956536970232, -55); (4943186559153168, -55); (4925448683175943, -55); (4907742850461959, -55);
  (4890069002750461, -55); (4872427082095187, -55); (4854817030863044, -55); (4837238791732788, -55);
  (4819692307693720, -55); (4802177522044400, -55); (4784694378391373, -55); (4767242820647902, -55);
  (4749822793032726, -55); (4732434240068825, -55); (4715077106582195, -55); (4697751337700644, -55);
  (4680456878852600, -55); (4663193675765924, -55); (4645961674466748, -55); (4628760821278319, -55);
  (4611591062819856, -55); (4594452346005422, -55); (4577344618042811, -55); (4560267826432443, -55);
  (4543221918966274, -55); (4526206843726720, -55); (4509222549085594, -55); (8984537967406106, -56);
  (8950692193053115, -56); (8916907673579696, -56); (8883184308023861, -56); (8849521995992148, -56);
  (8815920637657644, -56); (8782380133758033, -56); (8748900385593668, -56); (8715481295025665, -56);
  (8682122764474027, -56); (8648824696915784, -56); (8615586995883169, -56); (8582409565461808, -56);
  (8549292310288941, -56); (8516235135551659, -56); (8483237946985178, -56); (8450300650871123, -56);
  (8417423154035846, -56); (8384605363848766, -56); (8351847188220726, -56); (8319148535602385, -56);
  (8286509314982625, -56); (8253929435886986, -56); (8221408808376122, -56); (8188947343044284, -56);
  (8156544951017826, -56); (8124201543953729, -56); (8091917034038158, -56); (8059691333985035, -56);
  (8027524357034639, -56); (7995416016952230, -56); (7963366228026692, -56); (7931374905069205, -56);
  (7899441963411939, -56); (7867567318906769, -56); (7835750887924017, -56); (7803992587351212, -56);
  (7772292334591882, -56); (7740650047564361, -56); (7709065644700625, -56); (7677539044945148, -56);
  (7646070167753785, -56); (7614658933092673, -56); (7583305261437164, -56); (7552009073770774, -56);
  (7520770291584157, -56); (7489588836874107, -56); (7458464632142578, -56); (7427397600395730, -56);
  (7396387665143003, -56); (7365434750396205, -56); (7334538780668634, -56); (7303699680974218, -56);
  (7272917376826678, -56); (7242191794238722, -56); (7211522859721254, -56); (7180910500282614, -56);
  (7150354643427839, -56); (7119855217157948, -56); (7089412149969255, -56); (7059025370852700, -56);
  (7028694809293209, -56); (6998420395269080, -56); (6968202059251390, -56); (6938039732203427, -56);
  (6907933345580149, -56); (6877882831327667, -56); (6847888121882753, -56); (6817949150172372, -56);
  (6788065849613243, -56); (6758238154111421, -56); (6728465998061906, -56); (6698749316348282, -56);
  (6669088044342371, -56); (6639482117903927, -56); (6609931473380346, -56); (6580436047606404, -56);
  (6550995777904025, -56); (6521610602082073, -56); (6492280458436169, -56); (6463005285748539, -56);
  (6433785023287887, -56); (6404619610809294, -56); (6375508988554145, -56); (6346453097250087, -56);
  (6317451878111010, -56); (6288505272837059, -56); (6259613223614673, -56); (6230775673116652, -56);
  (6201992564502257, -56); (6173263841417331, -56); (6144589447994455, -56); (6115969328853134, -56);
  (6087403429100009, -56); (6058891694329099, -56); (6030434070622077, -56); (6002030504548573, -56);
  (5973680943166508, -56); (5945385334022460, -56); (5917143625152063, -56); (5888955765080429, -56);
  (5860821702822617, -56); (5832741387884118, -56); (5804714770261384, -56); (5776741800442384, -56);
  (5748822429407194, -56); (5720956608628622, -56); (5693144290072868, -56); (5665385426200213, -56);
  (5637679969965747, -56); (5610027874820131, -56); (5582429094710394, -56); (5554883584080765, -56);
  (5527391297873543, -56); (5499952191530003, -56); (5472566220991334, -56); (5445233342699626, -56);
  (5417953513598880, -56); (5390726691136071, -56); (5363552833262237, -56); (5336431898433618, -56);
  (5309363845612825, -56); (5282348634270059, -56); (5255386224384362, -56); (5228476576444916, -56);
  (5201619651452380, -56); (5174815410920270, -56); (5148063816876384, -56); (5121364831864269, -56);
  (5094718418944730, -56); (5068124541697392, -56); (5041583164222294, -56); (5015094251141543, -56);
  (4988657767601006, -56); (4962273679272051, -56); (4935941952353341, -56); (4909662553572667, -56);
  (4883435450188842, -56); (4857260609993636, -56); (4831138001313768, -56); (4805067593012946, -56);
  (4779049354493962, -56); (4753083255700842, -56); (4727169267121043, -56); (4701307359787715, -56);
  (4675497505282012, -56); (4649739675735463, -56); (4624033843832400, -56); (4598379982812443, -56);
  (4572778066473051, -56); (4547228069172125, -56); (4521729965830681, -56); (8992567463871160, -57);
  (8941778687084649, -57); (8891093554555840, -57); (8840512020687606, -57); (8790034041037669, -57);
  (8739659572324730, -57); (8689388572434731, -57); (8639221000427264, -57); (8589156816542126, -57);
  (8539195982206014, -57); (8489338460039378, -57); (8439584213863424, -57); (8389933208707265, -57);
  (8340385410815244, -57); (8290940787654406, -57); (8241599307922144, -57); (8192360941554000, -57);
  (8143225659731655, -57); (8094193434891074, -57); (8045264240730841, -57); (7996438052220669, -57);
  (7947714845610100, -57); (7899094598437383, -57); (7850577289538558, -57); (7802162899056723, -57);
  (7753851408451506, -57); (7705642800508743, -57); (7657537059350362, -57); (7609534170444477, -57);
  (7561634120615700, -57); (7513836898055681, -57); (7466142492333860, -57); (7418550894408463, -57);
  (7371062096637730, -57); (7323676092791376, -57); (7276392878062311, -57); (7229212449078601, -57);
  (7182134803915692, -57); (7135159942108890, -57); (7088287864666119, -57); (7041518574080945, -57);
  (6994852074345883, -57); (6948288370965994, -57); (6901827470972770, -57); (6855469382938323, -57);
  (6809214116989884, -57); (6763061684824606, -57); (6717012099724700, -57); (6671065376572893, -57);
  (6625221531868227, -57); (6579480583742200, -57); (6533842551975262, -57); (6488307458013673, -57);
  (6442875324986728, -57); (6397546177724369, -57); (6352320042775178, -57); (6307196948424773, -57);
  (6262176924714612, -57); (6217260003461215, -57); (6172446218275814, -57); (6127735604584449, -57);
  (6083128199648504, -57); (6038624042585721, -57); (5994223174391673, -57); (5949925637961739, -57);
  (5905731478113569, -57); (5861640741610065, -57); (5817653477182891, -57); (5773769735556522, -57);
  (5729989569472848, -57); (5686313033716349, -57); (5642740185139856, -57); (5599271082690915, -57);
  (5555905787438769, -57); (5512644362601972, -57); (5469486873576663, -57); (5426433387965508, -57);
  (5383483975607330, -57); (5340638708607459, -57); (5297897661368801, -57); (5255260910623666, -57);
  (5212728535466372, -57); (5170300617386634, -57); (5127977240303788, -57); (5085758490601848, -57);
  (5043644457165434, -57); (5001635231416601, -57); (4959730907352583, -57); (4917931581584493, -57);
  (4876237353377001, -57); (4834648324689017, -57); (4793164600215425, -57); (4751786287429881, -57);
  (4710513496628728, -57); (4669346340976043, -57); (4628284936549874, -57); (4587329402389683, -57);
  (4546479860545062, -57); (4505736436125727, -57); (8930198514705734, -58); (8849136911223746, -58);
  (8768288331012997, -58); (8687653049828992, -58); (8607231350089579, -58); (8527023520992445, -58);
  (8447029858635888, -58); (8367250666142974, -58); (8287686253789202, -58); (8208336939133781, -58);
  (8129203047154682, -58); (8050284910387561, -58); (7971582869068721, -58); (7893097271282248, -58);
  (7814828473111472, -58); (7736776838794917, -58); (7658942740886906, -58); (7581326560422996, -58);
  (7503928687090417, -58); (7426749519403721, -58); (7349789464885829, -58); (7273048940254685, -58);
  (7196528371615748, -58); (7120228194660534, -58); (7044148854871463, -58); (6968290807733260, -58);
  (6892654518951163, -58); (6817240464676235, -58); (6742049131738063, -58); (6667081017885137, -58);
  (6592336632033260, -58); (6517816494522296, -58); (6443521137381638, -58); (6369451104604753, -58);
  (6295606952433207, -58); (6221989249650580, -58); (6148598577886718, -58); (6075435531932767, -58);
  (6002500720067497, -58); (5929794764395405, -58); (5857318301197163, -58); (5785071981292964, -58);
  (5713056470419384, -58); (5641272449620397, -58); (5569720615653208, -58); (5498401681409648, -58);
  (5427316376353859, -58); (5356465446977097, -58); (5285849657270490, -58); (5215469789216679, -58);
  (5145326643301272, -58); (5075421039045159, -58); (5005753815558769, -58); (4936325832119414, -58);
  (4867137968772963, -58); (4798191126961147, -58); (4729486230175903, -58); (4661024224642241, -58);
  (4592806080031222, -58); (4524832790204766, -58); (8914210747988170, -59); (8779249752027413, -59);
  (8644784735026330, -59); (8510817894537196, -59); (8377351485033283, -59); (8244387819866414, -59);
  (8111929273319806, -59); (7979978282762150, -59); (7848537350909362, -59); (7717609048200889, -59);
  (7587196015298049, -59); (7457300965712448, -59); (7327926688573183, -59); (7199076051542246, -59);
  (7070752003888365, -59); (6942957579730324, -59); (6815695901461822, -59); (6688970183370931, -59);
  (6562783735468406, -59); (6437139967540365, -59); (6312042393442285, -59); (6187494635652844, -59);
  (6063500430107868, -59); (5940063631336623, -59); (5817188217924845, -59); (5694878298331327, -59);
  (5573138117087624, -59); (5451972061413447, -59); (5331384668283777, -59); (5211380631987551, -59);
  (5091964812222144, -59); (4973142242772761, -59); (4854918140831437, -59); (4737297917016667, -59);
  (4620287186161869, -59); (4503891778949138, -59); (8776235508948231, -60); (8545942827677282, -60);
  (8316918629760486, -60); (8089176576323827, -60); (7862730908724413, -60); (7637596486450070, -60);
  (7413788828502114, -60); (7191324158677788, -60); (6970219455230781, -60); (6750492505461270, -60);
  (6532161965873372, -60); (6315247428640764, -60); (6099769495244091, -60); (5885749858291334, -60);
  (5673211392710347, -60); (5462178257718850, -60); (5252676011240769, -60); (5044731738761575, -60);
  (4838374199015283, -60); (4633633989393556, -60); (8861087469182684, -61); (8458276605583656, -61);
  (8058910109395910, -61); (7663068264018581, -61); (7270837587239952, -61); (6882311620028054, -61);
  (6497591858510513, -61); (6116788863790416, -61); (5740023594944377, -61); (5367429025348302, -61);
  (4999152123288073, -61); (4635356307620709, -61); (8552449065654631, -62); (7843926445958722, -62);
  (7145614748393746, -62); (6458054606762674, -62); (5781875559613545, -62); (5117821433245150, -62);
  (8933573539440756, -63); (7659742377016179, -63); (6416929114246132, -63); (5208778057777670, -63);
  (8080625895871740, -64); (5837971983492332, -64); (7428935345740799, -65); (7048205023284965, -66)]%Z.
