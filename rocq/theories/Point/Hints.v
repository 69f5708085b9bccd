(** Slopes of tangents and chords, for the checks of Point/Chain.v.  Written by tools/curve.py. *)
From Verif Require Import Base.
Open Scope Z_scope.

(** From 2^i times the base point to 2^(i + 1) times. *)
Definition tangents : list Z :=
  [ 0xa249bcb3191802d3cb56fc75a8731f848e7b2caf080f3477a4e4d904a671af9d;
    0xc2489a9eef61dfa06d3741ff3b405300988bd0db42a937859069b9cefb576e35;
    0x3d3f7094389059fb29d62c12aea203c23c53ca0f84ba9265d34346d498d0ce10;
    0x6fa44fab12ab52ac931dd31283af3f747d8609c5f053383c43a73240f7256e8a;
    0xe9a817f547273aa32a7361a18e9620f2b838a409be826cf083fed49b3c858688;
    0xcbf7b81fbdea68d4221b26a8e5a24b1cb5e9aaad01ecd82899cd638e1942f764;
    0xfc4b4bd92566c2ad98242459501cf92d7207904e764ab66789942b0325b9a3e8;
    0x93fe002b120dc226d15b0f98b056d3392bfd56b35499e60a5f7ad1ff70675535;
    0x59faa582c6b4f84cf05a7f0a2f866f67a3845d45e19ba871c83298597acc6389;
    0xd2b8741587a7b2e52655fc308e92e0b0e32ee6e6b41d84eb93aab4a3a4141961;
    0x1c063129ba7b4a48b2e70f43844011c46be00e0e9073b990aa60efa9cee08d40;
    0xa2e3cb03c0248e9badcbbcc1c7028566de6e61b104009831a5104754ca52749d;
    0x960ff72703b0a682d458e8c237f82e7c160c43f0388887300239f5caf2144511;
    0x928ac84a888eeece1f740cddb2fe2c3ad23b782d364f2f64e69fb00ff124a44a;
    0x2f62106edd7774f71f1f577bb87c80a69291fa99d469a7d590bb7efe497f0e98;
    0xdff9619f1fed418640882fc607fbef4ab0b4bb2ee9eb5ea61d7f347eaadfeb72;
    0x2bb34155d1c3e85258cd7587c389773ca8761dc07d32d1bc095f476c05a7c13e;
    0xedfc2e37fb69a62e021b6261a99df3018dc9eee2e4229d1cbff1ba56b4f8e3d6;
    0xb79e006a59b12e979226f397f11da4e07f4c0c6e00d804571e0be779c48ea25c;
    0x045fc98da6728684cf421d291dbdaa5438a2bbde9eedf856c54e1d2577a0d15a;
    0x3f71d35f5943c9d82c6297d4739ca141ce18dd97535b82f9b6cbf6a3a3bc338f;
    0xb063b021ea8c4d521a86be70cefe8cfca350e9ba8c166c8838fe6446dfaba3e7;
    0xc96ce208d5d84115b06c8101fbdfc996fc19127fb826057aa9a56a342393343f;
    0x58cc0685f3b5bd459e0a56513cc139f2ef4c79222658880c7b9e910437232a37;
    0xc714a5ff1e67f35e138db56e27766a8f370df7a9aac6afe2a684adb2f9318a34;
    0x244464508464873517783cc6e016573c75cc1d40a0821ca2006ccaba14e5ae68;
    0x19942949a63311386dd5eb50ae3bd81d89fda56a29528618285086a145bbc75c;
    0x89fcec8c449f2a8727481510ba958d286a3ed95b2b77e593d4a8e3bc100d5f1f;
    0xf6c406113ca7142ab7578bbd87c1fcac561785320d44621ae23c0bec57db9931;
    0x1c544e23cefcf6bdc7e2661841017cf1352b6cdad766837a00109b5b701a002a;
    0xe7af93b02913d49f7ff08817eb8b2a9186ce83f590aacc4a439598e38234c827;
    0xe353b7ead6b8630cc720fc9e590a4b3bfde6404ec154ad7d5f0e3fc795fe64a8;
    0xf2d190fa895945fdbce834e76fc615314f8d12fd6ab74e11a875fdfc3ccd5a36;
    0x6f2111875b10a1209c249e454abeae22f7965e57dba5f3791ea5b985b656d33e;
    0x5dfcaeb945eed013f0dc90070b1796fc1836e63f83e756c35d1d0c0d796c7d4c;
    0xbe3d2e335ff7468d6bd8fb93fe862c8e0e6a23e82b010d3065ee7d872d83ac05;
    0xdcdf4ad2644a2a52ace81d4008703d620b99ddaa19a8e43afe378ed8f316169f;
    0xd541d97c1e7434ca4879279fc56ab5beea2eea4739c34965dbfd94fc16ffd007;
    0x528674b2e6ac31b598ad18e8d07fc41d1b9cf19cc5b0b1a36e4bee972e1793ca;
    0xbe3eb98c294b97f8ef31e7fb4ea068b560b0394730a372737b1664be3b94f07b;
    0x1a4fe06c68f0b4432fccfa2556384fa002a2562842b472c92467450bbae7e75f;
    0x62fa001767cd781a9d2fd3e7ec992c971b637a1677ac44bb25b8332f1f328a1d;
    0xa61d0186d8bf3158c94229adbbd5c4f18d62deb67d2a553c60bf4b70fa43ae1a;
    0xa358ae4d1d2d1559cf903bb807955ed8242bdfd114b140dfab90d867071eea1c;
    0x44a9e887ace2e81779b6d576792b60e61bc31655486153ad4735e7464767e021;
    0x3d2ba9c25242b9c848025e13f8e099197cfd9e127322e91d526031e6ace4351a;
    0xec023d3a9661ac96c6dbc95cba3f761ad0a6e2e73eeb9637678a0ddd09e0adc6;
    0xe62135dfb5ca7a34ae42eefbd686412a45a2994c887c07eef7d68b30d6cb931e;
    0xd619ba80f511570a3e3ed4d04647ae2b6eb9264ad8aac5fa6d32ab6bdf78697f;
    0xffba15c48dae93bb6b7b3fcd35fd12dd25cd8fcdf93f1637105ff77b76307fa5;
    0x4771f4203b36744f55f580ef5d06095e26d9707e0b0758533cee034caba468d1;
    0xd789f8898ebd00255511f6639f2a8eea2a15e29c1b6ff8fcedf3e8269f86fcb5;
    0xfe73522c164abdfb06af1c83a0695ea24c334e788d8251561706989665d6f816;
    0x1cebd9c97cd5d590c6b74870095510a5178ded2a80f7e9ac7823793acf59a7aa;
    0x78dcfe4e3af4fa9d145e4091dd5fea89aa125b4033372535c8abe3358fb6e9cb;
    0xe022f3ccc925f51b2e88befaa3bbd50ec11bfdac0ed8e16681963206ae9f07aa;
    0xad76aeab07632ba0897563291c07533a53904c8917d4cce1df331c0fea875697;
    0x08d208cba001b885a9d1cd9bf54e51d2637ac63861474a0fba0cf6a9ae7ffc87;
    0x96791e6e5c53bddc2e330cdff59b2760a5d1e82daae727ccebf22ba376b64789;
    0xeeb3323449c404260d45d0c90e1b08bc54f7142b776ce23e8f1eac75e7a54b77;
    0xc2bf87d6b97bd496e25685665a1b00bf3f668e0d1d0ede73a3ceb3f0f4fd4a0e;
    0xd980c91e98419256b33ca70642e8086bf8045da5fc4da6a69f1a9b3081a24d28;
    0x03f00b53d7b742f827adf650878828da4901e79f385673c8ac0efa2ea3783308;
    0xd10a30165e44a72575956d5eda085e58a090d0349a5b7ec05bab13ee18158af5;
    0x29324dd7745424c70017bf17b618e2f391ed41979e1c82dcb50a3c2fb80bc258;
    0xdba0e74da82774f5d0740b49ac31b538d6f8336356feef5f2c4879ed5cabc501;
    0x3fba9142cf9b09f82a69707ca2d04b2c28ed80f3b48196ca23f69ed53b8c1abb;
    0x753104d2fc9c3c75b4ef6a5abba9162535cf4ddd8a5fd009d2e8386cab58a6f9;
    0x3dabc691917a2ea5620f8c27a2799e637b8d554a0bd646d4af7650150eec6760;
    0xa2c62e1c76621ddd9e90dab925ebdf8caf145b2e46a7e58e91d6292942092618;
    0xedad044c65261d5af330654524135fbcbf9390aae52cd419885d1b5e0f8b9b19;
    0x429efa4b1ff1915e962e01b19f4c61cc73d045853c64e8175e7f002437d62505;
    0x84f13e9eead977e5ecaa6a33b553777d9fc91dedd22924ee4b72d6c6dee592ee;
    0xbb6aad7061c969e4a76a865e39f1180ed95b0f4970c4d641edb138d52921280f;
    0x939a30e72a652164becdc44bbcc70ba1bd0abcb08ac9874f81024082a6c29a32;
    0x74076d2d468e60d0e0f299cfbb8d00eecb0d07a011d521cfa279f96f16b445ec;
    0xd6011b593a3fa7cf0134011b23ab04ef786b369c800195a19d7be1dd416fce75;
    0x524efb3f3a34cd13260690a846fa7b4fc7554d8cc78d07cbf445d22431a5451f;
    0x7b39eb93c9d76ec892fc312340d90ce59e8416bb8b11f7282dbd30f5884300b8;
    0x04b8a6e723533e7d3d8612077e43af208fcc6193b3ce83e99345da4a80725b05;
    0xe7dab0f8fcc0ae3e5c394ae291922949b7c5a1f54ecb2aeac075237d21871d65;
    0xefdf4a31f9cae53c9ad6188f15dab087c937ec1355a56737682e9b533ba614ec;
    0x79836e79fee4a540a9f84fd1c56da539d7aa05f06ee8dc07f050bc7f4b3813c8;
    0xa3dd7cd24e9aa562c028da0ecbe9bf7b1f237d0b100445d69f51a8c8e9504e0b;
    0xee60bda620cddeeffda566bf8827f5ec78e87dbab807b60366aee635c1865883;
    0x76e9bdb98b0531e25004cdb7856270d30bc0d94a955bfb20e0e76452d1903806;
    0x4603a1c4e11a2d2b7add077dd09f55a84150118f53ddade3918edb8fccb88328;
    0xd8e5e0ff655697c13b3cd835bd4c448bdb221a734ee9e30a83fe18fc466ea614;
    0x87d31f0f3334bc4e9d888d7f0a92a977b8b42f082e30677ea40e0fc53853aca8;
    0xd9486ea131e9deb91764e2eef47a6705d1a8f870f1c953b801581685c538aec5;
    0xff96fde5e45d6d4aeb53be3abfd9e88fafb24648712d8c09f882d32e476517cd;
    0x561b900375d1f12fbc43817d3b1b6ec08e24a4dca93957e6d11e37d55ad82a30;
    0x1f8c174e9b2c1a8e970cf284b20774c34967aa64c2e0dc8bd93b8e7abe8a7f57;
    0x02fd440ecc71c28fe10f61da3480411b80cb9376f63ff222b2a2ddc3a6a4e33d;
    0xe506afbffec23eb1d1eda46bc1a47f39ad9e7a88a616523424b3cf25dc4d9df3;
    0xff2ca1583f1a35de8b26a39f61ef7b330ac3d5d89557063f7a336c86fa946b5e;
    0x83cd584275b774459901c763b674c8ef7e681d397f33ab009fc63e628a4240df;
    0x2afff269aa3c2d6f8e4dbf20d491b5279a99e2d2819310bd60bded08c4ee63e8;
    0xee2d9657220818c3b91736103e17884fdada03fd2604b20df6c8f927da3bc8fb;
    0x10a7bdf60fc7a31a8b3fb42f776a4b05d3646917d4a0931b2bbfd132a5a926b2;
    0x38d2b631c04e00f91ef32f55963a230646c512bd81d0a25de987edb96d284c5e;
    0x61d5fec6a5fba22816b5b808623c7fe559ae4dac7dbe66723fc25a2336884f1a;
    0xca831e8e9847bd1e1fb03c68dfda133d25b2dfa512396511e10a6cf15a3d70ac;
    0x7ed58e109a5779007f144cd1ec6bc382ee1a6accc9547d475a7413d53779aebe;
    0xa73d3dacbdb7a692790dc1af3c9f0f014e2061b0bfc6face899384549908b31f;
    0xdea2f4a1c5ccc5e5856f2b3bb3c4b9a98cd11a940c4e5e3ac3545ff714a80470;
    0xe02f7f2832e406672922adbf40400fdbe0a73bf43d2bf2a29572259c2c257d88;
    0x6b8cbcbd6ea41e144a5f9ee91f4013a07b5c6db728814cb6c503423abdd3eb91;
    0xd9392ce2837cddf6341cacd0d31e2a8cfde54f090d312892adf3bb6a5572fac7;
    0x5e6c9a0f45f0b4f7a6cdd869db2cad66e0836dd7cc4a2c3d439798e5655a1f70;
    0xbeef0951e81fc2bfdcf83cf6b7f2e0649f0b2f79374803aaab9916e52b114dad;
    0x985452175e7b133371e382a137a936a0d1965a0ed0cbaf618841965fa3204c60;
    0xa45affba2808882a40c0a65b07ac92ea34a612da87944158e651251b6ead6046;
    0x7f90096f549fef2356ce34b939d2bd454aec6c7a1dd5c9eb304f118091a497da;
    0x0c77d2546657cf94c022d48cdbe20751f455fa5881bb05fc40fba9c417fcd890;
    0x86137b79fd460d9ee30ffd72e14c0b4168aad29a9032a362177851f18be53afd;
    0x4b4f844d0143a25296621b2df080380ab2386020e7e1f94e05508c3889de979e;
    0xb365fa38e25b3fc5b284cb3d24386781b7ddb57526257713fac6e05284aabdff;
    0xc56e236cb8e7a661d0adee1089a2c97d350d26433db369b1c7e2350d34412957;
    0x0c0323c3ff0b59f4e337ae5aa41da4bc064f209265d442f72bfdfd4747ebafba;
    0x335a827590f28af19ea4dea8ebda096a6622e98b9612da0ceb247a2faf30d6a0;
    0x5d4a7b8292d0281bb6ece7f76b5c03c75449103e913581c224fd46969d60ed3d;
    0x08402d15488a2480e9a2fc71a562f9ac1b56f65d30b4258c19e6d7b24e3c5467;
    0xbcec95630e11053fd18643c46f0d90db12da63a1e42973a63ecc9466b5f2dd32;
    0x189cadb9c3e6eb55225446aae811598f9c679441df3defb1e35ce2ca7d463adb;
    0x9213e703f312aeac61e4acafda19ef8e5f1381eec13e78203644a292b1f3e545;
    0x421ba08db1d328fd8d1e2b0cf284f264e5a201063430c014b77d12a00ff09317;
    0x542b952fc288536206f1249660b042005354ac1a34d2a317162b49c4b677b4b1;
    0xedc9c1dccc9c3028c4e2ba2fa2d17542f568dd145f50f77b28e4a9b163f31637;
    0x187ec219d8f10ef2c5dfd4ed5a16e35fde54cb0ddd79d6699a2a9ef6d91eb7a7;
    0xc671f9e210c1412e46fec8b5171a80eec01d94d4d5a9296e68a5c6a3b74e8296;
    0x688f1e5d18840881da851fa505c17fbc49f913ec5fc369d2f1727164ace2b165;
    0xd21ecf9b7d7162c7df440032f0fbe6d2c6e094282974d2bc869935d4d20d32bc;
    0x01e71a885315e859a7ec86a1838bf9a9f5fda7f8edaf4d3a16b9d0ca545e2534;
    0xdb4dd8140120fc49f927051c70cad79f7c6dc805939c85f07cd07ab6ad68e195;
    0x079d68e1f51dd20edf90c6e1cb37960e840093a6d484f07e28c4b2cea11b5a6e;
    0x51bb280751d6112dfa1284a5b15fb28746bf79a8c89baee6ecba7ac1b95aae26;
    0xb884fbb29bb51bff545529ed396dc9731341937ec607986d86273f859bbebe21;
    0xf1826fcfb66067e7fdc1dd614592fbd8d4993e9eef803ec581799a3cf00f2e70;
    0xd555015037bb7c9d327c8bf8f3b8a26f702923731f2614012ca37d9cd5a3bff1;
    0xfe659a56c00e3fd1c500adb7d4f65d198964ded633b97908c4d985365042be15;
    0x8158c1718a474b191e504867adc02c685a2ba52a05d4f98d36000e44fb4683be;
    0xd45b7ab81f0f83a103de4fcf9fbfee6ab63382bea0a5b0b978d0f6e6963fe847;
    0xf19b1758472c9ea63182b65fde4125c273719b2f880e5987aa085acdc733be01;
    0x1e64c6f99ca4a21bcacf3a5d4a497432b29e3d7f00a83b0d010ada65fe91c9f0;
    0xfa3aa86d30db23ba052b6438191f10f2195e002605204ee00e6cdb11aac3ef3c;
    0xd46ddb4ab2f0299b2c9e7eddc5996d803ae869349f6db130d79200e82e417b81;
    0x20a6022815bae731183b32a6ea666a48277ead8fa81ef841eea1859403e0bfa3;
    0xb83644d02dbcf9cb5edc43a48807c76a754a71eccc90430d400c2d1b60cb3865;
    0x3d08860575e43ee1f27528f715604e38453a9f8e323cae51866b0c0736eef4a9;
    0x897ab3601a533d4234c0435ea0add15315e8c903ee555597af847bc9d01b1436;
    0x40484e52b74c0c08e56c754d0181221060e8a5e9985f4cacdc689b0a529b807b;
    0x95b278f457d982f66428d3fb1c1ccb580222fe0d7f59796d4d6f0fed8ad96461;
    0xce2d7a8ea55c573c89eb97198aff82fc2974702fd12f5776d93c9673c775dc8f;
    0xeb3f05b3f694ce40135333500a2f97b60a7c3d70a329d4715cd3975591e792fa;
    0xd9c8693b805141095e5caa30ae30acb61b74fb72671ea7f6fcf180d2b6d48c2c;
    0xf84af0663d7a3bbd78165cd013aa09d1cba704dc3954de2c6d7e3c94237f4ab3;
    0x452b9d929f8e62dfd6c7c746ba40ba106038ed5410fcbca88269b978507bd960;
    0xd8c76bb063a89e7f3fdbb2da85bb04be0edbb69a4d606fa54490b8e737468fc7;
    0x50e6a30a0bec6ba71d881741e2f52fa3ca4567bf450354e5500856ad43315338;
    0x802f39f19fa37fda5f0e7f35677cbcdc147ed45dd60db73cd2fa1232b57ea362;
    0x644063d783acf2895ee48406263675e60472375900489ec1d76471b192ba77bc;
    0x03d343e5001c1648153b3ff5c2d1c32fa43934d42619d65e7e78139ac1d012eb;
    0x579db08d73af3821b876d20f4285c616f5ae2babf14c9930689c90ec3ef5167b;
    0x8390b6f7da6e0b61b2ff69f8c2a0821a48e642599d95ce7f4639e44840b1bbe2;
    0x23788111088d98bca0fa9614b12095f692e2b46cb600146f553cc74a03bcd574;
    0x44f6e4e4f7cfee9c51c47cffb1bdce2745be1a1800679c3926b5f97e49c4fba8;
    0x3f83fd12833d44f0d567074833c35475633a1c4a2ba002d62a048d551cf92263;
    0x8f5fbcd1e7e0736db266adcc49139d5269bfb2ef6694b3b5185fec29de628438;
    0xb07de4f0e535ba356ccb0d61e83caae152d2a5b7a264131c2bfd64135cd7a620;
    0xa607402a83caf83e505fccabfb97ca583cd6ad4665156f954c05943c5fbcf2b7;
    0x39fb2702b5fe5b53249a08339ea7959a1cf53be57fc533fb4abba6c2fec4b866;
    0xda4a6bec8eebc6ba58bd866653e79a260170639285735caaa9e1685fcbebd4b6;
    0x3862bf9599ab8ba66e3f2686179a9f7ae383ef67d6c09339b75171c12f9f9f58;
    0x452563836074385d50f62b06e9c8cd4b8249f7e5395d164e6c1297f906b6a63a;
    0xf0ca17296ed80271eb343429e26ceec597ee8d0c669fd578b1fee98d491c4be2;
    0xfc0d607372d2f4d11b89f9ad5ffd0539ef51cfd49cc40cbee3f7cd0199bfc1f7;
    0x6e650d5cfd29581fb98a138815e31607a43d3462f5e14383356325ad977f66fb;
    0x77a1a3d126b9f88075b5f67c07b9c568fb7f54604f03b4d342ffa934b034163e;
    0xa2f4f19154e53398febc797af2d04c9da1ec41ddb4e0ca8c23a8e0255f140257;
    0x18f7aa6b3dc3a00933742be417e35df4735e2f6d3ac79db14aea143884eb2417;
    0x236af9e75e55c824a4ac8d78a82f5f220a4c28a3eccce94063ef42fb5e549998;
    0xeb9d1dd88798835e36684209d149f36a658b2a2543c7dad4047b03047cbaff95;
    0x1ab41b2238fd148b31802644e95d5b1f148c7371a31e11e3055d92126c2c8a2a;
    0x17f395ec8bcae6fb1f942427ad235a51c0480a62a6f0a142abbb650ed4b3df1f;
    0x00cc9f6e8935835507eae61b26266b1b78ff240bc520dc4649465f8d42b522de;
    0x15b3a6001a02f06e6892bba476ff857147349a0fd28844934687812dbb7a6564;
    0x8519e369450a5feaec70fccfd73d29ed8d1e44001144ecd4d4b7835024719ad6;
    0x3059b465485b77d4c243f987b5b0f25cf27575a8684cfcd4eb2d4a18401d21b4;
    0x88b155ad3cfcf2b31efa16b8973b10e0c4c17e39f8aef64aab321415487a23e0;
    0x57108fff714057bdfa5981395d5b47677c72789648ca2ebb1628af75d580dfa1;
    0x066c0742f9f4125548c61f263ba9244d4f16692fa29e5e0a620d39bc9810f901;
    0xd85bb1aa5db1427283a00d9dcdb6a5012cfd96195e6427abe01bfbcb03f55d46;
    0xeedaad9e9f12cebbfd8e54114006e13eaa4ae14c143e7235126a4501179ce4f5;
    0x361a6ae61ce718ed263e6a9b1853971703ba9809072a41c3e3763bc2ed6f3cf9;
    0x5b2c65076da1f36fbb3d2ee497e9f7413302bc6cc93b9a6ac853186f33543af2;
    0xcbe44174be4629b2fcc87a8126ee32b5c5b50d23aeebb783ad5c02ca9578c329;
    0x1d4caf106ac42c7a425fc3159924cf2b08989016019fa200be1a5e427c3d5ef7;
    0x3b64a0fada3c548581e69a352e54611b8bbc1df0e1ea0cf9d2f7a8bfb6d6c71f;
    0x02578b17af2230a95b9afad191f9001ffedbe02357f929855a1eb8708311d8a1;
    0x841a25f768da73ba64f60e0c064199c0edcc6f799e68114adf08f14ddee4308f;
    0x0588fe0db8a3643f7a2a727e25a01edf60fed78079be7a25fc0dc30a5f5207e8;
    0x686734db8bd3dba5c57503c8383e0a2e9e2117921863e750aecf77a67a796ff5;
    0x21a65d75381e6a2602f2072d8e3a3ccc31c632facc77c087f7042bca91248cde;
    0x49eae1ff96d1cd7fa2e389bbfba4f0d302e682c659a3e40cfdae85465e8440c1;
    0xd6146596f2ee79137611e17d1ea396e756164cec359e33e3c1928d4d8535eb67;
    0xc819eb8218f019e4b66875ab119a7ced44952e267ed06bd9842915ae1c2662b5;
    0x562aed95a88976eb58a0eaedbbb352fa3cbb48047e678a18f27123f184affaea;
    0x6ccc8d2186ae7e49d66ff6b8f29f2ef7d0787fd4a0cd6d6cbb0151b93f8c4185;
    0xa5dc14339dbba5eb6348153a2a2ffc8e4900f2a8e4b4fb6dd824bcf0561420a6;
    0x2584ba8fa4a53169391714867d8337132b16f6d96475908e1615c722700c4063;
    0x2be8ba2e4bef2ab0902018709a4a5b8c022d5e6a378d7dc64408a8cae7b5c7a7;
    0x2f15b2b220b5ad40e5dbdea89e4c1aa4986ceec607da86e43170033722a1cb3f;
    0x12bdecd1047a88adcf126175871cc8f6dc524ab9ec13aa30e786eca5bbdffe86;
    0xc5abfad6aff7ebddb3c86d4be9bb27f3094cb9cdb529ddcb7a4af2154297dcc6;
    0xd73b64264df98ac0737a9f56dcb96baca5cff1d399c512934134bc0c1b590f5f;
    0xce4077a5bf5d472fb3457e45409b5a2393d012a3df71cd17d1566ac21c62260a;
    0x76fb5871ddcee4c42bf5a5d5188048300eb19e4b1e113b7c1fdcf08847429cfa;
    0xe3b79fce6050a68b90ee8e724a0f9a2a74940e209417871d1d999cb483a08b3a;
    0x2696e903b7f800bbb5e2fc779b05fdd16b03ff93416f00354914e79773dad614;
    0x08a95f48f04dd1bc859395581bb7ff7c3176e09937f40f36c99b8703530e3bf2;
    0xb395d61903804162db1172c006f68e42d06e03786bfc9e4e7965c02cd3db4b6a;
    0x80899b05c798fede016890c1b03b093ddd96712f36d54f6522dc451c2c827af9;
    0xf3bbc4bff6110eef4b37b9935be7a9d0cf64b50b1fd329c332086367828f8d0c;
    0x62f29d0e45749148a95c7958e857a399cec5141a63412a80e5e965884712bb3a;
    0x8fccf43eebe9a7d01488efbad513b401347805f39d02e93db124bc1180ed6934;
    0x18d61cad397c103f96dc404e579a6c6c97baaad9b92fc79fa7d5b01380078694;
    0x52a59ef3c3672d8d46b4317118e2f22e25580ad6f6bbd1633b7bbe0df59d4d1c;
    0x3a373f724af6987d59ce56bd59925e4c2f94a708f41ec2acf06fedff9919c446;
    0x5b219aa98f1126779fd6f9a666c70b7d33da4505094f44029f38d4ded0c630dd;
    0xc52512614d86a714e3e1fa8e1ec80adcbe40a9021d01abe67373338dca1fd7f2;
    0x67575e46da0705a99efb9c081f7e407f9261a88af3a6ce1c604d477d6f027db2;
    0x86426ca4a5f1f2bc4bf7bb25cadfc0201a83a5facd68bccc71fadb9210bbc305;
    0x29a7fad8a0d2b6baa49849df07e4f77e6363205e5c7c2189ffb4f83655b4b636;
    0xc614eab8caab8b08f985475ed01cb88e238346bc0cbeaa036f166b42dfb45792;
    0x5c76f6e051af305fcc125c67b00278a739e773f98021c131fb43d9ce3385d00e;
    0x157f0f31a073708d2038213b7c76206599996094e636ff81bda0c60310ac4780;
    0x3f54787fd9439d059027bc17c5f944f5a39491debf61b2b72c60044d6b249a44;
    0xbbcc1529aec8d2edd74f8b1f5aa7f8953b7b2d2e04cd428274bbaea5372fe475;
    0x151bd893fe7c6de3fc92d8bd1f184e2d6f0e4c89fd01f072f4727cc53fc7bd61;
    0x7b193d6fe98bcd2275b824015c075880617c3f9dbc1b79c438ce945ea0bcbd36;
    0x8a1d978fdcc6f034efe2e0648dba3f3f24ce9ebc23d58a93e3e444238af40e70;
    0x7f5594e6b30e86a5eb78bd8c322f8db95b1afa5454002ee646ceb26e96aa2257;
    0xeac042e2c5e481571f1eaac376de518c4433d5fd007da78198768a389db9dc88;
    0x8d94fc5d2ebd4b17e7585fd666f2a1680883abfe8ef46fc729fa17babf790dda;
    0x0a6bb53ffca7f5f1f5a16112059525edbe41b29b1994ab64c3f3facfd68c2695;
    0xc2138b72713b6a4df974572f04358546ba8d1f9f52cabb2d65e4174e6e4e82e4;
    0xcd79c7043811a751c1e592ea9da7d571ee6d355fdd2ac7c6e11a6a7ba66f5891;
    0x70fe08de7b200ece1206b577ea43ba04f13abe0024ba7087aa72f7342192fba6;
    0x4534e39c9d03692fc0037c8f338b1c0215f25e6470517bb138f4353e1eec1c2c;
    0x6d53aaf6a8cede2d1071d391bc475494e2a23620090db57964cb04a52fd02b0a;
    0xe817b1192283c9445fdf19af8e73896e751c28ef4692d2b7ae9ce1ee6d7a0a69;
    0x3130eb87dc64d1b27399cb6506109a944c84a5b33e3ed2a46e73f68d6adc1efd;
    0x94f571cbdd2f660048bf99d9e6b8f719f24d650cf0d2dcc91ed22394a1b71d26;
    0x974e5dbe7404fae4c6f09c7779bebcf381522934ff03631882fffecc9e73eb8b;
    0xfc21c8a3ca342f1227fb3266864650867b71c48c43e750fbc3ad214d0ebe2c07 ].
(** From 2^256 times the base point to one less, or one more, than the order: add or subtract 2^i times it. *)
Definition order_steps : list (bool * nat * Z) :=
  [ (false, 224%nat, 0x9a2d7166097bd96cd1937efb9a8898f2a193990996b5e5baeb5a9825e3e00fbd);
    (true, 192%nat, 0xd6806671e7e7f77e3b0d52caad33d6e529de405933415eb24dc08246e06511ff);
    (false, 126%nat, 0x2cb8923fbaf82e4b17eacbf94596581f3dec4bb772fa2e15476abdfb4dc5a125);
    (false, 122%nat, 0x9ba1eea70780efaa211df69bfb36c9ea4b4ae3e28aa3e4e214d3b4bcc747e76b);
    (true, 120%nat, 0x11b3c3c5ab935c820f3208ab825e7d6a34a825da09ae95e8ddc960874679bdd6);
    (false, 117%nat, 0x3335afd4e4054010273865cfdc1bda960658ad92ffe440e62380b5ca3624faf5);
    (true, 115%nat, 0x24bc0f6bb4441cf48bf68c2de2fab700bda7ec83d265c11d1c7473eeffa54e5c);
    (false, 112%nat, 0x6d686e71e1357beaa9d453fbae9cbb9215c2aeca2a06ecffa8465d5e92ca22a9);
    (false, 106%nat, 0xa2472788b204c7147b06bf7ac14f9800434c2ab869d5be43ebddf4032dc556c7);
    (false, 104%nat, 0x2bce8cab32c4f6f12e911dcabddfcb4a9348f38abd801e455242ca66e0cc8746);
    (false, 102%nat, 0x7140a4e100471d8b8b6f308f42a751feff19f4cdca6cca2ba3d569bfe7d41c79);
    (false, 100%nat, 0x714c2f7f5b8298c67ea7a549254694c3531e16685d36af772336461051badb71);
    (false, 97%nat, 0xd20c4981d419719d2a79cbef2f9541f788efec0a8c7de564ae9a79ecd933ac58);
    (false, 95%nat, 0x11ce2e2f33838fe2898bd87e6a2a1b8387f4bf62700260848e01d24e4feff613);
    (true, 93%nat, 0xe6210b960d60bbfa660746939907c69498ac11ae212f4ee2009ce45fd795d68c);
    (true, 91%nat, 0x1131f65631898e0fdae020e3b7533baf6653415dc0c0ef5f96d1d12b8060350d);
    (false, 88%nat, 0x82b4ea0077914e4ef9d09eb65afb1b9dc04733a0bfc24f6df395467bf2d53a38);
    (true, 85%nat, 0x87a0f70953bea6fb5036195cc4f53cb3fefa15580097ccd1a1579bd350a17d7a);
    (false, 83%nat, 0x179f05b939f9b57072612e056f8e5950e5d4c02626fb9430344b2f387ae7491e);
    (false, 79%nat, 0xaadb63aaec071f00d500b572bf5cdbbd6cdf2f6b088372639cbc5d12358a66eb);
    (true, 77%nat, 0xc4282eba461c193f0391b549ea055cd9882256e5757a7da80089f328e15c8938);
    (false, 73%nat, 0x819f4a8d978c949337a2c9b5fd96de430a146a92fa36d3c329114cc8351f425f);
    (true, 71%nat, 0xd535c5bb6f97903a8d9e6deb40a773b7451e66ff6afae4c69e59163b71f83678);
    (true, 66%nat, 0xe0a61504b74af824b759911c7d5414d9eb2f9afc10b1e50c332dd1da33e78a42);
    (true, 64%nat, 0xfcec145bfb37b938cfb2f4c33bbfd1401f28141105d831d99955317091da888e);
    (false, 60%nat, 0x24816a840297f275260cc130a5ef8fc78aa99cf15e7860afac9642260a41ee60);
    (true, 58%nat, 0x00882750f88076fc6a041d86e18942df2c5c97af168ee0677dba0a602619734e);
    (false, 54%nat, 0xf94c874eb7ea887acbff9f1b4d8137c8d721f2fff82eb715f99070d1b76695c6);
    (false, 51%nat, 0x9dcfecce5ee2f84793234376c9615c4291bf171c4ab19e297b0bad6cb477654d);
    (true, 49%nat, 0x932b7b405c95ab4f3d207c9db3c397cf783372be37802e142b29a5477af9b3e1);
    (false, 46%nat, 0xa8dd9e4033d37774eed57e3f890b968a8a0f93b4ff34ae6ac2bd45a906a3675b);
    (true, 44%nat, 0x60402f2abc8c7d8091ef8fae077925459e35bbe8d1742c9287126ad3191679ec);
    (false, 42%nat, 0x272d1be2bdac210481aa7175940036fe9f3cafe452368b87cbe9ba950f0bac37);
    (false, 40%nat, 0x98d813b3aab693ef432068138aeea034a98b197698d5eb5daed5b3022f4ebfc8);
    (false, 38%nat, 0xa5adc339ea8309cb3845cb8109a455cedafd8da25039ac5e8eb9622ebd8f2bcf);
    (true, 34%nat, 0xed22fabccd9cd636b196ec78cffcc374b51961d0708cf885a60fa5cbd607e907);
    (false, 32%nat, 0xaf730b49a65552044ff904c81bb9b3d9387e8474ab25f6b838390ebef0359514);
    (false, 26%nat, 0x3b20f9c981e1e813fb70b0b1b108a851b3cfa26757d765c268bc889fd5ac8300);
    (true, 23%nat, 0xd0f91327158d6b6ea33dde80e6a7ce569e901140cdd709812945f16b4b594ff5);
    (false, 21%nat, 0x47583fc930720a48c82a5ca5a7eb36a6cfaf6c4de594fecae8d6e3e74abd357a);
    (true, 18%nat, 0xa28a8fc5b48628099c2a3b5d46d6a12007d76bb5824e2cba5eaec5587209b7ac);
    (false, 16%nat, 0x5724e4626d5dfd2ada48b18b50ec3ac13f0a00144f4c106b353c59eab6efa16e);
    (true, 13%nat, 0x2e568392639143b2ae90926279571b74b7c393defecd35b713813fbcb98f46e9);
    (true, 10%nat, 0xfc3bb996f4dc74fcba2b78b81b1ec875fab129ba4b69425050afcf29988d5523);
    (true, 8%nat, 0x1b8b78d1f1ce012135369b841fdf3e00b8f7450ef6b093931cbeb040372ff7f0);
    (true, 6%nat, 0xb26a86c85cf4125b521dcfc4cce19d5ec9d591ed4f9f08833a6d33abe31edae6);
    (true, 4%nat, 0xa7674e3692f8a900c693b2eb37f6e3cd5f3154b3dc8ede53833adf4fbebe1958) ].
(** The entries of the tables that are sums. *)
Definition table_chords : list (list Z) :=
  [ [ 0x9ad4dd86289c683ba0099c37d4ebd5faa3626bac58cb8dc48fd302c71352a356;
      0x15e1d6a72edac19d378c61e0aafdd623d546b4f027bf9126b03bcc50aa8760aa;
      0x9ab0555e577a53b01c65d7e7b3877f50b76357c7289616bff5e4263452eda6ef;
      0x3020fd1c2c11bce8946e8e07f013884a6995ebf4df9499f50e951bf6a1b4fcb8;
      0x35c5e064e353594a438f574043bd3134f06c564a084a3bba4701ddd4ca83e9cd;
      0xe21486704736fbba68381eec72896fcabc0f6117df372e2220954c84bf996058;
      0xf2cdd5c99a750fe7aaa5bad31684555df0fc61330ee72e09e8d3731f97d81e46;
      0xf115b35adc77e006bfff38c4eef476c51fa57cd2e4eddca5a702fc23751b97be;
      0xe5c9cac7c3b7d67823e94db72ab001501008e9e2d178adad740f2aad64c3e132;
      0x85c6c731a6c5ff01a6a3d1e7f3bc3a478cbda307f9a259dc6cb59e7bc51c82dd;
      0xc995e6774c34bedce8c30a11f387b12d921db747a838fdd506789c96fc4f8a2f ];
    [ 0x42fea82d352846f8bc963457229fe67a49e645109b6923096bb0efa2a1008ceb;
      0x7e5139be91ceebe2b31e1ff444b8bdb999f408d9d50dc0c88c78f091fe0a79bb;
      0x36bfa73c5ca1d39e8de9d85e14969c71af09967706f8e2b19edb442d34d0228f;
      0x98232e63fdc0b71f244887770db99bd2a12ae7e78b3dd30189350f67b2d3276a;
      0xa11052464007199532113ced23fac7c0d8df8456b9361beaa161a8227b558f68;
      0xea04962e699477608d3caf08734daca9876ffefe8234c26b4b1242a8d9d8bd72;
      0x96f95913b3a19dd8036dc94d21e1e7765f0cbf3388cbdef34e5e6bcb652a4ab7;
      0xd090791a97e7e78964bc8b128d5ec6138648694af68ede7a27f7fdfb6d7c7e35;
      0x292ed93ad2693471f800fb66003a8408e453bb04a5510480c8e07d44dad075bf;
      0x88609e988947b02b0124f71ba739527d520f07b5a99d77b110020458efa39e70;
      0xc651ba5af77e1ff172ecd24dce31dd88ec7af2a65aa42bbc629c3990d47801ca ] ].
