(** Order certificates for the characteristic polynomials of xoroshiro128 (55, 14, 36) and xoshiro256.
    Generated once by a script; every entry is checked by the kernel through cert_check. *)
From Coq Require Import ZArith.
From Verif Require Import Proofs.WordLemmas Proofs.Gf2 Proofs.Gf2Order.
Local Open Scope N_scope.

Definition xoro_steps : list (nat * positive * N) :=
  [(0%nat, 257%positive, 0x4bb9cbd5881c4c3100b392aa7b03293b);
   (1%nat, 65537%positive, 0x171f68deb4683f814fefb5018cab1cd8);
   (2%nat, 4294967297%positive, 0x90a3bf305aca8f686f9032c94d8a99f0);
   (3%nat, 18446744073709551617%positive, 0x294e6d4e1a2384c0c34aaed3de299568);
   (4%nat, 5%positive, 0x92b6e4bc938c9966607ed6107aa9f502);
   (5%nat, 17%positive, 0xff8cefb76846895353ca0f0fe69d9ac1);
   (6%nat, 3%positive, 0x1);
   (4%nat, 3%positive, 0x85191d4451e8feeb137dd370628ac1aa);
   (8%nat, 17%positive, 0x526e8bee42977eca673bbdfd15f89bd1);
   (8%nat, 5%positive, 0x8fa873f28d07654478a77107ff479c3e);
   (0%nat, 3%positive, 0x8);
   (11%nat, 5%positive, 0x8000);
   (12%nat, 17%positive, 0xd2c5a3b88259916bf8324ec35a885a4e);
   (13%nat, 4294967297%positive, 0x3ac985b1932264a8848b5a4266293262);
   (14%nat, 18446744073709551617%positive, 0xe2772bb3d7115ead8214c0369c863c2f);
   (15%nat, 65537%positive, 0xbc186881156e5abfa30271a63dcac032);
   (15%nat, 257%positive, 0xa58bddd9944ee2b7df0b43e31645a64f);
   (13%nat, 257%positive, 0x96d71de8681a8f7520d6654f49567d02);
   (18%nat, 65537%positive, 0xd281bc01ebe04ddb6ae468d258d380f);
   (19%nat, 18446744073709551617%positive, 0x3426f1b492b018b52d4cec5473b4e6c5);
   (20%nat, 6700417%positive, 0x3213cb85f87d68058cedd468d4a46f5b);
   (20%nat, 641%positive, 0xad2134ef78a77c8ae88cb6e16c4982ef);
   (19%nat, 4294967297%positive, 0xec071c337cc1b0d470bd31828da21d65);
   (23%nat, 67280421310721%positive, 0x7848c1ab8d0385375e897c2682e2beca);
   (23%nat, 274177%positive, 0xf71b96aaf53a369d2a1bdc8b32848f81)].
Definition xoro_primes : list (Z * nat * N) :=
  [(3%Z, 6%nat, 0xff8cefb76846895353ca0f0fe69d9ac1);
   (5%Z, 9%nat, 0x44746645e1e994f5f0fe77cc421dfaaa);
   (17%Z, 10%nat, 0x32c47704c6cdf7931acf2a818a19f62d);
   (257%Z, 16%nat, 0x96f288cba5870497fd983bf5d14bdbeb);
   (65537%Z, 17%nat, 0xecb57a9ef6f5a6fff4387293b32f3b0c);
   (641%Z, 21%nat, 0xa7e437605ed5e3ae3e409dba24fc1dcd);
   (6700417%Z, 22%nat, 0x14ca8334099b25f5a6585d516b1fd6f1);
   (274177%Z, 24%nat, 0xe9e260cf9faf324aeb4d0d5da638cf50);
   (67280421310721%Z, 25%nat, 0x139bd4d8ba1f6134c128219c7d36e79d)].
Definition xoro_P : N := 0x100653ced7f29f88a5fd66762f0e1c001.
Definition xoro_Ord : N := 2 ^ 128 - 1.
Lemma xoro_cert : cert_check xoro_P 128 (2 ^ 128 - 1) xoro_steps 7 xoro_primes = true.
Proof. vm_cast_no_check (eq_refl true). Qed.

Definition xoshi_steps : list (nat * positive * N) :=
  [(0%nat, 65537%positive, 0xb0fcd9f85e3c3f5ada33909b2bc5c0f427dcf96d2f7c648860023792f507158f);
   (1%nat, 4294967297%positive, 0x8389f3579f9024798b8baffe7baf174f55d66f9ff589db1d8fe62309bd6e18fc);
   (2%nat, 18446744073709551617%positive, 0x501f543a5fe47dafbaf306598163337806f29f74c0812d12ad7a5765c3e39752);
   (3%nat, 340282366920938463463374607431768211457%positive, 0x64af5832851e53068eb1596206fe8aa365bb30e5c4a617734bed7cfdeeb096a1);
   (4%nat, 17%positive, 0x6d8919e96c1bab8a6c25b420bc9aa9ad1740566edc2bab7aaee7b4fb7f8de693);
   (5%nat, 257%positive, 0x9b17f5767b72e1a3c673d4c3e369b20235e972559753b37fdedc95dc103781f);
   (6%nat, 5%positive, 0x54d6a48aae687fb68b7f13ce6607e276afab085596734aa97762f281b25ed783);
   (7%nat, 3%positive, 0x1);
   (6%nat, 3%positive, 0x6ec9cd129895d052616a564f042be5956a2075f39c3d432635ad7e8b44cbcdcd);
   (4%nat, 3%positive, 0xe8d4860a3ff67671d11d8e77e99e7deee6bbb0b7a25547052dfbbd36e8d931aa);
   (10%nat, 5%positive, 0xf03d401fe80611e1b4255b5e1d0ee98b94020603bd912c55abced46c9c6669ab);
   (11%nat, 257%positive, 0x90269340057d7ee7eb21d977cf20f3dc38da22c5375471f2a0a830a7ef328ee9);
   (11%nat, 17%positive, 0xfdb7756e6ac858fd6732aab4918d7df125c6c922eca444e8a2a0bb43afdb4f25);
   (0%nat, 3%positive, 0x8);
   (14%nat, 5%positive, 0x8000);
   (15%nat, 17%positive, 0x8000000000000000000000000000000000000000000000000000000000000000);
   (16%nat, 257%positive, 0xec3e266f07dfd89c75fba9b2906ad81ec8173e445f1ed29af1cc61bb89058163);
   (17%nat, 18446744073709551617%positive, 0x6a53a79da5516bb66c917b110458005977147f814db4c3bb7789925ab3fbcf80);
   (18%nat, 340282366920938463463374607431768211457%positive, 0xa87dc9cd85a58d1a4c561634e2c12261cfa1cdef6adef8ba776cfe86fd8c3fab);
   (19%nat, 4294967297%positive, 0xb676779c1ec18ee71ca799db6f5623d0f6f65e508c7029e05dafe16943ddddf8);
   (19%nat, 65537%positive, 0x37fe0ecb0317f607575a66162420831f3d8c828694542642752abdbad5939599);
   (21%nat, 6700417%positive, 0x581da52f86332ea661bcbb2b555ce0f02e9815440881e2bf78b880b86010e91c);
   (21%nat, 641%positive, 0xc6450b829be1a76226abe4270fff410101352a4c92d48efe19b67cdd3c86a7ed);
   (17%nat, 65537%positive, 0x87034e848fe1b96712fda107eeff2ec6bf86830cb9fafe796281b139c670efb4);
   (24%nat, 4294967297%positive, 0x972517dfe0cdffc9a7d7f8c23c2e1055b06b62dc63c7883589e0b7404b783aa);
   (25%nat, 340282366920938463463374607431768211457%positive, 0xea589bac321fb9a794f89aadd3a130f660161370fcd087627a75d0283f485e6e);
   (26%nat, 67280421310721%positive, 0xe5a556c3c9e400e198126a39102fcc20f4c3663facb3240e1d771075d04e50d8);
   (26%nat, 274177%positive, 0x2fbf5d361feea8bd9fc94ae35bf3f6a76338c186cf6f576a067bea15d2a4c5d4);
   (25%nat, 18446744073709551617%positive, 0x1cd5ee2294d8b30e54ac130c701fe4d56ad3093378649c960c0763699e7e855d);
   (29%nat, 5704689200685129054721%positive, 0x9ca884016a9ae0ccc7d474a8d84519140837e437505a90a217cc3ecd3bb53a6);
   (29%nat, 59649589127497217%positive, 0x3d5cb71a110f671392e965f9e4b713e93b04d92f3f0eaf518cdb42c9fdb2914c)].
Definition xoshi_primes : list (Z * nat * N) :=
  [(3%Z, 7%nat, 0x54d6a48aae687fb68b7f13ce6607e276afab085596734aa97762f281b25ed783);
   (5%Z, 9%nat, 0x9b17f5767b72e1a3c673d4c3e369b20235e972559753b37fdedc95dc103781f);
   (17%Z, 12%nat, 0xf4646ef27133b2d46393a4c40448d75b8f3adcab0a20793ef8bb26f5b81e7ecf);
   (257%Z, 13%nat, 0x618e9a9a97b4105e9870464ee696824b10a336ec58f59159b1165cabfe23cd76);
   (65537%Z, 20%nat, 0x5b7382b05dc5a20686e618650a39fab806017ce589bb2d98cf9b5a05139e793f);
   (641%Z, 22%nat, 0x56ced9120f236c15fdd49ed161d46abc0269afa58693de573c5dcc0645c4b0ff);
   (6700417%Z, 23%nat, 0x1c10854fe79f6066b6b1fe5c68be2282e701b5777ef01c8fd5b0ea5458d18c36);
   (274177%Z, 27%nat, 0x24d5461cfd63732f63b6b60adc840b312db07c0c8c7b46872d3955d70f9e6ac5);
   (67280421310721%Z, 28%nat, 0xc3bc6f4888606c0bfb4a6ce96aa43d28506b49c1c962aba2928641dd24af8cf8);
   (59649589127497217%Z, 30%nat, 0x2b0b5d0e0d5dcbfd343a0c7c13920e58856efc82f8b6f3e99a6368bb225afce6);
   (5704689200685129054721%Z, 31%nat, 0xca8fcba3c0dd08871d4e3f7290e3e7fb8436109b90a55fd4bc6fe9d31b611e5)].
Definition xoshi_P : N := 0x10003c03c3f3ecb1904b4edcf26259f850280002bcefd1a5e9d116f2bb0f0f001.
Definition xoshi_Ord : N := 2 ^ 256 - 1.
Lemma xoshi_cert : cert_check xoshi_P 256 (2 ^ 256 - 1) xoshi_steps 8 xoshi_primes = true.
Proof. vm_cast_no_check (eq_refl true). Qed.

Definition xoshi_jump_poly : N := 0x39109bb02acbe63577710069854ee241c5004e441c522fb376e15d3efefdcbbf.
Lemma xoshi_jump_cert : (ppow xoshi_P 256 (tab xoshi_P 256) 2 (2 ^ 192) =? xoshi_jump_poly) = true.
Proof. vm_cast_no_check (eq_refl true). Qed.
