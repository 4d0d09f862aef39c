(** An IV of 16 * 607 bytes after which LFG's 335 live words are all zero (found by a generalized birthday
    search over the 256 table words each position can add). Row r holds the bytes at positions 607 r and
    607 r + 273 .. 607 r + 606; the other bytes do not matter and are zero. *)
From Coq Require Import List NArith Arith Bool.
From Verif Require Import Model.Base Model.LfgTable Model.Lfg.
Import ListNotations.
Local Open Scope N_scope.
Definition kill_rows : list (list N) := [
  [3;0;0;2;6;2;0;1;4;0;5;2;0;2;1;6;0;1;5;6;4;4;6;1;2;2;2;1;6;3;0;1;1;4;0;3;4;3;3;3;4;5;0;2;3;4;5;0;6;1;2;2;4;2;4;0;5;5;3;4;1;1;2;1;5;4;2;0;1;5;0;3;5;3;4;3;3;0;2;0;2;4;4;5;0;3;4;4;6;5;1;4;3;2;1;5;5;4;2;0;5;3;0;1;3;4;3;1;5;1;3;0;1;0;1;2;6;6;2;0;5;3;0;2;2;0;3;2;3;4;4;3;2;5;5;4;3;3;4;0;3;4;3;4;1;0;6;2;2;0;1;4;0;6;1;0;4;3;0;0;4;1;1;0;0;4;0;3;4;4;1;3;2;0;1;1;1;2;3;5;5;1;5;1;2;2;4;2;3;3;0;0;0;2;5;4;0;2;4;3;1;1;1;3;5;4;3;5;5;0;5;2;4;4;2;1;0;1;1;3;5;0;2;0;2;1;5;3;0;4;5;0;0;1;4;0;6;3;4;3;1;4;1;0;4;4;4;4;5;1;4;2;2;5;0;3;0;1;0;0;3;5;2;0;3;5;1;1;5;5;5;0;1;2;4;2;3;1;5;5;3;3;3;3;5;5;2;4;5;4;2;0;3;4;2;5;2;4;3;5;2;4;0;5;0;5;3;0;5;2;2;1;4;5;4;3;0;2;0;5;1;1;3;1;2;5;2;4;1;4;4;5;0;2;5];
  [7;1;29;41;7;88;11;61;63;8;61;34;19;11;9;6;15;24;61;7;19;42;12;6;24;10;6;12;10;4;48;40;37;27;23;57;16;22;3;58;67;59;68;43;10;14;33;8;6;76;35;23;23;24;34;54;14;10;33;10;4;9;7;70;41;36;73;13;53;17;25;4;11;16;15;16;27;37;46;16;51;69;76;40;88;7;18;6;13;61;7;23;41;26;76;6;14;24;38;5;8;61;51;25;24;31;3;32;14;32;40;61;19;40;28;17;12;15;17;28;68;3;3;29;3;92;3;3;65;20;33;97;40;27;19;39;17;42;70;31;74;22;57;16;11;17;12;69;42;59;61;6;4;10;63;15;31;66;1;5;8;37;54;45;17;80;56;11;76;33;26;16;3;7;39;24;8;3;12;15;31;68;65;22;62;3;6;15;53;52;82;3;24;17;14;11;25;3;71;62;7;13;15;11;46;10;66;11;66;58;14;45;19;5;82;30;30;73;88;44;13;33;67;4;43;59;25;13;18;44;22;17;20;24;5;23;9;19;20;51;96;20;14;45;21;12;32;51;9;44;27;32;32;8;58;19;2;39;9;44;34;66;28;9;6;96;3;11;38;10;51;7;21;31;89;84;9;25;20;17;4;33;75;32;56;30;12;22;31;21;16;55;16;6;8;52;66;4;17;32;18;40;30;48;52;7;11;23;6;42;13;43;56;35;14;23;51;49;1;12;1;28;59;20;72;31;58;11;75;63;53;29;60;15;30];
  [21;79;43;93;35;99;29;61;80;9;62;97;92;13;27;117;23;39;73;93;70;97;65;82;80;64;100;43;51;77;65;89;90;28;56;80;42;46;7;85;87;95;95;46;98;84;76;69;51;94;44;30;36;34;36;55;56;30;34;22;95;24;79;89;89;92;81;57;57;41;48;15;75;91;38;104;61;100;53;23;56;108;95;41;99;101;62;102;32;92;19;91;100;42;105;55;36;52;55;84;22;67;73;51;76;63;78;45;41;48;80;90;89;93;29;19;29;41;93;37;84;33;23;43;19;103;89;92;76;84;100;100;61;52;69;70;112;68;93;51;91;48;99;37;21;19;23;82;79;64;92;10;36;27;75;60;33;77;13;48;95;46;67;49;61;107;79;15;85;70;47;30;83;84;73;60;73;50;36;116;72;70;125;42;69;57;78;34;111;65;108;84;54;17;30;62;36;3;81;88;83;47;58;98;47;45;66;49;81;69;43;64;56;42;93;71;83;102;103;69;16;43;70;47;104;74;53;66;47;88;63;70;89;37;5;59;11;54;46;57;123;35;104;71;36;15;57;73;84;116;30;90;92;63;72;43;30;89;27;77;37;78;112;28;54;122;43;22;93;39;69;7;22;64;97;87;32;79;72;80;51;50;76;41;60;78;22;95;58;54;45;88;16;69;63;114;78;31;77;89;39;51;58;73;59;18;42;27;52;70;35;51;105;63;15;27;67;119;2;15;9;98;59;27;92;59;81;69;97;66;76;84;70;32;43];
  [30;122;106;126;94;106;31;66;124;122;99;102;92;95;27;118;92;88;91;100;117;126;119;99;89;124;115;45;118;81;93;89;127;48;89;102;120;89;123;114;99;96;118;78;106;112;125;109;85;116;110;80;43;43;95;104;86;68;38;53;116;125;109;99;117;103;111;84;70;70;60;119;82;107;111;120;116;110;111;23;77;117;121;107;111;116;99;126;33;102;89;109;102;100;111;109;45;115;122;118;98;76;96;122;121;77;120;55;45;77;113;114;116;124;32;30;67;89;125;77;85;113;40;120;94;122;118;105;116;124;108;101;64;52;118;84;116;122;123;89;91;101;120;52;43;117;116;98;90;93;114;48;99;92;117;89;33;99;112;64;98;100;72;108;108;120;106;57;126;104;53;108;90;122;91;116;120;121;107;121;96;117;125;100;75;85;102;110;113;125;119;84;77;103;63;78;117;72;120;91;127;81;67;116;121;64;67;127;117;121;94;116;61;59;108;110;89;108;109;109;76;47;118;47;104;122;56;119;66;113;95;111;121;96;75;88;14;121;124;114;125;103;110;112;113;91;91;79;87;127;124;111;102;101;106;126;95;90;113;103;88;96;115;49;72;123;90;44;124;97;102;34;77;104;122;113;70;97;92;113;86;64;116;122;60;110;43;103;85;103;86;113;123;123;127;120;90;93;106;96;85;104;116;79;79;56;56;48;100;94;44;97;116;95;106;57;76;126;7;98;84;113;85;107;103;125;111;123;102;108;107;112;73;88;115];
  [131;128;131;131;131;128;132;133;131;128;130;131;133;131;129;131;133;129;129;132;134;133;131;128;129;133;132;133;133;129;134;131;128;129;129;132;130;129;131;130;131;130;130;128;129;130;130;131;131;133;133;130;129;131;133;129;131;131;133;130;133;131;130;130;132;131;129;133;130;129;133;129;128;128;129;129;129;128;132;132;130;134;129;133;134;131;132;132;133;129;132;130;133;131;130;130;130;132;129;131;133;134;134;132;128;133;133;128;130;129;131;130;130;131;129;131;130;129;128;133;133;129;133;133;131;132;129;130;128;130;129;129;129;130;129;133;128;129;133;129;132;130;130;134;131;133;132;130;130;134;132;130;129;128;128;128;131;128;133;128;129;129;133;128;131;133;132;130;132;128;130;133;131;129;133;133;131;131;128;131;134;129;133;130;128;133;131;133;134;132;130;128;132;129;129;133;132;132;129;134;129;128;129;132;133;128;128;128;130;128;130;133;129;133;130;128;131;131;128;129;132;128;130;131;132;133;133;129;131;133;134;130;133;130;130;131;129;132;132;132;128;129;130;129;129;130;131;134;129;129;133;129;133;130;133;128;133;128;133;133;129;133;133;133;132;131;131;130;128;129;132;130;129;129;134;132;133;132;128;130;128;128;129;130;128;129;130;128;131;133;133;132;131;129;133;132;133;130;132;133;129;133;130;132;131;133;132;131;129;131;132;130;133;131;129;128;132;129;128;128;131;133;133;133;133;131;130;129;130;131;133;131;129;132;130];
  [139;138;221;180;198;156;143;203;133;184;142;210;143;189;167;147;211;183;142;182;139;215;133;196;143;173;167;159;196;196;140;162;159;136;164;155;151;129;164;188;165;133;131;148;182;159;189;165;144;200;204;212;170;138;138;180;137;230;164;174;134;159;206;155;155;163;201;139;153;154;180;170;224;162;194;152;154;135;195;157;160;140;135;175;142;133;170;136;173;135;160;133;200;149;139;139;139;163;202;138;194;142;140;167;181;191;171;206;172;164;162;135;139;193;132;180;159;156;180;165;208;139;165;136;147;162;150;223;152;144;138;151;199;176;154;158;166;151;141;147;193;149;146;138;212;156;148;138;151;142;187;153;134;130;197;149;187;189;134;181;139;151;152;142;142;141;222;141;144;158;134;179;132;135;235;146;143;153;146;144;140;210;145;176;187;196;131;134;137;135;168;159;162;217;206;174;185;184;178;144;130;137;145;172;152;160;137;155;174;143;173;140;171;150;182;134;144;185;154;143;139;235;132;157;143;138;142;165;172;138;137;203;168;179;130;147;164;137;189;207;193;163;154;137;203;149;142;143;130;143;174;139;158;167;181;129;186;144;206;161;156;166;164;162;136;172;161;136;161;151;148;131;131;130;139;161;213;212;135;207;139;131;144;137;150;193;185;135;160;138;160;182;156;151;152;161;148;174;159;142;135;174;152;149;146;186;235;136;193;140;137;138;143;131;145;129;145;129;189;161;142;141;153;191;173;152;177;156;178;143;227;155;177;133;137];
  [159;139;237;180;231;173;183;225;137;191;160;215;165;194;182;203;214;211;205;216;146;215;153;203;157;197;170;191;231;211;227;219;217;149;190;205;181;133;189;219;223;195;134;151;197;177;189;172;178;216;204;252;173;181;168;238;158;239;200;212;156;184;226;175;204;194;205;154;182;162;180;245;239;163;195;200;155;173;206;184;230;147;169;237;203;147;179;137;215;170;184;157;209;164;171;162;189;167;207;157;197;153;176;187;182;209;185;232;194;229;163;151;225;208;219;181;223;177;195;206;235;168;189;150;159;188;183;224;158;151;176;151;227;230;211;175;184;168;181;182;222;180;153;178;219;170;165;144;153;149;213;156;137;146;253;239;233;196;179;181;207;228;228;145;193;158;222;161;158;173;183;199;161;177;236;176;212;187;163;223;167;228;224;249;215;242;178;149;165;154;213;179;174;223;207;179;223;190;211;149;162;212;228;183;184;168;142;155;230;172;235;199;179;160;243;148;163;205;173;229;212;245;196;197;180;187;144;238;209;154;247;204;194;180;216;155;169;210;212;226;240;202;165;223;221;170;156;156;165;178;234;231;183;207;197;156;219;217;214;174;213;200;195;175;198;211;182;236;181;173;169;166;133;153;148;207;234;213;196;218;209;176;168;189;175;201;191;177;181;186;166;191;171;153;158;172;159;179;162;170;165;182;162;158;215;200;238;153;222;168;139;193;169;140;208;136;212;133;220;181;179;214;221;205;175;211;183;196;244;159;235;205;219;164;141];
  [202;147;238;255;235;190;237;249;249;222;223;239;187;227;198;244;233;251;246;254;151;215;174;249;173;255;219;194;231;228;249;253;228;213;192;242;243;242;227;221;240;212;159;236;226;224;252;183;215;237;207;255;198;214;178;242;255;251;219;224;181;233;233;201;216;251;216;186;214;218;217;248;255;202;200;246;255;209;213;188;230;214;184;239;206;209;193;181;224;179;238;166;255;211;174;236;195;168;223;197;227;234;248;244;247;254;233;238;215;251;231;215;227;227;234;197;229;235;224;255;247;199;242;226;237;203;191;249;232;245;208;246;230;241;215;232;201;206;231;250;222;180;229;221;223;172;170;172;173;174;233;163;214;237;253;243;248;216;249;239;245;236;233;203;241;238;251;168;199;220;201;225;188;233;237;252;229;233;240;245;225;250;229;254;222;248;248;234;173;178;244;207;225;247;247;179;242;201;217;222;174;214;239;192;232;254;149;162;243;180;235;245;204;197;253;237;231;207;249;251;219;246;238;224;180;223;180;253;230;196;253;252;202;210;250;170;220;230;222;234;251;239;242;230;226;248;206;187;221;195;254;253;252;224;224;161;219;224;243;227;237;223;209;221;240;242;235;249;206;226;229;253;244;183;196;248;249;229;221;225;238;202;199;209;229;214;223;240;229;236;177;213;221;155;214;234;228;238;217;174;172;193;170;233;229;253;250;195;245;251;220;196;217;254;223;162;236;199;254;232;206;242;234;213;210;239;186;229;250;205;250;219;244;225;164];
  [3;1;2;0;4;1;5;5;5;2;2;2;4;1;5;2;2;1;1;5;3;5;5;4;0;4;4;5;2;4;0;2;1;0;2;4;3;2;3;1;1;0;2;3;4;3;0;3;3;1;5;4;2;4;1;3;2;1;2;4;3;1;2;1;0;2;1;3;4;4;1;0;0;4;2;5;3;0;5;0;6;1;0;5;5;6;1;0;0;4;0;1;4;1;2;1;1;4;4;1;3;2;1;5;2;3;5;3;2;4;3;4;5;1;3;1;1;4;2;2;5;2;5;0;0;0;5;4;2;0;2;0;1;0;3;4;0;0;1;2;5;3;3;4;0;2;5;5;2;2;0;3;1;4;3;0;4;5;0;2;1;6;0;1;2;2;3;5;2;1;6;4;0;3;1;4;2;5;0;2;0;3;1;3;3;3;2;2;4;2;3;4;4;2;0;0;6;5;6;2;2;0;2;3;3;1;5;5;1;4;4;2;5;0;2;3;5;1;1;5;1;3;0;3;3;4;1;4;6;1;1;2;1;3;1;1;4;1;0;4;0;2;2;4;0;2;3;4;1;0;0;6;3;3;0;5;4;3;2;2;2;0;2;6;4;4;3;5;5;6;2;0;2;0;1;1;2;4;2;3;3;2;4;3;1;4;5;2;2;0;0;5;5;0;0;5;3;4;4;2;4;3;5;0;4;1;3;3;4;3;5;4;1;0;0;3;0;4;3;0;4;5;0;5;3;1;3;3;3;5;5;3;4;2;1];
  [3;19;74;46;98;46;57;26;65;11;66;38;10;19;53;34;46;15;46;13;28;61;27;25;33;22;20;76;4;4;14;40;66;23;11;6;4;82;44;52;44;21;3;24;38;3;47;16;32;34;34;64;63;22;2;24;39;50;3;63;45;41;18;48;70;6;15;41;61;17;13;11;6;51;26;16;19;45;46;59;13;7;52;12;21;12;110;15;62;66;12;90;77;44;77;10;3;85;35;34;6;77;73;71;50;23;56;8;54;68;22;10;94;12;38;6;14;21;44;74;32;29;54;6;45;61;27;18;7;46;15;52;35;22;5;71;68;22;6;27;12;41;90;96;45;72;75;48;30;35;27;13;4;6;71;1;9;46;45;20;22;10;26;25;66;5;46;71;22;17;8;54;56;45;8;60;52;5;29;39;36;3;9;47;11;13;26;69;10;50;17;93;13;14;59;38;8;33;7;38;53;64;4;47;17;34;48;27;41;34;22;52;20;28;3;52;23;10;75;29;9;13;66;109;17;57;10;17;11;17;106;10;13;63;2;66;26;71;29;57;1;28;33;52;65;26;46;5;21;76;18;15;4;48;8;44;16;24;98;28;72;0;36;8;17;21;8;8;22;13;18;22;40;46;24;2;7;39;10;16;9;24;6;31;60;34;28;4;21;1;16;23;82;2;1;13;8;4;9;51;19;32;100;47;18;108;47;14;4;7;42;102;50;82;24;46;29;30;20;9;8;7;13;15;32;29;38;3;17;31;27;50;28;12;27];
  [34;51;86;70;104;57;61;73;75;103;102;43;27;58;108;44;86;32;47;13;40;63;120;71;53;30;109;105;78;19;62;47;67;41;13;26;38;88;104;84;61;55;117;53;63;78;80;22;32;39;56;86;73;79;89;38;58;82;14;82;102;58;95;58;92;86;57;41;81;90;115;57;29;99;26;117;53;79;61;72;95;45;66;94;31;18;113;56;62;70;65;103;82;46;78;17;6;100;52;61;18;106;83;114;58;31;68;19;71;77;70;97;107;79;53;62;88;54;117;75;62;65;58;103;48;79;54;67;16;69;42;56;44;38;15;96;68;62;36;27;66;60;90;104;55;74;86;59;80;37;65;63;12;51;84;65;22;99;74;48;46;91;28;59;77;73;118;118;31;77;10;110;57;64;58;93;74;25;33;60;69;24;75;51;14;67;30;93;10;115;67;112;81;17;95;63;51;59;7;95;53;109;46;115;27;73;63;62;68;36;39;87;45;100;94;122;45;44;102;35;38;20;70;114;119;94;25;47;31;50;107;27;30;120;28;76;101;100;53;81;86;54;64;95;93;60;90;56;78;99;69;81;31;101;46;54;64;66;112;108;78;16;41;19;104;88;51;14;23;30;24;56;81;82;29;75;90;81;41;18;33;34;9;94;90;50;65;9;82;24;22;29;93;55;62;36;27;6;25;57;92;52;116;84;31;110;58;34;115;9;97;102;65;96;56;84;60;68;90;105;21;49;39;36;67;35;55;86;37;110;42;54;35;50;40];
  [126;75;120;99;121;101;65;73;98;113;108;48;84;103;127;61;106;50;54;112;120;80;127;105;85;30;123;124;116;71;104;74;98;86;49;127;120;102;122;96;117;110;123;55;82;87;116;79;45;76;100;105;100;106;96;70;82;122;116;127;110;65;104;126;124;113;75;110;119;91;125;125;74;126;30;123;97;112;86;91;125;97;83;95;63;122;118;87;84;109;88;121;93;75;93;59;51;114;80;112;86;114;122;126;70;78;126;23;111;126;106;126;119;112;92;116;106;63;124;115;96;66;75;103;72;122;116;94;65;127;89;109;126;86;81;118;72;63;53;110;108;101;125;106;126;124;103;106;81;116;73;79;53;83;112;105;112;122;114;55;46;96;86;104;92;109;124;119;101;103;32;110;57;74;63;122;90;54;73;70;98;96;104;82;89;126;109;114;110;118;90;126;122;93;121;108;51;102;15;119;87;113;47;118;75;117;69;65;89;100;98;122;115;104;98;127;49;89;114;66;63;36;113;121;120;127;54;106;88;103;111;99;92;124;67;124;113;102;69;93;92;104;91;126;94;81;126;95;117;119;127;82;102;121;64;54;112;123;124;120;125;55;86;67;124;121;71;30;52;110;81;125;126;111;94;91;101;102;85;121;72;113;44;98;92;101;116;68;82;124;109;117;101;89;102;106;100;44;126;67;103;70;126;94;73;110;126;96;120;51;101;111;104;109;70;92;112;85;116;116;49;106;82;46;100;117;75;86;73;110;107;85;47;57;49];
  [133;128;128;128;129;129;128;128;128;130;128;133;129;129;131;134;133;130;131;130;130;132;129;133;128;130;131;129;134;132;132;130;133;130;133;128;131;133;132;131;128;133;128;132;128;129;132;130;130;131;128;128;133;131;133;131;130;131;128;129;133;128;134;132;132;133;133;132;132;128;129;132;130;128;131;129;129;128;129;133;133;131;131;133;128;131;133;131;128;128;129;130;128;133;128;130;131;128;133;132;133;131;131;130;133;129;133;133;132;131;132;128;128;132;132;129;133;130;132;129;131;131;128;134;130;132;128;132;129;129;133;128;130;131;128;134;130;133;129;132;132;129;132;129;131;130;131;130;128;133;131;134;133;132;128;133;130;128;132;131;133;129;133;131;129;130;129;132;131;128;129;133;129;134;131;130;134;128;129;133;130;132;131;133;129;131;132;133;132;128;129;130;128;130;131;132;134;134;133;132;131;131;128;128;132;133;132;133;131;129;131;132;130;131;131;128;133;128;132;132;129;129;131;131;128;130;132;128;129;132;132;130;128;133;129;133;130;128;128;132;130;133;128;133;132;128;133;134;128;129;131;129;130;129;129;133;128;133;129;129;129;130;132;131;130;130;131;132;129;132;130;133;130;133;128;134;132;130;128;133;133;131;130;129;131;128;128;132;128;129;131;128;129;129;132;133;129;131;132;131;128;129;129;132;132;133;129;129;132;133;128;129;128;130;130;133;134;133;128;130;133;129;130;128;132;131;131;132;128;130;133;133;129;131;132];
  [155;149;128;220;163;140;151;170;166;207;159;136;146;152;137;136;162;184;222;146;142;140;196;162;175;173;155;219;142;159;137;165;133;143;195;132;171;142;158;138;193;143;186;161;131;161;133;149;187;145;130;165;183;168;157;135;156;180;191;167;150;160;140;132;140;156;160;185;184;202;144;171;145;155;161;136;147;161;177;212;176;134;143;133;160;148;220;134;132;167;132;139;176;142;138;194;166;169;137;133;143;168;144;152;177;155;139;135;134;141;142;142;183;155;188;180;169;170;135;134;143;203;133;135;140;200;131;152;153;172;151;158;134;160;140;140;134;133;151;204;182;198;242;134;172;172;147;177;149;219;238;139;147;171;158;156;183;186;148;170;134;169;135;136;155;177;131;200;139;155;146;161;153;142;155;133;137;131;184;150;207;236;131;164;152;164;145;168;134;152;153;209;128;218;208;194;139;134;156;188;204;139;179;129;141;136;132;169;150;159;132;181;151;141;150;226;205;160;192;137;204;135;150;146;139;219;150;131;209;167;154;143;187;191;139;176;179;167;137;160;157;224;142;145;190;191;165;141;129;163;173;144;171;144;148;138;137;189;136;175;155;151;140;146;170;161;134;153;176;159;201;142;173;205;146;134;141;141;195;196;165;134;156;143;140;145;207;152;164;158;133;219;172;133;137;141;145;156;148;136;145;144;151;154;177;147;188;196;195;144;149;142;194;143;177;139;143;229;140;136;155;151;166;142;140;170;155;138;150;177;183;156;155;192;171];
  [189;192;172;228;173;167;181;232;218;214;186;213;207;200;177;187;188;237;247;150;220;153;209;219;176;212;232;220;182;184;138;189;162;148;202;134;205;200;194;215;199;166;214;234;134;174;145;157;207;207;145;245;211;172;165;135;177;229;208;176;187;194;230;214;151;177;206;206;212;212;195;232;187;186;189;137;231;162;229;231;176;217;151;135;184;157;226;170;212;167;158;154;201;188;162;209;171;177;209;149;213;181;218;196;181;195;231;207;137;173;183;188;231;159;215;184;173;193;190;170;168;218;140;140;194;200;162;208;237;215;179;160;143;175;179;149;188;185;175;221;224;219;247;147;224;223;155;211;177;220;239;163;177;214;160;212;236;213;169;233;137;223;181;144;197;184;153;218;157;233;171;212;160;208;166;154;182;183;200;198;211;241;168;165;164;250;152;208;136;192;158;213;187;225;212;225;155;159;158;238;245;198;189;135;227;150;153;179;156;213;173;206;211;204;179;247;215;205;229;190;246;143;151;183;143;226;232;235;230;199;200;143;196;203;163;192;181;191;253;174;243;235;146;146;209;193;186;210;159;220;207;158;175;190;204;184;210;209;218;208;182;163;151;155;200;171;208;153;199;172;210;168;207;219;207;198;156;171;207;232;220;188;217;145;248;156;226;171;215;166;171;237;197;185;167;205;159;180;224;182;168;194;198;216;198;198;200;223;214;215;174;143;249;158;212;154;210;248;163;161;184;213;195;142;176;181;176;239;155;181;221;180;197;217;195];
  [199;249;200;242;234;214;250;238;231;240;255;247;225;203;212;220;200;242;247;197;220;159;245;246;208;212;239;248;182;252;213;244;220;212;253;169;220;244;216;217;250;176;236;237;212;194;247;236;238;237;166;249;227;200;231;144;253;245;210;203;214;223;254;230;219;251;212;254;254;245;226;232;224;242;224;165;245;188;236;241;195;231;209;182;186;171;236;188;237;209;159;204;203;230;201;228;220;219;222;210;225;190;225;223;238;222;237;252;205;239;188;226;245;195;249;252;206;221;226;225;243;240;193;188;195;222;197;208;251;234;180;215;236;222;186;254;229;204;184;228;224;244;253;160;231;248;203;252;179;238;240;193;202;234;231;218;251;242;252;246;182;254;240;157;199;243;184;245;162;245;176;247;203;211;203;191;237;253;226;223;223;243;189;228;202;252;153;224;212;255;182;222;230;243;231;237;201;205;204;240;254;224;228;151;243;160;207;207;223;244;243;246;241;216;200;248;220;214;234;191;248;204;184;236;172;230;250;239;246;246;223;254;237;242;231;252;231;218;253;223;248;239;220;181;235;234;250;232;252;220;233;225;175;204;253;209;222;227;227;218;186;205;176;198;226;200;241;208;250;200;242;233;253;246;251;207;238;173;208;255;252;252;242;213;252;172;251;230;245;227;242;242;247;227;192;232;231;235;243;246;199;226;206;223;217;208;215;224;234;226;222;167;254;242;237;239;243;251;230;235;185;253;252;168;196;199;255;253;163;186;231;227;211;236;232]].
Definition kill_iv : list N :=
  flat_map (fun r => match r with [] => [] | b :: bs => b :: repeat 0 272 ++ bs end) kill_rows.
(** byte at position 607 r + (k + 273) mod 607, the one that acts on live word k *)
Definition kill_byte (r k : nat) : N :=
  nth (if (k =? 334)%nat then 0 else S k) (nth r kill_rows []) 0.
Definition kill_sum (k : nat) : N :=
  fold_right N.add 0 (map (fun r =>
    nth (N.to_nat ((kill_byte r k + 256 * N.of_nat ((k + 273) mod 607)) mod 607)) lfgS0 0) (seq 0 16)).
Definition kill_word_ok (k : nat) : bool := (nth k lfgS0 0 + kill_sum k) mod 2 ^ 64 =? 0.
Lemma kill_rows_check : forallb (fun r => (length r =? 335)%nat && forallb (fun b => b <? 256) r) kill_rows = true.
Proof. vm_cast_no_check (eq_refl true). Qed.
Lemma kill_words_check : forallb kill_word_ok (seq 0 335) = true.
Proof. Time vm_cast_no_check (eq_refl true). Time Qed.
