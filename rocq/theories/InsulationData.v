(** The tables bundled with the library, src/data/insulation_standards/*.json,
    as loaded by the constructors of src/constructive_models/Insulation.h:95-132,
    195-227, 289-350 and 430-443.  Generated from those files; each number is the
    exact decimal in the file.  Equal tables share one definition.  The keys
    (e.g. "PD2", "groupI", "II", "basic") are those [to_string] gives for the
    enumerated values. *)
From Coq Require Import QArith List.
From Verif Require Import InsulationModel.
Import ListNotations.
Open Scope Q_scope.

Definition t001 : table :=
  [(2000,1); (3000,(57#50)); (4000,(129#100)); (5000,(37#25)); (6000,(17#10)); (7000,(39#20));
   (8000,(9#4)); (9000,(131#50)); (10000,(151#50)); (15000,(667#100)); (20000,(29#2))].

Definition t002 : table :=
  [(50,330); (100,500); (150,800); (300,1500); (600,2500); (1000,4000); (1500,6000)].

Definition t003 : table :=
  [(50,500); (100,800); (150,1500); (300,2500); (600,4000); (1000,6000); (1500,8000)].

Definition t004 : table :=
  [(50,800); (100,1500); (150,2500); (300,4000); (600,6000); (1000,8000); (1500,10000)].

Definition t005 : table :=
  [(50,1500); (100,2500); (150,4000); (300,6000); (600,8000); (1000,12000); (1500,15000)].

Definition t006 : table :=
  [(330,(1#100000)); (400,(1#50000)); (500,(1#25000)); (600,(3#50000)); (800,(1#10000));
   (1000,(3#20000)); (1200,(1#4000)); (1500,(1#2000)); (2000,(1#1000)); (2500,(3#2000));
   (3000,(1#500)); (4000,(3#1000)); (5000,(1#250)); (6000,(11#2000)); (8000,(1#125));
   (10000,(11#1000)); (12000,(7#500)); (15000,(9#500)); (20000,(1#40)); (25000,(33#1000));
   (30000,(1#25)); (40000,(3#50)); (50000,(3#40)); (60000,(9#100)); (80000,(13#100));
   (100000,(17#100))].

Definition t007 : table :=
  [(330,(1#5000)); (400,(1#5000)); (500,(1#5000)); (600,(1#5000)); (800,(1#5000));
   (1000,(1#5000)); (1200,(1#4000)); (1500,(1#2000)); (2000,(1#1000)); (2500,(3#2000));
   (3000,(1#500)); (4000,(3#1000)); (5000,(1#250)); (6000,(11#2000)); (8000,(1#125));
   (10000,(11#1000)); (12000,(7#500)); (15000,(9#500)); (20000,(1#40)); (25000,(33#1000));
   (30000,(1#25)); (40000,(3#50)); (50000,(3#40)); (60000,(9#100)); (80000,(13#100));
   (100000,(17#100))].

Definition t008 : table :=
  [(330,(1#1250)); (400,(1#1250)); (500,(1#1250)); (600,(1#1250)); (800,(1#1250));
   (1000,(1#1250)); (1200,(1#1250)); (1500,(1#1250)); (2000,(1#1000)); (2500,(3#2000));
   (3000,(1#500)); (4000,(3#1000)); (5000,(1#250)); (6000,(11#2000)); (8000,(1#125));
   (10000,(11#1000)); (12000,(7#500)); (15000,(9#500)); (20000,(1#40)); (25000,(33#1000));
   (30000,(1#25)); (40000,(3#50)); (50000,(3#40)); (60000,(9#100)); (80000,(13#100));
   (100000,(17#100))].

Definition t009 : table :=
  [((25#2),(25#2)); (25,25); (30,32); (42,50); (48,50); (50,50); (60,63); (100,100); (110,125);
   (120,125); (150,160); (200,200); (220,250); (300,320); (600,630); (1000,1000); (1500,1500)].

Definition t010 : table :=
  [(10,(1#12500)); ((25#2),(9#100000)); (16,(1#10000)); (20,(11#100000)); (25,(1#8000));
   (32,(7#50000)); (40,(1#6250)); (50,(9#50000)); (63,(1#5000)); (80,(11#50000));
   (100,(1#4000)); (125,(7#25000)); (160,(1#3125)); (200,(21#50000)); (250,(7#12500));
   (320,(3#4000)); (400,(1#1000)); (500,(13#10000)); (630,(9#5000)); (800,(3#1250));
   (1000,(2#625)); (1250,(21#5000)); (1600,(7#1250)); (2000,(3#400)); (2500,(1#100));
   (3200,(1#80)); (4000,(2#125)); (5000,(1#50)); (6300,(1#40)); (8000,(4#125)); (10000,(1#25));
   (12500,(1#20)); (16000,(63#1000)); (20000,(2#25)); (25000,(1#10)); (32000,(1#8));
   (40000,(4#25)); (50000,(1#5)); (63000,(1#4))].

Definition t011 : table :=
  [(10,(1#2500)); ((25#2),(21#50000)); (16,(9#20000)); (20,(3#6250)); (25,(1#2000));
   (32,(53#100000)); (40,(7#12500)); (50,(3#5000)); (63,(63#100000)); (80,(67#100000));
   (100,(71#100000)); (125,(3#4000)); (160,(1#1250)); (200,(1#1000)); (250,(1#800));
   (320,(1#625)); (400,(1#500)); (500,(1#400)); (630,(2#625)); (800,(1#250)); (1000,(1#200));
   (1250,(63#10000)); (1600,(1#125)); (2000,(1#100)); (2500,(1#80)); (3200,(2#125));
   (4000,(1#50)); (5000,(1#40)); (6300,(4#125)); (8000,(1#25)); (10000,(1#20));
   (12500,(63#1000)); (16000,(2#25)); (20000,(1#10)); (25000,(1#8)); (32000,(4#25));
   (40000,(1#5)); (50000,(1#4)); (63000,(8#25))].

Definition t012 : table :=
  [(10,(1#2500)); ((25#2),(21#50000)); (16,(9#20000)); (20,(3#6250)); (25,(1#2000));
   (32,(53#100000)); (40,(1#1250)); (50,(17#20000)); (63,(9#10000)); (80,(19#20000));
   (100,(1#1000)); (125,(21#20000)); (160,(11#10000)); (200,(7#5000)); (250,(9#5000));
   (320,(11#5000)); (400,(7#2500)); (500,(9#2500)); (630,(9#2000)); (800,(7#1250));
   (1000,(71#10000)); (1250,(9#1000)); (1600,(11#1000)); (2000,(7#500)); (2500,(9#500));
   (3200,(11#500)); (4000,(7#250)); (5000,(9#250)); (6300,(9#200)); (8000,(7#125));
   (10000,(71#1000)); (12500,(9#100)); (16000,(11#100)); (20000,(7#50)); (25000,(9#50));
   (32000,(11#50)); (40000,(7#25)); (50000,(9#25)); (63000,(9#20))].

Definition t013 : table :=
  [(10,(1#2500)); ((25#2),(21#50000)); (16,(9#20000)); (20,(3#6250)); (25,(1#2000));
   (32,(53#100000)); (40,(11#10000)); (50,(3#2500)); (63,(1#800)); (80,(13#10000));
   (100,(7#5000)); (125,(3#2000)); (160,(1#625)); (200,(1#500)); (250,(1#400)); (320,(2#625));
   (400,(1#250)); (500,(1#200)); (630,(63#10000)); (800,(1#125)); (1000,(1#100));
   (1250,(1#80)); (1600,(2#125)); (2000,(1#50)); (2500,(1#40)); (3200,(4#125)); (4000,(1#25));
   (5000,(1#20)); (6300,(63#1000)); (8000,(2#25)); (10000,(1#10)); (12500,(1#8));
   (16000,(4#25)); (20000,(1#5)); (25000,(1#4)); (32000,(8#25)); (40000,(2#5)); (50000,(1#2));
   (63000,(3#5))].

Definition t014 : table :=
  [(10,(1#1000)); ((25#2),(21#20000)); (16,(11#10000)); (20,(3#2500)); (25,(1#800));
   (32,(13#10000)); (40,(7#5000)); (50,(3#2000)); (63,(1#625)); (80,(17#10000));
   (100,(9#5000)); (125,(19#10000)); (160,(1#500)); (200,(1#400)); (250,(2#625));
   (320,(1#250)); (400,(1#200)); (500,(63#10000)); (630,(1#125)); (800,(1#100)); (1000,(1#80));
   (1250,(2#125)); (1600,(1#50)); (2000,(1#40)); (2500,(4#125)); (3200,(1#25)); (4000,(1#20));
   (5000,(63#1000)); (6300,(2#25)); (8000,(1#10)); (10000,(1#8))].

Definition t015 : table :=
  [(10,(1#1000)); ((25#2),(21#20000)); (16,(11#10000)); (20,(3#2500)); (25,(1#800));
   (32,(13#10000)); (40,(1#625)); (50,(17#10000)); (63,(9#5000)); (80,(19#10000));
   (100,(1#500)); (125,(21#10000)); (160,(11#5000)); (200,(7#2500)); (250,(9#2500));
   (320,(9#2000)); (400,(7#1250)); (500,(71#10000)); (630,(9#1000)); (800,(11#1000));
   (1000,(7#500)); (1250,(9#500)); (1600,(11#500)); (2000,(7#250)); (2500,(9#250));
   (3200,(9#200)); (4000,(7#125)); (5000,(71#1000)); (6300,(9#100)); (8000,(11#100));
   (10000,(7#50))].

Definition t016 : table :=
  [(10,(1#1000)); ((25#2),(21#20000)); (16,(11#10000)); (20,(3#2500)); (25,(1#800));
   (32,(13#10000)); (40,(9#5000)); (50,(19#10000)); (63,(1#500)); (80,(21#10000));
   (100,(11#5000)); (125,(3#1250)); (160,(1#400)); (200,(2#625)); (250,(1#250)); (320,(1#200));
   (400,(63#10000)); (500,(1#125)); (630,(1#100)); (800,(1#80)); (1000,(2#125)); (1250,(1#50));
   (1600,(1#40)); (2000,(4#125)); (2500,(1#25)); (3200,(1#20)); (4000,(63#1000));
   (5000,(2#25)); (6300,(1#10)); (8000,(1#8)); (10000,(4#25))].

Definition t017 : table :=
  [(40,(1#1000000)); (60,(1#500000)); (100,(3#1000000)); (120,(1#250000)); (150,(1#200000));
   (200,(3#500000)); (250,(1#125000)); (330,(1#100000)); (400,(1#50000)); (500,(1#25000));
   (600,(3#50000)); (800,(13#100000)); (1000,(13#50000)); (1200,(21#50000)); (1500,(19#25000));
   (2000,(127#100000)); (2500,(9#5000)); (3000,(3#1250)); (4000,(19#5000)); (5000,(57#10000));
   (6000,(79#10000)); (8000,(11#1000)); (10000,(19#1250)); (12000,(19#1000)); (15000,(1#40));
   (20000,(17#500)); (25000,(11#250)); (30000,(11#200)); (40000,(77#1000)); (50000,(1#10))].

Definition t018 : table :=
  [(600,(13#200000)); (800,(9#50000)); (1000,(1#2000)); (1200,(7#5000)); (1400,(47#20000));
   (1600,(1#250)); (1800,(67#10000)); (2000,(11#1000))].

Definition t019 : table :=
  [(100,(17#1000000)); (200,(21#500000)); (300,(83#1000000)); (400,(1#8000));
   (500,(183#1000000)); (600,(267#1000000)); (700,(179#500000)); (800,(9#20000));
   (900,(21#40000)); (1000,(3#5000)); (1100,(683#1000000)); (1200,(17#20000)); (1300,(3#2500));
   (1400,(33#20000)); (1500,(23#10000)); (1600,(63#20000)); (1700,(11#2500)); (1800,(61#10000))].

Definition t020 : table :=
  [(300,(9#100000)); (400,(13#100000)); (500,(19#100000)); (600,(27#100000)); (700,(19#50000));
   (800,(11#20000)); (900,(41#50000)); (1000,(23#20000)); (1100,(17#10000)); (1200,(3#1250));
   (1300,(7#2000)); (1400,(1#200)); (1500,(73#10000))].

Definition t021 : table :=
  [(300,(9#100000)); (400,(3#20000)); (500,(1#4000)); (600,(1#2500)); (700,(17#25000));
   (800,(11#10000)); (900,(19#10000)); (1000,(3#1000)); (1100,(1#200)); (1200,(41#5000))].

Definition t022 : table :=
  [(300,(9#100000)); (400,(19#100000)); (500,(1#2500)); (600,(17#20000)); (700,(19#10000));
   (800,(19#5000)); (900,(87#10000)); (1000,(9#500))].

Definition t023 : table :=
  [(300,(9#100000)); (400,(7#20000)); (500,(3#2000)); (600,(1#200)); (700,(1#50))].

Definition t024 : table :=
  [(200,(3#20000)); (300,(1#1250)); (400,(9#2000)); (500,(1#50))].

Definition t025 : table :=
  [(100,(3#10000)); (200,(7#2500)); (300,(1#50))].

Definition t026 : table :=
  [(330,(1#100000)); (400,(1#50000)); (500,(1#25000)); (600,(3#50000)); (800,(1#10000));
   (1000,(3#20000)); (1200,(1#4000)); (1500,(1#2000)); (2000,(1#1000)); (2500,(3#2000));
   (3000,(1#500))].

Definition t027 : table :=
  [(40,(1#1000000)); (60,(1#500000)); (100,(3#1000000)); (120,(1#250000)); (150,(1#200000));
   (200,(3#500000)); (250,(1#125000)); (330,(1#100000)); (400,(1#50000)); (500,(1#25000));
   (600,(3#50000)); (800,(13#100000)); (1000,(13#50000)); (1200,(21#50000)); (1500,(19#25000));
   (2000,(127#100000)); (2500,(9#5000)); (3000,(3#1250))].

Definition t028 : table :=
  [(40,(1#40000)); (50,(1#40000)); (63,(1#25000)); (80,(63#1000000)); (100,(1#10000));
   (125,(1#6250)); (160,(1#4000)); (200,(1#2500)); (250,(7#12500)); (320,(3#4000));
   (400,(1#1000)); (500,(13#10000)); (630,(9#5000)); (800,(3#1250))].

Definition t029 : table :=
  [(40,(1#25000)); (50,(1#25000)); (63,(63#1000000)); (80,(1#10000)); (100,(1#6250));
   (125,(1#4000)); (160,(1#2500)); (200,(63#100000)); (250,(1#1000)); (320,(1#625));
   (400,(1#500))].

Definition t030 : table :=
  [(40,(1#1000)); (50,(1#1000)); (63,(1#1000)); (80,(1#1000)); (100,(1#800)); (125,(1#625));
   (160,(1#500))].

Definition t031 : table :=
  [(40,(1#1000)); (50,(1#1000)); (63,(1#1000)); (80,(11#10000)); (100,(7#5000));
   (125,(9#5000)); (160,(11#5000))].

Definition t032 : table :=
  [(40,(1#1000)); (50,(1#1000)); (63,(1#1000)); (80,(1#800)); (100,(1#625)); (125,(1#500))].

Definition t033 : table :=
  [(330,(1#100000)); (400,(1#50000)); (500,(1#25000)); (600,(3#50000)); (800,(13#100000));
   (1000,(13#50000)); (1200,(21#50000)); (1500,(19#25000)); (2000,(127#100000));
   (2500,(9#5000)); (3000,(3#1250)); (4000,(19#5000)); (5000,(57#10000)); (6000,(79#10000));
   (8000,(11#1000)); (10000,(19#1250)); (12000,(19#1000)); (15000,(1#40)); (20000,(17#500));
   (25000,(11#250)); (30000,(11#200)); (40000,(77#1000)); (50000,(1#10)); (60000,(3#25));
   (80000,(7#40)); (100000,(23#100))].

Definition t034 : table :=
  [(330,(1#5000)); (400,(1#5000)); (500,(1#5000)); (600,(1#5000)); (800,(1#5000));
   (1000,(13#50000)); (1200,(21#50000)); (1500,(19#25000)); (2000,(127#100000));
   (2500,(9#5000)); (3000,(3#1250)); (4000,(19#5000)); (5000,(57#10000)); (6000,(79#10000));
   (8000,(11#1000)); (10000,(19#1250)); (12000,(19#1000)); (15000,(1#40)); (20000,(17#500));
   (25000,(11#250)); (30000,(11#200)); (40000,(77#1000)); (50000,(1#10)); (60000,(3#25));
   (80000,(7#40)); (100000,(23#100))].

Definition t035 : table :=
  [(330,(1#1250)); (400,(1#1250)); (500,(1#1250)); (600,(1#1250)); (800,(1#1250));
   (1000,(1#1250)); (1200,(1#1250)); (1500,(1#1250)); (2000,(127#100000)); (2500,(9#5000));
   (3000,(3#1250)); (4000,(19#5000)); (5000,(57#10000)); (6000,(79#10000)); (8000,(11#1000));
   (10000,(19#1250)); (12000,(19#1000)); (15000,(1#40)); (20000,(17#500)); (25000,(11#250));
   (30000,(11#200)); (40000,(77#1000)); (50000,(1#10)); (60000,(3#25)); (80000,(7#40));
   (100000,(23#100))].

Definition t036 : table :=
  [(330,(1#50000)); (400,(1#25000)); (500,(1#12500)); (600,(3#25000)); (800,(13#50000));
   (1000,(13#25000)); (1200,(21#25000)); (1500,(19#12500)); (2000,(127#50000));
   (2500,(9#2500)); (3000,(3#625)); (4000,(19#2500)); (5000,(11#1000)); (6000,(79#5000));
   (8000,(1#50)); (10000,(27#1000)); (12000,(33#1000)); (15000,(21#500)); (20000,(59#1000));
   (25000,(77#1000)); (30000,(19#200)); (40000,(131#1000)); (50000,(7#40)); (60000,(219#1000));
   (80000,(307#1000)); (100000,(79#200))].

Definition t037 : table :=
  [(330,(1#2500)); (400,(1#2500)); (500,(1#2500)); (600,(1#2500)); (800,(1#2500));
   (1000,(13#25000)); (1200,(21#25000)); (1500,(19#12500)); (2000,(127#50000));
   (2500,(9#2500)); (3000,(3#625)); (4000,(19#2500)); (5000,(11#1000)); (6000,(79#5000));
   (8000,(1#50)); (10000,(27#1000)); (12000,(33#1000)); (15000,(21#500)); (20000,(59#1000));
   (25000,(77#1000)); (30000,(19#200)); (40000,(131#1000)); (50000,(7#40)); (60000,(219#1000));
   (80000,(307#1000)); (100000,(79#200))].

Definition t038 : table :=
  [(330,(3#2000)); (400,(3#2000)); (500,(3#2000)); (600,(3#2000)); (800,(3#2000));
   (1000,(3#2000)); (1200,(3#2000)); (1500,(1#625)); (2000,(127#50000)); (2500,(9#2500));
   (3000,(3#625)); (4000,(19#2500)); (5000,(11#1000)); (6000,(79#5000)); (8000,(1#50));
   (10000,(27#1000)); (12000,(33#1000)); (15000,(21#500)); (20000,(59#1000));
   (25000,(77#1000)); (30000,(19#200)); (40000,(131#1000)); (50000,(7#40)); (60000,(219#1000));
   (80000,(307#1000)); (100000,(79#200))].

Definition t039 : table :=
  [(600,(7#100000)); (800,(11#50000)); (1000,(3#5000)); (1200,(21#12500)); (1400,(141#50000));
   (1600,(3#625)); (1800,(201#25000)); (2000,(33#2500))].

Definition t040 : table :=
  [(600,(7#50000)); (800,(11#25000)); (1000,(3#2500)); (1200,(21#6250)); (1400,(141#25000));
   (1600,(6#625)); (1800,(201#12500)); (2000,(33#1250))].

Definition t041 : table :=
  [(50,330); (150,500); (240,800); (480,1500); (690,2500)].

Definition t042 : table :=
  [(50,500); (150,800); (240,1500); (480,2500); (690,4000)].

Definition t043 : table :=
  [(50,800); (150,1500); (240,2500); (480,4000); (690,6000)].

Definition t044 : table :=
  [(50,1500); (150,2500); (240,4000); (480,6000); (690,8000)].

Definition t045 : table :=
  [(330,(1#50000)); (400,(1#25000)); (500,(1#12500)); (600,(3#25000)); (800,(1#5000));
   (1000,(3#10000)); (1200,(1#2000)); (1500,(1#1000)); (2000,(1#500)); (2500,(3#1000));
   (3000,(19#5000)); (4000,(11#2000)); (5000,(1#125)); (6000,(1#125)); (8000,(7#500));
   (10000,(19#1000)); (12000,(3#125)); (15000,(31#1000)); (20000,(11#250)); (25000,(3#50));
   (30000,(9#125)); (40000,(49#500)); (50000,(13#100)); (60000,(81#500)); (80000,(113#500));
   (100000,(29#100))].

Definition t046 : table :=
  [(330,(1#2500)); (400,(1#2500)); (500,(1#2500)); (600,(1#2500)); (800,(1#2500));
   (1000,(1#2500)); (1200,(1#2000)); (1500,(1#1000)); (2000,(1#500)); (2500,(3#1000));
   (3000,(19#5000)); (4000,(11#2000)); (5000,(1#125)); (6000,(1#125)); (8000,(7#500));
   (10000,(19#1000)); (12000,(3#125)); (15000,(31#1000)); (20000,(11#250)); (25000,(3#50));
   (30000,(9#125)); (40000,(49#500)); (50000,(13#100)); (60000,(81#500)); (80000,(113#500));
   (100000,(29#100))].

Definition t047 : table :=
  [(330,(3#2000)); (400,(3#2000)); (500,(3#2000)); (600,(3#2000)); (800,(3#2000));
   (1000,(3#2000)); (1200,(3#2000)); (1500,(3#2000)); (2000,(1#500)); (2500,(3#1000));
   (3000,(19#5000)); (4000,(11#2000)); (5000,(1#125)); (6000,(1#125)); (8000,(7#500));
   (10000,(19#1000)); (12000,(3#125)); (15000,(31#1000)); (20000,(11#250)); (25000,(3#50));
   (30000,(9#125)); (40000,(49#500)); (50000,(13#100)); (60000,(81#500)); (80000,(113#500));
   (100000,(29#100))].

Definition t048 : table :=
  [(2000,1); (3000,(57#50)); (4000,(129#100)); (5000,(37#25))].

Definition t049 : table :=
  [(100,(167#10000000)); (200,(21#500000)); (300,(83#1000000)); (400,(1#8000));
   (500,(183#1000000)); (600,(267#1000000)); (700,(179#500000)); (800,(9#20000));
   (900,(21#40000)); (1000,(3#5000))].

Definition t050 : table :=
  [(100,(1#50000)); (200,(43#1000000)); (300,(9#100000)); (400,(13#100000)); (500,(23#100000));
   (600,(19#50000)); (700,(11#20000)); (800,(1#1250)); (900,(1#1000)); (1000,(23#20000))].

Definition t051 : table :=
  [(100,(1#40000)); (200,(1#20000)); (300,(1#10000)); (400,(3#20000)); (500,(1#4000));
   (600,(1#2500)); (700,(17#25000)); (800,(11#10000)); (900,(19#10000)); (1000,(3#1000))].

Definition t052 : table :=
  [(330,330); (500,500); (800,800); (1500,1500); (2500,2500); (4000,4000); (6000,6000);
   (8000,8000); (12000,12000)].

Definition t053 : table :=
  [(330,500); (500,800); (800,1500); (1500,2500); (2500,4000); (4000,6000); (6000,8000);
   (8000,12000); (12000,18000)].

Definition t054 : table :=
  [(330,430); (500,650); (800,1040); (1500,1950); (2500,3250); (4000,5200); (6000,7800);
   (8000,10400); (12000,15600)].

Definition t055 : table :=
  [(330,530); (500,800); (800,1280); (1500,2400); (2500,4000); (4000,6400); (6000,9600);
   (8000,12800); (12000,19200)].

Definition t056 : table :=
  [(250,2000); (600,2500)].

Definition t057 : table :=
  [(250,4000); (600,5000)].

Definition t058 : table :=
  [(71,(1#40000)); (89,(1#25000)); (113,(63#1000000)); (141,(1#10000)); (177,(1#6250));
   (227,(1#4000)); (283,(1#2500)); (354,(7#12500)); (455,(3#4000)); (570,(1#1000));
   (710,(13#10000)); (895,(9#5000)); (1135,(3#1250)); (1450,(7#2500)); (1770,(17#5000));
   (2260,(41#10000)); (2830,(1#200)); (3540,(63#10000)); (4520,(41#5000)); (5660,(1#100));
   (7070,(13#1000)); (8910,(2#125)); (11310,(1#50)); (14140,(13#500)); (17700,(33#1000));
   (22600,(43#1000)); (28300,(11#200)); (35400,(7#100)); (45200,(43#500))].

Definition t059 : table :=
  [(71,(1#20000)); (89,(1#12500)); (113,(1#8000)); (141,(1#5000)); (177,(1#3125));
   (227,(1#2000)); (283,(1#1250)); (354,(7#6250)); (455,(3#2000)); (570,(1#500));
   (710,(13#5000)); (895,(9#2500)); (1135,(19#5000)); (1450,(1#250)); (1770,(21#5000));
   (2260,(23#5000)); (2830,(1#200)); (3540,(63#10000)); (4520,(41#5000)); (5660,(1#100));
   (7070,(13#1000)); (8910,(2#125)); (11310,(1#50)); (14140,(13#500)); (17700,(33#1000));
   (22600,(43#1000)); (28300,(11#200)); (35400,(7#100)); (45200,(43#500))].

Definition t060 : table :=
  [(100,(1#50000)); (200,(1#25000)); (300,(1#12500)); (400,(13#100000)); (500,(9#50000));
   (600,(27#100000)); (700,(9#25000)); (800,(9#20000)); (900,(53#100000)); (1000,(3#5000));
   (1100,(17#25000)); (1200,(17#20000)); (1300,(3#2500)); (1400,(33#20000)); (1500,(23#10000));
   (1600,(63#20000)); (1700,(11#2500)); (1800,(61#10000))].

Definition t061 : table :=
  [(300,(9#100000)); (400,(13#100000)); (500,(19#100000)); (600,(27#100000));
   (700,(37#100000)); (800,(1#2000)); (900,(67#100000)); (1000,(11#12500));
   (1100,(119#100000)); (1200,(163#100000)); (1300,(47#20000)); (1400,(333#100000));
   (1500,(3#625))].

Definition t062 : table :=
  [(300,(9#100000)); (400,(7#50000)); (500,(11#50000)); (600,(17#50000)); (700,(53#100000));
   (800,(83#100000)); (900,(17#12500)); (1000,(13#6250)); (1100,(67#20000)); (1200,(53#10000))].

Definition t063 : table :=
  [(300,(9#100000)); (400,(1#6250)); (500,(3#10000)); (600,(11#20000)); (700,(109#100000));
   (800,(1#500)); (900,(417#100000)); (1000,(1#125))].

Definition t064 : table :=
  [(300,(9#100000)); (400,(9#50000)); (500,(7#20000)); (600,(7#10000)); (700,(149#100000));
   (800,(29#10000)); (900,(643#100000)); (1000,(13#1000))].

Definition t065 : table :=
  [(300,(9#100000)); (400,(3#12500)); (500,(77#100000)); (600,(223#100000)); (700,(793#100000))].

Definition t066 : table :=
  [(300,(9#100000)); (400,(3#10000)); (500,(113#100000)); (600,(181#50000));
   (700,(1397#100000))].

Definition t067 : table :=
  [(100,(1#50000)); (200,(1#20000)); (300,(1#10000)); (400,(3#20000)); (500,(11#50000));
   (600,(1#3125)); (700,(43#100000)); (800,(27#50000)); (900,(63#100000)); (1000,(9#12500));
   (1100,(41#50000)); (1200,(51#50000)); (1300,(9#6250)); (1400,(99#50000)); (1500,(69#25000));
   (1600,(189#50000)); (1700,(33#6250)); (1800,(183#25000))].

Definition t068 : table :=
  [(300,(1#10000)); (400,(3#20000)); (500,(11#50000)); (600,(1#3125)); (700,(11#25000));
   (800,(3#5000)); (900,(81#100000)); (1000,(21#20000)); (1100,(143#100000));
   (1200,(39#20000)); (1300,(141#50000)); (1400,(399#100000)); (1500,(18#3125))].

Definition t069 : table :=
  [(300,(11#100000)); (400,(1#6250)); (500,(23#100000)); (600,(1#3125)); (700,(23#50000));
   (800,(33#50000)); (900,(49#50000)); (1000,(69#50000)); (1100,(51#25000)); (1200,(9#3125));
   (1300,(21#5000)); (1400,(3#500)); (1500,(219#25000))].

Definition t070 : table :=
  [(300,(11#100000)); (400,(17#100000)); (500,(13#50000)); (600,(1#2500)); (700,(2#3125));
   (800,(99#100000)); (900,(163#100000)); (1000,(249#100000)); (1100,(201#50000));
   (1200,(159#25000))].

Definition t071 : table :=
  [(300,(11#100000)); (400,(9#50000)); (500,(3#10000)); (600,(3#6250)); (700,(41#50000));
   (800,(33#25000)); (900,(57#25000)); (1000,(9#2500)); (1100,(3#500)); (1200,(123#12500))].

Definition t072 : table :=
  [(300,(11#100000)); (400,(1#5000)); (500,(9#25000)); (600,(33#50000)); (700,(13#10000));
   (800,(3#1250)); (900,(1#200)); (1000,(6#625))].

Definition t073 : table :=
  [(300,(11#100000)); (400,(21#100000)); (500,(21#50000)); (600,(21#25000));
   (700,(179#100000)); (800,(87#25000)); (900,(193#25000)); (1000,(39#2500))].

Definition t074 : table :=
  [(300,(11#100000)); (400,(23#100000)); (500,(3#6250)); (600,(51#50000)); (700,(57#25000));
   (800,(57#12500)); (900,(261#25000)); (1000,(27#1250))].

Definition t075 : table :=
  [(300,(11#100000)); (400,(29#100000)); (500,(23#25000)); (600,(67#25000)); (700,(119#12500))].

Definition t076 : table :=
  [(300,(11#100000)); (400,(9#25000)); (500,(17#12500)); (600,(217#50000)); (700,(419#25000))].

Definition t077 : table :=
  [(300,(11#100000)); (400,(21#50000)); (500,(9#5000)); (600,(3#500)); (700,(3#125))].

Definition t078 : table :=
  [(200,(9#50000)); (300,(3#3125)); (400,(27#5000)); (500,(3#125))].

Definition t079 : table :=
  [(100,(9#25000)); (200,(21#6250)); (300,(3#125))].

Definition t080 : table :=
  [(100,(1#50000)); (200,(3#50000)); (300,(3#25000)); (400,(9#50000)); (500,(13#50000));
   (600,(37#100000)); (700,(1#2000)); (800,(63#100000)); (900,(37#50000)); (1000,(21#25000));
   (1100,(3#3125)); (1200,(119#100000)); (1300,(21#12500)); (1400,(231#100000));
   (1500,(161#50000)); (1600,(441#100000)); (1700,(77#12500)); (1800,(427#50000))].

Definition t081 : table :=
  [(300,(3#25000)); (400,(9#50000)); (500,(13#50000)); (600,(19#50000)); (700,(13#25000));
   (800,(7#10000)); (900,(47#50000)); (1000,(123#100000)); (1100,(167#100000));
   (1200,(57#25000)); (1300,(329#100000)); (1400,(233#50000)); (1500,(21#3125))].

Definition t082 : table :=
  [(300,(13#100000)); (400,(9#50000)); (500,(27#100000)); (600,(19#50000)); (700,(53#100000));
   (800,(77#100000)); (900,(23#20000)); (1000,(161#100000)); (1100,(119#50000));
   (1200,(21#6250)); (1300,(49#10000)); (1400,(7#1000)); (1500,(511#50000))].

Definition t083 : table :=
  [(300,(13#100000)); (400,(1#5000)); (500,(31#100000)); (600,(47#100000)); (700,(37#50000));
   (800,(29#25000)); (900,(19#10000)); (1000,(291#100000)); (1100,(469#100000));
   (1200,(371#50000))].

Definition t084 : table :=
  [(300,(13#100000)); (400,(21#100000)); (500,(7#20000)); (600,(7#12500)); (700,(19#20000));
   (800,(77#50000)); (900,(133#50000)); (1000,(21#5000)); (1100,(7#1000)); (1200,(287#25000))].

Definition t085 : table :=
  [(300,(13#100000)); (400,(23#100000)); (500,(21#50000)); (600,(77#100000)); (700,(19#12500));
   (800,(7#2500)); (900,(583#100000)); (1000,(7#625))].

Definition t086 : table :=
  [(300,(13#100000)); (400,(1#4000)); (500,(49#100000)); (600,(49#50000)); (700,(209#100000));
   (800,(203#50000)); (900,(901#100000)); (1000,(91#5000))].

Definition t087 : table :=
  [(300,(13#100000)); (400,(27#100000)); (500,(7#12500)); (600,(119#100000));
   (700,(133#50000)); (800,(133#25000)); (900,(609#50000)); (1000,(63#2500))].

Definition t088 : table :=
  [(300,(13#100000)); (400,(17#50000)); (500,(107#100000)); (600,(313#100000));
   (700,(1111#100000))].

Definition t089 : table :=
  [(300,(13#100000)); (400,(21#50000)); (500,(159#100000)); (600,(253#50000));
   (700,(391#20000))].

Definition t090 : table :=
  [(300,(13#100000)); (400,(49#100000)); (500,(21#10000)); (600,(7#1000)); (700,(7#250))].

Definition t091 : table :=
  [(200,(21#100000)); (300,(7#6250)); (400,(63#10000)); (500,(7#250))].

Definition t092 : table :=
  [(100,(21#50000)); (200,(49#12500)); (300,(7#250))].

Definition t093 : table :=
  [(100,(3#100000)); (200,(1#12500)); (300,(17#100000)); (400,(1#4000)); (500,(37#100000));
   (600,(53#100000)); (700,(9#12500)); (800,(9#10000)); (900,(21#20000)); (1000,(3#2500));
   (1100,(137#100000)); (1200,(17#10000)); (1300,(3#1250)); (1400,(33#10000));
   (1500,(23#5000)); (1600,(63#10000)); (1700,(11#1250)); (1800,(61#5000))].

Definition t094 : table :=
  [(300,(17#100000)); (400,(13#50000)); (500,(37#100000)); (600,(27#50000)); (700,(37#50000));
   (800,(1#1000)); (900,(27#20000)); (1000,(7#4000)); (1100,(119#50000)); (1200,(13#4000));
   (1300,(47#10000)); (1400,(133#20000)); (1500,(6#625))].

Definition t095 : table :=
  [(300,(9#50000)); (400,(13#50000)); (500,(19#50000)); (600,(27#50000)); (700,(19#25000));
   (800,(11#10000)); (900,(41#25000)); (1000,(23#10000)); (1100,(17#5000)); (1200,(3#625));
   (1300,(7#1000)); (1400,(1#100)); (1500,(73#5000))].

Definition t096 : table :=
  [(300,(9#50000)); (400,(7#25000)); (500,(11#25000)); (600,(67#100000)); (700,(53#50000));
   (800,(33#20000)); (900,(17#6250)); (1000,(83#20000)); (1100,(67#10000)); (1200,(53#5000))].

Definition t097 : table :=
  [(300,(9#50000)); (400,(3#10000)); (500,(1#2000)); (600,(1#1250)); (700,(17#12500));
   (800,(11#5000)); (900,(19#5000)); (1000,(3#500)); (1100,(1#100)); (1200,(41#2500))].

Definition t098 : table :=
  [(300,(9#50000)); (400,(33#100000)); (500,(3#5000)); (600,(11#10000)); (700,(217#100000));
   (800,(1#250)); (900,(833#100000)); (1000,(2#125))].

Definition t099 : table :=
  [(300,(9#50000)); (400,(7#20000)); (500,(7#10000)); (600,(7#5000)); (700,(299#100000));
   (800,(29#5000)); (900,(1287#100000)); (1000,(13#500))].

Definition t100 : table :=
  [(300,(9#50000)); (400,(19#50000)); (500,(1#1250)); (600,(17#10000)); (700,(19#5000));
   (800,(19#2500)); (900,(87#5000)); (1000,(9#250))].

Definition t101 : table :=
  [(300,(9#50000)); (400,(49#100000)); (500,(153#100000)); (600,(447#100000));
   (700,(1587#100000))].

Definition t102 : table :=
  [(300,(9#50000)); (400,(59#100000)); (500,(227#100000)); (600,(723#100000));
   (700,(2793#100000))].

Definition t103 : table :=
  [(300,(9#50000)); (400,(7#10000)); (500,(3#1000)); (600,(1#100)); (700,(1#25))].

Definition t104 : table :=
  [(200,(3#10000)); (300,(1#625)); (400,(9#1000)); (500,(1#25))].

Definition t105 : table :=
  [(100,(3#5000)); (200,(7#1250)); (300,(1#25))].

Definition t106 : table :=
  [(100,(1#25000)); (200,(1#10000)); (300,(1#5000)); (400,(3#10000)); (500,(11#25000));
   (600,(2#3125)); (700,(43#50000)); (800,(27#25000)); (900,(63#50000)); (1000,(9#6250));
   (1100,(41#25000)); (1200,(51#25000)); (1300,(9#3125)); (1400,(99#25000)); (1500,(69#12500));
   (1600,(189#25000)); (1700,(33#3125)); (1800,(183#12500))].

Definition t107 : table :=
  [(300,(21#100000)); (400,(31#100000)); (500,(9#20000)); (600,(2#3125)); (700,(89#100000));
   (800,(3#2500)); (900,(161#100000)); (1000,(21#10000)); (1100,(143#50000));
   (1200,(39#10000)); (1300,(141#25000)); (1400,(399#50000)); (1500,(36#3125))].

Definition t108 : table :=
  [(300,(11#50000)); (400,(31#100000)); (500,(23#50000)); (600,(13#20000)); (700,(91#100000));
   (800,(33#25000)); (900,(197#100000)); (1000,(69#25000)); (1100,(51#12500));
   (1200,(18#3125)); (1300,(21#2500)); (1400,(3#250)); (1500,(219#12500))].

Definition t109 : table :=
  [(300,(11#50000)); (400,(17#50000)); (500,(53#100000)); (600,(1#1250)); (700,(127#100000));
   (800,(99#50000)); (900,(163#50000)); (1000,(249#50000)); (1100,(201#25000));
   (1200,(159#12500))].

Definition t110 : table :=
  [(300,(11#50000)); (400,(9#25000)); (500,(3#5000)); (600,(3#3125)); (700,(163#100000));
   (800,(33#12500)); (900,(57#12500)); (1000,(9#1250)); (1100,(3#250)); (1200,(123#6250))].

Definition t111 : table :=
  [(300,(11#50000)); (400,(39#100000)); (500,(9#12500)); (600,(33#25000)); (700,(261#100000));
   (800,(3#625)); (900,(1#100)); (1000,(12#625))].

Definition t112 : table :=
  [(300,(11#50000)); (400,(21#50000)); (500,(21#25000)); (600,(21#12500)); (700,(179#50000));
   (800,(87#12500)); (900,(193#12500)); (1000,(39#1250))].

Definition t113 : table :=
  [(300,(11#50000)); (400,(23#50000)); (500,(3#3125)); (600,(51#25000)); (700,(57#12500));
   (800,(57#6250)); (900,(261#12500)); (1000,(27#625))].

Definition t114 : table :=
  [(300,(11#50000)); (400,(29#50000)); (500,(23#12500)); (600,(67#12500)); (700,(119#6250))].

Definition t115 : table :=
  [(300,(11#50000)); (400,(71#100000)); (500,(17#6250)); (600,(217#25000)); (700,(419#12500))].

Definition t116 : table :=
  [(300,(11#50000)); (400,(21#25000)); (500,(9#2500)); (600,(3#250)); (700,(6#125))].

Definition t117 : table :=
  [(200,(9#25000)); (300,(6#3125)); (400,(27#2500)); (500,(6#125))].

Definition t118 : table :=
  [(100,(9#12500)); (200,(21#3125)); (300,(6#125))].

Definition t119 : table :=
  [(100,(1#20000)); (200,(3#25000)); (300,(23#100000)); (400,(7#20000)); (500,(51#100000));
   (600,(3#4000)); (700,(1#1000)); (800,(63#50000)); (900,(147#100000)); (1000,(21#12500));
   (1100,(191#100000)); (1200,(119#50000)); (1300,(21#6250)); (1400,(231#50000));
   (1500,(161#25000)); (1600,(441#50000)); (1700,(77#6250)); (1800,(427#25000))].

Definition t120 : table :=
  [(300,(3#12500)); (400,(9#25000)); (500,(13#25000)); (600,(3#4000)); (700,(103#100000));
   (800,(7#5000)); (900,(47#25000)); (1000,(49#20000)); (1100,(167#50000)); (1200,(91#20000));
   (1300,(329#50000)); (1400,(931#100000)); (1500,(42#3125))].

Definition t121 : table :=
  [(300,(1#4000)); (400,(9#25000)); (500,(53#100000)); (600,(19#25000)); (700,(53#50000));
   (800,(77#50000)); (900,(23#10000)); (1000,(161#50000)); (1100,(119#25000));
   (1200,(21#3125)); (1300,(49#5000)); (1400,(7#500)); (1500,(511#25000))].

Definition t122 : table :=
  [(300,(1#4000)); (400,(39#100000)); (500,(31#50000)); (600,(47#50000)); (700,(37#25000));
   (800,(231#100000)); (900,(381#100000)); (1000,(581#100000)); (1100,(469#50000));
   (1200,(371#25000))].

Definition t123 : table :=
  [(300,(1#4000)); (400,(21#50000)); (500,(7#10000)); (600,(7#6250)); (700,(19#10000));
   (800,(77#25000)); (900,(133#25000)); (1000,(21#2500)); (1100,(7#500)); (1200,(287#12500))].

Definition t124 : table :=
  [(300,(1#4000)); (400,(23#50000)); (500,(21#25000)); (600,(77#50000)); (700,(19#6250));
   (800,(7#1250)); (900,(1167#100000)); (1000,(14#625))].

Definition t125 : table :=
  [(300,(1#4000)); (400,(49#100000)); (500,(49#50000)); (600,(49#25000)); (700,(209#50000));
   (800,(203#25000)); (900,(1801#100000)); (1000,(91#2500))].

Definition t126 : table :=
  [(300,(1#4000)); (400,(53#100000)); (500,(7#6250)); (600,(119#50000)); (700,(133#25000));
   (800,(133#12500)); (900,(609#25000)); (1000,(63#1250))].

Definition t127 : table :=
  [(300,(1#4000)); (400,(17#25000)); (500,(43#20000)); (600,(1#160)); (700,(2221#100000))].

Definition t128 : table :=
  [(300,(1#4000)); (400,(83#100000)); (500,(317#100000)); (600,(1013#100000));
   (700,(3911#100000))].

Definition t129 : table :=
  [(300,(1#4000)); (400,(49#50000)); (500,(21#5000)); (600,(7#500)); (700,(7#125))].

Definition t130 : table :=
  [(200,(21#50000)); (300,(7#3125)); (400,(63#5000)); (500,(7#125))].

Definition t131 : table :=
  [(100,(21#25000)); (200,(49#6250)); (300,(7#125))].

Definition t132 : table :=
  [(50,250); (100,350); (150,650); (300,950); (600,1100); (1000,1500)].

Definition t133 : table :=
  [(50,250); (100,350); (150,700); (300,1100); (600,1500); (1000,2250)].

Definition t134 : table :=
  [(50,500); (100,700); (150,1400); (300,2200); (600,3000); (1000,4500)].

Definition t135 : table :=
  [(50,250); (100,500); (150,1250); (300,1500); (600,2100); (1000,2500)].

Definition t136 : table :=
  [(50,500); (100,1000); (150,2500); (300,3000); (600,4200); (1000,5000)].

Definition t137 : table :=
  [(50,250); (100,700); (150,1400); (300,2100); (600,2500); (1000,2750)].

Definition t138 : table :=
  [(50,500); (100,1400); (150,2800); (300,4200); (600,5000); (1000,5500)].

Definition t139 : table :=
  [(50,250); (100,850); (150,1700); (300,2500); (600,2800); (1000,3000)].

Definition t140 : table :=
  [(50,500); (100,1700); (150,3400); (300,5000); (600,5600); (1000,6000)].

Definition t141 : table :=
  [(50,(1#5000)); (100,(1#5000)); (150,(1#5000)); (300,(1#2000)); (600,(3#2000));
   (1000,(3#1000))].

Definition t142 : table :=
  [(50,(1#1250)); (100,(1#1250)); (150,(1#1250)); (300,(1#1250)); (600,(3#2000));
   (1000,(3#1000))].

Definition t143 : table :=
  [(50,(1#5000)); (100,(1#5000)); (150,(1#2000)); (300,(3#2000)); (600,(3#1000));
   (1000,(11#2000))].

Definition t144 : table :=
  [(50,(1#1250)); (100,(1#1250)); (150,(1#1250)); (300,(3#2000)); (600,(3#1000));
   (1000,(11#2000))].

Definition t145 : table :=
  [(50,(1#5000)); (100,(1#2000)); (150,(3#2000)); (300,(3#1000)); (600,(11#2000));
   (1000,(1#125))].

Definition t146 : table :=
  [(50,(1#1250)); (100,(1#1250)); (150,(3#2000)); (300,(3#1000)); (600,(11#2000));
   (1000,(1#125))].

Definition t147 : table :=
  [(50,(1#2000)); (100,(3#2000)); (150,(3#1000)); (300,(11#2000)); (600,(1#125));
   (1000,(7#500))].

Definition t148 : table :=
  [(50,(1#1250)); (100,(3#2000)); (150,(3#1000)); (300,(11#2000)); (600,(1#125));
   (1000,(7#500))].

Definition t149 : table :=
  [(50,(3#2000)); (100,(3#1000)); (150,(11#2000)); (300,(1#125)); (600,(7#500)); (1000,(1#40))].

Definition t150 : table :=
  [(50,(9#50000)); (100,(1#4000)); (150,(3#10000)); (300,(7#10000)); (600,(17#10000));
   (1000,(2#625))].

Definition t151 : table :=
  [(50,(3#5000)); (100,(7#10000)); (150,(1#1250)); (300,(3#2000)); (600,(3#1000));
   (1000,(11#2000))].

Definition t152 : table :=
  [(50,(3#2000)); (100,(9#5000)); (150,(1#500)); (300,(39#10000)); (600,(77#10000));
   (1000,(1#80))].

Definition t153 : table :=
  [(50,(1#4000)); (100,(1#2500)); (150,(7#10000)); (300,(17#10000)); (600,(1#250));
   (1000,(3#400))].

Definition t154 : table :=
  [(50,(7#10000)); (100,(1#1000)); (150,(1#625)); (300,(3#1000)); (600,(3#500)); (1000,(1#100))].

Definition t155 : table :=
  [(50,(9#5000)); (100,(1#400)); (150,(21#5000)); (300,(77#10000)); (600,(2#125));
   (1000,(1#40))].

Definition t156 : table :=
  [(50,(9#10000)); (100,(1#1000)); (150,(11#10000)); (300,(21#10000)); (600,(43#10000));
   (1000,(71#10000))].

Definition t157 : table :=
  [(50,(17#10000)); (100,(1#500)); (150,(11#5000)); (300,(21#5000)); (600,(43#5000));
   (1000,(7#500))].

Definition t158 : table :=
  [(50,(1#1000)); (100,(7#5000)); (150,(1#500)); (300,(43#10000)); (600,(43#5000));
   (1000,(7#500))].

Definition t159 : table :=
  [(50,(1#500)); (100,(7#2500)); (150,(21#5000)); (300,(43#5000)); (600,(43#2500));
   (1000,(7#250))].

Definition t160 : table :=
  [(50,(3#2500)); (100,(7#5000)); (150,(1#625)); (300,(3#1000)); (600,(3#500)); (1000,(1#100))].

Definition t161 : table :=
  [(50,(19#10000)); (100,(11#5000)); (150,(1#400)); (300,(47#10000)); (600,(19#2000));
   (1000,(2#125))].

Definition t162 : table :=
  [(50,(7#5000)); (100,(1#500)); (150,(3#1000)); (300,(3#500)); (600,(3#250)); (1000,(1#50))].

Definition t163 : table :=
  [(50,(11#5000)); (100,(3#1000)); (150,(47#10000)); (300,(19#2000)); (600,(12#625));
   (1000,(4#125))].

Definition t164 : table :=
  [(50,(9#25000)); (100,(1#2000)); (150,(7#10000)); (300,(17#10000)); (600,(1#250));
   (1000,(3#400))].

Definition t165 : table :=
  [(50,(3#1250)); (100,(7#2500)); (150,(2#625)); (300,(3#500)); (600,(3#250)); (1000,(1#50))].

Definition t166 : table :=
  [(50,(19#5000)); (100,(11#2500)); (150,(1#200)); (300,(19#2000)); (600,(12#625));
   (1000,(4#125))].

Definition t167 : table :=
  [(50,(1#20000)); (100,(1#20000)); (150,(1#12500)); (300,(3#20000)); (600,(1#5000));
   (1000,(1#4000))].

Definition t168 : table :=
  [(50,(1#10000)); (100,(1#10000)); (150,(3#20000)); (300,(3#10000)); (600,(1#2500));
   (1000,(1#2000))].

Definition t169 : table :=
  [(50,(1#10000)); (100,(3#20000)); (150,(1#4000)); (300,(1#2000)); (600,(3#4000));
   (1000,(1#1000))].

Definition t170 : table :=
  [(50,(1#5000)); (100,(3#10000)); (150,(1#2000)); (300,(1#1000)); (600,(3#2000));
   (1000,(1#500))].

Definition t171 : table :=
  [(330,(1#100000)); (400,(1#50000)); (500,(1#25000)); (600,(3#50000)); (800,(13#100000));
   (1000,(13#50000)); (1200,(21#50000)); (1500,(19#25000)); (2000,(127#100000));
   (2500,(9#5000)); (3000,(3#1250)); (4000,(19#5000)); (5000,(57#10000)); (6000,(79#10000));
   (8000,(11#1000))].

Definition t172 : table :=
  [(330,(1#25000)); (400,(7#100000)); (500,(13#100000)); (600,(1#5000)); (800,(1#2000));
   (1000,(87#100000)); (1200,(59#50000)); (1500,(17#10000)); (2000,(27#10000));
   (2500,(19#5000)); (3000,(27#5000)); (4000,(17#2000)); (5000,(11#1000)); (6000,(9#625));
   (8000,(103#5000))].

Definition t173 : table :=
  [(600,(3#50000)); (800,(9#50000)); (1000,(1#2000)); (1200,(7#5000)); (1400,(47#20000));
   (1600,(1#250)); (1800,(67#10000)); (2000,(11#1000))].

Definition t174 : table :=
  [(600,(3#25000)); (800,(9#25000)); (1000,(1#1000)); (1200,(7#2500)); (1400,(47#10000));
   (1600,(1#125)); (1800,(67#5000)); (2000,(11#500))].

Definition t175 : table :=
  [(150,1250); (250,1250)].

Definition t176 : table :=
  [(150,1250); (250,1750)].

Definition t177 : table :=
  [(150,2500); (250,3000)].

Definition t178 : table :=
  [(50,330); (150,800); (300,1500)].

Definition t179 : table :=
  [(50,500); (150,1500); (300,2500)].

Definition t180 : table :=
  [(50,800); (150,2500); (300,4000)].

Definition t181 : table :=
  [(330,(1#2000)); (500,(1#2000)); (800,(1#2000)); (1500,(1#2000)); (2500,(3#2000));
   (4000,(3#1000)); (6000,(11#2000)); (8000,(1#125)); (10000,(11#1000))].

Definition t182 : table :=
  [(50,(9#50000)); (125,(7#25000)); (250,(7#12500)); (400,(1#1000)); (500,(13#10000));
   (800,(9#5000)); (1000,(3#1250)); (1250,(2#625)); (1600,(21#5000)); (2000,(7#1250));
   (2500,(3#400)); (3200,(1#100)); (4000,(1#80)); (5000,(2#125)); (6300,(1#50)); (8000,(1#40));
   (10000,(4#125)); (12500,(1#25))].

Definition t183 : table :=
  [(50,(3#5000)); (125,(3#4000)); (250,(1#800)); (400,(1#500)); (500,(1#400)); (800,(2#625));
   (1000,(1#250)); (1250,(1#200)); (1600,(63#10000)); (2000,(1#125)); (2500,(1#100));
   (3200,(1#80)); (4000,(2#125)); (5000,(1#50)); (6300,(1#40)); (8000,(4#125)); (10000,(1#25));
   (12500,(1#20))].

Definition t184 : table :=
  [(50,(17#20000)); (125,(21#20000)); (250,(9#5000)); (400,(7#2500)); (500,(9#2500));
   (800,(9#2000)); (1000,(7#1250)); (1250,(71#10000)); (1600,(9#1000)); (2000,(11#1000));
   (2500,(7#500)); (3200,(9#500)); (4000,(11#500)); (5000,(7#250)); (6300,(9#250));
   (8000,(9#200)); (10000,(7#125)); (12500,(71#1000))].

Definition t185 : table :=
  [(50,(3#2500)); (125,(3#2000)); (250,(1#400)); (400,(1#250)); (500,(1#200));
   (800,(63#10000)); (1000,(1#125)); (1250,(1#100)); (1600,(1#80)); (2000,(2#125));
   (2500,(1#50)); (3200,(1#40)); (4000,(4#125)); (5000,(1#25)); (6300,(1#20));
   (8000,(63#1000)); (10000,(2#25)); (12500,(1#10))].

Definition t186 : table :=
  [(50,(3#2000)); (125,(19#10000)); (250,(2#625)); (400,(1#200)); (500,(63#10000));
   (800,(1#125)); (1000,(1#100)); (1250,(1#80)); (1600,(2#125)); (2000,(1#50)); (2500,(1#40));
   (3200,(4#125)); (4000,(1#25)); (5000,(1#20)); (6300,(63#1000)); (8000,(2#25));
   (10000,(1#10)); (12500,(1#8))].

Definition t187 : table :=
  [(50,(17#10000)); (125,(21#10000)); (250,(9#2500)); (400,(7#1250)); (500,(71#10000));
   (800,(9#1000)); (1000,(11#1000)); (1250,(7#500)); (1600,(9#500)); (2000,(11#500));
   (2500,(7#250)); (3200,(9#250)); (4000,(9#200)); (5000,(7#125)); (6300,(71#1000));
   (8000,(9#100)); (10000,(11#100)); (12500,(7#50))].

Definition t188 : table :=
  [(50,(19#10000)); (125,(3#1250)); (250,(1#250)); (400,(63#10000)); (500,(1#125));
   (800,(1#100)); (1000,(1#80)); (1250,(2#125)); (1600,(1#50)); (2000,(1#40)); (2500,(4#125));
   (3200,(1#25)); (4000,(1#20)); (5000,(63#1000)); (6300,(2#25)); (8000,(1#10)); (10000,(1#8));
   (12500,(4#25))].

Definition t189 : table :=
  [(50,(19#10000))].

Definition t190 : table :=
  [(10,(1#12500)); (50,(1#6250)); (125,(1#4000)); (250,(21#50000)); (400,(3#4000));
   (500,(1#1000)); (800,(9#5000)); (1000,(3#1250)); (1250,(2#625)); (1600,(21#5000));
   (2000,(7#1250)); (2500,(3#400)); (3200,(1#100)); (4000,(1#80)); (5000,(2#125));
   (6300,(1#50)); (8000,(1#40)); (10000,(4#125)); (12500,(1#25))].

Definition t191 : table :=
  [(10,(1#2500)); (50,(7#12500)); (125,(71#100000)); (250,(1#1000)); (400,(1#625));
   (500,(1#500)); (800,(2#625)); (1000,(1#250)); (1250,(1#200)); (1600,(63#10000));
   (2000,(1#125)); (2500,(1#100)); (3200,(1#80)); (4000,(2#125)); (5000,(1#50)); (6300,(1#40));
   (8000,(4#125)); (10000,(1#25)); (12500,(1#20))].

Definition t192 : table :=
  [(10,(1#2500)); (50,(1#1250)); (125,(1#1000)); (250,(7#5000)); (400,(11#5000));
   (500,(7#2500)); (800,(9#2000)); (1000,(7#1250)); (1250,(71#10000)); (1600,(9#1000));
   (2000,(11#1000)); (2500,(7#500)); (3200,(9#500)); (4000,(11#500)); (5000,(7#250));
   (6300,(9#250)); (8000,(9#200)); (10000,(7#125)); (12500,(71#1000))].

Definition t193 : table :=
  [(10,(1#2500)); (50,(11#10000)); (125,(7#5000)); (250,(1#500)); (400,(2#625)); (500,(1#250));
   (800,(63#10000)); (1000,(1#125)); (1250,(1#100)); (1600,(1#80)); (2000,(2#125));
   (2500,(1#50)); (3200,(1#40)); (4000,(4#125)); (5000,(1#25)); (6300,(1#20));
   (8000,(63#1000)); (10000,(2#25)); (12500,(1#10))].

Definition t194 : table :=
  [(10,(1#1000)); (50,(7#5000)); (125,(9#5000)); (250,(1#400)); (400,(1#250)); (500,(1#200));
   (800,(1#125)); (1000,(1#100)); (1250,(1#80)); (1600,(2#125)); (2000,(1#50)); (2500,(1#40));
   (3200,(4#125)); (4000,(1#25)); (5000,(1#20)); (6300,(63#1000)); (8000,(2#25));
   (10000,(1#10)); (12500,(1#8))].

Definition t195 : table :=
  [(10,(1#1000)); (50,(1#625)); (125,(1#500)); (250,(7#2500)); (400,(9#2000)); (500,(7#1250));
   (800,(9#1000)); (1000,(11#1000)); (1250,(7#500)); (1600,(9#500)); (2000,(11#500));
   (2500,(7#250)); (3200,(9#250)); (4000,(9#200)); (5000,(7#125)); (6300,(71#1000));
   (8000,(9#100)); (10000,(11#100)); (12500,(7#50))].

Definition t196 : table :=
  [(10,(1#1000)); (50,(9#5000)); (125,(11#5000)); (250,(2#625)); (400,(1#200));
   (500,(63#10000)); (800,(1#100)); (1000,(1#80)); (1250,(2#125)); (1600,(1#50));
   (2000,(1#40)); (2500,(4#125)); (3200,(1#25)); (4000,(1#20)); (5000,(63#1000));
   (6300,(2#25)); (8000,(1#10)); (10000,(1#8)); (12500,(4#25))].

Definition t197 : table :=
  [(10,(1#1000)); (50,(9#5000))].

Definition t198 : table :=
  [(50,(1#100000)); (150,(1#10000)); (300,(3#10000))].

Definition t199 : table :=
  [(50,(1#25000)); (150,(3#10000)); (300,(3#5000))].

Definition t200 : table :=
  [(50,(1#10000)); (150,(3#5000)); (300,(3#2500))].

(** IEC_60664-1.json, IEC_60664-4.json, IEC_60664-5.json; the skin depth is left as a parameter. *)
Definition iec60664 (skin : Q -> Q) : tables60664 := mk_60664
  t001
  (fun a => match a with | OVC_I => t002 | OVC_II => t003 | OVC_III => t004 | OVC_IV => t005 end)
  (fun a => match a with | PD1 => t006 | PD2 => t007 | PD3 => t008 end)
  t009
  (fun a b => match a with | PD1 => match b with | GROUP_I => Some t010 | GROUP_II => Some t010 | GROUP_IIIA => Some t010 | GROUP_IIIB => Some t010 end | PD2 => match b with | GROUP_I => Some t011 | GROUP_II => Some t012 | GROUP_IIIA => Some t013 | GROUP_IIIB => Some t013 end | PD3 => match b with | GROUP_I => Some t014 | GROUP_II => Some t015 | GROUP_IIIA => Some t016 | GROUP_IIIB => Some t016 end end)
  t017
  t018
  [(100000,t019); (200000,t020); (400000,t021); (700000,t022); (1000000,t023); (2000000,t024); (3000000,t025)]
  t026
  t027
  (fun a b => match a with | PD1 => match b with | GROUP_I => Some t028 | GROUP_II => Some t028 | GROUP_IIIA => Some t028 | GROUP_IIIB => Some t028 end | PD2 => match b with | GROUP_I => Some t029 | GROUP_II => Some t029 | GROUP_IIIA => Some t029 | GROUP_IIIB => None end | PD3 => match b with | GROUP_I => Some t030 | GROUP_II => Some t031 | GROUP_IIIA => Some t032 | GROUP_IIIB => None end end)
  skin.

(** IEC_62368-1.json. *)
Definition iec62368 : tables62368 := mk_62368
  (fun a b => match a with | Basic => match b with | PD1 => t033 | PD2 => t034 | PD3 => t035 end | Reinforced => match b with | PD1 => t036 | PD2 => t037 | PD3 => t038 end end)
  (fun a => match a with | Basic => t039 | Reinforced => t040 end)
  (fun a => match a with | OVC_I => t041 | OVC_II => t042 | OVC_III => t043 | OVC_IV => t044 end)
  (fun a b => match a with | Basic => match b with | PD1 => t006 | PD2 => t007 | PD3 => t008 end | Reinforced => match b with | PD1 => t045 | PD2 => t046 | PD3 => t047 end end)
  t048
  (fun a b => match a with | PD1 => match b with | GROUP_I => t010 | GROUP_II => t010 | GROUP_IIIA => t010 | GROUP_IIIB => t010 end | PD2 => match b with | GROUP_I => t011 | GROUP_II => t012 | GROUP_IIIA => t013 | GROUP_IIIB => t013 end | PD3 => match b with | GROUP_I => t014 | GROUP_II => t015 | GROUP_IIIA => t016 | GROUP_IIIB => t016 end end)
  [(100000,t049); (200000,t050); (400000,t051)]
  (fun a => match a with | Basic => t052 | Reinforced => t053 end)
  (fun a => match a with | Basic => t054 | Reinforced => t055 end)
  (fun a => match a with | Basic => t056 | Reinforced => t057 end)
  (fun a => match a with | Basic => t058 | Reinforced => t059 end).

(** IEC_61558-1.json and IEC_61558-2-16.json. *)
Definition iec61558 : tables61558 := mk_61558
  (fun a b => match a with | OVC_I => match b with | FUNCTIONAL => t132 | BASIC => t133 | SUPPLEMENTARY => t133 | REINFORCED => t134 | DOUBLE => t134 end | OVC_II => match b with | FUNCTIONAL => t132 | BASIC => t135 | SUPPLEMENTARY => t135 | REINFORCED => t136 | DOUBLE => t136 end | OVC_III => match b with | FUNCTIONAL => t132 | BASIC => t137 | SUPPLEMENTARY => t137 | REINFORCED => t138 | DOUBLE => t138 end | OVC_IV => match b with | FUNCTIONAL => t132 | BASIC => t139 | SUPPLEMENTARY => t139 | REINFORCED => t140 | DOUBLE => t140 end end)
  (fun a b c => match a with | OVC_I => match b with | FUNCTIONAL => match c with | PD1 => [] | PD2 => [] | PD3 => [] end | BASIC => match c with | PD1 => [] | PD2 => t141 | PD3 => t142 end | SUPPLEMENTARY => match c with | PD1 => [] | PD2 => t141 | PD3 => t142 end | REINFORCED => match c with | PD1 => [] | PD2 => t143 | PD3 => t144 end | DOUBLE => match c with | PD1 => [] | PD2 => t143 | PD3 => t144 end end | OVC_II => match b with | FUNCTIONAL => match c with | PD1 => [] | PD2 => [] | PD3 => [] end | BASIC => match c with | PD1 => [] | PD2 => t143 | PD3 => t144 end | SUPPLEMENTARY => match c with | PD1 => [] | PD2 => t143 | PD3 => t144 end | REINFORCED => match c with | PD1 => [] | PD2 => t145 | PD3 => t146 end | DOUBLE => match c with | PD1 => [] | PD2 => t145 | PD3 => t146 end end | OVC_III => match b with | FUNCTIONAL => match c with | PD1 => [] | PD2 => [] | PD3 => [] end | BASIC => match c with | PD1 => [] | PD2 => t145 | PD3 => t146 end | SUPPLEMENTARY => match c with | PD1 => [] | PD2 => t145 | PD3 => t146 end | REINFORCED => match c with | PD1 => [] | PD2 => t147 | PD3 => t148 end | DOUBLE => match c with | PD1 => [] | PD2 => t147 | PD3 => t148 end end | OVC_IV => match b with | FUNCTIONAL => match c with | PD1 => [] | PD2 => [] | PD3 => [] end | BASIC => match c with | PD1 => [] | PD2 => t147 | PD3 => t148 end | SUPPLEMENTARY => match c with | PD1 => [] | PD2 => t147 | PD3 => t148 end | REINFORCED => match c with | PD1 => [] | PD2 => t149 | PD3 => t149 end | DOUBLE => match c with | PD1 => [] | PD2 => t149 | PD3 => t149 end end end)
  (fun a b c => match a with | GROUP_I => match b with | FUNCTIONAL => match c with | PD1 => [] | PD2 => [] | PD3 => [] end | BASIC => match c with | PD1 => t150 | PD2 => t151 | PD3 => t152 end | SUPPLEMENTARY => match c with | PD1 => t150 | PD2 => t151 | PD3 => t152 end | REINFORCED => match c with | PD1 => t153 | PD2 => t154 | PD3 => t155 end | DOUBLE => match c with | PD1 => t153 | PD2 => t154 | PD3 => t155 end end | GROUP_II => match b with | FUNCTIONAL => match c with | PD1 => [] | PD2 => [] | PD3 => [] end | BASIC => match c with | PD1 => t150 | PD2 => t156 | PD3 => t157 end | SUPPLEMENTARY => match c with | PD1 => t150 | PD2 => t156 | PD3 => t157 end | REINFORCED => match c with | PD1 => t153 | PD2 => t158 | PD3 => t159 end | DOUBLE => match c with | PD1 => t153 | PD2 => t158 | PD3 => t159 end end | GROUP_IIIA => match b with | FUNCTIONAL => match c with | PD1 => [] | PD2 => [] | PD3 => [] end | BASIC => match c with | PD1 => t150 | PD2 => t160 | PD3 => t161 end | SUPPLEMENTARY => match c with | PD1 => t150 | PD2 => t160 | PD3 => t161 end | REINFORCED => match c with | PD1 => t153 | PD2 => t162 | PD3 => t163 end | DOUBLE => match c with | PD1 => t153 | PD2 => t162 | PD3 => t163 end end | GROUP_IIIB => match b with | FUNCTIONAL => match c with | PD1 => [] | PD2 => [] | PD3 => [] end | BASIC => match c with | PD1 => t150 | PD2 => t160 | PD3 => t161 end | SUPPLEMENTARY => match c with | PD1 => t150 | PD2 => t160 | PD3 => t161 end | REINFORCED => match c with | PD1 => t164 | PD2 => t165 | PD3 => t166 end | DOUBLE => match c with | PD1 => t164 | PD2 => t165 | PD3 => t166 end end end)
  (fun a => match a with | FUNCTIONAL => [] | BASIC => [] | SUPPLEMENTARY => t167 | REINFORCED => t168 | DOUBLE => t168 end)
  (fun a => match a with | FUNCTIONAL => [] | BASIC => [] | SUPPLEMENTARY => t169 | REINFORCED => t170 | DOUBLE => t170 end)
  (fun a => match a with | Basic => t171 | Reinforced => t172 end)
  (fun a => match a with | Basic => t173 | Reinforced => t174 end)
  (fun a b => match a with | Basic => match b with | PD1 => [(100000,t060); (150000,t061); (200000,t020); (300000,t062); (400000,t021); (500000,t063); (600000,t064); (700000,t022); (800000,t065); (900000,t066); (1000000,t023); (2000000,t024); (3000000,t025)] | PD2 => [(100000,t067); (150000,t068); (200000,t069); (300000,t070); (400000,t071); (500000,t072); (600000,t073); (700000,t074); (800000,t075); (900000,t076); (1000000,t077); (2000000,t078); (3000000,t079)] | PD3 => [(100000,t080); (150000,t081); (200000,t082); (300000,t083); (400000,t084); (500000,t085); (600000,t086); (700000,t087); (800000,t088); (900000,t089); (1000000,t090); (2000000,t091); (3000000,t092)] end | Reinforced => match b with | PD1 => [(100000,t093); (150000,t094); (200000,t095); (300000,t096); (400000,t097); (500000,t098); (600000,t099); (700000,t100); (800000,t101); (900000,t102); (1000000,t103); (2000000,t104); (3000000,t105)] | PD2 => [(100000,t106); (150000,t107); (200000,t108); (300000,t109); (400000,t110); (500000,t111); (600000,t112); (700000,t113); (800000,t114); (900000,t115); (1000000,t116); (2000000,t117); (3000000,t118)] | PD3 => [(100000,t119); (150000,t120); (200000,t121); (300000,t122); (400000,t123); (500000,t124); (600000,t125); (700000,t126); (800000,t127); (900000,t128); (1000000,t129); (2000000,t130); (3000000,t131)] end end).

(** IEC_60335-1.json. *)
Definition iec60335 : tables60335 := mk_60335
  (fun a => match a with | FUNCTIONAL => None | BASIC => Some t175 | SUPPLEMENTARY => Some t176 | REINFORCED => Some t177 | DOUBLE => Some t177 end)
  (fun a => match a with | OVC_I => t178 | OVC_II => t179 | OVC_III => t180 | OVC_IV => [] end)
  t181
  (fun a b => match a with | PD1 => match b with | GROUP_I => t182 | GROUP_II => t182 | GROUP_IIIA => t182 | GROUP_IIIB => t182 end | PD2 => match b with | GROUP_I => t183 | GROUP_II => t184 | GROUP_IIIA => t185 | GROUP_IIIB => t185 end | PD3 => match b with | GROUP_I => t186 | GROUP_II => t187 | GROUP_IIIA => t188 | GROUP_IIIB => t189 end end)
  (fun a b => match a with | PD1 => match b with | GROUP_I => t190 | GROUP_II => t190 | GROUP_IIIA => t190 | GROUP_IIIB => t190 end | PD2 => match b with | GROUP_I => t191 | GROUP_II => t192 | GROUP_IIIA => t193 | GROUP_IIIB => t193 end | PD3 => match b with | GROUP_I => t194 | GROUP_II => t195 | GROUP_IIIA => t196 | GROUP_IIIB => t197 end end)
  (fun a => match a with | OVC_I => t198 | OVC_II => t199 | OVC_III => t200 | OVC_IV => [] end).

(** Insulation.h:488-493: the coordinator with the bundled data. *)
Definition bundled (skin : Q -> Q) : standards_data :=
  mk_data (iec60664 skin) iec62368 iec61558 iec60335.
