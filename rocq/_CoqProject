-Q theories Verif
theories/Outcome.v
theories/Num.v
theories/RX.v
theories/Deque.v
theories/Lemire.v
theories/Distance.v
theories/TimeSeries.v
theories/Text.v
theories/Dataset.v
theories/Groups.v
theories/Api.v
theories/Laws.v
theories/F64Base.v
theories/RXLaws.v
theories/F64Laws.v
theories/Spec.v
theories/DtwProofs.v
theories/DequeProofs.v
theories/LemireProofs.v
theories/KeoghProofs.v
theories/SafeDist.v
theories/Band.v
theories/Numeric.v
theories/Metric.v
theories/Kim.v
theories/TraverseProofs.v
theories/TsProofs.v
theories/GroupSpec.v
theories/GroupProofs.v
theories/GlobalGroup.v
theories/GroupFacts.v
theories/MatchProofs.v
theories/SimProofs.v
theories/Indep.v
theories/SessionProofs.v
theories/SessionMatch.v
theories/RepMatch.v
theories/LoadedMatch.v
theories/SessionIndep.v
theories/RepIndep.v
theories/ApiProofs.v
theories/DataProofs.v
theories/NormProofs.v
theories/FileSpec.v
theories/LoadProofs.v
theories/DecSpec.v
theories/NumSpec.v
theories/GroupFileSpec.v
theories/LoadedSpec.v
theories/DecProofs.v
theories/PrintProofs.v
theories/SaveProofs.v
theories/StreamProofs.v
theories/GroupFileProofs.v
theories/ReloadSpec.v
theories/ReloadProofs.v
theories/DangleProofs.v
theories/CacheSpec.v
theories/AccessSpec.v
theories/CacheProofs.v
theories/ShortSpec.v
theories/ShortProofs.v
theories/Cli.v
theories/CliSpec.v
theories/CliProofs.v
theories/Trillion.v
theories/TrillionSpec.v
theories/TrillionProofs.v
theories/TrillionBounds.v
theories/Search.v
theories/SearchSpec.v
theories/SearchProofs.v
theories/SeriesMem.v
theories/SeriesSpec.v
theories/SeriesProofs.v
theories/SeriesSim.v
theories/DigitsProofs.v
theories/SafeMatch.v
theories/SafeSpec.v
theories/SafeProofs.v
theories/SafeCheck.v
theories/LifeSpec.v
theories/LifeProofs.v
theories/Properties_Groups.v
theories/Properties_Match.v
theories/Properties_Indep.v
theories/Properties_Api.v
theories/Properties_Data.v
theories/Properties_Load.v
theories/Properties_Save.v
theories/Properties_GroupFile.v
theories/Properties_Digits.v
theories/Properties_Loaded.v
theories/Properties_Reload.v
theories/Properties_Dangling.v
theories/Properties_Order.v
theories/Properties_Cache.v
theories/SizeSpec.v
theories/Properties_Size.v
theories/Properties_Access.v
theories/Properties_Series.v
theories/Properties_Short.v
theories/Properties_Cli.v
theories/Properties_Trillion.v
theories/Properties_Search.v
theories/Properties_Distance.v
theories/Properties_Safe.v
theories/Properties_Life.v
theories/SessionMem.v
theories/SessionMemProofs.v
theories/SessionMemSpec.v
theories/SessionMemLink.v
theories/SessionMemReach.v
theories/Properties_SessionMem.v
theories/Console.v
theories/ConsoleSpec.v
theories/ConsoleProofs.v
theories/ConsoleLines.v
theories/ConsoleRead.v
theories/ConsoleLog.v
theories/Properties_Console.v
theories/ApproxProofs.v
theories/Properties_Approx.v
theories/PaaProofs.v
theories/Properties_Paa.v
theories/Ints.v
theories/IntsProofs.v
theories/Properties_Ints.v
theories/IntsMatch.v
theories/IntsLoad.v
theories/IntsSafe.v
theories/Ints2Spec.v
theories/Properties_Ints2.v
theories/Single.v
theories/F32Base.v
theories/F32Laws.v
theories/F32Numeric.v
theories/SingleProofs.v
theories/Properties_Single.v
theories/Properties_Single2.v
theories/Properties_SingleArith.v
theories/Search32.v
theories/Search32Proofs.v
theories/Properties_Search32.v
theories/KimDropout.v
theories/Properties_Kim.v
theories/Properties_Report.v
theories/SafeLemire.v
theories/SafeSearch.v
theories/NanSearch.v
theories/NanFree.v
theories/ConstQuery.v
theories/Properties_AnySearch.v
