-Q theories Verif
theories/GoBase.v
theories/Utf8.v
theories/Utf8Proofs.v
theories/Url.v
theories/UrlSpec.v
theories/UrlProofs.v
theories/P_Url.v
theories/Frame.v
theories/FrameSpec.v
theories/FrameProofs.v
theories/FrameMain.v
theories/P_Frame.v
theories/LinkTypes.v
theories/LinkTree.v
theories/LinkSpec.v
theories/LinkProofs.v
theories/LinkMain.v
theories/LinkHeap.v
theories/LinkHeapSpec.v
theories/LinkHeapProofs.v
theories/LinkAny.v
theories/P_Link.v
theories/GoSlice.v
theories/Utf8Dec.v
theories/Fuzzy.v
theories/FuzzySpec.v
theories/FuzzyDist.v
theories/FuzzyMain.v
theories/FuzzyRank.v
theories/P_Fuzzy.v
theories/Flags.v
theories/FlagsSpec.v
theories/FlagsProofs.v
theories/P_Flags.v
theories/Path.v
theories/FileSys.v
theories/FileUtil.v
theories/FileSpec.v
theories/FileProofs.v
theories/P_File.v
theories/JsonStr.v
theories/Manifest.v
theories/Install.v
theories/InstallSpec.v
theories/InstallProofs.v
theories/P_Install.v
theories/Emacs.v
theories/Backend.v
theories/BackendSpec.v
theories/BackendProofs.v
theories/BackendConc.v
theories/BackendMain.v
theories/BackendNotes.v
theories/BackendWitness.v
theories/P_Backend.v
theories/Regex.v
theories/RegexParse.v
theories/RegexSpec.v
theories/RegexProofs.v
theories/Pieces.v
theories/Patterns.v
theories/RegexLex.v
theories/RegexWords.v
theories/Scanner.v
theories/ScannerSpec.v
theories/ScannerProofs.v
theories/Extract.v
theories/ExtractSpec.v
theories/ExtractTree.v
theories/HeadingProofs.v
theories/SchemeProofs.v
theories/LinkProofs2.v
theories/BracketProofs.v
theories/OrgProofs.v
theories/TextSpec.v
theories/TextProofs.v
theories/ExtractMain.v
theories/ExtractWitness.v
theories/P_Extract.v
theories/SetSpec.v
theories/SetProofs.v
theories/SetCompile.v
theories/SetMain.v
theories/Real.v
theories/RealProofs.v
theories/P_LinkSet.v
theories/JsonSpec.v
theories/Json.v
theories/PiecesExact.v
theories/JsonProofs.v
theories/ReplyJson.v
theories/ReplySpec.v
theories/ReplyProofs.v
theories/ReplyMain.v
theories/ReplyWitness.v
theories/P_Reply.v
theories/Compact.v
theories/CompactProofs.v
theories/Server.v
theories/ServerSpec.v
theories/ServerProofs.v
theories/ServerMain.v
theories/ServerLive.v
theories/ServerWitness.v
theories/P_Server.v
theories/Tools.v
theories/ToolsSpec.v
theories/ToolsProofs.v
theories/P_Tools.v
theories/Stream.v
theories/StreamSpec.v
theories/StreamProofs.v
theories/StreamRfc.v
theories/StreamMain.v
theories/StreamSound.v
theories/StreamBytes.v
theories/StreamMore.v
theories/StreamWitness.v
theories/P_Stream.v
theories/Addon.v
theories/AddonSpec.v
theories/AddonProofs.v
theories/Sample.v
theories/AddonMain.v
theories/AddonWitness.v
theories/P_Addon.v
theories/Unmarshal.v
theories/UnmarshalSpec.v
theories/ParseProofs.v
theories/UnmarshalProofs.v
theories/PacketProofs.v
theories/UnmarshalWitness.v
theories/P_Unmarshal.v
theories/Client.v
theories/ClientSpec.v
theories/ClientProofs.v
theories/ClientMain.v
theories/ResponseProofs.v
theories/P_Client.v
theories/Print.v
theories/PrintSpec.v
theories/PrintProofs.v
theories/CheckProofs.v
theories/PrintMain.v
theories/P_Print.v
theories/CutProofs.v
theories/EndSpec.v
theories/EndProofs.v
theories/EndMain.v
theories/EndDepth.v
theories/EndWitness.v
theories/P_End.v
theories/Output.v
theories/OutputSpec.v
theories/OutputProofs.v
theories/P_Output.v
theories/OptionsSpec.v
theories/OptionsProofs.v
theories/Main.v
theories/MainSpec.v
theories/MainProofs.v
theories/MainSuccess.v
theories/MainWitness.v
theories/P_Main.v
theories/RepeatSpec.v
theories/RepeatProofs.v
theories/P_Repeat.v
theories/Urls.v
theories/UrlsSpec.v
theories/UrlsProofs.v
theories/P_Urls.v
theories/CharsUnique.v
theories/TextFoundSpec.v
theories/TextFound.v
theories/TextFoundMain.v
theories/P_Found.v
theories/OrgFoundSpec.v
theories/OrgFound.v
theories/OrgFoundMain.v
theories/OrgFoundLines.v
theories/OrgFoundWitness.v
theories/P_OrgFound.v
theories/ServerMemorySpec.v
theories/ServerMemory.v
theories/P_ServerMemory.v
theories/SampleClient.v
theories/SampleClientSpec.v
theories/SampleClientProofs.v
theories/P_SampleClient.v
theories/MentionsFound.v
theories/P_Mentions.v
theories/SetFoundSpec.v
theories/SetFound.v
theories/SetFoundMain.v
theories/SetFoundWitness.v
theories/P_SetFound.v
theories/Menu.v
theories/MenuSpec.v
theories/MenuProofs.v
theories/P_Menu.v
theories/SchemeSpec.v
theories/SchemeRepeat.v
theories/MergeSpec.v
theories/MergeProofs.v
theories/P_Merge.v
theories/OrgExactSpec.v
theories/OrgExact.v
theories/OrgExactWitness.v
theories/P_OrgExact.v
theories/SetExactSpec.v
theories/SetExact.v
theories/SetExactWitness.v
theories/P_SetExact.v
theories/TextExactSpec.v
theories/TextExact.v
theories/TextExactWitness.v
theories/P_TextExact.v
theories/BadRequest.v
theories/P_BadRequest.v
theories/WrapperLong.v
theories/P_Wrapper.v
theories/Stdin.v
theories/StdinProofs.v
theories/P_Stdin.v
theories/BadStart.v
theories/P_BadStart.v
theories/Viable.v
theories/ViableMore.v
theories/P_Viable.v
theories/NullMessage.v
theories/ArrayMessage.v
theories/P_NullMessage.v
theories/NullAnswer.v
theories/P_NullAnswer.v
